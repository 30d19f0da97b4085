(** The broker after any history of requests, in terms of the history. *)
From Verif Require Import LibBase LibMap PubSubModel PubSubSpec PubSubTree.

(** * Splitting and joining topic names *)
Lemma split_nonnil : forall s, split s <> [].
Proof. induction s as [|b s IH]; cbn; [discriminate|]. destruct (b =? slash); [discriminate|]. destruct (split s); discriminate. Qed.
Lemma split_noslash : forall s w, In w (split s) -> ~ In slash w.
Proof.
  induction s as [|b s IH]; cbn; intros w H; [destruct H as [<-|[]]; auto|]. destruct (b =? slash) eqn:E.
  - destruct H as [<-|H]; auto.
  - pose proof (split_nonnil s). destruct (split s) as [|v vs]; [congruence|]. destruct H as [<-|H]; [|apply IH; right; auto].
    intros [->|H2]; [rewrite N.eqb_refl in E; discriminate|]. apply (IH v); auto. left; auto.
Qed.
Definition joinr (ws : list level) : bytes := concat (map (cons slash) ws).
Lemma split_join : forall s, match split s with [] => False | w :: ws => w ++ joinr ws = s end.
Proof.
  induction s as [|b s IH]; cbn; auto. destruct (b =? slash) eqn:E.
  - apply N.eqb_eq in E. subst b. destruct (split s) as [|w ws]; [destruct IH|]. cbn. unfold joinr in IH. rewrite IH. auto.
  - destruct (split s) as [|w ws]; [destruct IH|]. cbn. rewrite IH. auto.
Qed.
Lemma split_inj : forall a b, split a = split b -> a = b.
Proof.
  intros a b E. pose proof (split_join a) as A. pose proof (split_join b) as B. rewrite E in A. destruct (split b) as [|w ws]; [destruct B|]. congruence.
Qed.
Lemma join1_nonnil : forall ws p, p <> [] -> fold_left join1 ws p = p ++ joinr ws.
Proof.
  induction ws as [|w ws IH]; intros p H; cbn; [rewrite app_nil_r; auto|]. rewrite IH.
  - destruct p; [congruence|]. cbn. rewrite <- app_assoc. cbn. auto.
  - destruct p; [congruence|]. discriminate.
Qed.
Lemma path_shown : forall t, fold_left join1 (split t) [] = shown_as t.
Proof.
  induction t as [|b t IH]; [reflexivity|]. cbn [split shown_as]. destruct (b =? slash) eqn:E; [exact IH|].
  pose proof (split_join t) as J. destruct (split t) as [|w ws]; [destruct J|]. cbn [fold_left]. unfold join1 at 2. rewrite join1_nonnil by discriminate. cbn. rewrite J. auto.
Qed.
Lemma strip_shown : forall t, strip1 (shown_as t) = shown_as t.
Proof. induction t as [|b t IH]; auto. cbn. destruct (b =? slash) eqn:E; auto. cbn. rewrite E. auto. Qed.

(** * Histories *)
Lemma snoc_mid : forall A (h : list A) o h1 x h2, h ++ [o] = h1 ++ x :: h2 ->
  (h2 = [] /\ o = x /\ h = h1) \/ exists h3, h2 = h3 ++ [o] /\ h = h1 ++ x :: h3.
Proof.
  intros A h o h1 x h2 E. destruct h2 as [|y h2'] using rev_ind.
  - apply app_inj_tail in E. destruct E; subst; auto.
  - right. exists h2'. change (h1 ++ x :: h2' ++ [y]) with (h1 ++ (x :: h2') ++ [y]) in E. rewrite app_assoc in E. apply app_inj_tail in E. destruct E; subst; auto.
Qed.
Lemma notin_snoc : forall A (x o : A) h, ~ In x (h ++ [o]) <-> ~ In x h /\ o <> x.
Proof. intros. rewrite in_app_iff. cbn. intuition. Qed.

Definition conn_step (c : N) (v : Prop) (o : pop) : Prop :=
  match o with PConnect c' => c' = c \/ v | PDisconnect c' => v /\ c' <> c | PClose c' => v /\ c' <> c | _ => v end.
Lemma connected_snoc : forall c h o, connected c (h ++ [o]) <-> conn_step c (connected c h) o.
Proof.
  intros c h o. split.
  - intros [h1 [h2 [E [H1 H2]]]]. apply snoc_mid in E. destruct E as [[-> [-> ->]]|[h3 [-> ->]]]; [cbn; auto|].
    rewrite notin_snoc in H1, H2. assert (C : connected c (h1 ++ PConnect c :: h3)) by (exists h1, h3; intuition).
    destruct o; cbn; auto; split; auto; intros ->; intuition.
  - assert (K : connected c h -> o <> PDisconnect c -> o <> PClose c -> connected c (h ++ [o])).
    { intros [h1 [h2 [-> [H1 H2]]]] N1 N2. exists h1, (h2 ++ [o]). rewrite <- app_assoc. rewrite !notin_snoc. auto. }
    destruct o; cbn; intro H; try (apply K; auto; discriminate).
    + destruct H as [->|H]; [exists h, []; cbn; auto|apply K; auto; discriminate].
    + destruct H as [H N1]. apply K; auto; [congruence|discriminate].
    + destruct H as [H N1]. apply K; auto; [discriminate|congruence].
Qed.
Lemma connected_nil : forall c, ~ connected c [].
Proof. intros c [h1 [h2 [E _]]]. destruct h1; discriminate. Qed.
Lemma connected_connects : forall c h, connected c h -> In c (connects h).
Proof. intros c h [h1 [h2 [-> _]]]. unfold connects. rewrite flat_map_app, in_app_iff. right. left; auto. Qed.

Definition hold_step (c : N) (q : list level) (h : list pop) (o : pop) : Prop :=
  match o with
  | PSub c' p _ => (c' = c /\ reads p = q /\ connected c h) \/ holds c q h
  | PUnsub c' p => holds c q h /\ ~ (c' = c /\ reads p = q)
  | PDisconnect c' => holds c q h /\ c' <> c
  | PClose c' => holds c q h /\ c' <> c
  | _ => holds c q h
  end.
Lemma holds_snoc : forall c q h o, holds c q (h ++ [o]) <-> hold_step c q h o.
Proof.
  intros c q h o. split.
  - intros [h1 [p [now [h2 [E [Hp [Hc [H1 [H2 H3]]]]]]]]]. apply snoc_mid in E. destruct E as [[-> [-> ->]]|[h3 [-> ->]]]; [cbn; auto|].
    rewrite notin_snoc in H1, H2.
    assert (C : holds c q (h1 ++ PSub c p now :: h3)) by (exists h1, p, now, h3; intuition; eapply H3; eauto; apply in_app_iff; auto).
    destruct o; cbn; auto; try (split; auto; intros ->; intuition).
    split; auto. intros [-> E]. apply (H3 pat); auto. apply in_app_iff. cbn. auto.
  - assert (K : holds c q h -> o <> PDisconnect c -> o <> PClose c -> (forall p, o = PUnsub c p -> reads p <> q) -> holds c q (h ++ [o])).
    { intros [h1 [p [now [h2 [-> [Hp [Hc [H1 [H2 H3]]]]]]]]] N1 N2 N3. exists h1, p, now, (h2 ++ [o]). rewrite <- app_assoc. rewrite !notin_snoc. repeat (split; auto).
      intros p' H. apply in_app_iff in H. destruct H as [H|[H|[]]]; auto. }
    destruct o; cbn; intro H; try (apply K; auto; discriminate).
    + destruct H as [H N1]. apply K; auto; try discriminate. congruence.
    + destruct H as [H N1]. apply K; auto; try discriminate. congruence.
    + destruct H as [[-> [E H]]|H]; [|apply K; auto; discriminate]. exists h, pat, now, []. cbn. intuition.
    + destruct H as [H N1]. apply K; auto; try discriminate. intros p E E2. injection E as -> ->. auto.
Qed.
Lemma holds_connected : forall c q h, holds c q h -> connected c h.
Proof.
  intros c q h [h1 [p [now [h2 [-> [Hp [Hc [H1 [H2 _]]]]]]]]]. destruct Hc as [a [b [-> [A B]]]]. exists a, (b ++ PSub c p now :: h2).
  rewrite <- app_assoc. split; auto. rewrite !in_app_iff. cbn. intuition discriminate.
Qed.
Lemma holds_nil : forall c q, ~ holds c q [].
Proof. intros c q H. apply holds_connected in H. apply connected_nil in H. auto. Qed.

(** * Registry *)
Lemma cget_aset : forall c d i m, cget c (aset N.eqb d i m) = if c =? d then Some i else cget c m.
Proof.
  intros. unfold cget. destruct (c =? d) eqn:E.
  - apply N.eqb_eq in E; subst. apply (aget_aset_same N.eqb N_eqb_eq).
  - apply N.eqb_neq in E. apply (aget_aset_other N.eqb N_eqb_eq); auto.
Qed.
Lemma cget_adel : forall c d m, cget c (adel N.eqb d m) = if c =? d then None else cget c m.
Proof.
  intros. unfold cget. destruct (c =? d) eqn:E.
  - apply N.eqb_eq in E; subst. apply (aget_adel_same N.eqb).
  - apply N.eqb_neq in E. apply (aget_adel_other N.eqb N_eqb_eq); auto.
Qed.
Lemma bins_In : forall x y l, In x (bins y l) <-> x = y \/ In x l.
Proof.
  intros x y l. unfold bins. destruct (existsb (beqb y) l) eqn:E.
  - apply existsb_exists in E. destruct E as [z [H1 H2]]. apply beqb_eq in H2. subst z. intuition congruence.
  - rewrite in_app_iff. cbn. intuition.
Qed.
Lemma brem_In : forall x y l, In x (brem y l) <-> In x l /\ x <> y.
Proof. intros x y l. unfold brem. rewrite filter_In, negb_true_iff. rewrite beqb_neq. tauto. Qed.

Lemma unsub_all_subs : forall c pats t q d, In d (subs_at q (unsub_all c pats t)) <-> In d (subs_at q t) /\ ~ (d = c /\ exists p, In p pats /\ reads p = trunc q).
Proof.
  intros c pats. unfold unsub_all. induction pats as [|p pats IH]; intros t q d; cbn [fold_left].
  - split; [|tauto]. intro H; split; auto. intros [_ [p [[] _]]].
  - rewrite IH. fold (rem (split p) c t). rewrite subs_at_rem. unfold reads. cbn. firstorder congruence.
Qed.
Lemma unsub_all_ret : forall c pats t q, ret_at q (unsub_all c pats t) = ret_at q t.
Proof. intros c pats. unfold unsub_all. induction pats as [|p pats IH]; intros t q; cbn [fold_left]; auto. rewrite IH. fold (rem (split p) c t). apply ret_at_rem. Qed.
Lemma unsub_all_wf : forall c pats t, wf t -> wf (unsub_all c pats t).
Proof. intros c pats. unfold unsub_all. induction pats as [|p pats IH]; intros t W; cbn [fold_left]; auto. apply IH. apply wf_rem. auto. Qed.

Section Sys.
  Variables (ticks inst_max default_ttl : N).
  Notation kept := (kept ticks inst_max default_ttl).
  Notation prun := (prun ticks inst_max default_ttl).
  Notation pstep1 := (pstep1 ticks inst_max default_ttl).
  Notation publish := (publish ticks inst_max default_ttl).
  Notation retain_step := (retain_step ticks inst_max default_ttl).

  Record Inv (h : list pop) (s : pubsub) : Prop := {
    I_wf : wf (ps_tree s);
    I_conn : forall c, (exists i, cget c (ps_cl s) = Some i /\ ci_open i = true) <-> connected c h;
    I_known : forall c i, cget c (ps_cl s) = Some i -> In c (connects h);
    I_reg : forall c p, In c (subs_at p (ps_tree s)) -> exists i, cget c (ps_cl s) = Some i /\ exists pat, In pat (ci_subs i) /\ reads pat = trunc p;
    I_subs : forall c p, connected c h -> (In c (subs_at p (ps_tree s)) <-> holds c (trunc p) h);
    I_ret : forall t, ret_at (split t) (ps_tree s) = kept t h;
    I_ret2 : forall ls v, ret_at ls (ps_tree s) = Some v -> exists t, ls = split t }.

  Lemma inv0 : Inv [] ps0.
  Proof.
    constructor.
    - apply wf_node0.
    - intro c. split; [intros [i [H _]]; discriminate|intro H; destruct (connected_nil c H)].
    - intros c i H. discriminate.
    - intros c p H. cbn in H. rewrite subs_at_node0 in H. destruct H.
    - intros c p H. destruct (connected_nil c H).
    - intro t. cbn. rewrite ret_at_node0. auto.
    - intros ls v H. cbn in H. rewrite ret_at_node0 in H. discriminate.
  Qed.

  (** removing a client that is not (or no longer) connected changes nothing for the others *)
  Lemma disc_subs : forall h s c p d, Inv h s -> In d (subs_at p (ps_tree (disconnect c s))) <-> In d (subs_at p (ps_tree s)) /\ d <> c.
  Proof.
    intros h s c p d I. unfold disconnect. destruct (cget c (ps_cl s)) as [i|] eqn:E; cbn [ps_tree].
    - rewrite unsub_all_subs. split; [|intuition]. intros [H1 H2]. split; auto. intros ->. apply H2. split; auto.
      destruct (I_reg _ _ I c p H1) as [i' [E' H]]. rewrite E in E'. injection E' as <-. auto.
    - split; [|tauto]. intro H. split; auto. intros ->. destruct (I_reg _ _ I c p H) as [i' [E' _]]. congruence.
  Qed.
  Lemma disc_cl : forall s c d, cget d (ps_cl (disconnect c s)) = if d =? c then None else cget d (ps_cl s).
  Proof.
    intros s c d. unfold disconnect. destruct (cget c (ps_cl s)) as [i|] eqn:E; cbn [ps_cl]; [apply cget_adel|]. destruct (d =? c) eqn:E2; auto. apply N.eqb_eq in E2. congruence.
  Qed.
  Lemma disc_ret : forall s c t, ret_at t (ps_tree (disconnect c s)) = ret_at t (ps_tree s).
  Proof. intros s c t. unfold disconnect. destruct (cget c (ps_cl s)); auto. apply unsub_all_ret. Qed.
  Lemma disc_wf : forall s c, wf (ps_tree s) -> wf (ps_tree (disconnect c s)).
  Proof. intros s c W. unfold disconnect. destruct (cget c (ps_cl s)); auto. apply unsub_all_wf; auto. Qed.

  Lemma kept_snoc : forall t h o, kept t (h ++ [o]) = kept_step ticks inst_max default_ttl t (kept t h) o.
  Proof. intros. unfold PubSubSpec.kept. rewrite fold_left_app. reflexivity. Qed.
  Lemma connects_snoc : forall h o, connects (h ++ [o]) = connects h ++ match o with PConnect c => [c] | _ => [] end.
  Proof. intros. unfold connects. rewrite flat_map_app. cbn. rewrite app_nil_r. auto. Qed.

  Lemma inv_disconnect : forall h s c o, Inv h s -> o = PDisconnect c -> Inv (h ++ [o]) (disconnect c s).
  Proof.
    intros h s c o I ->. constructor.
    - apply disc_wf. apply I.
    - intro d. rewrite connected_snoc. cbn. rewrite <- (I_conn _ _ I d), disc_cl. destruct (d =? c) eqn:E.
      + apply N.eqb_eq in E. split; [intros [i [H _]]; discriminate|]. intros [_ H]. congruence.
      + apply N.eqb_neq in E. intuition.
    - intros d i. rewrite disc_cl, connects_snoc, app_nil_r. destruct (d =? c); [discriminate|]. apply I.
    - intros d p H. apply (disc_subs _ _ _ _ _ I) in H. destruct H as [H N1]. rewrite disc_cl. apply N.eqb_neq in N1. rewrite N1. apply I; auto.
    - intros d p H. rewrite connected_snoc in H. destruct H as [H N1]. rewrite (disc_subs _ _ _ _ _ I), holds_snoc. cbn. rewrite (I_subs _ _ I d p H). intuition.
    - intro t. rewrite disc_ret, kept_snoc. apply I.
    - intros ls v. rewrite disc_ret. apply I.
  Qed.
  (** publish drops a client whose connection is already gone *)
  Lemma inv_zombie : forall h s c, Inv h s -> ~ connected c h -> Inv h (disconnect c s).
  Proof.
    intros h s c I NC. constructor.
    - apply disc_wf. apply I.
    - intro d. rewrite disc_cl. destruct (d =? c) eqn:E.
      + apply N.eqb_eq in E. subst. split; [intros [i [H _]]; discriminate|]. tauto.
      + apply I.
    - intros d i. rewrite disc_cl. destruct (d =? c); [discriminate|]. apply I.
    - intros d p H. apply (disc_subs _ _ _ _ _ I) in H. destruct H as [H N1]. rewrite disc_cl. apply N.eqb_neq in N1. rewrite N1. apply I; auto.
    - intros d p H. rewrite (disc_subs _ _ _ _ _ I), (I_subs _ _ I d p H). split; [tauto|]. intro H2; split; auto. intros ->. auto.
    - intro t. rewrite disc_ret. apply I.
    - intros ls v. rewrite disc_ret. apply I.
  Qed.
  Lemma inv_zombies : forall h zs s, Inv h s -> (forall c, In c zs -> ~ connected c h) -> Inv h (fold_left (fun s c => disconnect c s) zs s).
  Proof.
    intros h. induction zs as [|c zs IH]; intros s I H; cbn [fold_left]; auto. apply IH; [|intros; apply H; right; auto]. apply inv_zombie; auto. apply H. left; auto.
  Qed.

  (** a step that changes neither clients nor subscriptions *)
  Lemma inv_ret : forall h s s' o, Inv h s -> ps_cl s' = ps_cl s -> wf (ps_tree s') -> (forall q, subs_at q (ps_tree s') = subs_at q (ps_tree s)) ->
    (forall c P, conn_step c P o <-> P) -> (forall c q, hold_step c q h o <-> holds c q h) -> connects (h ++ [o]) = connects h ->
    (forall t, ret_at (split t) (ps_tree s') = kept t (h ++ [o])) -> (forall ls v, ret_at ls (ps_tree s') = Some v -> exists t, ls = split t) -> Inv (h ++ [o]) s'.
  Proof.
    intros h s s' o I Ec W Es Hc Hh Hk H1 H2. constructor; auto.
    - intro c. rewrite Ec, connected_snoc, Hc. apply I.
    - intros c i. rewrite Ec, Hk. apply I.
    - intros c p. rewrite Ec, Es. apply I.
    - intros c p. rewrite connected_snoc, Hc, Es, holds_snoc, Hh. apply I.
  Qed.

  Lemma leqb_split : forall a b, leqb (split a) (split b) = beqb a b.
  Proof.
    intros a b. destruct (beqb a b) eqn:E.
    - apply beqb_eq in E; subst. apply leqb_eq. auto.
    - destruct (leqb (split a) (split b)) eqn:E2; auto. apply leqb_eq in E2. apply split_inj in E2. apply beqb_neq in E. contradiction.
  Qed.
  Lemma beqb_sym : forall a b, beqb a b = beqb b a.
  Proof. intros. destruct (beqb a b) eqn:E. - apply beqb_eq in E; subst. symmetry. apply beqb_refl. - symmetry. apply beqb_neq. apply beqb_neq in E. congruence. Qed.

  Lemma retain_inv : forall h s now topic data rt ttl s1, Inv h s -> retain_step now topic data rt ttl s = Some s1 -> Inv (h ++ [PPub topic data rt ttl now]) s1.
  Proof.
    intros h s now topic data rt ttl s1 I E. unfold PubSubModel.retain_step in E. destruct rt.
    - assert (K : exists v, s1 = mkPs (set_ret (split topic) v (ps_tree s)) (ps_cl s) true /\
        forall t, kept_step ticks inst_max default_ttl t (kept t h) (PPub topic data true ttl now) = if beqb t topic then v else kept t h).
      { cbn [kept_step]. unfold eff_ttl. destruct data as [|b data]; [exists None; injection E as <-; auto|].
        destruct (ret_new ticks inst_max now (b :: data) (match ttl with Some t => t | None => default_ttl end)); [|discriminate]. injection E as <-. eauto. }
      destruct K as [v [-> K]]. apply inv_ret with (s := s); auto; try (cbn; tauto).
      + cbn. apply wf_set. apply I.
      + intro q. cbn. apply subs_at_set.
      + rewrite connects_snoc. apply app_nil_r.
      + intro t. cbn [ps_tree]. rewrite ret_at_set, leqb_split, kept_snoc, K, (beqb_sym topic t), (I_ret _ _ I). auto.
      + intros ls r. cbn [ps_tree]. rewrite ret_at_set. destruct (leqb (split topic) ls) eqn:E2; [|apply I]. apply leqb_eq in E2. eauto.
    - injection E as <-. apply inv_ret with (s := s); auto; try (cbn; tauto); try apply I.
      + rewrite connects_snoc. apply app_nil_r.
      + intro t. rewrite kept_snoc. cbn. apply I.
  Qed.
  Lemma retain_none : forall h s now topic data rt ttl, Inv h s -> retain_step now topic data rt ttl s = None -> Inv (h ++ [PPub topic data rt ttl now]) s.
  Proof.
    intros h s now topic data rt ttl I E. apply inv_ret with (s := s); auto; try (cbn; tauto); try apply I.
    - rewrite connects_snoc. apply app_nil_r.
    - intro t. rewrite kept_snoc, (I_ret _ _ I). unfold PubSubModel.retain_step in E. cbn. destruct rt; [|discriminate]. destruct data as [|b data]; [discriminate|].
      unfold eff_ttl. destruct (ret_new ticks inst_max now (b :: data) (match ttl with Some t => t | None => default_ttl end)); [discriminate|]. destruct (beqb t topic); auto.
  Qed.

  Lemma reach_conn : forall h s c, Inv h s -> reachable_client (ps_cl s) c = true <-> connected c h.
  Proof.
    intros h s c I. rewrite <- (I_conn _ _ I c). unfold reachable_client. destruct (cget c (ps_cl s)) as [i|].
    - split; [eauto|]. intros [i' [E H]]. injection E as <-. auto.
    - split; [discriminate|]. intros [i' [E H]]. discriminate.
  Qed.

  Lemma dedup_In : forall l seen x, In x (dedup seen l) <-> In x l /\ ~ In x seen.
  Proof.
    induction l as [|y l IH]; intros seen x; cbn; [tauto|]. destruct (nmem y seen) eqn:E.
    - apply nmem_In in E. rewrite IH. split; intros [H1 H2]; split; auto. destruct H1 as [->|H1]; auto. contradiction.
    - apply nmem_false in E. cbn. rewrite IH. cbn. split.
      + intros [->|[H1 H2]]; auto.
      + intros [[->|H1] H2]; auto. destruct (N.eq_dec y x); auto. right; split; auto. intros [H|H]; auto.
  Qed.
  Lemma dedup_NoDup : forall l seen, NoDup (dedup seen l).
  Proof.
    induction l as [|y l IH]; intros seen; cbn; [constructor|]. destruct (nmem y seen) eqn:E; auto. constructor; auto. rewrite dedup_In. cbn. tauto.
  Qed.

  (** who a publish reaches *)
  Lemma publish_inv : forall h s now topic data rt ttl, Inv h s -> Inv (h ++ [PPub topic data rt ttl now]) (fst (publish now topic data rt ttl s)).
  Proof.
    intros h s now topic data rt ttl I. unfold PubSubModel.publish. destruct (retain_step now topic data rt ttl s) as [s1|] eqn:E.
    - pose proof (retain_inv _ _ _ _ _ _ _ _ I E) as I1. cbn [fst]. apply inv_zombies; auto. intros c H. apply filter_In in H. destruct H as [_ H].
      apply negb_true_iff in H. intro C. apply (reach_conn _ _ _ I1) in C. congruence.
    - cbn [fst]. apply retain_none; auto.
  Qed.
  Lemma publish_out : forall h s now topic data rt ttl l, Inv h s -> snd (publish now topic data rt ttl s) = Some l ->
    exists cs, l = map (fun c => (c, (topic, data))) cs /\ NoDup cs /\ forall c, In c cs <-> exists q, holds c q h /\ mqtt q (split topic).
  Proof.
    intros h s now topic data rt ttl l I E. unfold PubSubModel.publish in E. destruct (retain_step now topic data rt ttl s) as [s1|] eqn:E1; [|discriminate].
    pose proof (retain_inv _ _ _ _ _ _ _ _ I E1) as I1. cbn [snd] in E. injection E as <-. eexists. split; [reflexivity|]. split.
    - apply NoDup_filter'. apply dedup_NoDup.
    - intro c. rewrite filter_In, dedup_In, (match_in _ _ _ (I_wf _ _ I1)), (reach_conn _ _ _ I1). cbn [In].
      assert (C : connected c (h ++ [PPub topic data rt ttl now]) <-> connected c h) by (rewrite connected_snoc; cbn; tauto).
      assert (Hh : forall q, holds c q (h ++ [PPub topic data rt ttl now]) <-> holds c q h) by (intro q; rewrite holds_snoc; cbn; tauto).
      split.
      + intros [[[p [H1 H2]] _] H3]. exists (trunc p). split; auto. apply Hh. apply (I_subs _ _ I1); auto.
      + intros [q [H1 H2]]. assert (Hc : connected c h) by (eapply holds_connected; eauto).
        assert (T : exists p, q = trunc p) by (destruct H1 as [? [p [? [? [_ [E _]]]]]]; exists (split p); symmetry; exact E). destruct T as [p ->].
        split; [split; [|tauto]|apply C; auto]. exists p. split; auto. apply (I_subs _ _ I1); [apply C; auto|]. apply Hh. auto.
  Qed.
  (** whether a publish fails depends on the expiry computation only *)
  Lemma publish_panic : forall now topic data rt ttl s, snd (publish now topic data rt ttl s) = None <->
    rt = true /\ data <> [] /\ inst_max < now + eff_ttl default_ttl ttl * ticks.
  Proof.
    intros. unfold PubSubModel.publish, PubSubModel.retain_step, ret_new. fold (eff_ttl default_ttl ttl).
    destruct rt; [|cbn; intuition discriminate]. destruct data as [|b data]; [cbn; intuition congruence|].
    destruct (now + eff_ttl default_ttl ttl * ticks <=? inst_max) eqn:E; cbn.
    - split; [discriminate|]. lia.
    - split; auto. intros _. split; auto. split; [discriminate|lia].
  Qed.

  Lemma sub_inv : forall h s now c pat, Inv h s -> Inv (h ++ [PSub c pat now]) (fst (subscribe now c pat s)).
  Proof.
    intros h s now c pat I. unfold subscribe. destruct (cget c (ps_cl s)) as [i|] eqn:E; cbn [fst].
    - constructor; cbn [ps_tree ps_cl].
      + apply wf_insert. apply I.
      + intro d. rewrite connected_snoc. cbn. rewrite cget_aset. destruct (d =? c) eqn:E2; [|apply I]. apply N.eqb_eq in E2; subst d.
        rewrite <- (I_conn _ _ I c), E. split; intros [j [H1 H2]]; injection H1 as <-; eauto.
      + intros d j. rewrite cget_aset, connects_snoc, app_nil_r. destruct (d =? c) eqn:E2; [|apply I]. apply N.eqb_eq in E2; subst d. intros _. eapply I; eauto.
      + intros d p H. rewrite cget_aset. apply subs_at_insert in H. destruct (d =? c) eqn:E2.
        * apply N.eqb_eq in E2; subst d. eexists. split; [reflexivity|]. cbn [ci_subs]. destruct H as [H|[_ H]].
          -- destruct (I_reg _ _ I c p H) as [j [E3 [q [Hq1 Hq2]]]]. rewrite E in E3. injection E3 as <-. exists q. rewrite bins_In. auto.
          -- exists pat. rewrite bins_In. auto.
        * apply N.eqb_neq in E2. destruct H as [H|[H _]]; [|congruence]. apply I; auto.
      + intros d p H. rewrite connected_snoc in H. cbn in H. rewrite subs_at_insert, holds_snoc. cbn. rewrite (I_subs _ _ I d p H). unfold reads. split.
        * intros [H1|[-> H1]]; auto.
        * intros [[-> [H1 _]]|H1]; auto.
      + intro t. rewrite ret_at_insert, kept_snoc. apply I.
      + intros ls v. rewrite ret_at_insert. apply I.
    - constructor; try apply I.
      + intro d. rewrite connected_snoc. cbn. apply I.
      + intros d j. rewrite connects_snoc, app_nil_r. apply I.
      + intros d p H. rewrite connected_snoc in H. cbn in H. rewrite holds_snoc. cbn. rewrite (I_subs _ _ I d p H). split; auto.
        intros [[-> _]|H1]; auto. apply (I_conn _ _ I) in H. destruct H as [j [H _]]. congruence.
      + intro t. rewrite kept_snoc. apply I.
  Qed.
  (** what a new subscription is shown *)
  Lemma sub_out : forall h s now c pat, Inv h s -> connected c h ->
    exists l, NoDup (map fst l) /\ snd (subscribe now c pat s) = map (fun x => (c, (shown_as (fst x), rt_data (snd x)))) l /\
      forall t v, In (t, v) l <-> kept t h = Some v /\ is_expired now v = false /\ mqtt (reads pat) (split t).
  Proof.
    intros h s now c pat I C. apply (I_conn _ _ I) in C. destruct C as [i [E Ho]]. unfold subscribe. rewrite E. cbn [snd]. rewrite Ho. unfold retained_pushes.
    rewrite collect_pat_eq. set (T := insert_sub (split pat) c (ps_tree s)).
    assert (W : wf T) by (apply wf_insert; apply I).
    assert (R : forall ls, ret_at ls T = ret_at ls (ps_tree s)) by (intro; apply ret_at_insert).
    assert (Hp : forall ls v, In (ls, v) (pick now (split pat) T) <-> (ret_at ls (ps_tree s) = Some v /\ is_expired now v = false) /\ mqtt (reads pat) ls).
    { intros ls v. rewrite (pick_in _ _ _ W). unfold alive, reads. rewrite R. tauto. }
    assert (Hn := pick_NoDup now (split pat) T W). revert Hp Hn. generalize (pick now (split pat) T) as pk. intros pk Hp Hn.
    assert (G : forall pk, (forall x, In x pk -> exists t, fst x = split t) -> NoDup (map fst pk) ->
      exists l, pk = map (fun x => (split (fst x), snd x)) l /\ NoDup (map fst (l : list (bytes * retained)))).
    { clear. induction pk as [|[ls v] pk IH]; intros H1 H2; [exists []; split; auto; constructor|]. cbn in H2. inv H2.
      destruct IH as [l [E1 E2]]; auto; [intros; apply H1; right; auto|]. destruct (H1 (ls, v)) as [t Et]; [left; auto|]. cbn in Et. subst ls.
      exists ((t, v) :: l). cbn. split; [congruence|]. constructor; auto. intro Hi. apply H3. rewrite E1, map_map. cbn. apply in_map_iff in Hi. destruct Hi as [x [Ex Hx]].
      apply in_map_iff. exists x. subst t. auto. }
    destruct (G pk) as [l [E1 E2]]; auto.
    { intros [ls v] H. apply Hp in H. destruct H as [[H _] _]. apply (I_ret2 _ _ I) in H. auto. }
    exists l. split; auto. split.
    - rewrite E1, !map_map. apply map_ext. intros [t v]. unfold named. cbn [fst snd]. rewrite path_shown, strip_shown. auto.
    - intros t v. rewrite <- (I_ret _ _ I t). transitivity (In (split t, v) pk).
      + rewrite E1, in_map_iff. split; [intro H; exists (t, v); auto|]. intros [[t' v'] [E3 H]]. cbn in E3. injection E3 as E3 <-. apply split_inj in E3. subst t'. auto.
      + rewrite Hp. tauto.
  Qed.

  Lemma unsub_inv : forall h s c pat, Inv h s -> Inv (h ++ [PUnsub c pat]) (unsubscribe c pat s).
  Proof.
    intros h s c pat I. unfold unsubscribe. constructor; cbn [ps_tree ps_cl]; try (fold (rem (split pat) c (ps_tree s))).
    - apply wf_rem. apply I.
    - intro d. rewrite connected_snoc. cbn. rewrite <- (I_conn _ _ I d). destruct (cget c (ps_cl s)) as [i|] eqn:E; [|tauto].
      rewrite cget_aset. destruct (d =? c) eqn:E2; [|tauto]. apply N.eqb_eq in E2; subst d. rewrite E. split; intros [j [H1 H2]]; injection H1 as <-; eauto.
    - intros d j. rewrite connects_snoc, app_nil_r. destruct (cget c (ps_cl s)) as [i|] eqn:E; [|apply I].
      rewrite cget_aset. destruct (d =? c) eqn:E2; [|apply I]. apply N.eqb_eq in E2; subst d. intros _. eapply I; eauto.
    - intros d p H. fold (rem (split pat) c (ps_tree s)) in H. apply subs_at_rem in H. destruct H as [H1 H2]. destruct (I_reg _ _ I d p H1) as [i [E [q [Hq1 Hq2]]]].
      destruct (cget c (ps_cl s)) as [i'|] eqn:E'; [|eauto]. rewrite cget_aset. destruct (d =? c) eqn:E2; [|eauto]. apply N.eqb_eq in E2; subst d.
      rewrite E in E'. injection E' as <-. eexists. split; [reflexivity|]. cbn [ci_subs]. exists q. rewrite brem_In. split; auto. split; auto. intros ->. apply H2. auto.
    - intros d p H. fold (rem (split pat) c (ps_tree s)). rewrite connected_snoc in H. cbn in H. rewrite subs_at_rem, holds_snoc. cbn. rewrite (I_subs _ _ I d p H). unfold reads. intuition.
    - intro t. fold (rem (split pat) c (ps_tree s)). rewrite ret_at_rem, kept_snoc. apply I.
    - intros ls v. fold (rem (split pat) c (ps_tree s)). rewrite ret_at_rem. apply I.
  Qed.
  Lemma connect_inv : forall h s c, Inv h s -> ~ In c (connects h) -> Inv (h ++ [PConnect c]) (connect c s).
  Proof.
    intros h s c I Hf. assert (N0 : cget c (ps_cl s) = None).
    { destruct (cget c (ps_cl s)) as [i|] eqn:E; auto. destruct Hf. eapply I; eauto. }
    constructor; cbn [connect ps_tree ps_cl]; try apply I.
    - intro d. rewrite connected_snoc. cbn. rewrite cget_aset. destruct (d =? c) eqn:E2.
      + apply N.eqb_eq in E2; subst d. split; [auto|]. intros _. eauto.
      + apply N.eqb_neq in E2. rewrite (I_conn _ _ I d). intuition congruence.
    - intros d i. rewrite cget_aset, connects_snoc, in_app_iff. destruct (d =? c) eqn:E2; [apply N.eqb_eq in E2; subst; cbn; auto|]. intro H. left. eapply I; eauto.
    - intros d p H. rewrite cget_aset. destruct (I_reg _ _ I d p H) as [i [E K]]. destruct (d =? c) eqn:E2; [|eauto]. apply N.eqb_eq in E2; subst. congruence.
    - intros d p H. rewrite connected_snoc in H. cbn in H. rewrite holds_snoc. cbn. destruct H as [<-|H]; [|apply I; auto]. split; intro H.
      + destruct (I_reg _ _ I c p H) as [i [E _]]. congruence.
      + destruct Hf. apply connected_connects. eapply holds_connected; eauto.
    - intro t. rewrite kept_snoc. apply I.
  Qed.
  Lemma close_inv : forall h s c, Inv h s -> Inv (h ++ [PClose c]) (fst (pstep1 (PClose c) s)).
  Proof.
    intros h s c I. cbn [PubSubModel.pstep1 fst]. constructor; cbn [ps_tree ps_cl]; try apply I.
    - intro d. rewrite connected_snoc. cbn. rewrite <- (I_conn _ _ I d). destruct (cget c (ps_cl s)) as [i|] eqn:E.
      + rewrite cget_aset. destruct (d =? c) eqn:E2.
        * apply N.eqb_eq in E2; subst d. split; [intros [j [H1 H2]]; injection H1 as <-; discriminate|]. intros [_ H]; congruence.
        * apply N.eqb_neq in E2. intuition.
      + split; [|tauto]. intros [j [H1 H2]]. split; eauto. intros ->. congruence.
    - intros d j. rewrite connects_snoc, app_nil_r. destruct (cget c (ps_cl s)) as [i|] eqn:E; [|apply I].
      rewrite cget_aset. destruct (d =? c) eqn:E2; [|apply I]. apply N.eqb_eq in E2; subst d. intros _. eapply I; eauto.
    - intros d p H. destruct (I_reg _ _ I d p H) as [i [E K]]. destruct (cget c (ps_cl s)) as [i'|] eqn:E'; [|eauto]. rewrite cget_aset.
      destruct (d =? c) eqn:E2; [|eauto]. apply N.eqb_eq in E2; subst. rewrite E in E'. injection E' as <-. eexists; split; [reflexivity|]. auto.
    - intros d p H. rewrite connected_snoc in H. destruct H as [H N1]. rewrite holds_snoc. cbn. rewrite (I_subs _ _ I d p H). intuition.
    - intro t. rewrite kept_snoc. apply I.
  Qed.
  Lemma clean_inv : forall h s now, Inv h s -> Inv (h ++ [PClean now]) (fst (pstep1 (PClean now) s)).
  Proof.
    intros h s now I. apply inv_ret with (s := s); auto; try (cbn; tauto); cbn [PubSubModel.pstep1 fst ps_tree].
    - apply wf_cleanup. apply I.
    - intro q. apply subs_at_cleanup.
    - rewrite connects_snoc. apply app_nil_r.
    - intro t. rewrite ret_at_cleanup, kept_snoc, (I_ret _ _ I). reflexivity.
    - intros ls v. rewrite ret_at_cleanup. unfold still. destruct (ret_at ls (ps_tree s)) as [w|] eqn:E; [|discriminate]. intros _. eapply I; eauto.
  Qed.

  Lemma NoDup_app_l : forall A (a b : list A), NoDup (a ++ b) -> NoDup a.
  Proof. induction a as [|x a IH]; intros b H; [constructor|]. cbn in H. inv H. constructor; eauto. intro Hi. apply H2. apply in_app_iff; auto. Qed.
  Lemma fresh_snoc : forall h o, fresh_clients (h ++ [o]) -> fresh_clients h.
  Proof. intros h o. unfold fresh_clients. rewrite connects_snoc. apply NoDup_app_l. Qed.
  Lemma inv_run : forall h, fresh_clients h -> Inv h (prun h ps0).
  Proof.
    induction h as [|o h IH] using rev_ind; intro F; [apply inv0|]. pose proof (IH (fresh_snoc _ _ F)) as I.
    unfold PubSubModel.prun. rewrite fold_left_app. cbn [fold_left]. fold (prun h ps0). destruct o.
    - cbn [PubSubModel.pstep1 fst]. apply connect_inv; auto. unfold fresh_clients in F. rewrite connects_snoc in F. intro Hi. revert F. clear - Hi.
      intro F. apply NoDup_remove_2 in F. rewrite app_nil_r in F. auto.
    - apply inv_disconnect; auto.
    - apply close_inv; auto.
    - pose proof (sub_inv h _ now c pat I) as H. cbn [PubSubModel.pstep1]. destruct (subscribe now c pat (prun h ps0)). exact H.
    - apply unsub_inv; auto.
    - apply publish_inv; auto.
    - apply clean_inv; auto.
  Qed.
End Sys.
