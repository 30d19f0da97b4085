(** Retained messages across restarts. *)
From Verif Require Import LibBase LibMap PubSubModel PubSubSpec PubSubTree PubSubProofs PubSubFacts PubSubPersistModel.

Definition plain (t : bytes) : Prop := forall t', t <> slash :: t'.
Definition entry (v : retained) : bytes * option N := (rt_data v, rt_unix v).

Lemma distinct_NoDup : forall l, distinct l = true <-> NoDup l.
Proof.
  induction l as [|x l IH]; cbn; [split; auto; constructor|]. rewrite andb_true_iff, negb_true_iff, IH. split.
  - intros [H1 H2]. constructor; auto. intro Hi. assert (existsb (beqb x) l = true) by (apply existsb_exists; exists x; split; auto; apply beqb_refl). congruence.
  - intro H. inv H. split; auto. destruct (existsb (beqb x) l) eqn:E; auto. apply existsb_exists in E. destruct E as [y [Hy E]]. apply beqb_eq in E. subst y. contradiction.
Qed.

Section P.
  Variables (ticks inst_max default_ttl : N).
  Hypothesis ticks_pos : 0 < ticks.
  Notation frun := (frun ticks inst_max default_ttl).
  Notation fstep := (fstep ticks inst_max default_ttl).
  Notation pstep1 := (pstep1 ticks inst_max default_ttl).

  (** a retained message's two expiry times agree up to one second, or it has lost
      the first *)
  Variable B : N.
  Definition timed (v : retained) : Prop :=
    match rt_exp v, rt_unix v with
    | Some e, Some u => u * ticks <= e /\ e < u * ticks + ticks
    | None, Some u => u <= B / ticks
    | _, None => False
    end.
  Record Tok (t : node) : Prop := { T_wf : wf t; T_name : forall ls v, ret_at ls t = Some v -> exists p, ls = split p /\ plain p; T_time : forall ls v, ret_at ls t = Some v -> timed v }.
  Definition Dok (d : rdb) : Prop := NoDup (map fst d) /\ (forall k x, In (k, x) d -> plain k) /\ forall k x, In (k, x) d -> snd x <> None.
  Definition Rep (t : node) (d : rdb) : Prop :=
    (forall p v, ret_at (split p) t = Some v -> In (p, entry v) d \/ is_expired B v = true) /\
    (forall p x, In (p, x) d -> exists v, ret_at (split p) t = Some v /\ x = entry v).

  Lemma expired_mono : forall a b v, is_expired a v = true -> a <= b -> is_expired b v = true.
  Proof. intros a b v. unfold is_expired. destruct (rt_exp v); [lia|discriminate]. Qed.
  Lemma Rep_ext : forall t t' d, Rep t d -> (forall ls, ret_at ls t' = ret_at ls t) -> Rep t' d.
  Proof. intros t t' d [H1 H2] E. split. - intros p v. rewrite E. apply H1. - intros p x H. rewrite E. auto. Qed.

  Lemma Tok0 : Tok node0.
  Proof. constructor; [apply wf_node0| |]; intros ls v H; rewrite ret_at_node0 in H; discriminate. Qed.
  Lemma Tok_ext : forall t t', Tok t -> wf t' -> (forall ls, ret_at ls t' = ret_at ls t) -> Tok t'.
  Proof. intros t t' T W E. constructor; auto; intros ls v; rewrite E; apply T. Qed.
  Lemma Tok_set : forall t p r, Tok t -> plain p -> (forall v, r = Some v -> timed v) -> Tok (set_ret (split p) r t).
  Proof.
    intros t p r T Hp Hr. constructor.
    - apply wf_set. apply T.
    - intros ls v. rewrite ret_at_set. destruct (leqb (split p) ls) eqn:E; [|apply T]. apply leqb_eq in E. intros _. eauto.
    - intros ls v. rewrite ret_at_set. destruct (leqb (split p) ls); [auto|apply T].
  Qed.
  Lemma timed_new : forall now d ttl v, ret_new ticks inst_max now d ttl = Some v -> timed v.
  Proof.
    intros now d ttl v. unfold ret_new. destruct (now + ttl * ticks <=? inst_max); [|discriminate]. intro E. injection E as <-. unfold timed. cbn.
    pose proof (N.div_mod now ticks). pose proof (N.mod_lt now ticks). nia.
  Qed.
  Lemma timed_load : forall now d u, now <= B -> timed (from_persisted ticks now d (Some u)).
  Proof.
    intros now d u L. unfold from_persisted, timed. cbn. pose proof (N.div_mod now ticks). pose proof (N.mod_lt now ticks). destruct (now / ticks <? u) eqn:E; [nia|].
    pose proof (N.div_le_mono now B ticks). lia.
  Qed.
  Lemma load_fresh : forall now d u, is_expired now (from_persisted ticks now d u) = false.
  Proof.
    intros now d u. unfold is_expired, from_persisted. cbn. destruct u as [u|]; auto. destruct (now / ticks <? u) eqn:E; auto. nia.
  Qed.

  (** * Collecting and loading *)
  Lemma collect_db_in : forall now t p x, Tok t -> In (p, x) (collect_db now t) <-> exists v, ret_at (split p) t = Some v /\ is_expired now v = false /\ x = entry v /\ plain p.
  Proof.
    intros now t p x T. unfold collect_db. rewrite collect_all_eq, map_map. rewrite in_map_iff. split.
    - intros [[ls v] [E H]]. unfold named in E. cbn in E. apply (rets_in _ _ (T_wf _ T)) in H. destruct H as [H1 H2]. destruct (T_name _ T _ _ H1) as [q [-> Hq]].
      rewrite path_shown in E. rewrite (proj2 (shown_iff q) Hq) in E. injection E as <- <-. exists v. auto.
    - intros [v [H1 [H2 [-> Hp]]]]. exists (split p, v). split; [|apply (rets_in _ _ (T_wf _ T)); split; auto]. unfold named. cbn. rewrite path_shown. rewrite (proj2 (shown_iff p) Hp). auto.
  Qed.
  Lemma collect_db_ok : forall now t, Tok t -> Dok (collect_db now t).
  Proof.
    intros now t T. split; [|split].
    - unfold collect_db. rewrite collect_all_eq, !map_map. pose proof (rets_NoDup now t (T_wf _ T)) as Hn.
      assert (K : forall x, In x (rets now t) -> exists q, fst x = split q /\ plain q) by (intros [ls v] H; apply (rets_in _ _ (T_wf _ T)) in H; destruct H as [H _]; apply (T_name _ T _ _ H)).
      induction (rets now t) as [|x l IH]; [constructor|]. cbn [map] in *. inv Hn. constructor; [|apply IH; auto; intros; apply K; right; auto].
      intro Hi. apply in_map_iff in Hi. destruct Hi as [y [E Hy]]. apply H1. destruct (K x) as [q [Eq Pq]]; [left; auto|]. destruct (K y) as [q' [Eq' Pq']]; [right; auto|].
      unfold named in E. cbn in E. rewrite Eq, Eq', !path_shown in E. rewrite (proj2 (shown_iff q) Pq), (proj2 (shown_iff q') Pq') in E. subst q'. rewrite Eq, <- Eq'. apply in_map. auto.
    - intros k x H. apply collect_db_in in H; auto. destruct H as [v [_ [_ [_ H]]]]. auto.
    - intros k x H. apply collect_db_in in H; auto. destruct H as [v [H [_ [-> _]]]]. apply (T_time _ T) in H. unfold timed in H. cbn. destruct (rt_unix v); [discriminate|]. destruct (rt_exp v); auto.
  Qed.
  Lemma collect_rep : forall now t, now <= B -> Tok t -> Rep t (collect_db now t).
  Proof.
    intros now t L T. split.
    - intros p v H. destruct (is_expired now v) eqn:E; [right; eapply expired_mono; eauto|]. left. apply collect_db_in; auto. exists v. split; auto. split; auto. split; auto.
      destruct (T_name _ T _ _ H) as [q [E2 Hq]]. apply split_inj in E2. subst. auto.
    - intros p x H. apply collect_db_in in H; auto. destruct H as [v [H1 [_ [H2 _]]]]. eauto.
  Qed.
  Lemma load_at : forall now d p, Dok d -> ret_at (split p) (load_tree ticks now d) = match aget beqb p d with Some x => Some (from_persisted ticks now (fst x) (snd x)) | None => None end.
  Proof.
    intros now d p [Hn _]. unfold load_tree.
    assert (G : forall d t, NoDup (map fst d) -> ret_at (split p) (fold_left (load_entry ticks now) d t) =
      match aget beqb p d with Some x => Some (from_persisted ticks now (fst x) (snd x)) | None => ret_at (split p) t end).
    { clear d Hn. induction d as [|[k x] d IH]; intros t Hn; auto. cbn [fold_left map fst aget] in *. inv Hn. rewrite IH by auto.
      unfold load_entry. cbn [fst snd]. rewrite load_fresh. rewrite ret_at_set, leqb_split.
      destruct (aget beqb p d) as [y|] eqn:E.
      - apply (aget_In beqb beqb_eq) in E. apply in_map with (f := fst) in E. cbn in E. destruct (beqb p k) eqn:E2; auto. apply beqb_eq in E2. subst. contradiction.
      - rewrite (beqb_sym k p). destruct (beqb p k); auto. }
    rewrite G by auto. rewrite ret_at_node0. auto.
  Qed.
  Lemma load_Tok : forall now d, now <= B -> Dok d -> Tok (load_tree ticks now d).
  Proof.
    intros now d L [_ [Hp Hu]]. unfold load_tree.
    assert (G : forall d t, Tok t -> (forall k x, In (k, x) d -> plain k) -> (forall k x, In (k, x) d -> snd x <> None) -> Tok (fold_left (load_entry ticks now) d t)).
    { clear d Hp Hu. induction d as [|[k x] d IH]; intros t T Hp Hu; auto. cbn [fold_left]. apply IH; [|intros; eapply Hp; right; eauto|intros; eapply Hu; right; eauto].
      unfold load_entry. cbn [fst snd]. rewrite load_fresh. apply Tok_set; auto; [eapply Hp; left; eauto|]. intros v E. injection E as <-.
      specialize (Hu k x (or_introl eq_refl)). destruct x as [dd [u|]]; cbn in *; [apply timed_load; auto|congruence]. }
    apply G; auto. apply Tok0.
  Qed.
  Lemma load_rep : forall now d, Dok d -> Rep (load_tree ticks now d) d.
  Proof.
    intros now d D. split.
    - intros p v. rewrite load_at by auto. destruct (aget beqb p d) as [[dd u]|] eqn:E; [|discriminate]. intro E2. injection E2 as <-. left. apply (aget_In beqb beqb_eq). exact E.
    - intros p x H. rewrite load_at by auto. destruct D as [Hn _]. rewrite (In_aget beqb beqb_eq _ _ _ Hn H). eexists. split; [reflexivity|]. unfold entry. destruct x. reflexivity.
  Qed.

  (** * The system *)
  Definition times_le (e : fev) : Prop := match e with FCollect n => n <= B | FCrash n => n <= B | _ => True end.
  Definition ev_plain (e : fev) : Prop := match e with FReq (PPub t _ true _ _) => plain t | _ => True end.
  Record FInv (s : fsys) : Prop := {
    F_tok : Tok (ps_tree (f_ps s));
    F_db : Dok (f_db s);
    F_hold : forall es, f_pc s = FHolding es -> Dok es;
    F_idle : f_pc s = FIdle -> ps_dirty (f_ps s) = false -> Rep (ps_tree (f_ps s)) (f_db s);
    F_hold2 : forall es, f_pc s = FHolding es -> ps_dirty (f_ps s) = false -> Rep (ps_tree (f_ps s)) es }.

  Lemma cleaned_false : forall now t n v, cleaned now n = false -> ret_at t n = Some v -> is_expired now v = false.
  Proof.
    intros now. induction t as [|x t IH]; intros [ch p h s r] v C H; cbn in C; apply orb_false_iff in C; destruct C as [C _]; apply orb_false_iff in C; destruct C as [C _];
      apply orb_false_iff in C; destruct C as [C1 C2]; cbn in H.
    - subst r. auto.
    - destruct (aget beqb x ch) as [m|] eqn:E; [|discriminate]. apply (aget_In beqb beqb_eq) in E. eapply IH; eauto.
      destruct (cleaned now m) eqn:Em; auto. assert (existsb (fun kv => cleaned now (snd kv)) ch = true) by (apply existsb_exists; exists (x, m); auto). congruence.
  Qed.
  Lemma disc_dirty : forall c s, ps_dirty (disconnect c s) = ps_dirty s.
  Proof. intros. unfold disconnect. destruct (cget c (ps_cl s)); auto. Qed.
  Lemma zombies_keep : forall zs s, wf (ps_tree s) -> let s' := fold_left (fun s c => disconnect c s) zs s in
    wf (ps_tree s') /\ (forall ls, ret_at ls (ps_tree s') = ret_at ls (ps_tree s)) /\ ps_dirty s' = ps_dirty s.
  Proof.
    induction zs as [|c zs IH]; intros s W; cbn; auto. destruct (IH (disconnect c s)) as [Z1 [Z2 Z3]]; [apply disc_wf; auto|]. cbn in *. split; auto. split.
    - intro ls. rewrite Z2. apply disc_ret.
    - rewrite Z3. apply disc_dirty.
  Qed.
  (** a request keeps the tree in order; if it leaves the dirty flag down, it has not changed any retained message *)
  Lemma req_tok : forall o s, Tok (ps_tree s) -> ev_plain (FReq o) -> let s' := fst (pstep1 o s) in
    Tok (ps_tree s') /\ (ps_dirty s' = false -> ps_dirty s = false /\ forall ls, ret_at ls (ps_tree s') = ret_at ls (ps_tree s)).
  Proof.
    intros o s T P. destruct o; cbn [PubSubModel.pstep1 fst].
    - cbn. auto.
    - split; [eapply Tok_ext; [exact T|apply disc_wf; apply T|intro; apply disc_ret]|]. rewrite disc_dirty. intro H; split; auto. intro; apply disc_ret.
    - cbn. auto.
    - unfold subscribe. destruct (cget c (ps_cl s)) as [i|]; cbn; auto. split.
      + eapply Tok_ext; [exact T|apply wf_insert; apply T|intro; apply ret_at_insert].
      + intro H; split; auto. intro; apply ret_at_insert.
    - unfold unsubscribe. cbn [ps_tree ps_dirty]. fold (rem (split pat) c (ps_tree s)). split.
      + eapply Tok_ext; [exact T|apply wf_rem; apply T|intro; apply ret_at_rem].
      + intro H; split; auto. intro; apply ret_at_rem.
    - unfold publish. destruct (retain_step ticks inst_max default_ttl now topic data retain ttl s) as [s1|] eqn:E; cbn [fst]; auto.
      assert (K : Tok (ps_tree s1) /\ (ps_dirty s1 = false -> ps_dirty s = false /\ forall ls, ret_at ls (ps_tree s1) = ret_at ls (ps_tree s))).
      { unfold retain_step in E. destruct retain; [|injection E as <-; auto]. cbn in P. destruct data as [|b data].
        - injection E as <-. cbn. split; [|discriminate]. apply Tok_set; auto. discriminate.
        - destruct (ret_new ticks inst_max now (b :: data) (match ttl with Some t => t | None => default_ttl end)) as [r|] eqn:Er; [|discriminate]. injection E as <-. cbn. split; [|discriminate].
          apply Tok_set; auto. intros v Ev. injection Ev as <-. eapply timed_new; eauto. }
      destruct K as [K1 K2]. match goal with |- context [fold_left _ ?zs s1] => destruct (zombies_keep zs s1 (T_wf _ K1)) as [Z1 [Z2 Z3]] end. split.
      + eapply Tok_ext; eauto.
      + rewrite Z3. intro H. destruct (K2 H) as [H1 H2]. split; auto. intro ls. rewrite Z2. apply H2.
    - cbn [ps_tree ps_dirty]. split.
      + constructor; [apply wf_cleanup; apply T| |]; intros ls v; rewrite ret_at_cleanup; unfold still; destruct (ret_at ls (ps_tree s)) as [w|] eqn:E; try discriminate;
          destruct (is_expired now w); try discriminate; intro E2; injection E2 as <-; eapply T; eauto.
      + intro H. apply orb_false_iff in H. destruct H as [H1 H2]. split; auto. intro ls. rewrite ret_at_cleanup. unfold still. destruct (ret_at ls (ps_tree s)) as [w|] eqn:E; auto.
        rewrite (cleaned_false _ _ _ _ H2 E). auto.
  Qed.
  Lemma finv_step : forall s e, FInv s -> times_le e -> ev_plain e -> FInv (fstep s e).
  Proof.
    intros s e I L P. destruct e as [o| |now| |now]; cbn [PubSubPersistModel.fstep].
    - destruct (req_tok o (f_ps s) (F_tok _ I) P) as [K1 K2]. constructor; cbn [f_ps f_pc f_db].
      + exact K1.
      + apply I.
      + apply I.
      + intros H1 H2. destruct (K2 H2) as [H3 H4]. eapply Rep_ext; [apply (F_idle _ I); auto|auto].
      + intros es H1 H2. destruct (K2 H2) as [H3 H4]. eapply Rep_ext; [apply (F_hold2 _ I); auto|auto].
    - destruct (f_pc s) eqn:Epc; auto. destruct (ps_dirty (f_ps s)) eqn:Ed; auto. constructor; cbn; try apply I; discriminate.
    - destruct (f_pc s) eqn:Epc; auto. constructor; cbn; try apply I; try discriminate.
      + intros es E. injection E as <-. apply collect_db_ok. apply I.
      + intros es E _. injection E as <-. apply collect_rep; [exact L|apply I].
    - destruct (f_pc s) as [| |es] eqn:Epc; auto. pose proof (F_hold _ I es Epc) as D. constructor; cbn; try discriminate; [apply I| |].
      + unfold db_flush. destruct (distinct (map fst es)); auto. apply I.
      + intros _ Hd. unfold db_flush. rewrite (proj2 (distinct_NoDup _) (proj1 D)). apply (F_hold2 _ I); auto.
    - constructor; cbn; try discriminate.
      + apply load_Tok; [exact L|apply I].
      + apply I.
      + intros _ _. apply load_rep. apply I.
  Qed.
  Lemma finv_run : forall evs, Forall times_le evs -> Forall ev_plain evs -> FInv (frun evs f0).
  Proof.
    intros evs. induction evs as [|e evs IH] using rev_ind; intros L P.
    - constructor; cbn; try discriminate; [apply Tok0| |].
      + split; [constructor|]. split; intros k x [].
      + intros _ _. split; [|intros p x []]. intros p v H. rewrite ret_at_node0 in H. discriminate.
    - apply Forall_app in L. apply Forall_app in P. destruct L as [L1 L2], P as [P1 P2]. inv L2. inv P2. unfold PubSubPersistModel.frun. rewrite fold_left_app. cbn [fold_left].
      apply finv_step; auto.
  Qed.

  (** what a new subscriber of [pat] is shown at time [now] *)
  Definition shown (s : fsys) (pat : bytes) (now : N) : list push := retained_pushes now pat (ps_tree (f_ps s)).
  Lemma shown_in : forall s pat now p d, Tok (ps_tree (f_ps s)) ->
    In (p, d) (shown s pat now) <-> exists v, ret_at (split p) (ps_tree (f_ps s)) = Some v /\ is_expired now v = false /\ rt_data v = d /\ mqtt (reads pat) (split p).
  Proof.
    intros s pat now p d T. unfold shown, retained_pushes. rewrite collect_pat_eq, map_map, in_map_iff. split.
    - intros [[ls v] [E H]]. unfold named in E. cbn in E. apply (pick_in _ _ _ (T_wf _ T)) in H. destruct H as [[H1 H2] H3]. destruct (T_name _ T _ _ H1) as [q [-> Hq]].
      rewrite path_shown, strip_shown, (proj2 (shown_iff q) Hq) in E. injection E as <- <-. eauto.
    - intros [v [H1 [H2 [H3 H4]]]]. exists (split p, v). split; [|apply (pick_in _ _ _ (T_wf _ T)); split; [split|]; auto]. unfold named. cbn.
      destruct (T_name _ T _ _ H1) as [q [E Hq]]. apply split_inj in E. subst q. rewrite path_shown, strip_shown, (proj2 (shown_iff p) Hq). congruence.
  Qed.

  (** restarting at [B] from a table that represents the retained messages of [s] *)
  Definition kept_by_restart (s s' : fsys) : Prop := forall pat now' p d, B <= now' ->
    (In (p, d) (shown s pat (now' + ticks)) -> In (p, d) (shown s' pat now')) /\
    (In (p, d) (shown s' pat now') -> In (p, d) (shown s pat (now' - ticks)) \/ ~ In (p, d) (shown s pat (B + ticks))).
  Lemma restart_rel : forall s s0, Tok (ps_tree (f_ps s)) -> Dok (f_db s0) -> Rep (ps_tree (f_ps s)) (f_db s0) -> kept_by_restart s (fstep s0 (FCrash B)).
  Proof.
    intros s s0 T D [R1 R2] pat now' p d Hle. set (s' := fstep s0 (FCrash B)).
    assert (T' : Tok (ps_tree (f_ps s'))) by (cbn; apply load_Tok; auto; lia).
    assert (At : forall q v, ret_at (split q) (ps_tree (f_ps s')) = Some v <-> exists w, ret_at (split q) (ps_tree (f_ps s)) = Some w /\ In (q, entry w) (f_db s0) /\ v = from_persisted ticks B (rt_data w) (rt_unix w)).
    { intros q v. cbn. rewrite load_at by auto. split.
      - destruct (aget beqb q (f_db s0)) as [x|] eqn:E; [|discriminate]. intro E2. injection E2 as <-. apply (aget_In beqb beqb_eq) in E. destruct (R2 _ _ E) as [w [W1 W2]]. exists w. subst x. auto.
      - intros [w [W1 [W2 ->]]]. destruct D as [Dn _]. rewrite (In_aget beqb beqb_eq _ _ _ Dn W2). reflexivity. }
    rewrite !shown_in by auto. pose proof (N.div_mod B ticks) as DM. pose proof (N.mod_lt B ticks) as ML. split.
    - intros [w [W1 [W2 [W3 W4]]]]. pose proof (T_time _ T _ _ W1) as Tm. exists (from_persisted ticks B (rt_data w) (rt_unix w)).
      split; [|split; [|split; auto]].
      + apply At. exists w. split; auto. split; auto. destruct (R1 _ _ W1) as [H|H]; auto. assert (X : is_expired (now' + ticks) w = true) by (eapply expired_mono; eauto; lia). congruence.
      + unfold is_expired, from_persisted in *. cbn. unfold timed in Tm. destruct (rt_unix w) as [u|]; auto. destruct (B / ticks <? u) eqn:E; auto.
        destruct (rt_exp w) as [e|] eqn:Ee; [|lia]. apply N.leb_gt. apply N.leb_gt in W2. nia.
    - intros [v [V1 [V2 [V3 V4]]]]. apply At in V1. destruct V1 as [w [W1 [W2 ->]]]. pose proof (T_time _ T _ _ W1) as Tm. cbn in V3. unfold timed in Tm.
      destruct (rt_unix w) as [u|] eqn:Eu; [|destruct (rt_exp w); destruct Tm]. unfold is_expired, from_persisted in V2. cbn in V2.
      destruct (rt_exp w) as [e|] eqn:Ee.
      + destruct (B / ticks <? u) eqn:E.
        * left. exists w. split; auto. split; auto. unfold is_expired. rewrite Ee. apply N.leb_gt. apply N.leb_gt in V2. nia.
        * right. intros [w' [W1' [W2' _]]]. rewrite W1 in W1'. injection W1' as <-. unfold is_expired in W2'. rewrite Ee in W2'. apply N.leb_gt in W2'. nia.
      + left. exists w. split; auto. split; auto. unfold is_expired. rewrite Ee. auto.
  Qed.
  (** after the last change has been saved, a restart at [B] keeps what is not about to
      expire (times agree within one second) and adds nothing except what had expired *)
  Lemma restart_keeps : forall evs, Forall times_le evs -> Forall ev_plain evs -> let s := frun evs f0 in
    f_pc s = FIdle -> ps_dirty (f_ps s) = false -> kept_by_restart s (fstep s (FCrash B)).
  Proof.
    intros evs L P s Hpc Hd. pose proof (finv_run evs L P) as I. fold s in I. apply restart_rel; [apply I|apply I|apply (F_idle _ I); auto].
  Qed.

  (** completed saves while [evs] run from [s] *)
  Fixpoint saves (s : fsys) (evs : list fev) : N :=
    match evs with
    | [] => 0
    | e :: r => (match e, f_pc s with FWrite, FHolding _ => 1 | _, _ => 0 end) + saves (fstep s e) r
    end.
  Lemma saves_app : forall a b s, saves s (a ++ b) = saves s a + saves (frun a s) b.
  Proof. induction a as [|e a IH]; intros b s; cbn [app saves]; auto. rewrite IH. change (frun (e :: a) s) with (frun a (fstep s e)). lia. Qed.
  Definition from_moment (evs : list fev) (k : N) (d : rdb) : Prop :=
    exists a b, evs = a ++ b /\ saves (frun a f0) b <= k /\ Rep (ps_tree (f_ps (frun a f0))) d.
  Lemma from_snoc : forall evs e k d, from_moment evs k d -> saves (frun evs f0) [e] = 0 -> from_moment (evs ++ [e]) k d.
  Proof.
    intros evs e k d [a [b [-> [H1 H2]]]] H. exists a, (b ++ [e]). split; [rewrite app_assoc; auto|]. split; auto. rewrite saves_app.
    unfold PubSubPersistModel.frun in *. rewrite fold_left_app in H. rewrite H. lia.
  Qed.
  Lemma moments : forall evs, Forall times_le evs -> Forall ev_plain evs -> let s := frun evs f0 in
    from_moment evs 1 (f_db s) /\ forall es, f_pc s = FHolding es -> from_moment evs 0 es.
  Proof.
    induction evs as [|e evs IH] using rev_ind; intros L P.
    - split; [|discriminate]. exists [], []. split; auto. split; [cbn; lia|]. split; [|intros p x []]. intros p v H. cbn in H. rewrite ret_at_node0 in H. discriminate.
    - apply Forall_app in L. apply Forall_app in P. destruct L as [L1 L2], P as [P1 P2]. inv L2. inv P2. destruct (IH L1 P1) as [K1 K2].
      pose proof (finv_run evs L1 P1) as I. assert (E : frun (evs ++ [e]) f0 = fstep (frun evs f0) e) by (unfold PubSubPersistModel.frun; rewrite fold_left_app; auto).
      rewrite E. assert (N0 : forall e, e <> FWrite -> saves (frun evs f0) [e] = 0) by (intros e0 He; destruct e0; cbn; congruence || lia).
      remember (frun evs f0) as s eqn:Es. clear IH.
      assert (SN : forall k d e, e <> FWrite -> from_moment evs k d -> from_moment (evs ++ [e]) k d) by (intros k d e0 He Hm; apply from_snoc; auto; rewrite <- Es; auto).
      destruct e as [o| |now| |now].
      + cbn. split; [apply SN; auto; discriminate|]. intros es Hes. apply SN; auto. discriminate.
      + cbn [PubSubPersistModel.fstep]. destruct (f_pc s) as [| |es0] eqn:Epc.
        * destruct (ps_dirty (f_ps s)); (split; [apply SN; auto; discriminate|]); [cbn; discriminate|]. rewrite Epc. discriminate.
        * split; [apply SN; auto; discriminate|]. rewrite Epc. discriminate.
        * split; [apply SN; auto; discriminate|]. rewrite Epc. intros es Hes. apply SN; auto. discriminate.
      + cbn [PubSubPersistModel.fstep]. destruct (f_pc s) as [| |es0] eqn:Epc.
        * split; [apply SN; auto; discriminate|]. rewrite Epc. discriminate.
        * split; [apply SN; auto; discriminate|]. cbn [f_pc]. intros es Hes. injection Hes as <-. apply SN; [discriminate|]. exists evs, []. rewrite app_nil_r. split; auto. split; [cbn; lia|].
          rewrite <- Es. apply collect_rep; [assumption|apply I].
        * split; [apply SN; auto; discriminate|]. rewrite Epc. intros es Hes. apply SN; auto. discriminate.
      + cbn [PubSubPersistModel.fstep]. destruct (f_pc s) as [| |es0] eqn:Epc.
        * split; [apply from_snoc; auto; rewrite <- Es; cbn [saves]; rewrite Epc; auto|]. rewrite Epc. discriminate.
        * split; [apply from_snoc; auto; rewrite <- Es; cbn [saves]; rewrite Epc; auto|]. rewrite Epc. discriminate.
        * split; [|discriminate]. cbn [f_db]. unfold db_flush. rewrite (proj2 (distinct_NoDup _) (proj1 (F_hold _ I es0 Epc))).
          destruct (K2 es0 eq_refl) as [a [b [-> [Q3 Q4]]]]. exists a, (b ++ [FWrite]). split; [rewrite app_assoc; auto|]. split; auto. rewrite saves_app. cbn [saves].
          match goal with |- context [match f_pc ?z with _ => _ end] => destruct (f_pc z); lia end.
      + split; [apply SN; auto; discriminate|discriminate].
  Qed.
  (** a crash at any moment: what comes back are the retained messages of an earlier
      moment, after which at most one save was completed *)
  Lemma crash_snapshot : forall evs, Forall times_le evs -> Forall ev_plain evs -> exists a b, evs = a ++ b /\ saves (frun a f0) b <= 1 /\
    kept_by_restart (frun a f0) (frun (evs ++ [FCrash B]) f0).
  Proof.
    intros evs L P. destruct (moments evs L P) as [[a [b [E [H1 H2]]]] _]. exists a, b. split; auto. split; auto.
    assert (E2 : frun (evs ++ [FCrash B]) f0 = fstep (frun evs f0) (FCrash B)) by (unfold PubSubPersistModel.frun; rewrite fold_left_app; auto). rewrite E2.
    assert (La : Forall times_le a) by (subst evs; apply Forall_app in L; apply L). assert (Pa : Forall ev_plain a) by (subst evs; apply Forall_app in P; apply P).
    apply restart_rel; auto; [apply (finv_run a La Pa)|apply (finv_run evs L P)].
  Qed.
End P.
