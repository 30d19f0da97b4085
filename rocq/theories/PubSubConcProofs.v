(** Concurrent pub/sub requests. *)
From Verif Require Import LibBase LibMap PubSubModel PubSubSpec PubSubTree PubSubProofs PubSubConcModel.

Lemma setn_same : forall A i (v : A) l x, nth_error l i = Some x -> nth_error (setn i v l) i = Some v.
Proof. intros A. induction i as [|i IH]; intros v [|y l] x H; cbn in *; try discriminate; auto. eapply IH; eauto. Qed.
Lemma setn_other : forall A i j (v : A) l, i <> j -> nth_error (setn i v l) j = nth_error l j.
Proof. intros A. induction i as [|i IH]; intros [|j] v [|y l] H; cbn; auto; try congruence. Qed.
Lemma setn_length : forall A i (v : A) l, length (setn i v l) = length l.
Proof. intros A. induction i as [|i IH]; intros v [|y l]; cbn; auto. Qed.

Section P.
  Variables (ticks inst_max default_ttl : N).
  Notation exec1 := (exec1 ticks inst_max default_ttl).
  Notation xstep := (xstep ticks inst_max default_ttl).
  Notation xrun := (xrun ticks inst_max default_ttl).

  Lemma xrun_app : forall a b s, xrun (a ++ b) s = xrun b (xrun a s).
  Proof. intros. unfold PubSubConcModel.xrun. apply fold_left_app. Qed.

  (** * The log only grows, by entries of the running thread *)
  Lemma exec_log : forall i p s, exists l, h_log (fst (exec1 i p s)) = h_log s ++ l /\ (forall x, In x l -> fst x = i).
  Proof.
    intros i p s. assert (N0 : exists l, h_log s = h_log s ++ l /\ (forall x : nat * (N * push), In x l -> fst x = i)) by (exists []; rewrite app_nil_r; split; auto; intros x []).
    destruct p; cbn [PubSubConcModel.exec1]; auto.
    - destruct (regget c (h_cl s)); auto.
    - cbn [fst h_log]. unfold queue_to. destruct (nmem c (h_gone s)); auto. eexists. split; [reflexivity|]. intros x H. apply in_map_iff in H. destruct H as [m [<- _]]. auto.
    - destruct (regget c (h_cl s)); auto.
    - destruct (regget c (h_cl s)); auto.
    - destruct rt; auto. destruct data; auto. destruct (ret_new ticks inst_max now (n :: data) (eff_ttl default_ttl ttl)); auto.
    - destruct todo as [|c todo]; auto. destruct (regget c (h_cl s)); auto. destruct (nmem c (h_gone s)); auto. cbn [fst h_log]. eexists. split; [reflexivity|]. intros x [<-|[]]; auto.
    - destruct zombies as [|c z]; auto. destruct (regget c (h_cl s)); auto.
  Qed.
  Lemma step_log : forall s e, exists l, h_log (x_sh (xstep s e)) = h_log (x_sh s) ++ l /\
    (forall x, In x l -> e = XRun (fst x) /\ exists p, nth_error (x_th s) (fst x) = Some p /\ p <> QDone).
  Proof.
    intros s [p|i]; cbn [PubSubConcModel.xstep]; [exists []; rewrite app_nil_r; split; auto; intros x []|].
    destruct (nth_error (x_th s) i) as [p|] eqn:E; [|exists []; rewrite app_nil_r; split; auto; intros x []].
    destruct (exec_log i p (x_sh s)) as [l [H1 H2]].
    assert (D : p = QDone \/ p <> QDone) by (destruct p; auto; right; discriminate).
    destruct (exec1 i p (x_sh s)) as [sh p'] eqn:E2. cbn [fst x_sh] in *. destruct D as [->|D].
    - cbn in E2. injection E2 as <- <-. exists []. rewrite app_nil_r. split; auto. intros x [].
    - exists l. split; auto. intros x Hx. rewrite (H2 x Hx). split; auto. exists p. auto.
  Qed.
  Lemma step_th : forall s e i, nth_error (x_th s) i = Some QDone -> nth_error (x_th (xstep s e)) i = Some QDone.
  Proof.
    intros s [p|j] i H; cbn [PubSubConcModel.xstep].
    - cbn. rewrite nth_error_app1; auto. apply nth_error_Some. congruence.
    - destruct (nth_error (x_th s) j) as [p|] eqn:E; auto. destruct (exec1 j p (x_sh s)) as [sh p'] eqn:E2. cbn [x_th]. destruct (Nat.eq_dec j i) as [->|Hn].
      + rewrite H in E. injection E as <-. cbn in E2. injection E2 as <- <-. eapply setn_same; eauto.
      + rewrite setn_other; auto.
  Qed.
  (** a finished request queues nothing any more *)
  Lemma done_quiet : forall evs s i, nth_error (x_th s) i = Some QDone ->
    exists l, h_log (x_sh (xrun evs s)) = h_log (x_sh s) ++ l /\ forall x, In x l -> fst x <> i.
  Proof.
    induction evs as [|e evs IH]; intros s i H; cbn; [exists []; rewrite app_nil_r; split; auto|].
    destruct (IH (xstep s e) i (step_th _ _ _ H)) as [l [H1 H2]]. destruct (step_log s e) as [l0 [H3 H4]]. exists (l0 ++ l).
    unfold PubSubConcModel.xrun in H1. rewrite H1, H3, app_assoc. split; auto. intros x Hx. apply in_app_iff in Hx. destruct Hx as [Hx|Hx]; auto.
    destruct (H4 x Hx) as [_ [p [E D]]]. intros <-. congruence.
  Qed.
  (** a request not yet there has queued nothing *)
  Lemma log_known : forall evs x, In x (h_log (x_sh (xrun evs x0))) -> (fst x < length (x_th (xrun evs x0)))%nat.
  Proof.
    induction evs as [|e evs IH] using rev_ind; intros x H; [destruct H|]. rewrite xrun_app in *. cbn in *. destruct (step_log (xrun evs x0) e) as [l [H1 H2]].
    assert (L : (length (x_th (xrun evs x0)) <= length (x_th (xstep (xrun evs x0) e)))%nat).
    { destruct e as [p|j]; cbn; [rewrite app_length; lia|]. destruct (nth_error (x_th (xrun evs x0)) j) as [p|]; auto. destruct (exec1 j p (x_sh (xrun evs x0))). cbn. rewrite setn_length. auto. }
    fold (xstep (xrun evs x0) e) in *. rewrite H1 in H. apply in_app_iff in H. destruct H as [H|H]; [specialize (IH x H); lia|]. destruct (H2 x H) as [_ [p [E _]]].
    assert (fst x < length (x_th (xrun evs x0)))%nat by (apply nth_error_Some; congruence). lia.
  Qed.
  (** everything a request queued comes before everything queued by a request that
      arrived after its end *)
  Lemma log_order : forall e1 e2 i j, nth_error (x_th (xrun e1 x0)) i = Some QDone -> (length (x_th (xrun e1 x0)) <= j)%nat ->
    exists l1 l2, h_log (x_sh (xrun (e1 ++ e2) x0)) = l1 ++ l2 /\ (forall x, In x l2 -> fst x <> i) /\ (forall x, In x l1 -> fst x <> j).
  Proof.
    intros e1 e2 i j H1 H2. destruct (done_quiet e2 (xrun e1 x0) i H1) as [l [H3 H4]]. rewrite xrun_app. exists (h_log (x_sh (xrun e1 x0))), l. split; auto. split; auto.
    intros x Hx E. pose proof (log_known e1 x Hx). lia.
  Qed.

  (** * A publish queues at most one copy to each client, whatever runs concurrently *)
  Definition todo_of (p : pc) : list N := match p with QPub2 _ _ todo _ => todo | _ => [] end.
  Definition is_pub (p : pc) : bool := match p with QPub0 _ _ _ _ _ | QPub1 _ _ | QPub2 _ _ _ _ | QPub3 _ | QPub4 _ _ _ => true | _ => false end.
  Definition sent_by (i : nat) (l : list (nat * (N * push))) : list N := map (fun x => fst (snd x)) (filter (fun x => Nat.eqb (fst x) i) l).
  Definition is_sub (p : pc) : bool := match p with QSub0 _ _ _ | QSub1 _ _ _ => true | _ => false end.

  Lemma sent_app : forall i a b, sent_by i (a ++ b) = sent_by i a ++ sent_by i b.
  Proof. intros. unfold sent_by. rewrite filter_app, map_app. auto. Qed.
  Lemma sent_other : forall i l, (forall x, In x l -> fst x <> i) -> sent_by i l = [].
  Proof.
    intros i l H. unfold sent_by. induction l as [|x l IH]; auto. cbn. destruct (Nat.eqb (fst x) i) eqn:E; [apply Nat.eqb_eq in E; destruct (H x); auto; left; auto|].
    apply IH. intros; apply H; right; auto.
  Qed.

  (** [i] started as publish: nothing is queued before its matching section, and
      queued and still to do clients are distinct afterwards *)
  Definition pub_ok (i : nat) (s : xsys) : Prop :=
    match nth_error (x_th s) i with
    | Some (QPub0 _ _ _ _ _) | Some (QPub1 _ _) => sent_by i (h_log (x_sh s)) = []
    | Some (QPub2 _ _ todo _) => NoDup (sent_by i (h_log (x_sh s)) ++ todo)
    | Some (QPub3 _) | Some (QPub4 _ _ _) | Some QDone => NoDup (sent_by i (h_log (x_sh s)))
    | _ => False
    end.
  Lemma pub_ok_step : forall i s e, pub_ok i s -> pub_ok i (xstep s e).
  Proof.
    intros i s e H. destruct e as [p|j].
    - unfold pub_ok in *. cbn [PubSubConcModel.xstep x_th x_sh]. destruct (nth_error (x_th s) i) as [q|] eqn:E; [|destruct H]. rewrite nth_error_app1 by (apply nth_error_Some; congruence). rewrite E. auto.
    - destruct (step_log s (XRun j)) as [l [H1 H2]]. destruct (Nat.eq_dec j i) as [->|Hn].
      + unfold pub_ok in *. cbn [PubSubConcModel.xstep] in *. destruct (nth_error (x_th s) i) as [q|] eqn:E; [|destruct H].
        destruct q; try contradiction; cbn [PubSubConcModel.exec1].
        * destruct rt; [|cbn [x_th x_sh]; rewrite (setn_same _ _ _ _ _ E); auto]. destruct data as [|b data]; [cbn [x_th x_sh]; rewrite (setn_same _ _ _ _ _ E); auto|].
          destruct (ret_new ticks inst_max now (b :: data) (eff_ttl default_ttl ttl)); cbn [x_th x_sh]; rewrite (setn_same _ _ _ _ _ E); auto. rewrite H. constructor.
        * cbn [x_th x_sh]; rewrite (setn_same _ _ _ _ _ E). rewrite H. cbn [app]. apply dedup_NoDup.
        * destruct todo as [|c todo]; [cbn [x_th x_sh]; rewrite (setn_same _ _ _ _ _ E); rewrite app_nil_r in H; auto|].
          destruct (regget c (h_cl (x_sh s))).
          -- destruct (nmem c (h_gone (x_sh s))); cbn [x_th x_sh]; rewrite (setn_same _ _ _ _ _ E); [apply NoDup_remove_1 in H; auto|]. cbn [h_log]. rewrite sent_app. unfold sent_by at 2. cbn. rewrite Nat.eqb_refl. cbn.
             rewrite <- app_assoc. auto.
          -- cbn [x_th x_sh]; rewrite (setn_same _ _ _ _ _ E). apply NoDup_remove_1 in H; auto.
        * destruct zombies as [|c z]; [cbn [x_th x_sh]; rewrite (setn_same _ _ _ _ _ E); auto|]. destruct (regget c (h_cl (x_sh s))); cbn [x_th x_sh]; rewrite (setn_same _ _ _ _ _ E); auto.
        * cbn [x_th x_sh]; rewrite (setn_same _ _ _ _ _ E); auto.
        * cbn [x_th x_sh]; rewrite (setn_same _ _ _ _ _ E); auto.
      + assert (Et : nth_error (x_th (xstep s (XRun j))) i = nth_error (x_th s) i).
        { cbn [PubSubConcModel.xstep]. destruct (nth_error (x_th s) j) as [p|]; auto. destruct (exec1 j p (x_sh s)). cbn. rewrite setn_other; auto. }
        assert (Es : sent_by i (h_log (x_sh (xstep s (XRun j)))) = sent_by i (h_log (x_sh s))).
        { rewrite H1, sent_app, (sent_other i l), app_nil_r; auto. intros x Hx. destruct (H2 x Hx) as [E _]. injection E as E. congruence. }
        unfold pub_ok in *. rewrite Et, Es. auto.
  Qed.
  Lemma pub_once : forall e1 e2 t d rt ttl now, let i := length (x_th (xrun e1 x0)) in
    NoDup (sent_by i (h_log (x_sh (xrun (e1 ++ XSpawn (QPub0 t d rt ttl now) :: e2) x0)))).
  Proof.
    intros e1 e2 t d rt ttl now i. rewrite xrun_app. cbn [PubSubConcModel.xrun fold_left]. set (s1 := xrun e1 x0) in *.
    assert (K : pub_ok i (xstep s1 (XSpawn (QPub0 t d rt ttl now)))).
    { unfold pub_ok. cbn. rewrite nth_error_app2 by (unfold i; auto). unfold i. rewrite Nat.sub_diag. cbn. apply sent_other. intros x Hx E. pose proof (log_known e1 x Hx). fold s1 in H. lia. }
    assert (G : forall evs s, pub_ok i s -> pub_ok i (xrun evs s)) by (induction evs as [|e evs IH]; intros s Hs; auto; cbn; apply IH; apply pub_ok_step; auto).
    specialize (G e2 _ K). unfold pub_ok, PubSubConcModel.xrun in G. fold xrun in G.
    match goal with |- NoDup (sent_by i ?L) => assert (X : NoDup (sent_by i L)) end; auto.
    destruct (nth_error (x_th (fold_left xstep e2 (xstep s1 (XSpawn (QPub0 t d rt ttl now))))) i) as [q|]; [|destruct G].
    destruct q; try contradiction; try (rewrite G; constructor); auto. eapply NoDup_app_l; eauto.
  Qed.

  (** * A subscribe racing with a retained publish *)
  Variables (c : N) (pat t d : bytes) (ttl : option N) (now now' : N) (r : retained).
  Hypothesis Hd : d <> [].
  Hypothesis Hr : ret_new ticks inst_max now d (eff_ttl default_ttl ttl) = Some r.
  Hypothesis Hx : is_expired now' r = false.
  Hypothesis Hm : mqtt (reads pat) (split t).
  (** other requests do not end this subscription or replace this retained message *)
  Definition harmless (p : pc) : Prop :=
    match p with
    | QConn c' | QClose c' | QDisc0 c' | QDisc1 c' _ => c' <> c
    | QUnsub0 c' p' | QUnsub1 c' p' => ~ (c' = c /\ reads p' = reads pat)
    | QPub0 t' _ rt _ _ => rt = true -> t' <> t
    | QPub2 _ _ _ z | QPub3 z => ~ In c z
    | QPub4 c' _ z => c' <> c /\ ~ In c z
    | QClean n => is_expired n r = false
    | _ => True
    end.
  Definition got (i j : nat) (s : xsys) : Prop := In (i, (c, (t, d))) (h_log (x_sh s)) \/ In (j, (c, (shown_as t, d))) (h_log (x_sh s)).
  Definition is_pub0 (i : nat) (s : xsys) : Prop := exists q, nth_error (x_th s) i = Some q /\ q = QPub0 t d true ttl now.

  Record Race (i j : nat) (s : xsys) : Prop := {
    R_wf : wf (h_tree (x_sh s));
    R_reg : exists ps, regget c (h_cl (x_sh s)) = Some ps;
    R_open : ~ In c (h_gone (x_sh s));
    R_pub : match nth_error (x_th s) i with
            | Some (QPub0 t' d' rt ttl' n') => QPub0 t' d' rt ttl' n' = QPub0 t d true ttl now
            | Some (QPub1 t' d') => t' = t /\ d' = d
            | Some (QPub2 t' d' _ z) => t' = t /\ d' = d /\ ~ In c z
            | Some (QPub3 z) => ~ In c z
            | Some (QPub4 c' _ z) => c' <> c /\ ~ In c z
            | Some QDone => True
            | _ => False
            end;
    R_sub : match nth_error (x_th s) j with
            | Some (QSub0 c' p n) | Some (QSub1 c' p n) => c' = c /\ p = pat /\ n = now'
            | Some QDone => True
            | _ => False
            end;
    R_oth : forall k p, k <> i -> k <> j -> nth_error (x_th s) k = Some p -> harmless p;
    R_ret : ~ is_pub0 i s -> ret_at (split t) (h_tree (x_sh s)) = Some r;
    R_in : nth_error (x_th s) j = Some QDone -> In c (subs_at (split pat) (h_tree (x_sh s)));
    R_got : nth_error (x_th s) j = Some QDone ->
      match nth_error (x_th s) i with
      | Some (QPub0 _ _ _ _ _) | Some (QPub1 _ _) => True
      | Some (QPub2 _ _ todo _) => In c todo \/ got i j s
      | _ => got i j s
      end }.

  Lemma regget_aset : forall x y i m, regget x (aset N.eqb y i m) = if x =? y then Some i else regget x m.
  Proof.
    intros. unfold regget. destruct (x =? y) eqn:E.
    - apply N.eqb_eq in E; subst. apply (aget_aset_same N.eqb N_eqb_eq).
    - apply N.eqb_neq in E. apply (aget_aset_other N.eqb N_eqb_eq); auto.
  Qed.
  Lemma regget_adel : forall x y m, regget x (adel N.eqb y m) = if x =? y then None else regget x m.
  Proof.
    intros. unfold regget. destruct (x =? y) eqn:E.
    - apply N.eqb_eq in E; subst. apply (aget_adel_same N.eqb).
    - apply N.eqb_neq in E. apply (aget_adel_other N.eqb N_eqb_eq); auto.
  Qed.

  Definition mine (p : pc) : Prop := harmless p \/ p = QPub0 t d true ttl now.
  Record Keep (s s' : shared) : Prop := {
    K_wf : wf (h_tree s) -> wf (h_tree s');
    K_reg : (exists ps, regget c (h_cl s) = Some ps) -> exists ps, regget c (h_cl s') = Some ps;
    K_open : ~ In c (h_gone s) -> ~ In c (h_gone s');
    K_ret : ret_at (split t) (h_tree s) = Some r -> ret_at (split t) (h_tree s') = Some r;
    K_in : In c (subs_at (split pat) (h_tree s)) -> In c (subs_at (split pat) (h_tree s')) }.
  Lemma keep_refl : forall s, Keep s s.
  Proof. intro s. constructor; auto. Qed.
  Lemma keep_set : forall s t' v, (t' = t -> v = Some r) -> Keep s (mkSh (set_ret (split t') v (h_tree s)) (h_cl s) (h_gone s) (h_log s)).
  Proof.
    intros s t' v H. constructor; cbn [h_tree h_cl h_gone]; auto.
    - apply wf_set.
    - rewrite ret_at_set. rewrite leqb_split. destruct (beqb t' t) eqn:E; auto. apply beqb_eq in E. intros _. auto.
    - rewrite subs_at_set. auto.
  Qed.
  Lemma keep_unsub : forall s c' ps, c' <> c -> Keep s (mkSh (unsub_all c' ps (h_tree s)) (h_cl s) (h_gone s) (h_log s)).
  Proof.
    intros s c' ps H. constructor; cbn [h_tree h_cl h_gone]; auto.
    - apply unsub_all_wf.
    - rewrite unsub_all_ret. auto.
    - rewrite unsub_all_subs. intuition.
  Qed.
  Lemma exec_keep : forall k p s, mine p -> (exists ps, regget c (h_cl s) = Some ps) -> ~ In c (h_gone s) ->
    Keep s (fst (exec1 k p s)) /\ harmless (snd (exec1 k p s)).
  Proof.
    intros k p s M Hreg Hop. assert (F : forall c' v l, c' <> c -> Keep s (mkSh (h_tree s) (aset N.eqb c' v (h_cl s)) (h_gone s) l)).
    { intros c' v l H. constructor; cbn [h_tree h_cl h_gone]; auto. intros [ps E]. rewrite regget_aset. destruct (c =? c'); eauto. }
    assert (F2 : forall v l, Keep s (mkSh (h_tree s) (aset N.eqb c v (h_cl s)) (h_gone s) l)).
    { intros v l. constructor; cbn [h_tree h_cl h_gone]; auto. intros [ps E]. rewrite regget_aset, N.eqb_refl. eauto. }
    assert (F3 : forall c' l, c' <> c -> Keep s (mkSh (h_tree s) (adel N.eqb c' (h_cl s)) (h_gone s) l)).
    { intros c' l H. constructor; cbn [h_tree h_cl h_gone]; auto. intros [ps E]. rewrite regget_adel. destruct (c =? c') eqn:E2; [apply N.eqb_eq in E2; congruence|eauto]. }
    assert (F4 : forall l, Keep s (mkSh (h_tree s) (h_cl s) (h_gone s) l)) by (intro l; constructor; auto).
    destruct M as [M| ->].
    - destruct p as [c'|c'|n|c' p n|c' p n|c' p|c' p|c'|c' ps|t' d' rt ttl' n|t' d'|t' d' todo z|z|c' ps z|]; cbn [harmless] in M; cbn [PubSubConcModel.exec1 fst snd].
      + split; [auto|exact Logic.I].
      + split; [|exact Logic.I]. constructor; auto. cbn [h_gone]. rewrite nins_In. intuition.
      + split; [|exact Logic.I]. constructor; auto; cbn [h_tree]; [apply wf_cleanup| |rewrite subs_at_cleanup; auto]. rewrite ret_at_cleanup. intros ->. cbn. rewrite M. auto.
      + destruct (regget c' (h_cl s)); cbn [fst snd harmless]; split; auto using keep_refl. destruct (N.eq_dec c' c) as [->|]; auto.
      + split; [|exact Logic.I]. constructor; cbn [h_tree h_cl h_gone]; auto; [apply wf_insert| |].
        * rewrite ret_at_insert. auto.
        * rewrite subs_at_insert. auto.
      + split; [|exact M]. destruct (regget c' (h_cl s)); auto using keep_refl. destruct (N.eq_dec c' c) as [->|]; auto.
      + split; [|exact Logic.I]. fold (rem (split p) c' (h_tree s)). constructor; cbn [h_tree h_cl h_gone]; auto; [apply wf_rem|rewrite ret_at_rem; auto|].
        rewrite subs_at_rem. intro H. split; auto. intros [-> E]. apply M. split; auto.
      + destruct (regget c' (h_cl s)); cbn [fst snd harmless]; split; auto using keep_refl.
      + split; [apply keep_unsub; auto|exact Logic.I].
      + destruct rt; [|cbn; split; auto using keep_refl]. destruct d' as [|b d']; [cbn [fst snd harmless]; split; auto; apply keep_set; intros ->; destruct M; auto|].
        destruct (ret_new ticks inst_max n (b :: d') (eff_ttl default_ttl ttl')); cbn [fst snd harmless]; split; auto using keep_refl. apply keep_set. intros ->. destruct M; auto.
      + cbn. split; auto using keep_refl.
      + destruct todo as [|c' todo]; [cbn [fst snd harmless]; split; auto using keep_refl|]. destruct (N.eq_dec c' c) as [->|Hn].
        * destruct Hreg as [ps ->]. apply nmem_false in Hop. rewrite Hop. cbn [fst snd harmless]. split; auto.
        * assert (~ In c (z ++ [c'])) by (rewrite in_app_iff; cbn; intuition). destruct (regget c' (h_cl s)); [destruct (nmem c' (h_gone s))|]; cbn [fst snd harmless]; split; auto using keep_refl.
      + destruct z as [|c' z]; [cbn [fst snd harmless]; split; auto using keep_refl|]. cbn in M. destruct (regget c' (h_cl s)); cbn [fst snd harmless]; split; auto using keep_refl; try (apply F3; intuition); intuition.
      + split; [apply keep_unsub; tauto|cbn; tauto].
      + cbn. split; auto using keep_refl.
    - cbn [PubSubConcModel.exec1]. destruct d as [|b d']; [destruct Hd; auto|]. rewrite Hr. cbn [fst snd harmless]. split; auto. apply keep_set. auto.
  Qed.

  Lemma shown_push : forall tr, wf tr -> ret_at (split t) tr = Some r -> In (shown_as t, d) (retained_pushes now' pat (insert_sub (split pat) c tr)).
  Proof.
    intros tr W E. unfold retained_pushes. rewrite collect_pat_eq. apply in_map_iff. exists (shown_as t, r). split.
    - cbn. rewrite strip_shown. f_equal. clear - Hr. unfold ret_new in Hr. repeat match goal with H : context [if ?b then _ else _] |- _ => destruct b end; try discriminate; injection Hr as <-; auto.
    - apply in_map_iff. exists (split t, r). unfold named. cbn. rewrite path_shown. split; auto. apply pick_in; [apply wf_insert; auto|]. split; [|exact Hm]. split; auto. rewrite ret_at_insert. auto.
  Qed.

  Lemma got_mono : forall i j s e, got i j s -> got i j (xstep s e).
  Proof. intros i j s e H. destruct (step_log s e) as [l [E _]]. unfold got in *. rewrite E, !in_app_iff. tauto. Qed.

  Lemma race_step : forall i j s e, i <> j -> (forall p, e = XSpawn p -> harmless p) -> Race i j s -> Race i j (xstep s e).
  Proof.
    intros i j s e Hij He R. destruct e as [p|k].
    - (* a new request *)
      assert (Ei : nth_error (x_th s ++ [p]) i = nth_error (x_th s) i).
      { apply nth_error_app1. apply nth_error_Some. pose proof (R_pub i j s R). destruct (nth_error (x_th s) i); [discriminate|contradiction]. }
      assert (Ej : nth_error (x_th s ++ [p]) j = nth_error (x_th s) j).
      { apply nth_error_app1. apply nth_error_Some. pose proof (R_sub i j s R). destruct (nth_error (x_th s) j); [discriminate|contradiction]. }
      cbn [PubSubConcModel.xstep]. constructor; cbn [x_sh x_th]; unfold is_pub0; cbn [x_th]; rewrite ?Ei, ?Ej; try apply R.
      intros k q H1 H2 H3. destruct (Nat.lt_ge_cases k (length (x_th s))) as [Hk|Hk].
      + rewrite nth_error_app1 in H3 by auto. eapply R; eauto.
      + rewrite nth_error_app2 in H3 by auto. destruct (k - length (x_th s))%nat as [|m]; cbn in H3; [|destruct m; discriminate]. injection H3 as <-. apply He. auto.
    - pose proof (got_mono i j s (XRun k)) as GM. cbn [PubSubConcModel.xstep] in *. destruct (nth_error (x_th s) k) as [p|] eqn:Ek; [|exact R].
      assert (M : mine p).
      { destruct (Nat.eq_dec k i) as [->|Hki]; [|destruct (Nat.eq_dec k j) as [->|Hkj]].
        - pose proof (R_pub i j s R) as X. rewrite Ek in X. destruct p; try contradiction; unfold mine; cbn [harmless]; try tauto.
        - pose proof (R_sub i j s R) as X. rewrite Ek in X. destruct p; try contradiction; left; exact Logic.I.
        - left. eapply R; eauto. }
      destruct (exec_keep k p (x_sh s) M (R_reg i j s R) (R_open i j s R)) as [K Hh].
      destruct (exec1 k p (x_sh s)) as [sh p'] eqn:Ex. cbn [fst snd] in K, Hh.
      assert (Ho : forall m q, m <> i -> m <> j -> nth_error (setn k p' (x_th s)) m = Some q -> harmless q).
      { intros m q H1 H2 H3. destruct (Nat.eq_dec k m) as [->|Hkm]; [rewrite (setn_same _ _ _ _ _ Ek) in H3; injection H3 as <-; auto|rewrite setn_other in H3 by auto; eapply R; eauto]. }
      assert (W : wf (h_tree sh)) by (apply K, R). assert (Rg : exists ps, regget c (h_cl sh) = Some ps) by (apply K, R). assert (Op : ~ In c (h_gone sh)) by (apply K, R).
      destruct (Nat.eq_dec k i) as [->|Hki]; [|destruct (Nat.eq_dec k j) as [->|Hkj]].
      + (* the publish *)
        assert (Ei : nth_error (setn i p' (x_th s)) i = Some p') by (eapply setn_same; eauto).
        assert (Ej : nth_error (setn i p' (x_th s)) j = nth_error (x_th s) j) by (apply setn_other; auto).
        assert (T : match p' with
                    | QPub1 t' d' => t' = t /\ d' = d
                    | QPub2 t' d' _ z => t' = t /\ d' = d /\ ~ In c z
                    | QPub3 z => ~ In c z
                    | QPub4 c' _ z => c' <> c /\ ~ In c z
                    | QDone => True
                    | _ => False
                    end /\ ret_at (split t) (h_tree sh) = Some r /\
                    (nth_error (x_th s) j = Some QDone -> match p' with QPub1 _ _ => True | QPub2 _ _ todo _ => In c todo \/ got i j (mkX sh (setn i p' (x_th s))) | _ => got i j (mkX sh (setn i p' (x_th s))) end)).
        { pose proof (R_pub i j s R) as X. rewrite Ek in X. pose proof (R_got i j s R) as G. rewrite Ek in G. pose proof (R_ret i j s R) as Y.
          assert (Y' : (forall t' d' rt ttl' n, p <> QPub0 t' d' rt ttl' n) -> ret_at (split t) (h_tree (x_sh s)) = Some r).
          { intro H. apply Y. intros [q [E1 E2]]. rewrite Ek in E1. injection E1 as <-. subst p. eapply H; eauto. }
          destruct p as [c'|c'|n|c' p n|c' p n|c' p|c' p|c'|c' ps|t' d' rt ttl' n|t' d'|t' d' todo z|z|c' ps z|]; try contradiction.
          - injection X as -> -> -> -> ->. cbn [PubSubConcModel.exec1] in Ex. destruct d as [|b d']; [destruct Hd; auto|]. rewrite Hr in Ex. injection Ex as <- <-. split; auto. split; auto.
            cbn [h_tree]. rewrite ret_at_set, leqb_split. destruct (beqb t t) eqn:E; auto. apply beqb_neq in E. congruence.
          - destruct X as [-> ->]. cbn [PubSubConcModel.exec1] in Ex. injection Ex as <- <-. split; auto. split; [apply Y'; discriminate|]. intro Hj. left. apply dedup_In. split; auto.
            apply match_in; [apply R|]. exists (split pat). split; [apply (R_in i j s R); auto|exact Hm].
          - destruct X as [-> [-> Hz]]. assert (Y2 : ret_at (split t) (h_tree (x_sh s)) = Some r) by (apply Y'; discriminate). cbn [PubSubConcModel.exec1] in Ex. destruct todo as [|c' todo].
            + injection Ex as <- <-. split; auto. split; auto. intro Hj. destruct (G Hj) as [[]|G']; apply GM; auto.
            + destruct (N.eq_dec c' c) as [->|Hn].
              * destruct (R_reg i j s R) as [ps E]. rewrite E in Ex. pose proof (R_open i j s R) as O. apply nmem_false in O. rewrite O in Ex. injection Ex as <- <-. split; auto. split; auto.
                intros _. right. left. cbn. rewrite in_app_iff. right. left. auto.
              * assert (A : sh = x_sh s \/ True) by auto. assert (Hz' : ~ In c (z ++ [c'])) by (rewrite in_app_iff; cbn; intuition).
                destruct (regget c' (h_cl (x_sh s))); [destruct (nmem c' (h_gone (x_sh s)))|]; injection Ex as <- <-; (split; [auto|split; [auto|]]); intro Hj; (destruct (G Hj) as [[H1|H1]|G']; [congruence|left; auto|right; apply GM; auto]).
          - assert (Y2 : ret_at (split t) (h_tree (x_sh s)) = Some r) by (apply Y'; discriminate). cbn [PubSubConcModel.exec1] in Ex. destruct z as [|c' z]; [injection Ex as <- <-; split; auto; split; auto; intro Hj; apply GM; auto|].
            destruct (regget c' (h_cl (x_sh s))); injection Ex as <- <-; (split; [cbn in X; intuition|split; [auto|]]); intro Hj; apply GM; auto.
          - assert (Y2 : ret_at (split t) (h_tree (x_sh s)) = Some r) by (apply Y'; discriminate). cbn [PubSubConcModel.exec1] in Ex. injection Ex as <- <-. split; [tauto|]. split; [apply K; auto|]. intro Hj. apply GM; auto.
          - assert (Y2 : ret_at (split t) (h_tree (x_sh s)) = Some r) by (apply Y'; discriminate). cbn [PubSubConcModel.exec1] in Ex. injection Ex as <- <-. split; auto. }
        destruct T as [T1 [T2 T3]]. constructor; cbn [x_sh x_th]; auto; rewrite ?Ei, ?Ej; try apply R.
        * destruct p'; try contradiction; auto.
        * intro Hj. apply K. apply (R_in i j s R). auto.
        * intro Hj. specialize (T3 Hj). destruct p'; try contradiction; auto.
      + (* the subscribe *)
        assert (Ej : nth_error (setn j p' (x_th s)) j = Some p') by (eapply setn_same; eauto).
        assert (Ei : nth_error (setn j p' (x_th s)) i = nth_error (x_th s) i) by (apply setn_other; auto).
        assert (RR : ~ is_pub0 i s -> ret_at (split t) (h_tree sh) = Some r) by (intro H; apply K, (R_ret i j s R), H).
        assert (TD : match p' with QSub0 c' q n | QSub1 c' q n => c' = c /\ q = pat /\ n = now' | QDone => True | _ => False end /\
                     (p' = QDone -> In c (subs_at (split pat) (h_tree sh)) /\
                       match nth_error (x_th s) i with
                       | Some (QPub0 _ _ _ _ _) | Some (QPub1 _ _) => True
                       | Some (QPub2 _ _ todo _) => In c todo \/ got i j (mkX sh (setn j p' (x_th s)))
                       | _ => got i j (mkX sh (setn j p' (x_th s)))
                       end)).
        { pose proof (R_sub i j s R) as X. rewrite Ek in X. destruct p as [c'|c'|n|c' p n|c' p n|c' p|c' p|c'|c' ps|t' d' rt ttl' n|t' d'|t' d' todo z|z|c' ps z|]; try contradiction.
          - destruct X as [-> [-> ->]]. cbn [PubSubConcModel.exec1] in Ex. destruct (R_reg i j s R) as [ps E]. rewrite E in Ex. injection Ex as <- <-. split; auto. discriminate.
          - destruct X as [-> [-> ->]]. cbn [PubSubConcModel.exec1] in Ex. injection Ex as <- <-. split; auto. intros _. cbn [h_tree]. split; [rewrite subs_at_insert; auto|].
            assert (GG : ~ is_pub0 i s -> got i j (mkX (mkSh (insert_sub (split pat) c (h_tree (x_sh s))) (h_cl (x_sh s)) (h_gone (x_sh s))
                (queue_to j c (retained_pushes now' pat (insert_sub (split pat) c (h_tree (x_sh s)))) (x_sh s))) (setn j QDone (x_th s)))).
            { intro H. right. cbn [x_sh h_log]. unfold queue_to. pose proof (R_open i j s R) as O. apply nmem_false in O. rewrite O. rewrite in_app_iff. right. apply in_map_iff. exists (shown_as t, d). split; auto.
              apply shown_push; [apply R|]. apply (R_ret i j s R). auto. }
            pose proof (R_pub i j s R) as X. unfold is_pub0 in GG. destruct (nth_error (x_th s) i) as [q|]; [|contradiction].
            destruct q; auto; try (apply GG; intros [q [E1 E2]]; injection E1 as <-; discriminate). right. apply GG. intros [q [E1 E2]]; injection E1 as <-; discriminate.
          - cbn [PubSubConcModel.exec1] in Ex. injection Ex as <- <-. split; auto. intros _. split; [apply (R_in i j s R); auto|]. pose proof (R_got i j s R Ek) as G.
            destruct (nth_error (x_th s) i) as [q|]; [|apply GM; auto]. destruct q; auto; try (apply GM; auto). }
        destruct TD as [T1 T2]. constructor; cbn [x_sh x_th]; auto; unfold is_pub0; cbn [x_th]; rewrite ?Ei, ?Ej; try apply R; auto.
        * intro E. injection E as ->. apply T2; auto.
        * intro E. injection E as ->. apply T2; auto.
      + (* another request *)
        assert (Ei : nth_error (setn k p' (x_th s)) i = nth_error (x_th s) i) by (apply setn_other; auto).
        assert (Ej : nth_error (setn k p' (x_th s)) j = nth_error (x_th s) j) by (apply setn_other; auto).
        constructor; cbn [x_sh x_th]; auto; unfold is_pub0; cbn [x_th]; rewrite ?Ei, ?Ej; try apply R.
        * intro H. apply K, R, H.
        * intro H. apply K, R, H.
        * intro H. pose proof (R_got i j s R H) as G. destruct (nth_error (x_th s) i) as [q|]; [|apply GM; auto]. destruct q; auto; try (apply GM; auto). destruct G; auto.
  Qed.

  (** the client is connected, and both requests start from there, with any other
      requests already running, in any order *)
  Lemma race_both : forall evs sh th, wf (h_tree sh) -> (exists ps, regget c (h_cl sh) = Some ps) -> ~ In c (h_gone sh) ->
    (forall p, In p th -> harmless p) -> (forall p, In (XSpawn p) evs -> harmless p) ->
    let i := length th in let s := xrun evs (mkX sh (th ++ [QPub0 t d true ttl now; QSub0 c pat now'])) in
    nth_error (x_th s) i = Some QDone -> nth_error (x_th s) (S i) = Some QDone -> got i (S i) s.
  Proof.
    intros evs sh th W Rg Op Ht He i s H0 H1.
    assert (E0 : nth_error (th ++ [QPub0 t d true ttl now; QSub0 c pat now']) i = Some (QPub0 t d true ttl now)) by (rewrite nth_error_app2, Nat.sub_diag; unfold i; auto).
    assert (E1 : nth_error (th ++ [QPub0 t d true ttl now; QSub0 c pat now']) (S i) = Some (QSub0 c pat now')).
    { rewrite nth_error_app2 by (unfold i; lia). replace (S i - length th)%nat with 1%nat by (unfold i; lia). auto. }
    assert (R0 : Race i (S i) (mkX sh (th ++ [QPub0 t d true ttl now; QSub0 c pat now']))).
    { constructor; cbn [x_sh x_th]; auto; rewrite ?E0, ?E1; auto; try discriminate.
      - intros k p A B Hk. destruct (Nat.lt_ge_cases k (length th)) as [L|L].
        + rewrite nth_error_app1 in Hk by auto. apply nth_error_In in Hk. auto.
        + rewrite nth_error_app2 in Hk by auto. destruct (k - length th)%nat as [|[|m]] eqn:E; [unfold i in *; lia|unfold i in *; lia|]. destruct m; discriminate.
      - intro H. destruct H. eexists. cbn [x_th]. split; [exact E0|reflexivity]. }
    assert (G : forall l s0, (forall p, In (XSpawn p) l -> harmless p) -> Race i (S i) s0 -> Race i (S i) (xrun l s0)).
    { induction l as [|e l IH]; intros s0 Hl R; auto. cbn. apply IH; [intros; apply Hl; right; auto|]. apply race_step; auto. intros p ->. apply Hl. left; auto. }
    pose proof (R_got i (S i) s (G evs _ He R0) H1) as X. rewrite H0 in X. exact X.
  Qed.
End P.
