(** Facts about the collection of queues. *)
From Verif Require Import LibBase LibMap QueueModel QueueObs QueueMgrModel QueueFacts QueueFacts2.

Definition op_name (o : qmop) : bytes :=
  match o with
  | QMCreate n _ _ | QMDelete n | QMExists n | QMOp n _ | QMPeek n _ _ | QMList n _ _ _ _ | QMStats n => n
  end.
(** reading requests never change anything *)
Definition reads (o : qmop) : bool :=
  match o with QMExists _ | QMPeek _ _ _ | QMList _ _ _ _ _ | QMStats _ => true | _ => false end.

Lemma qm_other : forall dvt dmax s o n, op_name o <> n -> qm_get n (fst (qm_step dvt dmax s o)) = qm_get n s.
Proof.
  intros dvt dmax s o n H. unfold qm_get in *. destruct o as [x v m|x|x|x q|x a b|x a b c f|x]; cbn [op_name] in H; cbn [qm_step]; unfold qm_get.
  - destruct (aget beqb x s); auto. cbn [fst]. apply (aget_aset_other beqb beqb_eq); congruence.
  - cbn [fst]. apply (aget_adel_other beqb beqb_eq); congruence.
  - reflexivity.
  - destruct (aget beqb x s) as [[cfg i]|]; auto. cbn [fst]. apply (aget_aset_other beqb beqb_eq); congruence.
  - destruct (aget beqb x s) as [[cfg i]|]; auto.
  - destruct (aget beqb x s) as [[cfg i]|]; reflexivity.
  - destruct (aget beqb x s) as [[cfg i]|]; reflexivity.
Qed.
Lemma qm_local : forall dvt dmax s s' o, qm_get (op_name o) s = qm_get (op_name o) s' ->
  qm_out dvt dmax s o = qm_out dvt dmax s' o /\
  qm_get (op_name o) (fst (qm_step dvt dmax s o)) = qm_get (op_name o) (fst (qm_step dvt dmax s' o)).
Proof.
  intros dvt dmax s s' o H. unfold qm_out, qm_get in *.
  destruct o as [x v m|x|x|x q|x a b|x a b c f|x]; cbn [op_name] in H; cbn [qm_step op_name]; unfold qm_get; rewrite ?H; auto.
  - destruct (aget beqb x s') as [[cfg i]|] eqn:E; cbn [fst snd]; rewrite ?(aget_aset_same beqb beqb_eq), ?H, ?E; auto.
  - cbn [fst snd]. split; auto. rewrite !(aget_adel_same beqb); auto.
  - destruct (aget beqb x s') as [[cfg i]|] eqn:E; cbn [fst snd]; rewrite ?(aget_aset_same beqb beqb_eq), ?H, ?E; auto.
  - destruct (aget beqb x s') as [[cfg i]|] eqn:E; [destruct (dlq_peek a b (i_dlq i)) as [t l]|]; cbn [fst snd]; rewrite H, E; auto.
  - destruct (aget beqb x s') as [[cfg i]|] eqn:E; [destruct (get_messages a b c f (i_state i)) as [t l]|]; cbn [fst snd]; rewrite H, E; auto.
  - destruct (aget beqb x s') as [[cfg i]|] eqn:E; [destruct (get_counters (i_state i)) as [t l]|]; cbn [fst snd]; rewrite H, E; auto.
Qed.
Lemma qm_run_local : forall dvt dmax n h s s', qm_get n s = qm_get n s' ->
  qm_get n (qm_run dvt dmax s h) = qm_get n (qm_run dvt dmax s' (filter (fun o => beqb (op_name o) n) h)).
Proof.
  intros dvt dmax n h; induction h as [|o h IH]; intros s s' H; [auto|].
  cbn [filter]. destruct (beqb (op_name o) n) eqn:E.
  - apply beqb_eq in E. subst n. apply IH. apply qm_local; auto.
  - apply IH. rewrite qm_other; auto. intro He. apply beqb_eq in He. congruence.
Qed.
Lemma queues_independent : forall dvt dmax h o,
  qm_out dvt dmax (qm_run dvt dmax [] h) o
  = qm_out dvt dmax (qm_run dvt dmax [] (filter (fun x => beqb (op_name x) (op_name o)) h)) o.
Proof. intros. apply qm_local. apply qm_run_local. reflexivity. Qed.
Lemma create_idempotent : forall dvt dmax s n vt max,
  qm_out dvt dmax s (QMExists n) = QMYes true -> qm_step dvt dmax s (QMCreate n vt max) = (s, QMOk).
Proof.
  intros dvt dmax s n vt max H. unfold qm_out in H. cbn [qm_step snd] in *. destruct (qm_get n s); auto. discriminate.
Qed.
Lemma unknown_fails : forall dvt dmax s n q, qm_out dvt dmax s (QMExists n) = QMYes false ->
  fst (qm_step dvt dmax s (QMOp n q)) = s /\
  (qm_out dvt dmax s (QMOp n q) = QMErr \/ qm_out dvt dmax s (QMOp n q) = QMRes (RMsg None) \/
   qm_out dvt dmax s (QMOp n q) = QMRes (RBool false) \/ qm_out dvt dmax s (QMOp n q) = QMRes (RExpired [] [])) /\
  (forall id p pr now, q = QoPush id p pr now -> qm_out dvt dmax s (QMOp n q) = QMErr) /\
  (forall max clk, q = QoConsume max clk -> qm_out dvt dmax s (QMOp n q) = QMErr) /\
  (forall off lim, qm_step dvt dmax s (QMPeek n off lim) = (s, QMErr)).
Proof.
  intros dvt dmax s n q H. unfold qm_out in *. cbn [qm_step snd] in *. destruct (qm_get n s); [discriminate|]. cbn [fst snd].
  split; auto. split; [destruct q; cbn [missing]; auto|]. split; [intros; subst; auto|]. split; [intros; subst; auto|]. auto.
Qed.
(** the last create/delete of the name decides *)
Fixpoint exists_spec (n : bytes) (rev_h : list qmop) : bool :=
  match rev_h with
  | [] => false
  | QMCreate x _ _ :: r => if beqb x n then true else exists_spec n r
  | QMDelete x :: r => if beqb x n then false else exists_spec n r
  | _ :: r => exists_spec n r
  end.
Lemma beqb_dec : forall a b, {a = b} + {beqb a b = false}.
Proof. intros a b. destruct (beqb a b) eqn:E; [left; apply beqb_eq; auto|right; auto]. Qed.
Lemma exists_ok : forall dvt dmax h n,
  qm_out dvt dmax (qm_run dvt dmax [] h) (QMExists n) = QMYes (exists_spec n (rev h)).
Proof.
  intros dvt dmax h n. unfold qm_out. cbn [qm_step snd]. f_equal.
  induction h as [|o h IH] using rev_ind; [reflexivity|].
  unfold qm_run in *. rewrite fold_left_app, rev_app_distr. cbn [fold_left rev app].
  set (s := fold_left (fun (s : qmgr) (o : qmop) => fst (qm_step dvt dmax s o)) h []) in *. clearbody s.
  destruct (beqb_dec (op_name o) n) as [He|He].
  - destruct o as [x v m|x|x|x q|x a b|x a b c f|x]; cbn [op_name] in He; subst x; cbn [exists_spec qm_step].
    + rewrite (proj2 (beqb_eq n n) eq_refl). unfold qm_get in *. destruct (aget beqb n s) as [v0|] eqn:E; cbn [fst]; rewrite ?E; auto.
      rewrite (aget_aset_same beqb beqb_eq); auto.
    + rewrite (proj2 (beqb_eq n n) eq_refl). unfold qm_get. cbn [fst]. rewrite (aget_adel_same beqb); auto.
    + exact IH.
    + rewrite <- IH. unfold qm_get in *. destruct (aget beqb n s) as [[cfg i]|] eqn:E; cbn [fst]; rewrite ?E; auto. rewrite (aget_aset_same beqb beqb_eq); auto.
    + rewrite <- IH. unfold qm_get in *. destruct (aget beqb n s) as [[cfg i]|] eqn:E; [destruct (dlq_peek a b (i_dlq i)) as [t l]|]; cbn [fst]; rewrite ?E; auto.
    + rewrite <- IH. unfold qm_get in *. destruct (aget beqb n s) as [[cfg i]|] eqn:E; [destruct (get_messages a b c f (i_state i)) as [t l]|]; cbn [fst]; rewrite ?E; auto.
    + rewrite <- IH. unfold qm_get in *. destruct (aget beqb n s) as [[cfg i]|] eqn:E; [destruct (get_counters (i_state i)) as [t l]|]; cbn [fst]; rewrite ?E; auto.
  - rewrite qm_other.
    + rewrite IH. destruct o; cbn [op_name] in He; cbn [exists_spec]; rewrite ?He; auto.
    + intro Hq. apply beqb_eq in Hq. congruence.
Qed.
(** a queue's life inside a manager history is a history of the single-queue model *)
Definition own_ops (n : bytes) (h : list qmop) : list qop :=
  flat_map (fun o => match o with QMOp x q => if beqb x n then [q] else [] | _ => [] end) h.
Lemma run_since_create : forall dvt dmax s n vt max h,
  qm_get n s = None -> (forall o, In o h -> o <> QMDelete n) ->
  qm_get n (qm_run dvt dmax s (QMCreate n vt max :: h)) = Some (cfg_of dvt dmax vt max, qrun (cfg_of dvt dmax vt max) inner0 (own_ops n h)).
Proof.
  intros dvt dmax s n vt max h Hn Hd. unfold qm_run. cbn [fold_left qm_step]. rewrite Hn. cbn [fst].
  set (cfg := cfg_of dvt dmax vt max).
  assert (H0 : qm_get n (aset beqb n (cfg, inner0) s) = Some (cfg, inner0)) by apply (aget_aset_same beqb beqb_eq).
  generalize dependent (aset beqb n (cfg, inner0) s). generalize inner0. clear Hn.
  induction h as [|o h IH]; intros i s' H0; [exact H0|].
  cbn [fold_left own_ops flat_map].
  assert (Hd' : forall o, In o h -> o <> QMDelete n) by (intros; apply Hd; right; auto).
  destruct (beqb_dec (op_name o) n) as [He|He].
  - destruct o as [x v m|x|x|x q|x a b|x a b c f|x]; cbn [op_name] in He; subst x; cbn [qm_step].
    + rewrite H0. apply IH; auto.
    + exfalso. apply (Hd (QMDelete n)); auto. left; auto.
    + apply IH; auto.
    + rewrite H0, (proj2 (beqb_eq n n) eq_refl). cbn [fst app]. unfold qrun. cbn [fold_left]. apply IH; auto.
      apply (aget_aset_same beqb beqb_eq).
    + rewrite H0. apply IH; auto.
    + rewrite H0. apply IH; auto.
    + rewrite H0. apply IH; auto.
  - assert (Hs : (match o with QMOp x q => if beqb x n then [q] else [] | _ => [] end) = []).
    { destruct o; auto. cbn [op_name] in He. rewrite He; auto. }
    rewrite Hs. cbn [app]. apply IH; auto. rewrite qm_other; auto. intro Hq. apply beqb_eq in Hq. congruence.
Qed.
Lemma own_answers : forall dvt dmax s n vt max h,
  qm_out dvt dmax s (QMExists n) = QMYes false -> (forall o, In o h -> o <> QMDelete n) ->
  let cfg := cfg_of dvt dmax vt max in
  let i := qrun cfg inner0 (own_ops n h) in
  let s' := qm_run dvt dmax s (QMCreate n vt max :: h) in
  (forall q, qm_out dvt dmax s' (QMOp n q) = QMRes (qouts cfg i q)) /\
  (forall off lim, qm_out dvt dmax s' (QMPeek n off lim) = QMDead (lenN (avals (i_dlq i))) (snd (dlq_peek off lim (i_dlq i)))) /\
  (forall b off lim f, let r := get_messages b off lim f (i_state i) in qm_out dvt dmax s' (QMList n b off lim f) = QMMsgs (fst r) (snd r)) /\
  qm_out dvt dmax s' (QMStats n) =
    QMStat (fst (get_counters (i_state i))) (snd (get_counters (i_state i))) (lenN (avals (i_dlq i))) cfg.
Proof.
  intros dvt dmax s n vt max h Hn Hd cfg i s'.
  assert (Hg : qm_get n s = None) by (unfold qm_out in Hn; cbn [qm_step snd] in Hn; destruct (qm_get n s); [discriminate|auto]).
  pose proof (run_since_create dvt dmax s n vt max h Hg Hd) as E. fold cfg in E. fold i in E. fold s' in E. clearbody s' i.
  assert (L : lenN (avals (i_dlq i)) = lenN (i_dlq i)) by (unfold lenN, avals; rewrite map_length; reflexivity).
  unfold qm_out. split; [|split; [|split]].
  - intro q. cbn [qm_step]. rewrite E. reflexivity.
  - intros off lim. cbn [qm_step]. rewrite E, L. reflexivity.
  - intros b off lim f. cbn [qm_step]. rewrite E. destruct (get_messages b off lim f (i_state i)); reflexivity.
  - cbn [qm_step]. rewrite E, L. destruct (get_counters (i_state i)); reflexivity.
Qed.
