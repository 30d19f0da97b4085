(** Deleting a queue: what is left when the delete returns. *)
From Verif Require Import LibBase LibMap DeleteModel DeleteProofs.

Definition qis_del (t : qtask) : bool := match t with QGot _ _ | QPut _ _ => false | _ => true end.
Definition qdeleting (s : qcat) : Prop := exists i t, In (i, t) (qc_tasks s) /\ qis_del t = true.
(** A queue is not created while a delete of the same name is under way; pushes and
    other deletes may overlap in any way. *)
Definition qapart (s : qcat) (o : qcop) : Prop := match o with QCre _ => ~ qdeleting s | _ => True end.
Fixpoint all_qapart (s : qcat) (ops : list qcop) : Prop :=
  match ops with [] => True | o :: r => qapart s o /\ all_qapart (fst (qcstep s o)) r end.

Definition has_task (s : qcat) (t : qtask) : Prop := exists i, In (i, t) (qc_tasks s).
Definition live_ok (s : qcat) (h : nat) : Prop :=
  exists x f y, nth_error (qc_insts s) h = Some x /\ qc_path s = Some f /\ nth_error (qc_files s) f = Some y /\ qf_tables y = true /\
    qi_sender x = true /\ (qi_writer x = WStart \/ qi_writer x = WOpen f).
Record qinv (s : qcat) : Prop := {
  k_busy : qdeleting s -> qc_live s = None;
  k_live : forall h, qc_live s = Some h -> live_ok s h;
  k_writer : forall h x, nth_error (qc_insts s) h = Some x -> qi_writer x <> WDone -> qc_live s = Some h \/ has_task s (QShut h) \/ has_task s (QJoin h);
  k_sender : forall h x, nth_error (qc_insts s) h = Some x -> qi_sender x = true -> qc_live s = Some h \/ has_task s (QShut h);
  k_path : qc_path s <> None -> qc_live s <> None \/ exists i t, In (i, t) (qc_tasks s) /\ qis_del t = true /\ t <> QRm2;
  k_shut : forall h, has_task s (QShut h) \/ has_task s (QJoin h) -> (h < length (qc_insts s))%nat;
  k_nd : NoDup (akeys (qc_tasks s));
  k_ids : forall i, In i (akeys (qc_tasks s)) -> i < qc_ids s
}.

Lemma qin_new s t j u : In (j, u) (qc_tasks (qtask_new t s)) <-> In (j, u) (qc_tasks s) \/ (j = qc_ids s /\ u = t).
Proof. simpl. rewrite in_app_iff. simpl. split; [intros [H|[H|[]]]; [auto|inversion H; auto]|intros [H|(-> & ->)]; auto]. Qed.
Lemma qin_set s i t j u : NoDup (akeys (qc_tasks s)) -> In (j, u) (qc_tasks (qtask_set i t s)) <-> (j = i /\ u = t) \/ (j <> i /\ In (j, u) (qc_tasks s)).
Proof. intro H. simpl. apply (aset_In N.eqb N.eqb_eq). exact H. Qed.
Lemma qin_end s i j u : In (j, u) (qc_tasks (qtask_end i s)) <-> In (j, u) (qc_tasks s) /\ j <> i.
Proof. simpl. apply (adel_In N.eqb N.eqb_eq). Qed.
Lemma qtask_in i s t : qtask_of i s = Some t -> In (i, t) (qc_tasks s).
Proof. apply (aget_In N.eqb N.eqb_eq). Qed.
Lemma qkey_of (l : list (N * qtask)) i t : In (i, t) l -> In i (akeys l).
Proof. intro H. apply in_map_iff. exists (i, t). auto. Qed.
Lemma qtask_uniq s i t u : NoDup (akeys (qc_tasks s)) -> In (i, t) (qc_tasks s) -> In (i, u) (qc_tasks s) -> t = u.
Proof. intros ND H1 H2. apply (In_aget N.eqb N.eqb_eq _ _ _ ND) in H1. apply (In_aget N.eqb N.eqb_eq _ _ _ ND) in H2. congruence. Qed.

(** a state is fine if its map entry, instances, files, path and tasks are; the rest does not matter *)
Lemma new_keys s t : NoDup (akeys (qc_tasks s)) -> (forall i, In i (akeys (qc_tasks s)) -> i < qc_ids s) ->
  NoDup (akeys (qc_tasks (qtask_new t s))) /\ forall i, In i (akeys (qc_tasks (qtask_new t s))) -> i < qc_ids (qtask_new t s).
Proof.
  intros G H. split.
  - simpl. rewrite akeys_app. simpl. apply NoDup_snoc; auto. intro X. apply H in X. lia.
  - cbn [qc_tasks qc_ids qtask_new]. rewrite akeys_app. intros i HI. apply in_app_iff in HI. destruct HI as [HI|[<-|[]]]; [apply H in HI|cbn [fst]]; lia.
Qed.
Lemma set_keys s i t u : In (i, t) (qc_tasks s) -> NoDup (akeys (qc_tasks s)) -> (forall i, In i (akeys (qc_tasks s)) -> i < qc_ids s) ->
  NoDup (akeys (qc_tasks (qtask_set i u s))) /\ forall i', In i' (akeys (qc_tasks (qtask_set i u s))) -> i' < qc_ids (qtask_set i u s).
Proof.
  intros T G H. split; simpl.
  - apply (NoDup_aset N.eqb N.eqb_eq); auto.
  - intros j HJ. apply (akeys_aset_in N.eqb N.eqb_eq) in HJ. destruct HJ as [->|HJ]; auto. apply H. apply qkey_of with t. exact T.
Qed.
Lemma end_keys s i : NoDup (akeys (qc_tasks s)) -> (forall i, In i (akeys (qc_tasks s)) -> i < qc_ids s) ->
  NoDup (akeys (qc_tasks (qtask_end i s))) /\ forall i', In i' (akeys (qc_tasks (qtask_end i s))) -> i' < qc_ids (qtask_end i s).
Proof.
  intros G H. split; simpl.
  - apply (NoDup_adel N.eqb N.eqb_eq); auto.
  - intros j HJ. apply (akeys_adel_in N.eqb N.eqb_eq) in HJ. apply H. tauto.
Qed.

(** a push task comes, moves on or goes *)
Definition same_del (s s' : qcat) : Prop := forall t, qis_del t = true -> (has_task s t <-> has_task s' t).
Lemma qinv_tasks s s' : qc_live s' = qc_live s -> qc_insts s' = qc_insts s -> qc_files s' = qc_files s -> qc_path s' = qc_path s -> same_del s s' ->
  NoDup (akeys (qc_tasks s')) -> (forall i, In i (akeys (qc_tasks s')) -> i < qc_ids s') -> qinv s -> qinv s'.
Proof.
  intros EL EI EF EP SD ND ID [A B C D E F G H].
  assert (HD : forall t, qis_del t = true -> has_task s t -> has_task s' t) by (intros t X Y; apply (SD t X); exact Y).
  assert (HD' : forall t, qis_del t = true -> has_task s' t -> has_task s t) by (intros t X Y; apply (SD t X); exact Y).
  constructor; auto.
  - intros (i & t & X & Y). rewrite EL. apply A. destruct (HD' t Y (ex_intro _ i X)) as (j & Z). exists j, t. auto.
  - intros h L. rewrite EL in L. unfold live_ok. rewrite EI, EF, EP. apply B. exact L.
  - intros h x. rewrite EI, EL. intros X Y. destruct (C h x X Y) as [Z|[Z|Z]]; auto.
  - intros h x. rewrite EI, EL. intros X Y. destruct (D h x X Y) as [Z|Z]; auto.
  - rewrite EP, EL. intro X. destruct (E X) as [Z|(i & t & X1 & X2 & X3)]; auto. right. destruct (HD t X2 (ex_intro _ i X1)) as (j & Z). exists j, t. auto.
  - intros h X. rewrite EI. apply F. destruct X as [X|X]; [left|right]; apply HD'; auto.
Qed.
Lemma same_del_new s t : qis_del t = false -> same_del s (qtask_new t s).
Proof.
  intros X u Y. split; intros (i & Z).
  - exists i. apply qin_new. auto.
  - apply qin_new in Z. destruct Z as [Z|(_ & ->)]; [exists i; exact Z|congruence].
Qed.
Lemma same_del_set s i t u : NoDup (akeys (qc_tasks s)) -> In (i, t) (qc_tasks s) -> qis_del t = false -> qis_del u = false -> same_del s (qtask_set i u s).
Proof.
  intros ND T X1 X2 v Y. split; intros (j & Z).
  - exists j. apply qin_set; auto. right. split; auto. intros ->. pose proof (qtask_uniq _ _ _ _ ND T Z). congruence.
  - apply qin_set in Z; auto. destruct Z as [(_ & ->)|(_ & Z)]; [congruence|exists j; exact Z].
Qed.
Lemma same_del_end s i t : NoDup (akeys (qc_tasks s)) -> In (i, t) (qc_tasks s) -> qis_del t = false -> same_del s (qtask_end i s).
Proof.
  intros ND T X1 v Y. split; intros (j & Z).
  - exists j. apply qin_end. split; auto. intros ->. pose proof (qtask_uniq _ _ _ _ ND T Z). congruence.
  - apply qin_end in Z. exists j. tauto.
Qed.
(** an instance changes, its writer and sender as they were *)
Lemma qput_ok s h x x' : nth_error (qc_insts s) h = Some x -> qi_sender x' = qi_sender x -> qi_writer x' = qi_writer x -> qinv s -> qinv (qput h x' s).
Proof.
  intros E ES EW [A B C D F K G H]. pose proof (nth_lt _ _ _ E) as LT.
  assert (NN : forall h' y, nth_error (nset h x' (qc_insts s)) h' = Some y -> exists z, nth_error (qc_insts s) h' = Some z /\ qi_sender y = qi_sender z /\ qi_writer y = qi_writer z).
  { intros h' y X. destruct (Nat.eq_dec h h') as [<-|NE]; [rewrite nth_nset_same in X by exact LT; inversion X; subst; eauto|rewrite nth_nset_other in X by auto; eauto]. }
  constructor; auto.
  - intros h' L. destruct (B h' L) as (z & f & y & X1 & X2 & X3 & X4 & X5 & X6). unfold live_ok. cbn [qput qset_insts qc_insts qc_path qc_files].
    destruct (Nat.eq_dec h h') as [<-|NE].
    + rewrite E in X1. inversion X1; subst z. exists x', f, y. rewrite nth_nset_same by exact LT. rewrite ES, EW. repeat split; auto.
    + exists z, f, y. rewrite nth_nset_other by auto. repeat split; auto.
  - intros h' y X Y. destruct (NN _ _ X) as (z & Z1 & Z2 & Z3). rewrite Z3 in Y. apply (C h' z Z1 Y).
  - intros h' y X Y. destruct (NN _ _ X) as (z & Z1 & Z2 & Z3). rewrite Z2 in Y. apply (D h' z Z1 Y).
  - intros h' X. cbn [qput qset_insts qc_insts]. rewrite length_nset by exact LT. apply K. exact X.
Qed.
(** the writer changes; the other open handles do not matter *)
Lemma files_ok s fs : (forall h, qc_live s = Some h -> forall f y, qc_path s = Some f -> nth_error (qc_files s) f = Some y -> qf_tables y = true -> exists y', nth_error fs f = Some y' /\ qf_tables y' = true) ->
  qinv s -> qinv (qset_files fs s).
Proof.
  intros X [A B C D F K G H]. constructor; auto. intros h L. destruct (B h L) as (z & f & y & X1 & X2 & X3 & X4 & X5 & X6).
  destruct (X h L f y X2 X3 X4) as (y' & Y1 & Y2). exists z, f, y'. repeat split; auto.
Qed.

(** what opening the path and building a queue do *)
Lemma open_spec s : (forall f, qc_path s = Some f -> (f < length (qc_files s))%nat) -> let (s1, f) := open_path s in
  qc_live s1 = qc_live s /\ qc_insts s1 = qc_insts s /\ qc_conf s1 = qc_conf s /\ qc_tasks s1 = qc_tasks s /\ qc_ids s1 = qc_ids s /\
  qc_path s1 = Some f /\ (f < length (qc_files s1))%nat /\ (length (qc_files s) <= length (qc_files s1))%nat /\
  (forall g, (g < length (qc_files s))%nat -> nth_error (qc_files s1) g = nth_error (qc_files s) g) /\
  (qc_path s = Some f \/ (qc_path s = None /\ rows f s1 = [])).
Proof.
  intro P. unfold open_path. destruct (qc_path s) as [f|] eqn:E; cbn.
  - repeat split; auto.
  - rewrite app_length. cbn. repeat split; auto; try lia.
    + intros g LG. apply nth_error_app1. exact LG.
    + right. split; auto. unfold rows. cbn. rewrite nth_error_app2 by lia. rewrite Nat.sub_diag. reflexivity.
Qed.
Lemma build_spec s : (forall f, qc_path s = Some f -> (f < length (qc_files s))%nat) -> let (s1, h) := build s in
  exists f r, h = length (qc_insts s) /\ qc_insts s1 = qc_insts s ++ [mkQ r [] true WStart] /\
  qc_live s1 = qc_live s /\ qc_conf s1 = qc_conf s /\ qc_tasks s1 = qc_tasks s /\ qc_ids s1 = qc_ids s /\
  qc_path s1 = Some f /\ nth_error (qc_files s1) f = Some (mkFile true r) /\ (length (qc_files s) <= length (qc_files s1))%nat /\
  (forall g, (g < length (qc_files s))%nat -> g <> f -> nth_error (qc_files s1) g = nth_error (qc_files s) g) /\
  ((qc_path s = Some f /\ r = rows f s) \/ (qc_path s = None /\ r = [] /\ (length (qc_files s) <= f)%nat)).
Proof.
  intro P. unfold build, open_path. destruct (qc_path s) as [f|] eqn:E.
  - pose proof (P f eq_refl) as LT. cbn [qset_files qset_insts qc_files qc_insts qc_live qc_conf qc_tasks qc_ids qc_path]. exists f, (rows f s).
    assert (R : nth_error (nset f (mkFile true (rows f s)) (qc_files s)) f = Some (mkFile true (rows f s))) by (apply nth_nset_same; exact LT).
    split; auto. split; [do 3 f_equal; unfold rows at 1; cbn [qset_files qset_path qc_files]; rewrite R; reflexivity|]. repeat split; auto.
    + rewrite length_nset by exact LT. lia.
    + intros g LG NE. apply nth_nset_other; auto.
  - cbn [qset_files qset_path qset_insts qc_files qc_insts qc_live qc_conf qc_tasks qc_ids qc_path].
    set (f := length (qc_files s)). set (fs := qc_files s ++ [mkFile false []]).
    assert (LT : (f < length fs)%nat) by (unfold fs; rewrite app_length; cbn; lia).
    assert (R0 : nth_error fs f = Some (mkFile false [])) by (unfold fs, f; rewrite nth_error_app2 by lia; rewrite Nat.sub_diag; reflexivity).
    assert (R1 : rows f (qset_path (Some f) (qset_files fs s)) = []) by (unfold rows; cbn [qset_path qset_files qc_files]; rewrite R0; reflexivity).
    rewrite R1.
    assert (R : nth_error (nset f (mkFile true []) fs) f = Some (mkFile true [])) by (apply nth_nset_same; exact LT).
    exists f, []. split; auto. split; [do 3 f_equal; unfold rows at 1; cbn [qset_files qset_path qc_files]; rewrite R; reflexivity|]. repeat split; auto.
    + rewrite length_nset by exact LT. unfold fs. rewrite app_length. lia.
    + intros g LG NE. rewrite nth_nset_other by auto. unfold fs. apply nth_error_app1. exact LG.
Qed.

Lemma qinv_new : qinv qcat_new.
Proof.
  constructor; simpl; try discriminate; try contradiction; try (intros; destruct h; discriminate); try congruence.
  - intros h [(i & [])|(i & [])].
  - constructor.
Qed.

Lemma qinv_step s o : qinv s -> qapart s o -> qinv (fst (qcstep s o)).
Proof.
  intros I AP. pose proof I as [A B C D F K G H]. destruct o; cbn [qcstep].
  - (* create *)
    destruct (qc_live s) as [h0|] eqn:L; [exact I|]. cbn [qapart] in AP.
    assert (NP : qc_path s = None). { destruct (qc_path s) as [f|] eqn:P; auto. exfalso. destruct F as [X|(i & t & X & Y & _)]; [discriminate|congruence|]. apply AP. exists i, t. auto. }
    pose proof (build_spec (qset_conf (Some conf) s)) as BS. destruct (build (qset_conf (Some conf) s)) as (s1, h). destruct BS as (f & r & -> & E1 & E2 & E3 & E4 & E5 & E6 & E7 & E8 & E9 & _); [cbn; congruence|].
    cbn [qset_conf qc_insts qc_live qc_tasks qc_ids] in *. cbn [fst].
    assert (OLD : forall h x, nth_error (qc_insts s) h = Some x -> qi_writer x = WDone /\ qi_sender x = false).
    { intros h x X. split.
      - destruct (qi_writer x) eqn:W; auto; exfalso; destruct (C h x X) as [Y|[(i & Y)|(i & Y)]]; try congruence; apply AP; eexists i, _; eauto.
      - destruct (qi_sender x) eqn:W; auto; exfalso; destruct (D h x X) as [Y|(i & Y)]; try congruence; apply AP; eexists i, _; eauto. }
    assert (SD : forall t, has_task (qset_live (Some (length (qc_insts s))) s1) t <-> has_task s t) by (intro t; unfold has_task; cbn [qset_live qc_tasks]; rewrite E4; reflexivity).
    constructor; cbn [qset_live qc_live qc_path qc_tasks qc_ids].
    + intros (i & t & X & Y). exfalso. apply AP. cbn [qset_live qc_tasks] in X. rewrite E4 in X. exists i, t. auto.
    + intros h X. inversion X; subst h. exists (mkQ r [] true WStart), f, (mkFile true r). cbn [qset_live qc_insts qc_files qc_path]. rewrite E1, E6, E7.
      split; [rewrite nth_error_app2 by lia; rewrite Nat.sub_diag; reflexivity|]. repeat split; auto.
    + cbn [qset_live qc_insts]. rewrite E1. intros h x X W. destruct (Nat.lt_ge_cases h (length (qc_insts s))) as [Y|Y].
      * rewrite nth_error_app1 in X by exact Y. destruct (OLD _ _ X). contradiction.
      * left. f_equal. apply nth_lt in X. rewrite app_length in X. simpl in X. lia.
    + cbn [qset_live qc_insts]. rewrite E1. intros h x X W. destruct (Nat.lt_ge_cases h (length (qc_insts s))) as [Y|Y].
      * rewrite nth_error_app1 in X by exact Y. destruct (OLD _ _ X). congruence.
      * left. f_equal. apply nth_lt in X. rewrite app_length in X. simpl in X. lia.
    + intros _. left. discriminate.
    + intros h X. cbn [qset_live qc_insts]. rewrite E1, app_length. rewrite !SD in X. specialize (K h X). lia.
    + rewrite E4. exact G.
    + rewrite E4, E5. exact H.
  - (* push *) destruct (qc_live s) as [h|] eqn:L; [|exact I]. cbn [fst]. destruct (new_keys s (QGot h p) G H). apply (qinv_tasks s); auto. apply same_del_new. reflexivity.
  - destruct (qtask_of i s) as [[h p| | | | |]|] eqn:T; try exact I. apply qtask_in in T. destruct (nth_error (qc_insts s) h) as [x|] eqn:E; [|exact I]. cbn [fst].
    set (x' := mkQ _ _ _ _). pose proof (qput_ok s h x x' E eq_refl eq_refl I) as I1. destruct (set_keys s i _ (QPut h p) T G H).
    apply (qinv_tasks (qput h x' s)); auto. apply (same_del_set (qput h x' s) i (QGot h p)); auto.
  - destruct (qtask_of i s) as [[|h p| | | |]|] eqn:T; try exact I. apply qtask_in in T. destruct (nth_error (qc_insts s) h) as [x|] eqn:E; [|exact I]. cbn [fst].
    destruct (end_keys s i G H).
    destruct (qi_sender x) eqn:S.
    + set (x' := mkQ _ _ _ _). pose proof (qput_ok s h x x' E (eq_sym S) eq_refl I) as I1. apply (qinv_tasks (qput h x' s)); auto. apply (same_del_end (qput h x' s) i (QPut h p)); auto.
    + apply (qinv_tasks s); auto. apply (same_del_end s i (QPut h p)); auto.
  - (* writer opens *)
    destruct (nth_error (qc_insts s) h) as [x|] eqn:E; [|exact I]. destruct (qi_writer x) eqn:W; try exact I. pose proof (nth_lt _ _ _ E) as LT.
    assert (NN : forall g h' y, nth_error (nset h (mkQ (qi_msgs x) (qi_chan x) (qi_sender x) (WOpen g)) (qc_insts s)) h' = Some y -> exists z, nth_error (qc_insts s) h' = Some z /\ qi_sender y = qi_sender z /\ (qi_writer y <> WDone -> qi_writer z <> WDone)).
    { intros g h' y X. destruct (Nat.eq_dec h h') as [<-|NE]; [rewrite nth_nset_same in X by exact LT; inversion X; subst; exists x; rewrite W; repeat split; auto; discriminate|rewrite nth_nset_other in X by auto; eauto]. }
    unfold open_path. destruct (qc_path s) as [f|] eqn:P; cbn [fst].
    + constructor; cbn [qput qset_insts qc_live qc_insts qc_files qc_path qc_tasks qc_ids]; auto.
      * intros h' L. destruct (B h' L) as (z & f' & y & X1 & X2 & X3 & X4 & X5 & X6). rewrite P in X2. inversion X2; subst f'. unfold live_ok. cbn [qput qset_insts qc_insts qc_path qc_files].
        destruct (Nat.eq_dec h h') as [<-|NE].
        -- rewrite E in X1. inversion X1; subst z. eexists _, f, y. rewrite nth_nset_same by exact LT. repeat split; auto.
        -- exists z, f, y. rewrite nth_nset_other by auto. repeat split; auto.
      * intros h' y X Y. destruct (NN _ _ _ X) as (z & Z1 & Z2 & Z3). apply (C h' z Z1 (Z3 Y)).
      * intros h' y X Y. destruct (NN _ _ _ X) as (z & Z1 & Z2 & Z3). rewrite Z2 in Y. apply (D h' z Z1 Y).
      * intros _. apply F. congruence.
      * intros h' X. rewrite length_nset by exact LT. apply K. exact X.
    + constructor; cbn [qput qset_insts qset_path qset_files qc_live qc_insts qc_files qc_path qc_tasks qc_ids]; auto.
      * intros h' L. destruct (B h' L) as (z & f' & y & X1 & X2 & X3 & X4 & X5 & X6). congruence.
      * intros h' y X Y. destruct (NN _ _ _ X) as (z & Z1 & Z2 & Z3). apply (C h' z Z1 (Z3 Y)).
      * intros h' y X Y. destruct (NN _ _ _ X) as (z & Z1 & Z2 & Z3). rewrite Z2 in Y. apply (D h' z Z1 Y).
      * intros _. destruct (C h x E ltac:(congruence)) as [X|[(i & X)|(i & X)]].
        -- left. congruence.
        -- right. eexists i, _. split; [exact X|]. split; [reflexivity|discriminate].
        -- right. eexists i, _. split; [exact X|]. split; [reflexivity|discriminate].
      * intros h' X. rewrite length_nset by exact LT. apply K. exact X.
  - (* writer writes *)
    destruct (nth_error (qc_insts s) h) as [x|] eqn:E; [|exact I]. destruct (qi_writer x) as [|f|] eqn:W; try exact I. destruct (qi_chan x) as [|p r] eqn:Q; [exact I|]. cbn [fst].
    set (x' := mkQ _ _ _ _). pose proof (qput_ok s h x x' E eq_refl (eq_sym W) I) as I1. destruct (nth_error (qc_files s) f) as [y|] eqn:Y; [|exact I1]. destruct (qf_tables y) eqn:TB; [|exact I1].
    apply files_ok; auto. cbn [qput qset_insts qc_files qc_path qc_live]. intros h' L f' y' P Y' T'. destruct (Nat.eq_dec f f') as [<-|NE].
    + eexists. split; [apply nth_nset_same; apply (nth_lt _ _ _ Y)|reflexivity].
    + exists y'. rewrite nth_nset_other; auto. apply (nth_lt _ _ _ Y).
  - (* writer exits *)
    destruct (nth_error (qc_insts s) h) as [x|] eqn:E; [|exact I]. destruct (qi_writer x) as [|f|] eqn:W; try exact I. destruct (qi_chan x) as [|p r] eqn:Q; [|exact I]. destruct (qi_sender x) eqn:S; [exact I|]. cbn [fst].
    pose proof (nth_lt _ _ _ E) as LT. constructor; cbn [qput qset_insts qc_live qc_insts qc_files qc_path qc_tasks qc_ids]; auto.
    + intros h' L. destruct (B h' L) as (z & f' & y & X1 & X2 & X3 & X4 & X5 & X6). unfold live_ok. cbn [qput qset_insts qc_insts qc_path qc_files].
      destruct (Nat.eq_dec h h') as [<-|NE]; [congruence|]. exists z, f', y. rewrite nth_nset_other by auto. repeat split; auto.
    + intros h' y X Y. destruct (Nat.eq_dec h h') as [<-|NE]; [rewrite nth_nset_same in X by exact LT; inversion X; subst; contradiction|]. rewrite nth_nset_other in X by auto. apply (C h' y X Y).
    + intros h' y X Y. destruct (Nat.eq_dec h h') as [<-|NE]; [rewrite nth_nset_same in X by exact LT; inversion X; subst; discriminate|]. rewrite nth_nset_other in X by auto. apply (D h' y X Y).
    + intros h' X. rewrite length_nset by exact LT. apply K. exact X.
  - (* delete *)
    destruct (qc_live s) as [h|] eqn:L; cbn [fst].
    + set (s1 := qset_live None s). destruct (new_keys s1 (QShut h) G H) as (G' & H').
      assert (HN : has_task (qtask_new (QShut h) s1) (QShut h)) by (exists (qc_ids s); apply qin_new; auto).
      constructor; auto.
      * intros h' X. discriminate.
      * intros h' y X Y. right. destruct (C h' y X Y) as [Z|[(i & Z)|(i & Z)]]; [left; inversion Z; subst; exact HN|left; exists i; apply qin_new; auto|right; exists i; apply qin_new; auto].
      * intros h' y X Y. right. destruct (D h' y X Y) as [Z|(i & Z)]; [inversion Z; subst; exact HN|exists i; apply qin_new; auto].
      * intros _. right. destruct HN as (i & HN). exists i, (QShut h). split; [exact HN|]. split; [reflexivity|discriminate].
      * intros h' X. cbn [qtask_new qset_live s1 qc_insts]. destruct (B h eq_refl) as (z & _ & _ & Z & _). apply nth_lt in Z.
        destruct X as [(i & X)|(i & X)]; apply qin_new in X; destruct X as [X|(_ & X)]; try (inversion X; subst; exact Z); apply K; [left|right]; exists i; exact X.
    + destruct (new_keys s QRm G H) as (G' & H'). constructor; auto.
      * intros h X. cbn [qtask_new qc_live] in X. congruence.
      * intros h' y X Y. right. destruct (C h' y X Y) as [Z|[(i & Z)|(i & Z)]]; [discriminate|left; exists i; apply qin_new; auto|right; exists i; apply qin_new; auto].
      * intros h' y X Y. right. destruct (D h' y X Y) as [Z|(i & Z)]; [discriminate|exists i; apply qin_new; auto].
      * intros _. right. exists (qc_ids s), QRm. split; [apply qin_new; auto|]. split; [reflexivity|discriminate].
      * intros h' X. apply K. destruct X as [(i & X)|(i & X)]; apply qin_new in X; destruct X as [X|(_ & X)]; try discriminate; [left|right]; exists i; exact X.
  - destruct (qtask_of i s) as [[| |h| | |]|] eqn:T; try exact I. apply qtask_in in T. destruct (nth_error (qc_insts s) h) as [x|] eqn:E; [|exact I]. cbn [fst].
    pose proof (nth_lt _ _ _ E) as LT. set (s1 := qput h _ s). destruct (set_keys s1 i _ (QJoin h) T G H) as (G' & H').
    assert (NL : qc_live s = None) by (apply A; exists i, (QShut h); auto).
    assert (HN : has_task (qtask_set i (QJoin h) s1) (QJoin h)) by (exists i; apply qin_set; auto).
    assert (HS : forall t, t <> QShut h -> has_task s t -> has_task (qtask_set i (QJoin h) s1) t).
    { intros t NE (j & X). exists j. apply qin_set; auto. right. split; auto. intros ->. apply NE. apply (qtask_uniq s i); auto. }
    constructor; auto.
    + intros h' X. cbn [qtask_set s1 qput qset_insts qc_live] in X. congruence.
    + cbn [qtask_set s1 qput qset_insts qc_insts qc_live]. intros h' y X Y. right. destruct (Nat.eq_dec h h') as [<-|NE]; [right; exact HN|]. rewrite nth_nset_other in X by auto.
      destruct (C h' y X Y) as [Z|[Z|Z]]; [congruence|left|right]; apply HS; auto; congruence.
    + cbn [qtask_set s1 qput qset_insts qc_insts qc_live]. intros h' y X Y. right. destruct (Nat.eq_dec h h') as [<-|NE]; [rewrite nth_nset_same in X by exact LT; inversion X; subst; discriminate|]. rewrite nth_nset_other in X by auto.
      destruct (D h' y X Y) as [Z|Z]; [congruence|]. apply HS; auto. congruence.
    + intros _. right. exists i, (QJoin h). split; [apply qin_set; auto|]. split; [reflexivity|discriminate].
    + cbn [qtask_set s1 qput qset_insts qc_insts]. intros h' X. rewrite length_nset by exact LT.
      destruct X as [(j & X)|(j & X)]; apply qin_set in X; auto; destruct X as [(_ & X)|(_ & X)]; try (inversion X; subst; exact LT); apply K; [left|right]; exists j; exact X.
  - destruct (qtask_of i s) as [[| | |h| |]|] eqn:T; try exact I. apply qtask_in in T. destruct (nth_error (qc_insts s) h) as [x|] eqn:E; [|exact I]. destruct (qi_writer x) eqn:W; try exact I. cbn [fst].
    destruct (set_keys s i _ QRm T G H) as (G' & H').
    assert (NL : qc_live s = None) by (apply A; exists i, (QJoin h); auto).
    assert (HS : forall t, t <> QJoin h -> has_task s t -> has_task (qtask_set i QRm s) t).
    { intros t NE (j & X). exists j. apply qin_set; auto. right. split; auto. intros ->. apply NE. apply (qtask_uniq s i); auto. }
    constructor; auto.
    + intros h' y X Y. right. destruct (Nat.eq_dec h h') as [<-|NE]; [cbn [qtask_set qc_insts] in X; congruence|].
      destruct (C h' y X Y) as [Z|[Z|Z]]; [congruence|left|right]; apply HS; auto; congruence.
    + intros h' y X Y. right. destruct (D h' y X Y) as [Z|Z]; [congruence|]. apply HS; auto. congruence.
    + intros _. right. exists i, QRm. split; [apply qin_set; auto|]. split; [reflexivity|discriminate].
    + intros h' X. apply K. destruct X as [(j & X)|(j & X)]; apply qin_set in X; auto; destruct X as [(_ & X)|(_ & X)]; try discriminate; [left|right]; exists j; exact X.
  - destruct (qtask_of i s) as [[| | | | |]|] eqn:T; try exact I. apply qtask_in in T. cbn [fst].
    set (s1 := qset_path None s). destruct (set_keys s1 i _ QRm2 T G H) as (G' & H').
    assert (NL : qc_live s = None) by (apply A; exists i, QRm; auto).
    assert (HS : forall t, t <> QRm -> has_task s t -> has_task (qtask_set i QRm2 s1) t).
    { intros t NE (j & X). exists j. apply qin_set; auto. right. split; auto. intros ->. apply NE. apply (qtask_uniq s i); auto. }
    constructor; auto.
    + intros h' X. cbn [qtask_set s1 qset_path qc_live] in X. congruence.
    + intros h' y X Y. destruct (C h' y X Y) as [Z|[Z|Z]]; [congruence|right; left|right; right]; apply HS; auto; congruence.
    + intros h' y X Y. destruct (D h' y X Y) as [Z|Z]; [congruence|]. right. apply HS; auto. congruence.
    + intros h' X. apply K. destruct X as [(j & X)|(j & X)]; apply qin_set in X; auto; destruct X as [(_ & X)|(_ & X)]; try discriminate; [left|right]; exists j; exact X.
  - destruct (qtask_of i s) as [[| | | | |]|] eqn:T; try exact I. apply qtask_in in T. cbn [fst].
    set (s1 := qset_conf None s). destruct (end_keys s1 i G H) as (G' & H').
    assert (HS : forall t, t <> QRm2 -> has_task s t -> has_task (qtask_end i s1) t).
    { intros t NE (j & X). exists j. apply qin_end; auto. split; auto. intros ->. apply NE. apply (qtask_uniq s i); auto. }
    constructor; auto.
    + intros _. apply A. exists i, QRm2. auto.
    + intros h' y X Y. destruct (C h' y X Y) as [Z|[Z|Z]]; [left; exact Z|right; left|right; right]; apply HS; auto; congruence.
    + intros h' y X Y. destruct (D h' y X Y) as [Z|Z]; [left; exact Z|]. right. apply HS; auto. congruence.
    + intro X. destruct (F X) as [Z|(j & t & X1 & X2 & X3)]; [left; exact Z|]. right. destruct (HS t X3 (ex_intro _ j X1)) as (k & Z). exists k, t. auto.
    + intros h' X. apply K. destruct X as [(j & X)|(j & X)]; apply qin_end in X; destruct X as (X & _); [left|right]; exists j; exact X.
  - (* crash *)
    destruct (qc_path s) as [f|] eqn:P; cbn [fst].
    + set (y := match nth_error (qc_files s) f with Some y => y | None => mkFile false [] end). set (s0 := mkQCat _ _ _ _ _ _ _).
      pose proof (build_spec s0) as BS. destruct (build s0) as (s1, h). destruct BS as (f1 & r & -> & E1 & E2 & E3 & E4 & E5 & E6 & E7 & E8 & E9 & _); [intros g X; inversion X; subst; cbn; lia|].
      cbn [s0 qc_insts qc_live qc_tasks qc_ids app length] in *. cbn [fst].
      constructor; cbn [qset_live qc_live qc_path qc_tasks qc_ids]; try rewrite E4; try rewrite E5; auto.
      * intros (i & t & X & _). cbn [qset_live qc_tasks] in X. rewrite E4 in X. contradiction.
      * intros h X. inversion X; subst h. exists (mkQ r [] true WStart), f1, (mkFile true r). cbn [qset_live qc_insts qc_files qc_path]. rewrite E1, E6, E7. repeat split; auto.
      * cbn [qset_live qc_insts]. rewrite E1. intros h x X _. left. destruct h as [|h]; [reflexivity|]. destruct h; discriminate.
      * cbn [qset_live qc_insts]. rewrite E1. intros h x X _. left. destruct h as [|h]; [reflexivity|]. destruct h; discriminate.
      * intros _. left. discriminate.
      * intros h [(i & X)|(i & X)]; cbn [qset_live qc_tasks] in X; rewrite E4 in X; contradiction.
      * constructor.
      * intros i [].
    + constructor; cbn [qc_path qc_files qc_insts qc_live qc_tasks qc_ids]; auto.
      * discriminate.
      * intros h x X. destruct h; discriminate.
      * intros h x X. destruct h; discriminate.
      * intros h [(i & [])|(i & [])].
      * constructor.
      * intros i [].
Qed.
Theorem qinv_run : forall ops s, qinv s -> all_qapart s ops -> qinv (qcrun s ops).
Proof. induction ops as [|o ops IH]; intros s I A; [exact I|]. destruct A as (A1 & A2). simpl. apply IH; auto. apply qinv_step; auto. Qed.

(** Nothing left of the queue, and nothing that could bring something back. *)
Definition qdead (x : qinst) : Prop := qi_sender x = false /\ qi_writer x = WDone.
Definition qgone (s : qcat) : Prop :=
  qc_live s = None /\ qc_path s = None /\ qc_conf s = None /\ (forall h x, nth_error (qc_insts s) h = Some x -> qdead x) /\
  (forall h, ~ has_task s (QShut h)).
Theorem qdeleted_gone s o : qinv s -> snd (qcstep s o) = TODeleted -> ~ qdeleting (fst (qcstep s o)) -> qgone (fst (qcstep s o)).
Proof.
  intros I R ND. assert (I' : qinv (fst (qcstep s o))). { apply qinv_step; auto. destruct o; try exact Logic.I. cbn [qcstep] in R. destruct (qc_live s); [discriminate|]. destruct (build _); discriminate. }
  assert (CL : qc_live (fst (qcstep s o)) = None /\ qc_conf (fst (qcstep s o)) = None).
  { destruct o; cbn [qcstep] in R |- *; repeat (match type of R with context [match ?x with _ => _ end] => destruct x eqn:? end; try discriminate).
    - cbn [fst]. split; [|reflexivity]. apply (k_busy _ I). exists i, QRm2. split; [apply qtask_in; assumption|reflexivity]. }
  destruct CL as (CL & CC). destruct I' as [A B C D F K G H]. split; [exact CL|]. split.
  - destruct (qc_path (fst (qcstep s o))) as [f|]; auto. exfalso. destruct F as [X|(i & t & X & Y & _)]; [congruence|congruence|]. apply ND. exists i, t. auto.
  - split; [exact CC|]. split; [|intros h (i & X); apply ND; exists i, (QShut h); auto]. intros h x X. split.
    + destruct (qi_sender x) eqn:W; auto; exfalso; destruct (D h x X) as [Y|(i & Y)]; try congruence; apply ND; eexists i, _; eauto.
    + destruct (qi_writer x) eqn:W; auto; exfalso; destruct (C h x X) as [Y|[(i & Y)|(i & Y)]]; try congruence; apply ND; eexists i, _; eauto.
Qed.
Lemma qgone_put h x' s : qdead x' -> (h < length (qc_insts s))%nat -> (forall h x, nth_error (qc_insts s) h = Some x -> qdead x) -> forall h0 x, nth_error (nset h x' (qc_insts s)) h0 = Some x -> qdead x.
Proof. intros DX LT AD h0 x X. destruct (Nat.eq_dec h h0) as [<-|NE]; [rewrite nth_nset_same in X by exact LT; inversion X; subst; exact DX|]. rewrite nth_nset_other in X by auto. eauto. Qed.
Lemma qin_aset i t (l : list (N * qtask)) j u : In (j, u) (aset N.eqb i t l) -> In (j, u) l \/ u = t.
Proof.
  induction l as [|(k, v) l IH]; simpl; [intros [H|[]]; inversion H; auto|]. destruct (i =? k); simpl; [intros [H|H]; [inversion H; auto|auto]|].
  intros [H|H]; [inversion H; subst; auto|]. destruct (IH H); auto.
Qed.
Theorem qgone_step s o : qgone s -> (forall c, o <> QCre c) -> qgone (fst (qcstep s o)).
Proof.
  intros (G1 & G2 & G3 & G4 & G5) NC. assert (GG : qgone s) by (repeat split; auto; apply (G4 _ _ H)).
  assert (SET : forall i t, (forall h, t <> QShut h) -> forall h, ~ has_task (qtask_set i t s) (QShut h)).
  { intros i t NE h (j & X). simpl in X. apply qin_aset in X. destruct X as [X|X]; [apply (G5 h); exists j; exact X|]. apply (NE h). auto. }
  destruct o; cbn [qcstep].
  - exfalso. apply (NC conf). reflexivity.
  - rewrite G1. exact GG.
  - destruct (qtask_of i s) as [[h p| | | | |]|]; try exact GG. destruct (nth_error (qc_insts s) h) as [x|] eqn:E; [|exact GG]. cbn [fst]. split; [exact G1|]. split; [exact G2|]. split; [exact G3|]. split.
    + apply (qgone_put h _ s); auto; [apply (G4 _ _ E)|apply (nth_lt _ _ _ E)].
    + apply (SET i (QPut h p)). discriminate.
  - destruct (qtask_of i s) as [[|h p| | | |]|]; try exact GG. destruct (nth_error (qc_insts s) h) as [x|] eqn:E; [|exact GG]. cbn [fst]. destruct (G4 _ _ E) as (S1 & S2). rewrite S1. cbn iota. split; [exact G1|]. split; [exact G2|]. split; [exact G3|]. split; [exact G4|].
    intros h' (j & X). apply qin_end in X. apply (G5 h'). exists j. tauto.
  - destruct (nth_error (qc_insts s) h) as [x|] eqn:E; [|exact GG]. destruct (G4 _ _ E) as (S1 & S2). rewrite S2. exact GG.
  - destruct (nth_error (qc_insts s) h) as [x|] eqn:E; [|exact GG]. destruct (G4 _ _ E) as (S1 & S2). rewrite S2. exact GG.
  - destruct (nth_error (qc_insts s) h) as [x|] eqn:E; [|exact GG]. destruct (G4 _ _ E) as (S1 & S2). rewrite S2. exact GG.
  - rewrite G1. cbn [fst]. split; [exact G1|]. split; [exact G2|]. split; [exact G3|]. split; [exact G4|]. intros h (j & X). apply qin_new in X. destruct X as [X|(_ & X)]; [|discriminate]. apply (G5 h). exists j. exact X.
  - destruct (qtask_of i s) as [[| |h| | |]|] eqn:T; try exact GG. exfalso. apply (G5 h). exists i. apply qtask_in. exact T.
  - destruct (qtask_of i s) as [[| | |h| |]|] eqn:T; try exact GG. destruct (nth_error (qc_insts s) h) as [x|] eqn:E; [|exact GG]. destruct (qi_writer x); try exact GG. cbn [fst]. split; [exact G1|]. split; [exact G2|]. split; [exact G3|]. split; [exact G4|].
    apply (SET i QRm). discriminate.
  - destruct (qtask_of i s) as [[| | | | |]|] eqn:T; try exact GG. cbn [fst]. split; [exact G1|]. split; [reflexivity|]. split; [exact G3|]. split; [exact G4|]. apply (SET i QRm2). discriminate.
  - destruct (qtask_of i s) as [[| | | | |]|] eqn:T; try exact GG. cbn [fst]. split; [exact G1|]. split; [exact G2|]. split; [reflexivity|]. split; [exact G4|].
    intros h' (j & X). apply qin_end in X. apply (G5 h'). exists j. apply X.
  - rewrite G2. cbn [fst]. split; [reflexivity|]. split; [reflexivity|]. split; [exact G3|]. split; [intros h x X; destruct h; discriminate|]. intros h (i & []).
Qed.
Theorem qgone_run : forall ops s, qgone s -> (forall c, ~ In (QCre c) ops) -> qgone (qcrun s ops).
Proof.
  induction ops as [|o ops IH]; intros s G NC; [exact G|]. simpl. apply IH; [apply qgone_step; auto|].
  - intros c ->. apply (NC c). left. reflexivity.
  - intros c H. apply (NC c). right. exact H.
Qed.

(** ** What is stored afterwards was pushed afterwards *)
Fixpoint pushed (ops : list qcop) : list N := match ops with [] => [] | QPush p :: r => p :: pushed r | _ :: r => pushed r end.
(** Tasks and writers refer to instances and files that exist. *)
Definition holds (t : qtask) (h : nat) (p : N) : Prop := t = QGot h p \/ t = QPut h p.
(** [n] : the instances made before the delete returned; [X] : what was pushed since *)
Record qfrom (n : nat) (X : list N) (s : qcat) : Prop := {
  f_len : (n <= length (qc_insts s))%nat;
  f_old : forall h x, (h < n)%nat -> nth_error (qc_insts s) h = Some x -> qdead x;
  f_live : forall h, qc_live s = Some h -> (n <= h < length (qc_insts s))%nat;
  f_inst : forall h x, (n <= h)%nat -> nth_error (qc_insts s) h = Some x -> incl (qi_msgs x) X /\ incl (qi_chan x) X;
  f_open : forall h x f, (n <= h)%nat -> nth_error (qc_insts s) h = Some x -> qi_writer x = WOpen f -> (f < length (qc_files s))%nat /\ incl (rows f s) X;
  f_path : forall f, qc_path s = Some f -> (f < length (qc_files s))%nat /\ incl (rows f s) X;
  f_task : forall i t h p, In (i, t) (qc_tasks s) -> holds t h p -> (h < length (qc_insts s))%nat /\ ((n <= h)%nat -> In p X)
}.
Lemma qfrom_more n X Y s : incl X Y -> qfrom n X s -> qfrom n Y s.
Proof.
  intros XY [Z A B C D E F]. constructor; auto.
  - intros h x L H. destruct (C h x L H). split; eapply incl_tran; eauto.
  - intros h x f L H W. destruct (D h x f L H W). split; auto; eapply incl_tran; eauto.
  - intros f H. destruct (E f H). split; auto; eapply incl_tran; eauto.
  - intros i t h p H T. destruct (F i t h p H T). split; auto.
Qed.
(** the same for every state of a history: the push tasks hold instances that exist *)
Definition held_ok (s : qcat) : Prop :=
  (forall i t h p, In (i, t) (qc_tasks s) -> holds t h p -> (h < length (qc_insts s))%nat) /\ (forall h, qc_live s = Some h -> (h < length (qc_insts s))%nat).
Lemma qgone_from s : qgone s -> held_ok s -> qfrom (length (qc_insts s)) [] s.
Proof.
  intros (G1 & G2 & G3 & G4 & G5) (HT & HL). constructor; auto.
  - intros h x _. apply G4.
  - intros h L. congruence.
  - intros h x L H. apply nth_lt in H. lia.
  - intros h x f L H. apply nth_lt in H. lia.
  - intros f H. congruence.
  - intros i t h p H T. pose proof (HT i t h p H T). split; [assumption|lia].
Qed.
Lemma qin_adel i (l : list (N * qtask)) j u : In (j, u) (adel N.eqb i l) -> In (j, u) l.
Proof. intro H. apply (adel_In N.eqb N.eqb_eq) in H. tauto. Qed.
Lemma rows_in f g s s' : nth_error (qc_files s') g = nth_error (qc_files s) f -> rows g s' = rows f s.
Proof. intro H. unfold rows. rewrite H. reflexivity. Qed.
Lemma qfrom_end n X s i : qfrom n X s -> qfrom n X (qtask_end i s).
Proof. intros [Z A B C D E F]. constructor; auto. intros j t h p H T. apply (F j t h p); auto. apply (qin_adel i). exact H. Qed.
Lemma qfrom_set n X s i t : qfrom n X s -> (forall h p, holds t h p -> (h < length (qc_insts s))%nat /\ ((n <= h)%nat -> In p X)) -> qfrom n X (qtask_set i t s).
Proof. intros [Z A B C D E F] K. constructor; auto. intros j u h p H T. simpl in H. apply qin_aset in H. destruct H as [H| ->]; [apply (F j u h p H T)|apply K; exact T]. Qed.
Lemma qfrom_new n X s t : qfrom n X s -> (forall h p, holds t h p -> (h < length (qc_insts s))%nat /\ ((n <= h)%nat -> In p X)) -> qfrom n X (qtask_new t s).
Proof. intros [Z A B C D E F] K. constructor; auto. intros j u h p H T. apply qin_new in H. destruct H as [H|(_ & ->)]; [apply (F j u h p H T)|apply K; exact T]. Qed.
Lemma qfrom_put n X s h x x' : nth_error (qc_insts s) h = Some x -> (qdead x -> qdead x') -> ((n <= h)%nat -> incl (qi_msgs x') X /\ incl (qi_chan x') X) ->
  (forall f, (n <= h)%nat -> qi_writer x' = WOpen f -> qi_writer x = WOpen f) -> qfrom n X s -> qfrom n X (qput h x' s).
Proof.
  intros EX DD IN WR [Z A B C D E F]. pose proof (nth_lt _ _ _ EX) as LT.
  constructor; cbn [qput qset_insts qc_insts qc_live qc_path qc_tasks qc_files]; auto; try (rewrite length_nset by exact LT; auto).
  - intros h0 y L H. destruct (Nat.eq_dec h h0) as [<-|NE]; [rewrite nth_nset_same in H by exact LT; inversion H; subst; apply DD; apply (A h x); auto|]. rewrite nth_nset_other in H by auto. apply (A h0 y); auto.
  - intros h0 y L H. destruct (Nat.eq_dec h h0) as [<-|NE]; [rewrite nth_nset_same in H by exact LT; inversion H; subst; apply IN; exact L|]. rewrite nth_nset_other in H by auto. apply (C h0 y); auto.
  - intros h0 y f L H W. destruct (Nat.eq_dec h h0) as [<-|NE]; [rewrite nth_nset_same in H by exact LT; inversion H; subst; apply (D h x f L EX); apply WR; auto|]. rewrite nth_nset_other in H by auto. apply (D h0 y f L H W).
Qed.
Lemma qfrom_step n X s o : qfrom n X s -> exists n', qfrom n' (X ++ match o with QPush p => [p] | _ => [] end) (fst (qcstep s o)).
Proof.
  intro R. assert (RM : forall l, qfrom n (X ++ l) s) by (intro l; apply (qfrom_more n X); auto; intros ? ?; apply in_app_iff; auto).
  pose proof R as [Z A B C D E F]. destruct o; cbn [qcstep]; try rewrite app_nil_r.
  - destruct (qc_live s) as [h0|] eqn:L; [exists n; exact R|]. exists n.
    pose proof (build_spec (qset_conf (Some conf) s)) as BS. destruct (build (qset_conf (Some conf) s)) as (s1, h). destruct BS as (f & r & -> & E1 & E2 & E3 & E4 & E5 & E6 & E7 & E8 & E9 & E10); [intros f P; apply (E f P)|].
    cbn [qset_conf qc_insts qc_live qc_tasks qc_ids qc_path qc_files] in *. cbn [fst].
    assert (RX : incl r X) by (destruct E10 as [(P & ->)|(P & -> & _)]; [apply (E f P)|intros ? []]).
    assert (RF : rows f s1 = r) by (unfold rows; rewrite E7; reflexivity).
    constructor; cbn [qset_live qc_insts qc_live qc_path qc_tasks qc_files]; try rewrite E1; try rewrite app_length; cbn [length].
    + lia.
    + intros h x LH H. apply (A h x LH). rewrite nth_error_app1 in H by lia. exact H.
    + intros h X1. inversion X1; subst. lia.
    + intros h x LH H. destruct (Nat.lt_ge_cases h (length (qc_insts s))) as [Y|Y].
      * rewrite nth_error_app1 in H by exact Y. apply (C h x LH H).
      * pose proof (nth_lt _ _ _ H) as Y2. rewrite app_length in Y2. simpl in Y2. replace h with (length (qc_insts s)) in H by lia. rewrite nth_error_app2, Nat.sub_diag in H by lia. inversion H; subst. split; [exact RX|intros ? []].
    + intros h x g LH H W. destruct (Nat.lt_ge_cases h (length (qc_insts s))) as [Y|Y].
      * rewrite nth_error_app1 in H by exact Y. destruct (D h x g LH H W) as (D1 & D2). split; [lia|]. destruct (Nat.eq_dec g f) as [->|NE].
        -- change (incl (rows f s1) X). rewrite RF. exact RX.
        -- change (incl (rows g s1) X). rewrite (rows_in g g s s1); auto.
      * pose proof (nth_lt _ _ _ H) as Y2. rewrite app_length in Y2. simpl in Y2. replace h with (length (qc_insts s)) in H by lia. rewrite nth_error_app2, Nat.sub_diag in H by lia. inversion H; subst. discriminate.
    + intros g P. rewrite E6 in P. inversion P; subst g. split; [apply (nth_lt _ _ _ E7)|]. change (incl (rows f s1) X). rewrite RF. exact RX.
    + rewrite E4. intros i t h p H T. destruct (F i t h p H T). split; [lia|assumption].
  - destruct (qc_live s) as [h|] eqn:L; [|exists n; apply RM]. exists n. cbn [fst]. apply qfrom_new; [apply RM|]. intros h' p' [T|T]; inversion T; subst. split; [apply B; reflexivity|]. intros _. apply in_app_iff. right. left. reflexivity.
  - exists n. destruct (qtask_of i s) as [[h p| | | | |]|] eqn:T; try exact R. apply qtask_in in T. destruct (nth_error (qc_insts s) h) as [x|] eqn:EX; [|exact R]. cbn [fst].
    destruct (F i _ h p T (or_introl eq_refl)) as (F1 & F2). apply qfrom_set.
    + apply (qfrom_put n X s h x); auto. intro L. destruct (C h x L EX). simpl. split; auto. apply incl_app; auto. intros ? [<-|[]]; auto.
    + intros h' p' [W|W]; inversion W; subst. cbn [qput qset_insts qc_insts]. rewrite length_nset by exact F1. auto.
  - exists n. destruct (qtask_of i s) as [[|h p| | | |]|] eqn:T; try exact R. apply qtask_in in T. destruct (nth_error (qc_insts s) h) as [x|] eqn:EX; [|exact R]. cbn [fst].
    destruct (F i _ h p T (or_intror eq_refl)) as (F1 & F2). apply qfrom_end. destruct (qi_sender x) eqn:S; [|exact R].
    apply (qfrom_put n X s h x); auto.
    + intros (Q1 & Q2). congruence.
    + intro L. destruct (C h x L EX). simpl. split; auto. apply incl_app; auto. intros ? [<-|[]]; auto.
  - exists n. destruct (nth_error (qc_insts s) h) as [x|] eqn:EX; [|exact R]. destruct (qi_writer x) eqn:W; try exact R. pose proof (nth_lt _ _ _ EX) as LT.
    assert (LN : (n <= h)%nat) by (destruct (Nat.lt_ge_cases h n) as [Q|Q]; auto; destruct (A h x Q EX); congruence).
    pose proof (open_spec s (fun f P => proj1 (E f P))) as OS. destruct (open_path s) as (s1, f). destruct OS as (E1 & E2 & E3 & E4 & E5 & E6 & E7 & E8 & E9 & E10). cbn [fst].
    assert (RF : incl (rows f s1) X).
    { destruct E10 as [P|(_ & ->)]; [|intros ? []]. destruct (E f P) as (L1 & L2). rewrite (rows_in f f s s1); auto. }
    constructor; cbn [qput qset_insts qc_insts qc_live qc_path qc_tasks qc_files]; rewrite ?E1, ?E2, ?E4, ?E6; auto; try (rewrite length_nset by exact LT; auto).
    + intros h0 y L H. destruct (Nat.eq_dec h h0) as [<-|NE]; [lia|]. rewrite nth_nset_other in H by auto. apply (A h0 y); auto.
    + intros h0 y L H. destruct (Nat.eq_dec h h0) as [<-|NE]; [rewrite nth_nset_same in H by exact LT; inversion H; subst; apply (C h x); auto|]. rewrite nth_nset_other in H by auto. apply (C h0 y); auto.
    + intros h0 y g L H W'. destruct (Nat.eq_dec h h0) as [<-|NE].
      * rewrite nth_nset_same in H by exact LT. inversion H; subst. inversion W'; subst g. split; [exact E7|exact RF].
      * rewrite nth_nset_other in H by auto. destruct (D h0 y g L H W'). split; [lia|]. change (incl (rows g s1) X). rewrite (rows_in g g s s1); auto.
    + intros g P. inversion P; subst g. split; [exact E7|exact RF].
  - exists n. destruct (nth_error (qc_insts s) h) as [x|] eqn:EX; [|exact R]. destruct (qi_writer x) as [|f|] eqn:W; try exact R. destruct (qi_chan x) as [|p r] eqn:Q; [exact R|]. cbn [fst].
    set (s1 := qput h _ s).
    assert (R1 : qfrom n X s1).
    { apply (qfrom_put n X s h x); auto; [intros (Q1 & Q2); congruence| |intros g _ W'; cbn in W'; congruence]. intro L. destruct (C h x L EX) as (C1 & C2). rewrite Q in C2. simpl. split; auto. intros z HZ. apply C2. right. exact HZ. }
    destruct (nth_error (qc_files s) f) as [y|] eqn:Y; [|exact R1]. destruct (qf_tables y) eqn:TB; [|exact R1].
    assert (LN : (n <= h)%nat) by (destruct (Nat.lt_ge_cases h n) as [Q'|Q']; auto; destruct (A h x Q' EX); congruence).
    destruct (D h x f LN EX W) as (D1 & D2). destruct (C h x LN EX) as (C1 & C2). rewrite Q in C2.
    assert (LF : (f < length (qc_files s1))%nat) by exact D1.
    assert (RR : forall g, incl (rows g s) X -> incl (rows g (qset_files (nset f (mkFile true (qf_rows y ++ [p])) (qc_files s1)) s1)) X).
    { intros g HG. destruct (Nat.eq_dec f g) as [<-|NE].
      - unfold rows. cbn [qset_files qc_files]. rewrite nth_nset_same by exact LF. simpl. apply incl_app; [unfold rows in HG; rewrite Y in HG; exact HG|]. intros ? [<-|[]]. apply C2. left. reflexivity.
      - rewrite (rows_in g g s); auto. cbn [qset_files qc_files]. rewrite nth_nset_other by auto. reflexivity. }
    destruct R1 as [Z' A' B' C' D' E' F']. constructor; auto.
    + intros h0 x0 g L0 H0 W0. destruct (D' h0 x0 g L0 H0 W0) as (D1' & D2'). cbn [qset_files qc_files]. rewrite length_nset by exact LF. split; auto.
    + intros g P. destruct (E' g P) as (D1' & D2'). cbn [qset_files qc_files]. rewrite length_nset by exact LF. split; auto.
  - exists n. destruct (nth_error (qc_insts s) h) as [x|] eqn:EX; [|exact R]. destruct (qi_writer x) as [|f|] eqn:W; try exact R. destruct (qi_chan x) as [|p r] eqn:Q; [|exact R]. destruct (qi_sender x) eqn:S; [exact R|]. cbn [fst].
    apply (qfrom_put n X s h x); auto; [intros _; split; reflexivity| |discriminate]. intro L. destruct (C h x L EX). split; auto. intros ? [].
  - exists n. destruct (qc_live s) as [h|] eqn:L; cbn [fst]; (apply qfrom_new; [|intros h' p' [T|T]; discriminate]); [|exact R]. constructor; auto. intros h' X1. discriminate.
  - exists n. destruct (qtask_of i s) as [[| |h| | |]|] eqn:T; try exact R. destruct (nth_error (qc_insts s) h) as [x|] eqn:EX; [|exact R]. cbn [fst]. apply qfrom_set; [|intros h' p' [T'|T']; discriminate].
    apply (qfrom_put n X s h x); auto; [intros (Q1 & Q2); split; auto|intro L; apply (C h x L EX)].
  - exists n. destruct (qtask_of i s) as [[| | |h| |]|] eqn:T; try exact R. destruct (nth_error (qc_insts s) h) as [x|] eqn:EX; [|exact R]. destruct (qi_writer x); try exact R. cbn [fst]. apply qfrom_set; [exact R|intros h' p' [T'|T']; discriminate].
  - exists n. destruct (qtask_of i s) as [[| | | | |]|] eqn:T; try exact R. cbn [fst]. apply qfrom_set; [|intros h' p' [T'|T']; discriminate]. constructor; auto. intros f P. discriminate.
  - exists n. destruct (qtask_of i s) as [[| | | | |]|] eqn:T; try exact R. cbn [fst]. apply qfrom_end. constructor; auto.
  - exists 0%nat. destruct (qc_path s) as [f|] eqn:P.
    + set (y := match nth_error (qc_files s) f with Some y => y | None => mkFile false [] end). set (s0 := mkQCat _ _ _ _ _ _ _).
      assert (RY : incl (qf_rows y) X) by (destruct (E f eq_refl) as (_ & E2); unfold rows in E2; subst y; destruct (nth_error (qc_files s) f); [exact E2|intros ? []]).
      pose proof (build_spec s0) as BS. destruct (build s0) as (s1, h). destruct BS as (f1 & r & -> & E1 & E2 & E3 & E4 & E5 & E6 & E7 & E8 & E9 & E10); [intros g Q; inversion Q; subst; cbn; lia|].
      cbn [s0 qc_insts qc_live qc_tasks qc_ids qc_path app length] in *. cbn [fst].
      assert (RX : incl r X).
      { destruct E10 as [(P' & ->)|(P' & _)]; [|discriminate]. inversion P'; subst f1. unfold rows. cbn. intros z HZ. apply RY. rewrite <- (firstn_skipn keep (qf_rows y)). apply in_app_iff. left. exact HZ. }
      constructor; cbn [qset_live qc_insts qc_live qc_path qc_tasks qc_files]; try rewrite E1; try rewrite E4; cbn [length].
      * lia.
      * intros h x LH. lia.
      * intros h Q. inversion Q; subst. lia.
      * intros h x _ H. destruct h as [|h]; [inversion H; subst; split; [exact RX|intros ? []]|destruct h; discriminate].
      * intros h x g _ H W. destruct h as [|h]; [inversion H; subst; discriminate|destruct h; discriminate].
      * intros g Q. rewrite E6 in Q. inversion Q; subst g. split; [apply (nth_lt _ _ _ E7)|]. change (incl (rows f1 s1) X). unfold rows. rewrite E7. exact RX.
      * intros i t h p [].
    + cbn [fst]. constructor; cbn [qc_insts qc_live qc_path qc_tasks qc_files]; try discriminate; auto.
      * intros h x LH. lia.
      * intros h x _ H. destruct h; discriminate.
      * intros h x f _ H. destruct h; discriminate.
      * intros i t h p [].
Qed.
Theorem qfrom_run : forall ops n X s, qfrom n X s -> exists n', qfrom n' (X ++ pushed ops) (qcrun s ops).
Proof.
  induction ops as [|o ops IH]; intros n X s R; simpl; [exists n; rewrite app_nil_r; exact R|]. destruct (qfrom_step n X s o R) as (n1 & R1). destruct (IH _ _ _ R1) as (n2 & Q). exists n2.
  destruct o; simpl in *; rewrite <- ?app_assoc in Q; exact Q.
Qed.
(** [held_ok] holds of every state: take all messages for [X] *)
Lemma held_step s o : (forall f, qc_path s = Some f -> (f < length (qc_files s))%nat) -> held_ok s -> held_ok (fst (qcstep s o)) /\ (forall f, qc_path (fst (qcstep s o)) = Some f -> (f < length (qc_files (fst (qcstep s o))))%nat).
Proof.
  intros PF (HT & HL). assert (SAME : held_ok s /\ forall f, qc_path s = Some f -> (f < length (qc_files s))%nat) by (split; [split; auto|exact PF]).
  assert (ENDT : forall s i, held_ok s -> held_ok (qtask_end i s)) by (clear; intros s i (HT & HL); split; auto; intros j t h p H; apply (HT j t h p); apply (qin_adel i); exact H).
  assert (SETT : forall s i t, held_ok s -> (forall h p, holds t h p -> (h < length (qc_insts s))%nat) -> held_ok (qtask_set i t s)).
  { clear. intros s i t (HT & HL) K. split; auto. intros j u h p H T. simpl in H. apply qin_aset in H. destruct H as [H| ->]; [apply (HT j u h p H T)|apply (K h p T)]. }
  assert (NEWT : forall s t, held_ok s -> (forall h p, holds t h p -> (h < length (qc_insts s))%nat) -> held_ok (qtask_new t s)).
  { clear. intros s t (HT & HL) K. split; auto. intros j u h p H T. apply qin_new in H. destruct H as [H|(_ & ->)]; [apply (HT j u h p H T)|apply (K h p T)]. }
  assert (PUT : forall s h x x', nth_error (qc_insts s) h = Some x -> held_ok s -> held_ok (qput h x' s)).
  { clear. intros s h x x' E (HT & HL). apply nth_lt in E. split; cbn [qput qset_insts qc_insts qc_tasks qc_live]; rewrite length_nset by exact E; auto. }
  destruct o; cbn [qcstep].
  - destruct (qc_live s) as [h0|] eqn:L; [exact SAME|].
    pose proof (build_spec (qset_conf (Some conf) s) PF) as BS. destruct (build (qset_conf (Some conf) s)) as (s1, h). destruct BS as (f & r & -> & E1 & E2 & E3 & E4 & E5 & E6 & E7 & _). cbn [fst].
    cbn [qset_conf qc_insts qc_live qc_tasks qc_ids qc_path qc_files] in *. split; [split|]; cbn [qset_live qc_insts qc_live qc_tasks qc_path qc_files].
    + rewrite E4, E1, app_length. intros i t h p H T. specialize (HT i t h p H T). lia.
    + intros h X. inversion X; subst. rewrite E1, app_length. cbn [length]. lia.
    + intros g X. rewrite E6 in X. inversion X; subst. apply (nth_lt _ _ _ E7).
  - destruct (qc_live s) as [h|] eqn:L; [|exact SAME]. cbn [fst]. split; [|exact PF]. apply NEWT; [apply SAME|]. intros h' p' [T|T]; inversion T; subst. apply HL. reflexivity.
  - destruct (qtask_of i s) as [[h p| | | | |]|] eqn:T; try exact SAME. apply qtask_in in T. destruct (nth_error (qc_insts s) h) as [x|] eqn:EX; [|exact SAME]. cbn [fst]. split; [|exact PF].
    apply SETT; [apply (PUT s h x); auto; split; auto|]. intros h' p' [W|W]; inversion W; subst. cbn [qput qset_insts qc_insts]. pose proof (nth_lt _ _ _ EX). rewrite length_nset; auto.
  - destruct (qtask_of i s) as [[|h p| | | |]|] eqn:T; try exact SAME. apply qtask_in in T. destruct (nth_error (qc_insts s) h) as [x|] eqn:EX; [|exact SAME]. cbn [fst]. split.
    + apply ENDT. destruct (qi_sender x); [apply (PUT s h x); auto|]; split; auto.
    + destruct (qi_sender x); exact PF.
  - destruct (nth_error (qc_insts s) h) as [x|] eqn:EX; [|exact SAME]. destruct (qi_writer x) eqn:W; try exact SAME.
    pose proof (open_spec s PF) as OS. destruct (open_path s) as (s1, f). destruct OS as (E1 & E2 & E3 & E4 & E5 & E6 & E7 & E8 & E9 & E10). cbn [fst]. split.
    + apply (PUT s1 h x); [rewrite E2; exact EX|]. split; [rewrite E4, E2; exact HT|rewrite E1, E2; exact HL].
    + intros g P. cbn [qput qset_insts qc_path qc_files] in *. rewrite E6 in P. inversion P; subst. exact E7.
  - destruct (nth_error (qc_insts s) h) as [x|] eqn:EX; [|exact SAME]. destruct (qi_writer x) as [|f|] eqn:W; try exact SAME. destruct (qi_chan x) as [|p r] eqn:Q; [exact SAME|]. cbn [fst].
    set (x' := mkQ _ _ _ _). assert (H1 : held_ok (qput h x' s)) by (apply (PUT s h x); auto; split; auto).
    destruct (nth_error (qc_files s) f) as [y|] eqn:Y; [|split; [exact H1|exact PF]]. destruct (qf_tables y); [|split; [exact H1|exact PF]]. split; [exact H1|]. intros g P. cbn [qset_files qput qset_insts qc_path qc_files] in *. rewrite length_nset by apply (nth_lt _ _ _ Y). apply PF. exact P.
  - destruct (nth_error (qc_insts s) h) as [x|] eqn:EX; [|exact SAME]. destruct (qi_writer x) as [|f|] eqn:W; try exact SAME. destruct (qi_chan x) as [|p r] eqn:Q; [|exact SAME]. destruct (qi_sender x); [exact SAME|]. cbn [fst].
    split; [apply (PUT s h x); auto; split; auto|exact PF].
  - destruct (qc_live s) as [h|] eqn:L; cbn [fst]; (split; [apply NEWT; [|intros h' p' [T|T]; discriminate]|exact PF]); [split; auto; intros h' X; discriminate|apply SAME].
  - destruct (qtask_of i s) as [[| |h| | |]|] eqn:T; try exact SAME. destruct (nth_error (qc_insts s) h) as [x|] eqn:EX; [|exact SAME]. cbn [fst]. split; [|exact PF]. apply SETT; [apply (PUT s h x); auto; split; auto|intros h' p' [T'|T']; discriminate].
  - destruct (qtask_of i s) as [[| | |h| |]|] eqn:T; try exact SAME. destruct (nth_error (qc_insts s) h) as [x|] eqn:EX; [|exact SAME]. destruct (qi_writer x); try exact SAME. cbn [fst]. split; [|exact PF]. apply SETT; [split; auto|intros h' p' [T'|T']; discriminate].
  - destruct (qtask_of i s) as [[| | | | |]|] eqn:T; try exact SAME. cbn [fst]. split; [apply SETT; [split; auto|intros h' p' [T'|T']; discriminate]|intros f X; discriminate].
  - destruct (qtask_of i s) as [[| | | | |]|] eqn:T; try exact SAME. cbn [fst]. split; [apply ENDT; split; auto|exact PF].
  - destruct (qc_path s) as [f|] eqn:P.
    + set (y := match nth_error (qc_files s) f with Some y => y | None => mkFile false [] end). set (s0 := mkQCat _ _ _ _ _ _ _).
      pose proof (build_spec s0) as BS. destruct (build s0) as (s1, h). destruct BS as (f1 & r & -> & E1 & E2 & E3 & E4 & E5 & E6 & E7 & E8 & E9 & E10); [intros g Q; inversion Q; subst; cbn; lia|].
      cbn [s0 qc_insts qc_live qc_tasks qc_ids qc_path app length] in *. cbn [fst]. split; [split|]; cbn [qset_live qc_insts qc_live qc_tasks qc_path qc_files]; try rewrite E4; try rewrite E1.
      * intros i t h p [].
      * intros h X. inversion X; subst. cbn. lia.
      * intros g X. rewrite E6 in X. inversion X; subst. apply (nth_lt _ _ _ E7).
    + cbn [fst]. split; [split|]; cbn [qc_insts qc_live qc_tasks qc_path qc_files]; try discriminate. intros i t h p [].
Qed.
Lemma held_run : forall ops s, (forall f, qc_path s = Some f -> (f < length (qc_files s))%nat) -> held_ok s -> held_ok (qcrun s ops).
Proof. induction ops as [|o ops IH]; intros s PF H; [exact H|]. simpl. destruct (held_step s o PF H). apply IH; auto. Qed.
