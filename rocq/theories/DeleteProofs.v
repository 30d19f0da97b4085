(** Deleting a stream topic: what is left when the delete returns. *)
From Verif Require Import LibBase LibMap DeleteModel.

Lemma nth_nset_same {A} i (x : A) l : (i < length l)%nat -> nth_error (nset i x l) i = Some x.
Proof. intro H. unfold nset. rewrite nth_error_app2 by (rewrite firstn_length; lia). rewrite firstn_length. replace (i - Nat.min i (length l))%nat with 0%nat by lia. reflexivity. Qed.
Lemma nth_nset_other {A} i j (x : A) l : i <> j -> (i < length l)%nat -> nth_error (nset i x l) j = nth_error l j.
Proof.
  revert i j. induction l as [|y l IH]; intros i j NE H; simpl in H; [lia|]. unfold nset. destruct i, j; simpl; auto; [lia|].
  change (firstn i l ++ x :: skipn (S i) l) with (nset i x l). apply IH; lia.
Qed.
Lemma length_nset {A} i (x : A) l : (i < length l)%nat -> length (nset i x l) = length l.
Proof. intro H. unfold nset. rewrite app_length, firstn_length. cbn [length]. rewrite skipn_length. lia. Qed.
Lemma nth_lt {A} (l : list A) i x : nth_error l i = Some x -> (i < length l)%nat.
Proof. intro H. apply nth_error_Some. congruence. Qed.

Definition is_del (t : ttask) : bool := match t with DMeta | DSend | DWait => true | _ => false end.
Definition deleting (s : tcat) : Prop := exists i t, In (i, t) (tc_tasks s) /\ is_del t = true.
(** Deletes do not overlap with publishes, group saves and creates of the name: a delete
    starts when none is under way, and none of these starts (creates) or can start (the
    others) before it has returned. *)
Definition apart (s : tcat) (o : tcop) : Prop :=
  match o with
  | TDel => Forall (fun e => is_del (snd e) = true) (tc_tasks s)
  | TCre _ => ~ deleting s
  | _ => True
  end.
Fixpoint all_apart (s : tcat) (ops : list tcop) : Prop :=
  match ops with [] => True | o :: r => apart s o /\ all_apart (fst (tcstep s o)) r end.

Definition is_drop (c : tcmd) : bool := match c with TCDrop _ => true | _ => false end.
(** Nothing left of the topic. *)
Definition gone (s : tcat) : Prop :=
  tc_live s = None /\ tc_dir s = None /\ Forall (fun e => is_del (snd e) = true) (tc_tasks s) /\ Forall (fun c => is_drop c = true) (tc_chan s).

Definition has_conf (s : tcat) (c : N) : Prop := exists d, tc_dir s = Some d /\ dr_conf d = Some c.
Definition inst_conf (s : tcat) (h : nat) : Prop := exists x, nth_error (tc_insts s) h = Some x /\ has_conf s (ti_conf x).
Definition task_ok (s : tcat) (t : ttask) : Prop :=
  match t with
  | PGot _ _ | PSend _ _ | PSave _ => tc_dir s <> None
  | C2 c => has_conf s c
  | C3 h => inst_conf s h
  | _ => True
  end.
Record tinv (s : tcat) : Prop := {
  v_busy : deleting s -> tc_live s = None /\ forall i t, In (i, t) (tc_tasks s) -> is_del t = true;
  v_chan : exists pre ids, tc_chan s = pre ++ map TCDrop ids /\ Forall (fun c => is_drop c = false) pre /\ NoDup ids /\ forall i, In i ids -> In (i, DWait) (tc_tasks s);
  v_dir : forall c, In c (tc_chan s) -> is_drop c = false -> tc_dir s <> None;
  v_task : forall i t, In (i, t) (tc_tasks s) -> task_ok s t;
  v_conf : forall d, tc_dir s = Some d -> dr_conf d <> None;
  v_live : forall h, tc_live s = Some h -> inst_conf s h;
  v_nd : NoDup (akeys (tc_tasks s));
  v_ids : forall i, In i (akeys (tc_tasks s)) -> i < tc_ids s
}.

Lemma key_of (l : list (N * ttask)) i t : In (i, t) l -> In i (akeys l).
Proof. intro H. apply in_map_iff. exists (i, t). auto. Qed.
Lemma in_new s t j u : In (j, u) (tc_tasks (task_new t s)) <-> In (j, u) (tc_tasks s) \/ (j = tc_ids s /\ u = t).
Proof. simpl. rewrite in_app_iff. simpl. split; [intros [H|[H|[]]]; [auto|inversion H; auto]|intros [H|(-> & ->)]; auto]. Qed.
Lemma in_set s i t j u : NoDup (akeys (tc_tasks s)) -> In (j, u) (tc_tasks (task_set i t s)) <-> (j = i /\ u = t) \/ (j <> i /\ In (j, u) (tc_tasks s)).
Proof. intro H. simpl. apply (aset_In N.eqb N.eqb_eq). exact H. Qed.
Lemma in_end s i j u : In (j, u) (tc_tasks (task_end i s)) <-> In (j, u) (tc_tasks s) /\ j <> i.
Proof. simpl. apply (adel_In N.eqb N.eqb_eq). Qed.
Lemma task_in i s t : task i s = Some t -> In (i, t) (tc_tasks s).
Proof. apply (aget_In N.eqb N.eqb_eq). Qed.
Lemma task_uniq s i t u : NoDup (akeys (tc_tasks s)) -> In (i, t) (tc_tasks s) -> In (i, u) (tc_tasks s) -> t = u.
Proof. intros ND H1 H2. apply (In_aget N.eqb N.eqb_eq _ _ _ ND) in H1. apply (In_aget N.eqb N.eqb_eq _ _ _ ND) in H2. congruence. Qed.

(** Changes to the tasks only *)
Lemma new_ok s t : tinv s -> task_ok s t -> (is_del t = true -> tc_live s = None /\ forall i u, In (i, u) (tc_tasks s) -> is_del u = true) ->
  (is_del t = false -> ~ deleting s) -> tinv (task_new t s).
Proof.
  intros [A (pre & ids & B1 & B2 & BN & B3) C D E F G H] OK DL ND. constructor; auto.
  - intros (i & u & HI & HU). apply in_new in HI. destruct HI as [HI|(-> & ->)].
    + destruct (A (ex_intro _ i (ex_intro _ u (conj HI HU)))) as (A1 & A2). split; [exact A1|]. intros j v HJ. apply in_new in HJ. destruct HJ as [HJ|(-> & ->)]; [eauto|].
      destruct (is_del t) eqn:X; auto. exfalso. apply (ND eq_refl). exists i, u. auto.
    + destruct (DL HU) as (A1 & A2). split; [exact A1|]. intros j v HJ. apply in_new in HJ. destruct HJ as [HJ|(-> & ->)]; [eauto|auto].
  - exists pre, ids. split; [exact B1|]. split; [exact B2|]. split; [exact BN|]. intros i HI. apply in_new. auto.
  - intros i u HI. apply in_new in HI. destruct HI as [HI|(-> & ->)]; [apply (D i u HI)|exact OK].
  - simpl. rewrite akeys_app. simpl. apply NoDup_snoc; auto. intro X. apply H in X. lia.
  - cbn [tc_tasks tc_ids task_new]. rewrite akeys_app. intros i HI. apply in_app_iff in HI. destruct HI as [HI|[<-|[]]]; [apply H in HI|cbn [fst]]; lia.
Qed.
Lemma end_ok s i t : tinv s -> In (i, t) (tc_tasks s) -> t <> DWait -> tinv (task_end i s).
Proof.
  intros [A (pre & ids & B1 & B2 & BN & B3) C D E F G H] IN NW. constructor; auto.
  - intros (j & u & HI & HU). apply in_end in HI. destruct (A (ex_intro _ j (ex_intro _ u (conj (proj1 HI) HU)))) as (A1 & A2). split; [exact A1|].
    intros k v HK. apply in_end in HK. apply (A2 k v). tauto.
  - exists pre, ids. split; [exact B1|]. split; [exact B2|]. split; [exact BN|]. intros j HJ. apply in_end. split; [auto|]. intros ->. apply NW. apply (task_uniq s i t DWait G IN). auto.
  - intros j u HI. apply in_end in HI. apply (D j u). tauto.
  - simpl. apply (NoDup_adel N.eqb N.eqb_eq). exact G.
  - simpl. intros j HJ. apply (akeys_adel_in N.eqb N.eqb_eq) in HJ. apply H. tauto.
Qed.
Lemma set_ok s i t u : tinv s -> In (i, t) (tc_tasks s) -> t <> DWait -> task_ok s u -> is_del u = is_del t -> tinv (task_set i u s).
Proof.
  intros [A (pre & ids & B1 & B2 & BN & B3) C D E F G H] IN NW OK DD. constructor; auto.
  - intros (j & v & HI & HU). apply in_set in HI; auto.
    assert (DG : deleting s). { destruct HI as [(-> & ->)|(_ & HI)]; [exists i, t; split; [auto|congruence]|exists j, v; auto]. }
    destruct (A DG) as (A1 & A2). split; [exact A1|]. intros k w HK. apply in_set in HK; auto. destruct HK as [(-> & ->)|(_ & HK)]; [rewrite DD; eauto|eauto].
  - exists pre, ids. split; [exact B1|]. split; [exact B2|]. split; [exact BN|]. intros j HJ. apply in_set; auto. right. split; [|auto]. intros ->. apply NW. apply (task_uniq s i t DWait G IN). auto.
  - intros j v HI. apply in_set in HI; auto. destruct HI as [(-> & ->)|(_ & HI)]; [exact OK|apply (D j v HI)].
  - simpl. apply (NoDup_aset N.eqb N.eqb_eq). exact G.
  - simpl. intros j HJ. apply (akeys_aset_in N.eqb N.eqb_eq) in HJ. destruct HJ as [->|HJ]; [|auto]. apply H. eapply key_of; eauto.
Qed.
(** The directory gets more, the instances keep their configuration *)
Lemma grow_ok s dir insts : tinv s -> (tc_dir s <> None -> dir <> None) -> (forall c, has_conf s c -> exists d, dir = Some d /\ dr_conf d = Some c) ->
  (forall d, dir = Some d -> dr_conf d <> None) ->
  (forall h x, nth_error (tc_insts s) h = Some x -> exists y, nth_error insts h = Some y /\ ti_conf y = ti_conf x) ->
  tinv (set_insts insts (set_dir dir s)).
Proof.
  intros [A B C D E F G H] K1 K2 K3 K4.
  assert (IC : forall h, inst_conf s h -> inst_conf (set_insts insts (set_dir dir s)) h).
  { intros h (x & X1 & X2). destruct (K4 h x X1) as (y & Y1 & Y2). exists y. split; [exact Y1|]. rewrite Y2. apply K2. exact X2. }
  constructor; auto.
  - intros c HC ND. apply K1. apply (C c HC ND).
  - intros i t HI. specialize (D i t HI). destruct t; simpl in *; auto.
    destruct D as (d & X1 & X2). apply K2. exists d. auto.
Qed.
(** One more command that is not a drop, from a task that holds the topic *)
Lemma send_ok s i t c : tinv s -> In (i, t) (tc_tasks s) -> is_del t = false -> is_drop c = false -> tc_dir s <> None -> tinv (set_chan (tc_chan s ++ [c]) s).
Proof.
  intros [A (pre & ids & B1 & B2 & BN & B3) C D E F G H] IN NDL ND DIR. constructor; auto.
  - exists (pre ++ [c]), []. simpl. rewrite app_nil_r. destruct ids as [|j ids].
    + rewrite B1. simpl. rewrite app_nil_r. split; [reflexivity|]. split; [apply Forall_app; auto|]. split; [constructor|]. intros i0 [].
    + exfalso. assert (DG : deleting s) by (exists j, DWait; split; [apply B3; left; reflexivity|reflexivity]). destruct (A DG) as (_ & A2). rewrite (A2 i t IN) in NDL. discriminate.
Qed.

Lemma tinv_new : tinv cat_new.
Proof.
  constructor; simpl; try discriminate; try contradiction.
  - intros (i & t & [] & _).
  - exists [], []. split; [reflexivity|]. split; [constructor|]. split; [constructor|]. intros i [].
  - constructor.
Qed.
Lemma mk_eta s : set_insts (tc_insts s) (set_dir (tc_dir s) s) = s.
Proof. destruct s; reflexivity. Qed.
Lemma tinv_step s o : tinv s -> apart s o -> tinv (fst (tcstep s o)).
Proof.
  intros I AP. pose proof I as [A (pre & ids & B1 & B2 & BN & B3) C D E F G H].
  assert (NB : forall h, tc_live s = Some h -> ~ deleting s) by (intros h L X; destruct (A X) as (A1 & _); congruence).
  destruct o; cbn [tcstep].
  - (* publish *) destruct (tc_live s) as [h|] eqn:L; [|exact I]. cbn [fst]. apply new_ok; auto; simpl; try discriminate.
    + destruct (F h eq_refl) as (x & _ & d & X & _). congruence.
    + intros _. apply (NB h eq_refl).
  - destruct (task i s) as [[h p| | | | | | | |]|] eqn:T; try exact I. destruct (nth_error (tc_insts s) h) as [x|] eqn:X; [|exact I]. cbn [fst]. apply task_in in T.
    match goal with |- tinv (task_set i ?u ?s1) => assert (I1 : tinv s1) end.
    { replace (set_insts _ s) with (set_insts (nset h (mkInst (ti_msgs x ++ [p]) (ti_conf x)) (tc_insts s)) (set_dir (tc_dir s) s)) by (destruct s; reflexivity).
      apply grow_ok; auto. intros h' y Y. destruct (Nat.eq_dec h h') as [<-|NE].
      - rewrite nth_nset_same by (apply (nth_lt _ _ _ X)). rewrite X in Y. inversion Y; subst. eexists. split; [reflexivity|reflexivity].
      - rewrite nth_nset_other by (auto; apply (nth_lt _ _ _ X)). eauto. }
    apply (set_ok _ i (PGot h p)); auto; [discriminate|]. apply (D _ _ T).
  - destruct (task i s) as [[| h p| | | | | | |]|] eqn:T; try exact I. cbn [fst]. apply task_in in T.
    apply (end_ok _ i (PSend h p)); [|exact T|discriminate]. apply (send_ok s i (PSend h p)); auto. apply (D _ _ T).
  - destruct (tc_live s) as [h|] eqn:L; [|exact I]. cbn [fst]. apply new_ok; auto; simpl; try discriminate.
    + destruct (F h eq_refl) as (x & _ & d & X & _). congruence.
    + intros _. apply (NB h eq_refl).
  - destruct (task i s) as [[| | h | | | | | |]|] eqn:T; try exact I. cbn [fst]. apply task_in in T.
    apply (end_ok _ i (PSave h)); [|exact T|discriminate]. apply (send_ok s i (PSave h)); auto. apply (D _ _ T).
  - (* delete *) simpl in AP. rewrite Forall_forall in AP. assert (AP' : forall i u, In (i, u) (tc_tasks s) -> is_del u = true) by (intros i u HI; apply (AP _ HI)). clear AP.
    destruct (tc_live s) as [h|] eqn:L; cbn [fst].
    + apply new_ok; simpl; auto; try discriminate. constructor; simpl; auto; try discriminate.
      exists pre, ids. auto.
    + apply new_ok; simpl; auto; discriminate.
  - destruct (task i s) as [[| | | | | | | |]|] eqn:T; try exact I. apply task_in in T. destruct (tc_dir s) eqn:DD; cbn [fst].
    + apply (set_ok _ i DMeta); auto; discriminate.
    + apply (end_ok _ i DMeta); auto. discriminate.
  - destruct (task i s) as [[| | | | | | | |]|] eqn:T; try exact I. apply task_in in T. cbn [fst].
    assert (DG : deleting s) by (exists i, DSend; auto). destruct (A DG) as (A1 & A2). constructor; simpl; auto.
    + intros _. split; [exact A1|]. intros j u HJ. apply (aset_In N.eqb N.eqb_eq) in HJ; auto. destruct HJ as [(-> & ->)|(_ & HJ)]; [reflexivity|eauto].
    + exists pre, (ids ++ [i]). rewrite B1, map_app, app_assoc. split; [reflexivity|]. split; [exact B2|]. split; [apply NoDup_snoc; [exact BN|]; intro X; pose proof (task_uniq s i DSend DWait G T (B3 i X)); discriminate|]. intros j HJ. apply (aset_In N.eqb N.eqb_eq); auto.
      apply in_app_iff in HJ. destruct HJ as [HJ|[<-|[]]]; [|auto]. right. split; [|auto]. intros ->. pose proof (task_uniq s i DSend DWait G T (B3 i HJ)). discriminate.
    + intros c HC ND. apply in_app_iff in HC. destruct HC as [HC|[<-|[]]]; [apply (C c HC ND)|discriminate].
    + intros j u HJ. apply (aset_In N.eqb N.eqb_eq) in HJ; auto. destruct HJ as [(-> & ->)|(_ & HJ)]; [exact Logic.I|]. specialize (D j u HJ). destruct u; auto.
    + apply (NoDup_aset N.eqb N.eqb_eq). exact G.
    + intros j HJ. apply (akeys_aset_in N.eqb N.eqb_eq) in HJ. destruct HJ as [->|HJ]; [|auto]. apply H. eapply key_of; eauto.
  - (* create *) destruct (tc_live s) as [h|] eqn:L; [exact I|]. cbn [fst]. apply new_ok; simpl; auto; discriminate.
  - destruct (task i s) as [[| | | | | | conf| |]|] eqn:T; try exact I. cbn [fst]. apply task_in in T.
    set (d := dir_or_new (tc_dir s)). set (conf' := conf_of (tc_dir s) conf).
    set (dir := Some (mkDir (dr_msgs d) (dr_saved d) (match dr_conf d with Some c => Some c | None => Some conf' end))).
    assert (I1 : tinv (set_dir dir s)).
    { replace (set_dir dir s) with (set_insts (tc_insts s) (set_dir dir s)) by reflexivity. apply grow_ok; auto.
      - intros _. discriminate.
      - intros c (d0 & X1 & X2). unfold dir, d. rewrite X1. simpl. rewrite X2. eauto.
      - intros d0 X. unfold dir in X. inversion X; subst; simpl. destruct (dr_conf d); discriminate.
      - eauto. }
    apply (set_ok _ i (C1 conf)); auto; [discriminate|]. simpl. exists (mkDir (dr_msgs d) (dr_saved d) (match dr_conf d with Some c => Some c | None => Some conf' end)). split; [reflexivity|].
    unfold conf', conf_of, d. simpl. destruct (tc_dir s) as [d0|]; simpl; [|reflexivity]. destruct (dr_conf d0); reflexivity.
  - destruct (task i s) as [[| | | | | | | conf|]|] eqn:T; try exact I. cbn [fst]. apply task_in in T. destruct (D _ _ T) as (d & X1 & X2). rewrite X1. cbn [dir_or_new].
    match goal with |- tinv (task_set i ?u ?s1) => assert (I1 : tinv s1) end.
    { apply grow_ok; auto; try discriminate.
      - intros c (d0 & Y1 & Y2). exists d. split; [reflexivity|]. congruence.
      - intros d0 Y. inversion Y; subst. congruence.
      - intros h x Y. exists x. split; [|reflexivity]. rewrite nth_error_app1; [exact Y|apply (nth_lt _ _ _ Y)]. }
    apply (set_ok _ i (C2 conf)); auto; [discriminate|]. simpl. exists (inst_of d conf). split; [simpl; rewrite nth_error_app2 by lia; rewrite Nat.sub_diag; reflexivity|].
    exists d. split; [reflexivity|exact X2].
  - destruct (task i s) as [[| | | | | | | |h]|] eqn:T; try exact I. cbn [fst]. apply task_in in T. destruct (tc_live s) as [h'|] eqn:L.
    + apply (end_ok _ i (C3 h)); auto. discriminate.
    + apply (end_ok _ i (C3 h)); [|exact T|discriminate].
      assert (ND : ~ deleting s) by (intro X; destruct (A X) as (_ & A2); specialize (A2 _ _ T); discriminate).
      constructor; simpl; auto.
      * intro X. exfalso. exact (ND X).
      * exists pre, ids. auto.
      * intros h0 X. inversion X; subst. apply (D _ _ T).
  - (* storage *) unfold storage_step. destruct (tc_chan s) as [|c r] eqn:EC; [exact I|]. destruct c as [p|h|d].
    + cbn [fst]. assert (DN : tc_dir s <> None) by (apply (C (TCAppend p)); [left; reflexivity|reflexivity]). simpl. destruct (tc_dir s) as [d0|] eqn:DD; [|contradiction DN; reflexivity]. cbn [dir_or_new].
      assert (I1 : tinv (set_chan r s)).
      { constructor; auto.
        - destruct pre as [|x pre]; [destruct ids; discriminate|]. simpl in B1. inversion B1; subst. inversion B2; subst. exists pre, ids. auto.
        - intros c HC ND. simpl. rewrite DD. discriminate.
        - simpl. rewrite DD. exact E. }
      replace (set_dir _ _) with (set_insts (tc_insts (set_chan r s)) (set_dir (Some (mkDir (dr_msgs d0 ++ [p]) (dr_saved d0) (dr_conf d0))) (set_chan r s))) by (destruct s; reflexivity).
      apply grow_ok; auto; try discriminate.
      * intros c (d1 & Y1 & Y2). eexists. split; [reflexivity|]. simpl in *. congruence.
      * intros d1 Y. inversion Y; subst; simpl. apply (E d0). reflexivity.
      * eauto.
    + assert (DN : tc_dir s <> None) by (apply (C (TCSave h)); [left; reflexivity|reflexivity]). simpl. destruct (tc_dir s) as [d0|] eqn:DD; [|contradiction DN; reflexivity]. cbn [fst].
      assert (I1 : tinv (set_chan r s)).
      { constructor; auto.
        - destruct pre as [|x pre]; [destruct ids; discriminate|]. simpl in B1. inversion B1; subst. inversion B2; subst. exists pre, ids. auto.
        - intros c HC ND. simpl. rewrite DD. discriminate.
        - simpl. rewrite DD. exact E. }
      replace (set_dir _ _) with (set_insts (tc_insts (set_chan r s)) (set_dir (Some (mkDir (dr_msgs d0) (Some h) (dr_conf d0))) (set_chan r s))) by (destruct s; reflexivity).
      apply grow_ok; auto; try discriminate.
      * intros c (d1 & Y1 & Y2). eexists. split; [reflexivity|]. simpl in *. congruence.
      * intros d1 Y. inversion Y; subst; simpl. apply (E d0). reflexivity.
      * eauto.
    + cbn [fst]. destruct pre as [|x pre]; [|simpl in B1; inversion B1; subst; inversion B2; discriminate]. destruct ids as [|j ids]; [discriminate|]. simpl in B1. inversion B1; subst j r.
      assert (IW : In (d, DWait) (tc_tasks s)) by (apply B3; left; reflexivity). assert (DG : deleting s) by (exists d, DWait; auto). destruct (A DG) as (A1 & A2).
      constructor; simpl; auto.
      * intros _. split; [exact A1|]. intros j u HJ. apply (adel_In N.eqb N.eqb_eq) in HJ. apply (A2 j u). tauto.
      * (* a second drop with the same id cannot be there: ids are distinct *)
        inversion BN; subst. exists [], ids. split; [reflexivity|]. split; [constructor|]. split; [assumption|].
        intros j HJ. apply (adel_In N.eqb N.eqb_eq). split; [apply B3; right; exact HJ|]. intros ->. contradiction.
      * intros c HC ND. apply in_map_iff in HC. destruct HC as (j & <- & _). discriminate.
      * intros j u HJ. apply (adel_In N.eqb N.eqb_eq) in HJ. specialize (A2 j u (proj1 HJ)). destruct u; try discriminate; exact Logic.I.
      * discriminate.
      * intros h X. rewrite A1 in X. discriminate.
      * apply (NoDup_adel N.eqb N.eqb_eq). exact G.
      * intros j HJ. apply (akeys_adel_in N.eqb N.eqb_eq) in HJ. apply H. tauto.
  - (* restart *) destruct (tc_dir s) as [d|] eqn:DD; cbn [fst].
    + constructor; simpl; try contradiction.
      * intros (i & t & [] & _).
      * exists [], []. split; [reflexivity|]. split; [constructor|]. split; [constructor|]. intros i [].
      * intros d0 X. inversion X; subst; simpl. apply (E d). reflexivity.
      * intros h X. inversion X; subst. simpl. eexists. split; [reflexivity|]. simpl. eexists. split; [reflexivity|]. simpl. destruct (dr_conf d) eqn:CD; [reflexivity|]. exfalso. apply (E d eq_refl CD).
      * constructor.
    + constructor; simpl; try contradiction; try discriminate.
      * intros (i & t & [] & _).
      * exists [], []. split; [reflexivity|]. split; [constructor|]. split; [constructor|]. intros i [].
      * constructor.
Qed.

Theorem tinv_run : forall ops s, tinv s -> all_apart s ops -> tinv (tcrun s ops).
Proof. induction ops as [|o ops IH]; intros s I A; [exact I|]. destruct A as (A1 & A2). simpl. apply IH; auto. apply tinv_step; auto. Qed.

(** A delete returns only when nothing is left. *)
Theorem deleted_gone s o : tinv s -> snd (tcstep s o) = TODeleted -> gone (fst (tcstep s o)).
Proof.
  intros [A (pre & ids & B1 & B2 & BN & B3) C D E F G H] R. destruct o; cbn [tcstep] in *.
  - destruct (tc_live s); discriminate.
  - destruct (task i s) as [[| | | | | | | |]|]; try discriminate. destruct (nth_error _ _); discriminate.
  - destruct (task i s) as [[| | | | | | | |]|]; discriminate.
  - destruct (tc_live s); discriminate.
  - destruct (task i s) as [[| | | | | | | |]|]; discriminate.
  - destruct (tc_live s); discriminate.
  - destruct (task i s) as [[| | | | | | | |]|] eqn:T; try discriminate. apply task_in in T. destruct (tc_dir s) eqn:DD; [discriminate|]. cbn [fst].
    assert (DG : deleting s) by (exists i, DMeta; auto). destruct (A DG) as (A1 & A2). split; [exact A1|]. split; [exact DD|]. split.
    + apply Forall_forall. intros (j, u) HJ. simpl. simpl in HJ. apply (adel_In N.eqb N.eqb_eq) in HJ. apply (A2 j u). tauto.
    + apply Forall_forall. intros c HC. destruct (is_drop c) eqn:X; auto. exfalso. apply (C c HC X). reflexivity.
  - destruct (task i s) as [[| | | | | | | |]|]; discriminate.
  - destruct (tc_live s); discriminate.
  - destruct (task i s) as [[| | | | | | | |]|]; discriminate.
  - destruct (task i s) as [[| | | | | | | |]|]; discriminate.
  - destruct (task i s) as [[| | | | | | | |]|]; discriminate.
  - unfold storage_step in *. destruct (tc_chan s) as [|c r] eqn:EC; [discriminate|]. destruct c as [p|h|d]; [discriminate|destruct (tc_dir (set_chan r s)); discriminate|]. cbn [fst].
    destruct pre as [|x pre]; [|simpl in B1; inversion B1; subst; inversion B2; discriminate]. destruct ids as [|j ids]; [discriminate|]. simpl in B1. inversion B1; subst j r.
    assert (DG : deleting s) by (exists d, DWait; split; [apply B3; left; reflexivity|reflexivity]). destruct (A DG) as (A1 & A2).
    split; [exact A1|]. split; [reflexivity|]. split.
    + apply Forall_forall. intros (j, u) HJ. simpl. simpl in HJ. apply (adel_In N.eqb N.eqb_eq) in HJ. apply (A2 j u). tauto.
    + simpl. apply Forall_forall. intros c HC. apply in_map_iff in HC. destruct HC as (j & <- & _). reflexivity.
  - destruct (tc_dir s); discriminate.
Qed.
(** If no other delete is under way, the state is that of a name never used. *)
Theorem gone_idle s : tinv s -> gone s -> ~ deleting s -> tc_live s = None /\ tc_dir s = None /\ tc_tasks s = [] /\ tc_chan s = [].
Proof.
  intros [A (pre & ids & B1 & B2 & BN & B3) C D E F G H] (G1 & G2 & G3 & G4) ND. split; [exact G1|]. split; [exact G2|]. split.
  - destruct (tc_tasks s) as [|(i, t) l] eqn:ET; auto. exfalso. apply ND. exists i, t. rewrite ET. split; [left; reflexivity|]. inversion G3; auto.
  - destruct pre as [|x pre].
    + destruct ids as [|j ids]; [exact B1|]. exfalso. apply ND. exists j, DWait. split; [apply B3; left; reflexivity|reflexivity].
    + exfalso. rewrite B1 in G4. simpl in G4. inversion G4; subst. inversion B2; subst. congruence.
Qed.
Lemma forall_tasks (P : N * ttask -> Prop) s : Forall P (tc_tasks s) -> forall i t, In (i, t) (tc_tasks s) -> P (i, t).
Proof. intros F i t H. rewrite Forall_forall in F. auto. Qed.
(** And it stays that way, crashes included, until the name is created again. *)
Theorem gone_step s o : gone s -> (forall c, o <> TCre c) -> gone (fst (tcstep s o)).
Proof.
  intros (G1 & G2 & G3 & G4) NC. pose proof (forall_tasks _ s G3) as G3'.
  assert (TD : forall i t, task i s = Some t -> is_del t = true) by (intros i t T; apply task_in in T; apply (G3' _ _ T)).
  assert (GG : gone s) by (split; [exact G1|split; auto]).
  destruct o; cbn [tcstep].
  - rewrite G1. exact GG.
  - destruct (task i s) as [[| | | | | | | |]|] eqn:T; try exact GG; apply TD in T; discriminate.
  - destruct (task i s) as [[| | | | | | | |]|] eqn:T; try exact GG; apply TD in T; discriminate.
  - rewrite G1. exact GG.
  - destruct (task i s) as [[| | | | | | | |]|] eqn:T; try exact GG; apply TD in T; discriminate.
  - rewrite G1. cbn [fst]. split; [exact G1|]. split; [exact G2|]. split; [|exact G4]. simpl. apply Forall_app. split; [exact G3|repeat constructor].
  - destruct (task i s) as [[| | | | | | | |]|] eqn:T; try exact GG; try (apply TD in T; discriminate). rewrite G2. cbn [fst]. split; [exact G1|]. split; [exact G2|]. split; [|exact G4].
    simpl. apply Forall_forall. intros (j, u) HJ. apply (adel_In N.eqb N.eqb_eq) in HJ. apply G3'. tauto.
  - destruct (task i s) as [[| | | | | | | |]|] eqn:T; try exact GG; try (apply TD in T; discriminate). cbn [fst]. split; [exact G1|]. split; [exact G2|]. split; simpl.
    + clear - G3. induction (tc_tasks s) as [|(j, u) l IH]; simpl; [repeat constructor|]. inversion G3; subst. destruct (i =? j); constructor; auto. 
    + apply Forall_app. split; [exact G4|repeat constructor].
  - exfalso. apply (NC conf). reflexivity.
  - destruct (task i s) as [[| | | | | | | |]|] eqn:T; try exact GG; apply TD in T; discriminate.
  - destruct (task i s) as [[| | | | | | | |]|] eqn:T; try exact GG; apply TD in T; discriminate.
  - destruct (task i s) as [[| | | | | | | |]|] eqn:T; try exact GG; apply TD in T; discriminate.
  - unfold storage_step. destruct (tc_chan s) as [|c r] eqn:EC; [exact GG|]. inversion G4; subst. destruct c; try discriminate. cbn [fst]. split; [exact G1|]. split; [reflexivity|]. split; [|assumption].
    simpl. apply Forall_forall. intros (j, u) HJ. apply (adel_In N.eqb N.eqb_eq) in HJ. apply G3'. tauto.
  - rewrite G2. cbn [fst]. split; [reflexivity|]. split; [reflexivity|]. split; constructor.
Qed.
Theorem gone_run : forall ops s, gone s -> (forall c, ~ In (TCre c) ops) -> gone (tcrun s ops).
Proof.
  induction ops as [|o ops IH]; intros s G NC; [exact G|]. simpl. apply IH; [apply gone_step; auto|].
  - intros c ->. apply (NC c). left. reflexivity.
  - intros c H. apply (NC c). right. exact H.
Qed.

(** ** What is stored afterwards was published afterwards *)
Fixpoint pubs (ops : list tcop) : list N := match ops with [] => [] | TPub p :: r => p :: pubs r | _ :: r => pubs r end.
Definition held (t : ttask) : list nat := match t with PGot h _ | PSend h _ | PSave h | C3 h => [h] | _ => [] end.
Definition carried (t : ttask) : list N := match t with PGot _ p | PSend _ p => [p] | _ => [] end.
Definition reach (s : tcat) (h : nat) : Prop := tc_live s = Some h \/ exists i t, In (i, t) (tc_tasks s) /\ In h (held t).
Record from_only (X : list N) (s : tcat) : Prop := {
  r_inst : forall h, reach s h -> exists x, nth_error (tc_insts s) h = Some x /\ incl (ti_msgs x) X;
  r_dir : forall d, tc_dir s = Some d -> incl (dr_msgs d) X;
  r_chan : forall p, In (TCAppend p) (tc_chan s) -> In p X;
  r_task : forall i t, In (i, t) (tc_tasks s) -> incl (carried t) X
}.
Lemma from_more X Y s : incl X Y -> from_only X s -> from_only Y s.
Proof.
  intros XY [A B C D]. constructor; auto.
  - intros h H. destruct (A h H) as (x & E & I). exists x. split; [exact E|]. eapply incl_tran; eauto.
  - intros d H. eapply incl_tran; eauto.
  - intros i t H. eapply incl_tran; eauto.
Qed.
Lemma gone_from s : gone s -> from_only [] s.
Proof.
  intros (G1 & G2 & G3 & G4). rewrite Forall_forall in G3, G4. constructor.
  - intros h [H|(i & t & H & HH)]; [congruence|]. specialize (G3 _ H). destruct t; try discriminate; contradiction.
  - congruence.
  - intros p H. specialize (G4 _ H). discriminate.
  - intros i t H. specialize (G3 _ H). destruct t; try discriminate; intros ? [].
Qed.
Lemma in_adel i (l : list (N * ttask)) j u : In (j, u) (adel N.eqb i l) -> In (j, u) l.
Proof. intro H. apply (adel_In N.eqb N.eqb_eq) in H. tauto. Qed.
Lemma in_aset i t (l : list (N * ttask)) j u : In (j, u) (aset N.eqb i t l) -> In (j, u) l \/ u = t.
Proof.
  induction l as [|(k, v) l IH]; simpl; [intros [H|[]]; inversion H; auto|]. destruct (i =? k); simpl; [intros [H|H]; [inversion H; auto|auto]|].
  intros [H|H]; [inversion H; subst; auto|]. destruct (IH H); auto.
Qed.
Lemma from_step X s o : from_only X s -> from_only (X ++ match o with TPub p => [p] | _ => [] end) (fst (tcstep s o)).
Proof.
  intro R. assert (RM : forall l, from_only (X ++ l) s) by (intro l; apply (from_more X); auto; intros ? ?; apply in_app_iff; auto).
  assert (END : forall s i, from_only X s -> from_only X (task_end i s)).
  { clear. intros s i [A B C D]. constructor; auto.
    - intros h [H|(j & t & H & HH)]; [apply A; left; exact H|]. apply A. right. exists j, t. split; [apply (in_adel i); exact H|exact HH].
    - intros j t H. apply (D j t). apply (in_adel i). exact H. }
  assert (SET : forall s i t, from_only X s -> incl (carried t) X -> (forall h, In h (held t) -> exists x, nth_error (tc_insts s) h = Some x /\ incl (ti_msgs x) X) -> from_only X (task_set i t s)).
  { clear. intros s i t [A B C D] K1 K2. constructor; auto.
    - intros h [H|(j & u & H & HH)]; [apply A; left; exact H|]. apply in_aset in H. destruct H as [H| ->]; [apply A; right; exists j, u; auto|auto].
    - intros j u H. apply in_aset in H. destruct H as [H| ->]; [apply (D j u H)|exact K1]. }
  assert (NEW : forall s t, from_only X s -> incl (carried t) X -> (forall h, In h (held t) -> exists x, nth_error (tc_insts s) h = Some x /\ incl (ti_msgs x) X) -> from_only X (task_new t s)).
  { clear. intros s t [A B C D] K1 K2. constructor; auto.
    - intros h [H|(j & u & H & HH)]; [apply A; left; exact H|]. apply in_new in H. destruct H as [H|(_ & ->)]; [apply A; right; exists j, u; auto|auto].
    - intros j u H. apply in_new in H. destruct H as [H|(_ & ->)]; [apply (D j u H)|exact K1]. }
  destruct o; cbn [tcstep]; try rewrite app_nil_r.
  - destruct (tc_live s) as [h|] eqn:L; [|apply RM]. cbn [fst]. destruct (RM [p]) as [A B C D]. constructor; auto.
    + intros h' [H|(j & u & H & HH)]; [apply A; left; exact H|]. apply in_new in H. destruct H as [H|(_ & ->)]; [apply A; right; exists j, u; auto|]. simpl in HH. destruct HH as [<-|[]]. apply A. left. exact L.
    + intros j u H. apply in_new in H. destruct H as [H|(_ & ->)]; [apply (D j u H)|]. simpl. intros ? [<-|[]]. apply in_app_iff. right. left. reflexivity.
  - destruct (task i s) as [[h p| | | | | | | |]|] eqn:T; try exact R. apply task_in in T. destruct (nth_error (tc_insts s) h) as [x|] eqn:E; [|exact R]. cbn [fst].
    pose proof R as [A B C D]. destruct (A h) as (x' & E' & IX); [right; exists i, (PGot h p); split; [exact T|left; reflexivity]|]. rewrite E in E'. inversion E'; subst x'.
    assert (LT := nth_lt _ _ _ E).
    assert (R1 : from_only X (set_insts (nset h (mkInst (ti_msgs x ++ [p]) (ti_conf x)) (tc_insts s)) s)).
    { constructor; auto. intros h' H. simpl. destruct (Nat.eq_dec h h') as [<-|NE].
      - rewrite nth_nset_same by exact LT. eexists. split; [reflexivity|]. simpl. apply incl_app; [exact IX|]. apply (D _ _ T).
      - rewrite nth_nset_other by auto. apply A. exact H. }
    apply SET; auto; [apply (D _ _ T)|]. intros h' [<-|[]]. apply (r_inst _ _ R1). right. exists i, (PGot h p). split; [exact T|left; reflexivity].
  - destruct (task i s) as [[| h p| | | | | | |]|] eqn:T; try exact R. apply task_in in T. cbn [fst]. apply END. destruct R as [A B C D]. constructor; auto.
    intros p' H. simpl in H. apply in_app_iff in H. destruct H as [H|[H|[]]]; [auto|]. inversion H; subst. apply (D _ _ T). left. reflexivity.
  - destruct (tc_live s) as [h|] eqn:L; [|exact R]. cbn [fst]. apply NEW; auto; [intros ? []|]. intros h' [<-|[]]. apply R. left. exact L.
  - destruct (task i s) as [[| | h | | | | | |]|] eqn:T; try exact R. cbn [fst]. apply END. destruct R as [A B C D]. constructor; auto.
    intros p' H. simpl in H. apply in_app_iff in H. destruct H as [H|[H|[]]]; [auto|discriminate].
  - destruct (tc_live s) as [h|] eqn:L; cbn [fst]; (apply NEW; [|intros ? []|intros ? []]); [|exact R]. destruct R as [A B C D]. constructor; auto.
    intros h' [H|H]; [discriminate|]. apply A. right. exact H.
  - destruct (task i s) as [[| | | | | | | |]|] eqn:T; try exact R. destruct (tc_dir s); cbn [fst]; [|apply END; exact R]. apply SET; auto; intros ? [].
  - destruct (task i s) as [[| | | | | | | |]|] eqn:T; try exact R. cbn [fst]. apply SET; [|intros ? []|intros ? []]. destruct R as [A B C D]. constructor; auto.
    intros p' H. simpl in H. apply in_app_iff in H. destruct H as [H|[H|[]]]; [auto|discriminate].
  - destruct (tc_live s) as [h|]; [exact R|]. cbn [fst]. apply NEW; auto; intros ? [].
  - destruct (task i s) as [[| | | | | | conf| |]|] eqn:T; try exact R. cbn [fst]. apply SET; [|intros ? []|intros ? []]. destruct R as [A B C D]. constructor; auto.
    intros d H. inversion H; subst; simpl. destruct (tc_dir s) as [d0|]; simpl; [apply B; reflexivity|intros ? []].
  - destruct (task i s) as [[| | | | | | | conf|]|] eqn:T; try exact R. cbn [fst]. destruct R as [A B C D].
    assert (DM : incl (dr_msgs (dir_or_new (tc_dir s))) X) by (destruct (tc_dir s) as [d0|]; simpl; [apply B; reflexivity|intros ? []]).
    apply SET; [|intros ? []|].
    + constructor; auto.
      * intros h H. destruct (A h H) as (x & E & IX). exists x. split; [|exact IX]. simpl. rewrite nth_error_app1; [exact E|apply (nth_lt _ _ _ E)].
      * intros d H. inversion H; subst. exact DM.
    + intros h [<-|[]]. exists (inst_of (dir_or_new (tc_dir s)) conf). split; [simpl; rewrite nth_error_app2 by lia; rewrite Nat.sub_diag; reflexivity|exact DM].
  - destruct (task i s) as [[| | | | | | | |h]|] eqn:T; try exact R. apply task_in in T. cbn [fst]. apply END. destruct (tc_live s); [exact R|]. destruct R as [A B C D]. constructor; auto.
    intros h' [H|H]; [|apply A; right; exact H]. simpl in H. inversion H; subst. apply A. right. exists i, (C3 h'). split; [exact T|left; reflexivity].
  - unfold storage_step. destruct (tc_chan s) as [|c r] eqn:EC; [exact R|]. pose proof R as [A B C D]. rewrite EC in C.
    assert (R1 : from_only X (set_chan r s)) by (constructor; auto; intros p H; apply C; right; exact H).
    destruct c as [p|h|d]; cbn [fst].
    + constructor; auto; [|intros p' H; apply C; right; exact H]. intros d H. inversion H; subst; simpl. apply incl_app; [destruct (tc_dir s) as [d0|]; simpl; [apply B; reflexivity|intros ? []]|].
      intros ? [<-|[]]. apply C. left. reflexivity.
    + cbn [tc_dir set_chan]. destruct (tc_dir s) as [d0|] eqn:DD; cbn [fst]; [|exact R1]. constructor; auto; [|intros p' H; apply C; right; exact H]. intros d H. inversion H; subst; simpl. apply B. reflexivity.
    + apply END. constructor; auto; [intros d' H; discriminate|intros p' H; apply C; right; exact H].
  - destruct R as [A B C D]. destruct (tc_dir s) as [d|]; cbn [fst].
    + assert (DM : incl (firstn keep (dr_msgs d)) X) by (intros p H; apply (B d eq_refl); rewrite <- (firstn_skipn keep (dr_msgs d)); apply in_app_iff; auto).
      constructor; simpl; try contradiction.
      * intros h [H|(i & t & [] & _)]. simpl in H. inversion H; subst. eexists. split; [reflexivity|exact DM].
      * intros d' H. inversion H; subst. exact DM.
    + constructor; simpl; try contradiction; try discriminate. intros h [H|(i & t & [] & _)]. discriminate.
Qed.
Theorem from_run : forall ops X s, from_only X s -> from_only (X ++ pubs ops) (tcrun s ops).
Proof.
  induction ops as [|o ops IH]; intros X s R; simpl; [rewrite app_nil_r; exact R|]. pose proof (IH _ _ (from_step X s o R)) as Q.
  destruct o; simpl in *; rewrite <- ?app_assoc in Q; exact Q.
Qed.
