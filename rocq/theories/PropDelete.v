(** C74: a deleted topic or queue stays deleted. *)
From Verif Require Import LibBase LibMap DeleteModel DeleteProofs DeleteQueueProofs.

(** * What a user sees of one name *)
(** the messages the topic (queue) hands out, [None] if it does not exist *)
Definition topic_holds (s : tcat) : option (list N) :=
  match tc_live s with Some h => match nth_error (tc_insts s) h with Some x => Some (ti_msgs x) | None => None end | None => None end.
Definition topic_conf (s : tcat) : option N :=
  match tc_live s with Some h => match nth_error (tc_insts s) h with Some x => Some (ti_conf x) | None => None end | None => None end.
Definition queue_holds (s : qcat) : option (list N) :=
  match qc_live s with Some h => match nth_error (qc_insts s) h with Some x => Some (qi_msgs x) | None => None end | None => None end.
(** the messages on disk *)
Definition topic_stored (s : tcat) : list N := match tc_dir s with Some d => dr_msgs d | None => [] end.
Definition queue_stored (s : qcat) : list N := match qc_path s with Some f => rows f s | None => [] end.

(** * Topics *)
(** [all_apart]: no publish, group save or create of the name is under way when a delete
    of it begins, and none is begun by a create before the delete returns (publishes and
    saves then find no topic). Deletes may overlap each other; the storage actor and
    crashes come anywhere.
    When a delete returns, the topic does not exist and nothing of it is on disk, now
    and after any further operations and restarts, until it is created again. Then
    everything it holds was published after the delete returned. *)
Theorem C74_topic_partial : forall ops o later, all_apart cat_new ops -> snd (tcstep (tcrun cat_new ops) o) = TODeleted ->
  let s := fst (tcstep (tcrun cat_new ops) o) in let s' := tcrun s later in
  ((forall c, ~ In (TCre c) later) -> topic_holds s' = None /\ tc_dir s' = None) /\
  (forall p l, topic_holds s' = Some l -> In p l -> In (TPub p) later) /\
  (forall p, In p (topic_stored s') -> In (TPub p) later).
Proof.
  intros ops o later AP R s s'. pose proof (deleted_gone _ o (tinv_run ops cat_new tinv_new AP) R) as G. fold s in G.
  assert (PL : forall p l, In p (pubs l) -> In (TPub p) l) by (intros p l; induction l as [|x l IH]; [intros []|destruct x; simpl; try (intro H; right; auto; fail); intros [->|H]; auto]).
  pose proof (from_run later [] s (gone_from s G)) as [A B C D]. fold s' in A, B. split; [|split].
  - intro NC. destruct (gone_run later s G NC) as (G1 & G2 & _). split; [unfold topic_holds, s'; rewrite G1; reflexivity|exact G2].
  - intros p l HL HP. apply PL. unfold topic_holds in HL. destruct (tc_live s') as [h|] eqn:L; [|discriminate]. destruct (A h (or_introl L)) as (x & X & I). rewrite X in HL. inversion HL; subst. apply (I p HP).
  - intros p HP. apply PL. unfold topic_stored in HP. destruct (tc_dir s') as [d|] eqn:E; [|destruct HP]. apply (B d eq_refl p HP).
Qed.
(** A topic created afterwards is not damaged: as long as operations are kept apart in
    this way, whatever the deletes, a topic that exists has its directory, and a restart
    brings it back with its own configuration. *)
Theorem C74_topic_kept_partial : forall ops c keep, all_apart cat_new ops -> topic_conf (tcrun cat_new ops) = Some c ->
  tc_dir (tcrun cat_new ops) <> None /\ topic_conf (fst (tcstep (tcrun cat_new ops) (TCrash keep))) = Some c.
Proof.
  intros ops c keep AP TC. pose proof (tinv_run ops cat_new tinv_new AP) as I. unfold topic_conf in TC. destruct (tc_live (tcrun cat_new ops)) as [h|] eqn:L; [|discriminate].
  destruct (v_live _ I h L) as (x & X & d & DD & DC). rewrite X in TC. inversion TC; subst. split; [congruence|]. cbn [tcstep]. rewrite DD. unfold topic_conf. cbn [fst tc_live tc_insts nth_error inst_of ti_conf conf_of dr_conf]. rewrite DC. reflexivity.
Qed.

Definition mk_topic conf i := [TCre conf; TCre2 i; TCre3 i; TCre4 i].
Definition pub_topic p i := [TPub p; TApp i; TSnd i; TStor].
Definition del_topic i := [TDel; TDelSnd i].
(** a topic with one message is deleted while a second delete comes in, created again
    with another configuration, published to, and the server restarted *)
Lemma apart_check s ops : (fix go s ops := match ops with [] => true | o :: r =>
    match o with TDel => forallb (fun e => is_del (snd e)) (tc_tasks s) | TCre _ => forallb (fun e => negb (is_del (snd e))) (tc_tasks s) | _ => true end && go (fst (tcstep s o)) r end) s ops = true -> all_apart s ops.
Proof.
  revert s. induction ops as [|o ops IH]; intros s H; [exact I|]. apply andb_prop in H. destruct H as (H1 & H2). split; [|apply IH; exact H2].
  destruct o; try exact I.
  - apply Forall_forall. intros e E. rewrite forallb_forall in H1. apply H1. exact E.
  - intros (i & t & E1 & E2). rewrite forallb_forall in H1. specialize (H1 _ E1). simpl in H1. rewrite E2 in H1. discriminate.
Qed.
Definition two_deletes : list tcop := mk_topic 7 0 ++ pub_topic 11 1 ++ [TDel; TDel; TDelSnd 2; TMeta 3; TDelSnd 3].
Definition later_life : list tcop := TStor :: mk_topic 9 4 ++ pub_topic 12 5 ++ [TCrash 5].
Example C74_topic_example :
  all_apart cat_new two_deletes /\ topic_stored (tcrun cat_new two_deletes) = [11] /\ snd (tcstep (tcrun cat_new two_deletes) TStor) = TODeleted /\
  let s' := tcrun (fst (tcstep (tcrun cat_new two_deletes) TStor)) later_life in
  topic_holds s' = Some [12] /\ topic_conf s' = Some 9 /\ topic_stored s' = [12] /\ all_apart cat_new (two_deletes ++ TStor :: later_life).
Proof. split; [apply apart_check; vm_compute; reflexivity|]. do 2 (split; [vm_compute; reflexivity|]). cbv zeta. do 3 (split; [vm_compute; reflexivity|]). apply apart_check. vm_compute. reflexivity. Qed.

(** Not when a publish is still under way: it was made before the delete, is answered
    after it, and its message brings the topic back at the next restart. *)
Definition late_publish : list tcop := mk_topic 7 0 ++ [TPub 11; TApp 1] ++ del_topic 2.
Theorem C74_late_publish_refuted : exists ops later, snd (tcstep (tcrun cat_new ops) TStor) = TODeleted /\
  (forall c, ~ In (TCre c) later) /\ (forall p, ~ In (TPub p) later) /\ ~ In TDel later /\
  let s' := tcrun (fst (tcstep (tcrun cat_new ops) TStor)) later in topic_holds s' = Some [11] /\ topic_stored s' = [11].
Proof.
  exists late_publish, [TSnd 1; TStor; TCrash 5]. split; [vm_compute; reflexivity|]. split; [intros c [H|[H|[H|[]]]]; discriminate|]. split; [intros p [H|[H|[H|[]]]]; discriminate|]. split; [intros [H|[H|[H|[]]]]; discriminate|].
  vm_compute. auto.
Qed.
(** Nor when a create overlaps the delete: the new topic shows the deleted messages, and
    a restart loses it. *)
Definition overlapping_create : list tcop := mk_topic 7 0 ++ pub_topic 11 1 ++ [TDel; TCre 9; TCre2 3; TCre3 3; TDelSnd 2].
Theorem C74_create_refuted : exists ops, snd (tcstep (tcrun cat_new ops) TStor) = TODeleted /\
  let s := fst (tcstep (tcrun cat_new ops) TStor) in snd (tcstep s (TCre4 3)) = TOk /\
  topic_holds (tcrun s [TCre4 3]) = Some [11] /\ topic_holds (tcrun s [TCre4 3; TCrash 5]) = None.
Proof. exists overlapping_create. vm_compute. auto. Qed.
(** It may also lose its configuration: it is created with 9 but takes over that of the
    deleted topic; then the directory goes, the next message makes it again without a
    configuration, and a restart gives the topic the default one. *)
Definition config_ops : list tcop := mk_topic 7 0 ++ [TDel; TCre 9; TCre2 2; TCre3 2; TCre4 2; TDelSnd 1].
Theorem C74_config_refuted : exists ops, In (TCre 9) ops /\ topic_conf (tcrun cat_new ops) = Some 7 /\ snd (tcstep (tcrun cat_new ops) TStor) = TODeleted /\
  let s := tcrun (fst (tcstep (tcrun cat_new ops) TStor)) (pub_topic 12 3) in
  topic_conf s = Some 7 /\ topic_conf (tcrun s [TCrash 5]) = Some default_conf /\ topic_holds (tcrun s [TCrash 5]) = Some [12].
Proof. exists config_ops. split; [simpl; tauto|]. vm_compute. repeat split; reflexivity. Qed.
(** And group positions collected before the delete may be written into the directory
    of the topic created after it ([0] is the deleted incarnation, [1] the new one). *)
Definition stale_save : list tcop := mk_topic 7 0 ++ [TSav] ++ del_topic 2.
Theorem C74_groups_refuted : exists ops later, snd (tcstep (tcrun cat_new ops) TStor) = TODeleted /\ ~ In TSav later /\
  let s' := tcrun (fst (tcstep (tcrun cat_new ops) TStor)) later in
  tc_live s' = Some 1%nat /\ exists d, tc_dir s' = Some d /\ dr_saved d = Some 0%nat.
Proof.
  exists stale_save, (mk_topic 9 3 ++ [TSavSnd 1; TStor]). split; [vm_compute; reflexivity|]. split; [simpl; intuition discriminate|]. vm_compute. split; [reflexivity|]. eexists. split; reflexivity.
Qed.

(** * Queues *)
(** [all_qapart]: a create of the name does not come while a delete of it is under way.
    Pushes and other deletes may overlap in any way. When a delete returns and no other
    delete of the name is under way, the queue does not exist and no file of it is left,
    now and after any further operations and restarts, until it is created again. Then
    everything it holds was pushed after the delete returned, also if a push made before
    is still under way. *)
Theorem C74_queue_partial : forall ops o later, all_qapart qcat_new ops -> snd (qcstep (qcrun qcat_new ops) o) = TODeleted ->
  let s := fst (qcstep (qcrun qcat_new ops) o) in let s' := qcrun s later in
  ~ qdeleting s ->
  ((forall c, ~ In (QCre c) later) -> queue_holds s' = None /\ qc_path s' = None /\ qc_conf s' = None) /\
  (forall p l, queue_holds s' = Some l -> In p l -> In (QPush p) later) /\
  (forall p, In p (queue_stored s') -> In (QPush p) later).
Proof.
  intros ops o later AP R s s' ND. pose proof (qdeleted_gone _ o (qinv_run ops qcat_new qinv_new AP) R ND) as G. fold s in G.
  assert (PL : forall p l, In p (pushed l) -> In (QPush p) l) by (intros p l; induction l as [|x l IH]; [intros []|destruct x; simpl; try (intro H; right; auto; fail); intros [->|H]; auto]).
  assert (HO : held_ok s).
  { unfold s. change (fst (qcstep (qcrun qcat_new ops) o)) with (qcrun (qcrun qcat_new ops) [o]).
    assert (CAT : forall a b x, qcrun (qcrun x a) b = qcrun x (a ++ b)) by (induction a; intros; simpl; auto). rewrite CAT.
    apply held_run; [discriminate|]. split; [intros i t h p []|discriminate]. }
  destruct (qfrom_run later _ [] s (qgone_from s G HO)) as (n & [Z A B C D E F]). fold s' in A, B, C, D, E, F. split; [|split].
  - intro NC. destruct (qgone_run later s G NC) as (G1 & G2 & G3 & _). split; [unfold queue_holds, s'; rewrite G1; reflexivity|]. split; [exact G2|exact G3].
  - intros p l HL HP. apply PL. unfold queue_holds in HL. destruct (qc_live s') as [h|] eqn:L; [|discriminate]. destruct (nth_error (qc_insts s') h) as [x|] eqn:X; [|discriminate]. inversion HL; subst. apply (proj1 (C h x (proj1 (B h eq_refl)) X) p HP).
  - intros p HP. apply PL. unfold queue_stored in HP. destruct (qc_path s') as [f|] eqn:P; [|destruct HP]. apply (proj2 (E f eq_refl) p HP).
Qed.
(** A queue that exists has its file in place, with its tables, so a restart brings it
    back with what its writer has written by then. *)
Theorem C74_queue_kept_partial : forall ops l, all_qapart qcat_new ops -> queue_holds (qcrun qcat_new ops) = Some l ->
  qc_path (qcrun qcat_new ops) <> None /\
  forall keep, queue_holds (fst (qcstep (qcrun qcat_new ops) (QCrash keep))) = Some (firstn keep (queue_stored (qcrun qcat_new ops))).
Proof.
  intros ops l AP HL. pose proof (qinv_run ops qcat_new qinv_new AP) as I. unfold queue_holds in HL. destruct (qc_live (qcrun qcat_new ops)) as [h|] eqn:L; [|discriminate].
  destruct (k_live _ I h L) as (x & f & y & X1 & X2 & X3 & X4 & X5 & X6). split; [congruence|]. intro keep. cbn [qcstep]. unfold queue_stored. rewrite X2, X3. unfold rows. rewrite X3.
  unfold build, open_path. cbn. reflexivity.
Qed.

Definition mk_queue conf h := [QCre conf; QOpen h].
Definition push_queue p i h := [QPush p; QPut1 i; QPut2 i; QWrite h].
(** a push is half done when the queue is deleted and created again *)
Definition busy_delete : list qcop := mk_queue 7 0 ++ push_queue 11 0 0 ++ [QPush 12; QDel; QDel2 2; QPut1 1; QPut2 1; QExit 0; QDel3 2; QDel4 2].
Definition later_queue : list qcop := mk_queue 9 1 ++ push_queue 13 3 1 ++ [QCrash 5].
Example C74_queue_example :
  all_qapart qcat_new busy_delete /\ snd (qcstep (qcrun qcat_new busy_delete) (QDel5 2)) = TODeleted /\
  let s := fst (qcstep (qcrun qcat_new busy_delete) (QDel5 2)) in
  ~ qdeleting s /\ queue_holds (qcrun s later_queue) = Some [13] /\ queue_stored (qcrun s later_queue) = [13].
Proof.
  split.
  - unfold busy_delete, mk_queue, push_queue. simpl app. cbn [all_qapart qapart]. split; [intros (i & t & [] & _)|]. tauto.
  - split; [vm_compute; reflexivity|]. split; [|vm_compute; auto]. intros (i & t & H & T). vm_compute in H. destruct H as [].
Qed.

(** Not when a create comes between: the new queue shows the deleted messages, and when
    the delete returns its file is gone, so that a restart loses it. *)
Definition create_between : list qcop := mk_queue 7 0 ++ push_queue 11 0 0 ++ [QDel; QCre 9; QDel2 1; QExit 0; QDel3 1; QDel4 1].
Theorem C74_queue_create_refuted : exists ops, snd (qcstep (qcrun qcat_new ops) (QDel5 1)) = TODeleted /\
  let s := fst (qcstep (qcrun qcat_new ops) (QDel5 1)) in queue_holds s = Some [11] /\ queue_holds (qcrun s [QCrash 5]) = None.
Proof. exists create_between. vm_compute. auto. Qed.
(** Nor when two deletes overlap: one returns, the writer of the other's queue opens its
    database only then, and a restart finds the file and makes the queue again, empty. *)
Definition two_queue_deletes : list qcop := [QCre 7; QDel; QDel; QDel4 1].
Theorem C74_queue_deletes_refuted : exists ops, all_qapart qcat_new ops /\ snd (qcstep (qcrun qcat_new ops) (QDel5 1)) = TODeleted /\
  let s := fst (qcstep (qcrun qcat_new ops) (QDel5 1)) in queue_holds s = None /\ queue_holds (qcrun s [QOpen 0; QCrash 5]) = Some [].
Proof.
  exists two_queue_deletes. split; [|vm_compute; auto]. split; [intros (i & t & [] & _)|]. cbn [two_queue_deletes all_qapart qapart]. tauto.
Qed.
(** And the other delete, still under way, removes the files of a queue created since. *)
Theorem C74_queue_late_refuted : exists ops later, snd (qcstep (qcrun qcat_new ops) (QDel5 1)) = TODeleted /\ ~ In QDel later /\
  let s := fst (qcstep (qcrun qcat_new ops) (QDel5 1)) in
  queue_holds (qcrun s later) = Some [12] /\ queue_stored (qcrun s later) = [12] /\
  queue_holds (qcrun s (later ++ [QDel2 0; QOpen 0; QExit 0; QDel3 0; QDel4 0; QCrash 5])) = None.
Proof. exists two_queue_deletes, (QCre 9 :: QOpen 1 :: push_queue 12 2 1). split; [vm_compute; reflexivity|]. split; [simpl; intuition discriminate|]. vm_compute. auto. Qed.

Print Assumptions C74_topic_partial.
Print Assumptions C74_topic_kept_partial.
Print Assumptions C74_late_publish_refuted.
Print Assumptions C74_create_refuted.
Print Assumptions C74_config_refuted.
Print Assumptions C74_groups_refuted.
Print Assumptions C74_queue_partial.
Print Assumptions C74_queue_kept_partial.
Print Assumptions C74_queue_create_refuted.
Print Assumptions C74_queue_deletes_refuted.
Print Assumptions C74_queue_late_refuted.
