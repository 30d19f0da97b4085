(** C75, C80: the consuming loops of the SDK. *)
From Verif Require Import LibBase SdkLoopModel SdkLoopProofs.
From Coq Require Import Permutation.

(** Read off the log of what is observed: started and not yet ended handlers never
    exceed the limit; handlers start in delivery order, no message twice; when the loop
    awaits no batch, every delivered message was handed out (or passed over after stop)
    and every handler has ended; an awaited batch is never stuck. Provided sending an ack
    or nack never throws. *)
Theorem C75_limit_partial : forall A conc isq os, Forall (sends_ok A) os ->
  let l := l_log A (lrun A conc isq os) in
  lenN (ends A l) <= lenN (starts A l) /\ lenN (starts A l) <= lenN (ends A l) + N.max 1 conc.
Proof. exact loop_limit. Qed.
Theorem C75_order_partial : forall A conc isq os, Forall (sends_ok A) os ->
  exists rest, l_got A (lrun A conc isq os) = taken A (l_log A (lrun A conc isq os)) ++ rest.
Proof. exact loop_order. Qed.
Theorem C75_exactly_once_partial : forall A conc isq os, Forall (sends_ok A) os -> l_cur A (lrun A conc isq os) = None ->
  let l := l_log A (lrun A conc isq os) in l_got A (lrun A conc isq os) = taken A l /\ Permutation (starts A l) (ends A l).
Proof. exact loop_all. Qed.
(** not stopped: nothing is passed over, so what is handed out is handled *)
Theorem C75_unstopped_partial : forall A conc isq os, Forall (sends_ok A) os -> Forall (fun o => o <> LStop A) os -> l_cur A (lrun A conc isq os) = None ->
  starts A (l_log A (lrun A conc isq os)) = l_got A (lrun A conc isq os).
Proof.
  intros A conc isq os H N C. destruct (loop_all A conc isq os H C) as [E _]. rewrite E. symmetry. apply taken_noskip. apply skip_run.
  eapply Forall_impl; [|exact N]. intros o Ho. destruct o; simpl; auto.
Qed.
Theorem C75_not_stuck_partial : forall A conc isq os, Forall (sends_ok A) os -> forall b, l_cur A (lrun A conc isq os) = Some b ->
  (exists i, nth_error (b_ws A b) i = Some (Ready A)) \/ (exists i x, nth_error (b_ws A b) i = Some (Busy A x)) \/ l_cur A (lstep A conc isq (lrun A conc isq os) (LNext A)) = None.
Proof. exact loop_progress. Qed.
Print Assumptions C75_limit_partial.
Print Assumptions C75_order_partial.
Print Assumptions C75_exactly_once_partial.
Print Assumptions C75_unstopped_partial.
Print Assumptions C75_not_stuck_partial.

Notation W i := (LWork N (WTake i false)).
Notation K i := (LWork N (WEnd i true false)).
Notation X i := (LWork N (WEnd i false false)).
Definition two_batches : list (lop N) :=
  [LAsk N; LBatch N [1; 2; 3]; W 0%nat; W 1%nat; K 1%nat; W 1%nat; X 1%nat; W 1%nat; K 0%nat; W 0%nat; LNext N; LAsk N; LBatch N [4]; W 0%nat; K 0%nat; W 0%nat; LNext N].
Example C75_example : Forall (sends_ok N) two_batches /\ l_cur N (lrun N 2 true two_batches) = None /\
  l_log N (lrun N 2 true two_batches) = [EStart N 1; EStart N 2; EEnd N 2 true; EAck N 2; EStart N 3; EEnd N 3 false; ENack N 3; EEnd N 1 true; EAck N 1; EStart N 4; EEnd N 4 true; EAck N 4].
Proof. split; [repeat constructor|]. vm_compute. auto. Qed.

(** Sending throws once the SDK has used 2^31 request ids (C11), or when the handler throws
    a value that String() rejects: then runConcurrent rejects while other handlers run on.
    The loop takes the next batch: three handlers run under a limit of two. *)
Theorem C75_limit_refuted : exists os, let l := l_log N (lrun N 2 true os) in lenN (starts N l) = lenN (ends N l) + 3.
Proof.
  exists [LAsk N; LBatch N [1; 2]; W 0%nat; W 1%nat; LWork N (WEnd 0 false true); LNext N; LAsk N; LBatch N [3; 4]; W 0%nat; W 1%nat].
  vm_compute. auto.
Qed.
(** ... and with the limit one the rest of the batch is neither handled nor rejected,
    though the subscription goes on. *)
Theorem C75_left_out_refuted : exists os, let s := lrun N 1 true os in let l := l_log N s in
  l_got N s = [1; 2; 3; 4] /\ l_active N s = true /\ l_cur N s = None /\ starts N l = [1; 4] /\ skips N l = [] /\ nacks N l = [] /\
  forall k w, nth_error (l_old N s) k = Some w -> forall o, wstep N true true true w o = (w, []).
Proof.
  exists [LAsk N; LBatch N [1; 2; 3]; W 0%nat; LWork N (WEnd 0 false true); LNext N; LAsk N; LBatch N [4]; W 0%nat; K 0%nat; W 0%nat; LNext N].
  repeat split; try (vm_compute; reflexivity). intros [|[|k]] w E; vm_compute in E; try discriminate; injection E as <-.
  intros [[|[|i]] bd|[|[|i]] ok bd]; reflexivity.
Qed.
Print Assumptions C75_limit_refuted.
Print Assumptions C75_left_out_refuted.

(** C80: whatever goes wrong, an ack stands for a handler that succeeded and a nack for one
    that threw or a message passed over after stop, each at most once per delivery. *)
Theorem C80_sound : forall A conc isq os, let l := l_log A (lrun A conc isq os) in
  (exists r, Permutation (ended A true l) (acks A l ++ r)) /\ (exists r, Permutation (ended A false l ++ skips A l) (nacks A l ++ r)).
Proof. exact loop_sound. Qed.
(** While the connection stays up and sending does not throw, every handler that succeeded
    is acked, and for a queue every other message handed out is rejected. *)
Theorem C80_complete : forall A conc isq os, Forall (sends_ok A) os -> Forall (stays_up A) os -> let l := l_log A (lrun A conc isq os) in
  Permutation (ended A true l) (acks A l) /\ (isq = true -> Permutation (ended A false l ++ skips A l) (nacks A l)).
Proof. exact loop_answers. Qed.
Print Assumptions C80_sound.
Print Assumptions C80_complete.
(** stop in the middle of a batch: the running handler is acked, the rest handed back *)
Example C80_example : let os := [LAsk N; LBatch N [1; 2; 3]; W 0%nat; LStop N; K 0%nat; W 0%nat; W 0%nat; W 0%nat; LNext N] in
  Forall (sends_ok N) os /\ Forall (stays_up N) os /\
  l_log N (lrun N 1 true os) = [EStart N 1; EEnd N 1 true; EAck N 1; ESkip N 2; ENack N 2; ESkip N 3; ENack N 3] /\
  l_log N (lrun N 1 false os) = [EStart N 1; EEnd N 1 true; EAck N 1; ESkip N 2; ESkip N 3].
Proof. vm_compute. repeat split; repeat constructor. Qed.
