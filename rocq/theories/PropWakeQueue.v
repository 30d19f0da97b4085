(** C48: a waiting consume is never left asleep.
    [qwrun cfg (wake0 i) xs] is the queue after the schedule [xs] of single steps of
    any number of requests: operations under the lock, the notifications they owe
    after leaving it, and the separate steps of each waiting consume (take a
    notification future, try, suspend, wake up). *)
From Verif Require Import LibBase LibMap QueueModel QueueSpec QueueObs QueueProofs QueueRefine QueueTrace QueueFacts QueueFacts2 QueuePersistModel QueuePersistProofs QueuePersistInv WakeModel WakeProofs QueueWake PropQueue.

(** A new queue, or one recovered from a well-formed database. *)
Definition q_start (i : inner) : Prop :=
  i = inner0 \/ exists P d clk main dead, wfdb P d /\ Permutation main (db_main d) /\ Permutation dead (db_dead d) /\ i = recover clk main dead.
Lemma start_inv i : q_start i -> q_inv i.
Proof.
  intros [->|(P & d & clk & main & dead & W & A & B & ->)]; [exists spec0; exact RI_empty|].
  eexists. exact (proj1 (recover_ok P d clk main dead W A B)).
Qed.
Notation W0 := (wake0 inner N (list message)).
Notation q_of := (w_st inner N (list message)).
Notation answers := (w_done inner N (list message)).

(** A consume that is suspended while no notification is under way: the queue has no
    pending message. *)
Theorem C48_no_lost_wakeup : forall cfg i xs id max, q_start i -> q_sched cfg i xs ->
  asleep inner N (list message) id max (qwrun cfg (W0 i) xs) -> obs_wait (q_of (qwrun cfg (W0 i) xs)) = [].
Proof. intros cfg i xs id max S. exact (queue_no_sleep cfg i xs id max (start_inv i S)). Qed.
(** A suspended consume, in a queue with a pending message: once the notifications
    that are due have been given, its next turn returns messages, namely those a
    consume returns in that state. *)
Theorem C48_next_turn_answers : forall cfg i xs id max n clk, q_start i -> q_sched cfg i xs ->
  let w := qwrun cfg (W0 i) xs in
  waiting inner N (list message) id w = Some (mkWaiter N max (Blocked n)) -> obs_wait (q_of w) <> [] ->
  exists m ms, answers (qwrun cfg w (q_turn w id clk)) = (id, m :: ms) :: answers w /\
    qouts cfg (q_of w) (QoConsume max clk) = RMsgs (m :: ms).
Proof. intros cfg i xs id max n clk S. exact (queue_turn cfg i xs id max n clk (start_inv i S)). Qed.
Print Assumptions C48_no_lost_wakeup.
Print Assumptions C48_next_turn_answers.

(** Two consumes arrive at an empty queue. The first takes its future; a push happens
    before it tries, and gives the message to the first; the second one suspends,
    with the push's notification still to come. *)
Definition wx : list (wop qop N (nat -> N)) :=
  [WCall _ _ _ 7 1 (fun _ => 50); WCall _ _ _ 8 1 (fun _ => 51); WArm _ _ _ 7; WArm _ _ _ 8; WTry _ _ _ 8 (fun _ => 52);
   WOp _ _ _ (QoPush 1 [97] 0 60); WTry _ _ _ 7 (fun _ => 61); WRing _ _ _].
Example C48_example : q_sched exc inner0 wx /\
  (let w := qwrun exc (W0 inner0) wx in map fst (answers w) = [7] /\ waiting _ _ _ 8 w = Some (mkWaiter _ 1 (Blocked 0)) /\ ~ asleep _ _ _ 8 1 w) /\
  (let w := qwrun exc (W0 inner0) (wx ++ [WWake _ _ _ 8; WArm _ _ _ 8; WTry _ _ _ 8 (fun _ => 62)]) in asleep _ _ _ 8 1 w) /\
  (let w := qwrun exc (W0 inner0) (wx ++ [WOp _ _ _ (QoPush 2 [98] 0 70)]) in
   map m_id (obs_wait (q_of w)) = [2] /\ waiting _ _ _ 8 w = Some (mkWaiter _ 1 (Blocked 0)) /\
   map (fun a => (fst a, map m_id (snd a))) (answers (qwrun exc w (q_turn w 8 (fun _ => 71)))) = [(8, [2]); (7, [1])]).
Proof.
  split; [|split; [|split]].
  - unfold q_sched, wx. cbn [xsok xok q_okop]. repeat split; try lia. intros [H|[H|H]]; vm_compute in H; contradiction.
  - split; [reflexivity|split; [reflexivity|]]. intros (H & _). vm_compute in H. discriminate.
  - vm_compute. auto.
  - vm_compute. auto.
Qed.
