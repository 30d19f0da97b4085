(** Property C113: deliveries of a queue are finite in number, and a worker that
    acks what it gets empties the queue.  [chances] is what is left to a message
    of the deliveries allowed by its queue, [total] its sum over a listing,
    [handed] everything delivered over a history, [given_all] the pushes and
    dead-letter moves of a history (QueueDrain.v). *)
From Verif Require Import LibBase LibMap QueueModel QueueSpec QueueObs QueueProofs QueueRefine QueueTrace QueueFacts QueueFacts2 QueueDrain PropQueue.

(** what a continuation delivers, plus what its messages could still be
    delivered after it, is paid by what was left before it and by the pushes and
    moves it makes: failing consumers and timeouts cannot create deliveries *)
Theorem C113_budget : forall cfg h1 h2, fresh (h1 ++ h2) ->
  let i := qrun cfg inner0 h1 in
  let i' := qrun cfg i h2 in
  lenN (handed cfg i h2) + total cfg (obs_wait i' ++ obs_fly i')
    <= total cfg (obs_wait i ++ obs_fly i) + N.max 1 (c_max cfg) * given_all h2.
Proof. exact chances_bound. Qed.
Print Assumptions C113_budget.

(** in particular: over a whole life at most [max 1 (c_max cfg)] deliveries for
    each push and each move *)
Theorem C113_whole_life : forall cfg h, fresh h ->
  lenN (flat_map ret (outs cfg inner0 h)) <= N.max 1 (c_max cfg) * given_all h.
Proof.
  intros cfg h Hf. pose proof (chances_bound cfg [] h Hf) as H. cbn zeta in H.
  change (qrun cfg inner0 []) with inner0 in H. change (total cfg (obs_wait inner0 ++ obs_fly inner0)) with 0 in H.
  unfold handed in H. lia.
Qed.
Print Assumptions C113_whole_life.

(** no consumption comes back empty-handed while something waits: a request for
    at least one message delivers one *)
Theorem C113_progress : forall cfg h max clk now, fresh h -> 1 <= max ->
  obs_wait (qrun cfg inner0 h) <> [] ->
  ret (qouts cfg (qrun cfg inner0 h) (QoConsume max clk)) <> [] /\
  ret (qouts cfg (qrun cfg inner0 h) (QoPop now)) <> [].
Proof.
  intros cfg h max clk now Hf Hm Hw. split.
  - destruct (batch_ok cfg h max clk Hf) as [ms [H1 [_ [_ [_ [H5 [_ H7]]]]]]]. rewrite H1. cbn [ret]. intro E. subst ms.
    rewrite (H5 ltac:(unfold lenN; cbn [length]; lia)) in H7. cbn [app map] in H7.
    apply Permutation_sym, Permutation_nil in H7. apply map_eq_nil in H7. contradiction.
  - rewrite (pop_out cfg h now Hf). destruct (best (arrivals cfg h)) as [b|] eqn:E; cbn [option_map ret]; [discriminate|].
    exfalso. apply Hw. apply best_none in E. unfold arrivals in E. apply Permutation_nil.
    rewrite <- E. symmetry. exact (obs_wait_perm _ _ (reach cfg h Hf)).
Qed.
Print Assumptions C113_progress.

(** a worker alone on a queue: enough rounds of "up to [max], ack all" leave
    nothing waiting; every message that waited was delivered once, highest
    priority first and in arrival order within a priority; the messages held by
    other consumers and the dead letters are as before *)
Theorem C113_drain : forall cfg h max clk n, fresh h ->
  let i := qrun cfg inner0 h in
  lenN (obs_wait i) <= N.of_nat n * max ->
  let i' := qrun cfg i (work cfg max clk n i) in
  obs_wait i' = [] /\ Permutation (obs_fly i') (obs_fly i) /\ obs_dead i' = obs_dead i /\
  exists order, Permutation order (obs_wait i) /\ desc order /\
    (forall p, filter (fun m => m_prio m =? p) order = filter (fun m => m_prio m =? p) (arrivals cfg h)) /\
    map body_of (handed cfg i (work cfg max clk n i)) = map body_of order.
Proof.
  intros cfg h max clk n Hf i Hl i'. pose proof (reach cfg h Hf) as HR. fold i in HR.
  assert (Hl' : lenN (s_wait (a_run cfg spec0 h)) <= N.of_nat n * max).
  { unfold lenN in *. rewrite <- (Permutation_length (obs_wait_perm _ _ HR)). exact Hl. }
  destruct (work_spec cfg max clk n i _ HR Hl') as [_ [T [HT [H1 [H2 [H3 H4]]]]]]. fold i' in HT.
  split; [|split; [|split]].
  - apply Permutation_nil. rewrite <- H1. symmetry. exact (obs_wait_perm _ _ HT).
  - rewrite (obs_fly_eq _ _ HT), (obs_fly_eq _ _ HR). exact H2.
  - rewrite (obs_dead_eq _ _ HT), (obs_dead_eq _ _ HR). exact H3.
  - exists (dsort (s_wait (a_run cfg spec0 h))). split; [|split; [|split]].
    + rewrite dsort_perm. symmetry. exact (obs_wait_perm _ _ HR).
    + apply dsort_sorted.
    + intro p. apply dsort_stable.
    + exact H4.
Qed.
Print Assumptions C113_drain.

(** several workers together, their requests and acks interleaved in any way
    ([working]: requests for messages, and acks of messages that are not waiting):
    they are given exactly the first [asked] messages of the order above, each
    once, and the rest stays in that order *)
Theorem C113_workers : forall cfg h h2, fresh h ->
  let i := qrun cfg inner0 h in
  working cfg i h2 ->
  exists order, Permutation order (obs_wait i) /\ desc order /\
    (forall p, filter (fun m => m_prio m =? p) order = filter (fun m => m_prio m =? p) (arrivals cfg h)) /\
    map body_of (handed cfg i h2) = map body_of (firstn (N.to_nat (asked h2)) order) /\
    Permutation (obs_wait (qrun cfg i h2)) (skipn (N.to_nat (asked h2)) order).
Proof.
  intros cfg h h2 Hf i Hw. pose proof (reach cfg h Hf) as HR. fold i in HR.
  destruct (workers_spec cfg h2 i _ HR Hw) as [T [HT [H1 H2]]].
  exists (dsort (s_wait (a_run cfg spec0 h))). split; [|split; [|split; [|split]]].
  - rewrite dsort_perm. symmetry. exact (obs_wait_perm _ _ HR).
  - apply dsort_sorted.
  - intro p. apply dsort_stable.
  - exact H1.
  - unfold dropN in H2. rewrite <- H2, dsort_perm. exact (obs_wait_perm _ _ HT).
Qed.
Print Assumptions C113_workers.

(** no message goes to two of them *)
Theorem C113_workers_once : forall cfg h h2, fresh h ->
  working cfg (qrun cfg inner0 h) h2 ->
  NoDup (map m_id (handed cfg (qrun cfg inner0 h) h2)).
Proof.
  intros cfg h h2 Hf Hw. pose proof (reach cfg h Hf) as HR.
  destruct (workers_spec cfg h2 _ _ HR Hw) as [T [_ [H1 _]]].
  assert (E : map m_id (handed cfg (qrun cfg inner0 h) h2) = map m_id (takeN (asked h2) (dsort (s_wait (a_run cfg spec0 h))))).
  { revert H1. generalize (takeN (asked h2) (dsort (s_wait (a_run cfg spec0 h)))). generalize (handed cfg (qrun cfg inner0 h) h2).
    intros a; induction a as [|x a IH]; intros [|y b] H; try discriminate; [reflexivity|]. cbn [map] in *. injection H. intros. f_equal; auto. }
  rewrite E. assert (N : NoDup (map m_id (dsort (s_wait (a_run cfg spec0 h))))).
  { eapply Permutation_NoDup; [apply Permutation_map; symmetry; apply dsort_perm|]. exact (SInv_nd_w _ (RI_SInv _ _ HR)). }
  rewrite <- (takeN_dropN _ (asked h2) (dsort (s_wait (a_run cfg spec0 h)))), map_app in N. apply NoDup_app_inv in N. exact (proj1 N).
Qed.
Print Assumptions C113_workers_once.

(** the running example of PropQueue: one message waits after a failed delivery,
    one is new, one is with a consumer.  A consumer that nacks everything uses up
    exactly what is left; a worker empties the queue in two rounds. *)
Notation fails := [QoConsume 9 (fun _ => 300); QoNack 1 [1] 301; QoNack 4 [1] 302; QoConsume 9 (fun _ => 303);
                   QoNack 1 [1] 304; QoNack 4 [1] 305; QoConsume 9 (fun _ => 306)].
Example C113_example : let i := qrun exc inner0 exh in
  fresh (exh ++ fails) /\ total exc (obs_wait i ++ obs_fly i) = 3 /\ given_all fails = 0 /\
  map m_id (handed exc i fails) = [4; 1; 4] /\ map d_id (obs_dead (qrun exc i fails)) = [2; 1; 4].
Proof. split; [nodup|vm_compute; auto]. Qed.
Example C113_drain_example : let i := qrun exc inner0 exh in
  lenN (obs_wait i) <= N.of_nat 2 * 1 /\
  map m_id (handed exc i (work exc 1 (fun r j => 300 + N.of_nat r + N.of_nat j) 2 i)) = [4; 1].
Proof. split; vm_compute; [discriminate|auto]. Qed.
Notation two_workers := [QoConsume 1 (fun _ => 300); QoPop 301; QoAck 1; QoConsume 5 (fun _ => 302); QoAck 4].
Example C113_workers_example : let i := qrun exc inner0 exh in
  fresh exh /\ working exc i two_workers /\ asked two_workers = 7 /\ map m_id (handed exc i two_workers) = [4; 1].
Proof. split; [nodup|vm_compute; intuition discriminate]. Qed.
