(** Properties C29-C41 and C76: queues.
    A history is a list of requests (with the ids and clock readings they use);
    [fresh h] says that pushes use distinct ids (random UUIDs).  [obs_wait],
    [obs_fly], [obs_dead] are the pending / in-flight / dead-letter listings. *)
From Verif Require Import LibBase LibMap QueueModel QueueSpec QueueObs QueueProofs QueueRefine QueueTrace QueueFacts QueueFacts2 QueueMgrModel QueueMgrProofs.

Ltac nodup := unfold fresh; vm_compute; repeat (apply NoDup_cons; [simpl; intuition discriminate|]); apply NoDup_nil.
(** The running example: two priorities, a batch, a nack, a timeout, a dead letter. *)
Definition exc : qconfig := mkCfg 10 2.
Definition exh : list qop :=
  [QoPush 1 [97] 0 100; QoPush 2 [98] 5 101; QoPush 3 [99] 5 102; QoPop 200; QoConsume 2 (fun j => 201 + N.of_nat j);
   QoNack 2 [33] 205; QoPop 206; QoExpire 213 213; QoPush 4 [100] 5 214; QoPop 215; QoNack 2 [34] 216].
Example ex_fresh : fresh exh.
Proof. nodup. Qed.
Example ex_shape : let i := qrun exc inner0 exh in
  map m_id (obs_wait i) = [1; 4] /\ map m_id (obs_fly i) = [3] /\ map d_id (obs_dead i) = [2].
Proof. vm_compute; auto. Qed.

(** C76: every request is answered exactly as by the reference queue of
    QueueSpec (three plain lists: waiting in arrival order, in flight by
    deadline, dead), for every history. *)
Theorem C76_reference_queue : forall cfg h o, fresh (h ++ [o]) ->
  qouts cfg (qrun cfg inner0 h) o = a_out cfg (a_run cfg spec0 h) o.
Proof. intros cfg h o Hf. exact (proj1 (step_out cfg h o Hf)). Qed.
Print Assumptions C76_reference_queue.
Example C76_example : qouts exc (qrun exc inner0 exh) (QoPop 300) = a_out exc (a_run exc spec0 exh) (QoPop 300)
  /\ exists m, a_out exc (a_run exc spec0 exh) (QoPop 300) = RMsg (Some m) /\ m_id m = 4.
Proof. split; [vm_compute; reflexivity|eexists; split; [vm_compute; reflexivity|reflexivity]]. Qed.

(** C29: what was pushed = what is listed as pending, in flight or dead, plus
    what was acknowledged, deleted or purged: nothing lost, nothing twice. *)
Theorem C29_one_place : forall cfg h, fresh h ->
  let i := qrun cfg inner0 h in
  Permutation (pushed h)
    (map body_of (obs_wait i) ++ map body_of (obs_fly i) ++ map dbody_of (obs_dead i) ++ removed cfg inner0 h).
Proof. exact one_place. Qed.
Print Assumptions C29_one_place.
Example C29_example : let h := exh ++ [QoAck 1; QoPurge] in fresh h /\
  map body_id (removed exc inner0 h) = [1; 2] /\ map m_id (obs_wait (qrun exc inner0 h)) = [4].
Proof. split; [nodup|vm_compute; auto]. Qed.

(** C30: with [w] the waiting messages in arrival order, a pop returns the first
    message of the highest priority. *)
Theorem C30_dispatch_order : forall cfg h now, fresh h ->
  let w := arrivals cfg h in
  let r := qouts cfg (qrun cfg inner0 h) (QoPop now) in
  (w = [] /\ r = RMsg None) \/
  exists w1 m w2, w = w1 ++ m :: w2 /\ r = RMsg (Some (delivered (due_at now (c_vt cfg)) m)) /\
    (forall x, In x w1 -> m_prio x < m_prio m) /\ (forall x, In x w2 -> m_prio x <= m_prio m).
Proof. exact dispatch_order. Qed.
Print Assumptions C30_dispatch_order.
(** C30 stated on listings only: if [a] has been waiting since before [b] was
    waiting, then [b] can be delivered before [a] only with a higher priority. *)
Theorem C30_no_overtaking : forall cfg h1 h2 a b now m,
  fresh (h1 ++ h2) ->
  In a (map m_id (obs_wait (qrun cfg inner0 h1))) ->
  ~ In b (map m_id (obs_wait (qrun cfg inner0 h1))) ->
  (forall p q, h2 = p ++ q -> In a (map m_id (obs_wait (qrun cfg inner0 (h1 ++ p))))) ->
  qouts cfg (qrun cfg inner0 (h1 ++ h2)) (QoPop now) = RMsg (Some m) -> m_id m = b ->
  exists ma, In ma (obs_wait (qrun cfg inner0 (h1 ++ h2))) /\ m_id ma = a /\ m_prio ma < m_prio m.
Proof. exact no_overtaking. Qed.
Print Assumptions C30_no_overtaking.
Example C30_example : map m_id (arrivals exc exh) = [1; 4] /\
  (exists m, qouts exc (qrun exc inner0 exh) (QoPop 300) = RMsg (Some m) /\ m_id m = 4 /\ m_prio m = 5) /\
  let h1 := [QoPush 1 [97] 0 100] in let h2 := [QoPush 2 [98] 5 101; QoPush 3 [99] 5 102] in
  In 1 (map m_id (obs_wait (qrun exc inner0 h1))) /\ ~ In 2 (map m_id (obs_wait (qrun exc inner0 h1))) /\
  exists m, qouts exc (qrun exc inner0 (h1 ++ h2)) (QoPop 110) = RMsg (Some m) /\ m_id m = 2.
Proof.
  split; [vm_compute; reflexivity|]. split; [eexists; split; [vm_compute; reflexivity|split; reflexivity]|].
  split; [vm_compute; auto|]. split; [vm_compute; intuition congruence|]. eexists; split; [vm_compute; reflexivity|reflexivity].
Qed.

(** C31: after a delivery of [m], as long as nobody acks or nacks it and no
    timeout pass runs at or after its deadline, no request returns it again, and
    it stays listed as in flight. *)
Theorem C31_no_double_delivery : forall cfg h1 o h2 m,
  fresh (h1 ++ o :: h2) ->
  In m (ret (qouts cfg (qrun cfg inner0 h1) o)) ->
  (forall x, In x h2 -> ~ settles (m_id m) (m_vis m) x) ->
  ~ In (m_id m) (map m_id (flat_map ret (outs cfg (qnext cfg (qrun cfg inner0 h1) o) h2))) /\
  In m (obs_fly (qrun cfg inner0 (h1 ++ o :: h2))).
Proof. exact no_double_delivery. Qed.
Print Assumptions C31_no_double_delivery.
(** the deadline is the delivery time plus the visibility timeout, if that sum
    fits in 64 bits *)
Theorem C31_deadline_partial : forall cfg h o m, fresh (h ++ [o]) -> In m (ret (qouts cfg (qrun cfg inner0 h) o)) ->
  exists now, (now + c_vt cfg < 2 ^ 64 -> m_vis m = now + c_vt cfg) /\ m_state m = InFlight (m_vis m) /\
    match o with QoPop n => now = n | QoConsume _ clk => exists j, now = clk j | _ => False end.
Proof.
  intros cfg h o m Hf Hm. destruct (delivery_deadline cfg h o m Hf Hm) as [now [H1 [H2 H3]]].
  exists now. split; [|split; [exact H2|exact H3]].
  intro Hs. rewrite H1. unfold due_at. apply N.mod_small. exact Hs.
Qed.
Print Assumptions C31_deadline_partial.
(** a queue created with the largest visibility timeout (meant as "never")
    redelivers at once: the sum wraps around *)
Theorem C31_huge_timeout_refuted : exists cfg h m m', fresh h /\ c_vt cfg < 2 ^ 64 /\
  outs cfg inner0 h = [ROkay; RMsg (Some m); RExpired [m'] []; RMsg (Some (delivered 1 m'))] /\ m_id m = m_id m' /\
  h = [QoPush 7 [1] 0 1; QoPop 2; QoExpire 2 2; QoPop 2].
Proof.
  exists (mkCfg (2 ^ 64 - 1) 5), [QoPush 7 [1] 0 1; QoPop 2; QoExpire 2 2; QoPop 2].
  exists (mkMsg 7 [1] 0 1 1 1 None (InFlight 1)), (mkMsg 7 [1] 0 1 1 0 None Ready). split; [nodup|].
  split; [vm_compute; reflexivity|]. split; [vm_compute; reflexivity|]. split; reflexivity.
Qed.
Print Assumptions C31_huge_timeout_refuted.
Example C31_example : let h1 := [QoPush 1 [97] 0 100; QoPush 2 [98] 5 101] in
  let h2 := [QoConsume 9 (fun _ => 120); QoExpire 209 209; QoPop 209; QoAck 1] in
  exists m, fresh (h1 ++ QoPop 200 :: h2) /\ In m (ret (qouts exc (qrun exc inner0 h1) (QoPop 200))) /\ m_id m = 2 /\ m_vis m = 210 /\
  (forall x, In x h2 -> ~ settles (m_id m) (m_vis m) x).
Proof.
  eexists. split; [nodup|].
  split; [vm_compute; left; reflexivity|]. split; [reflexivity|]. split; [reflexivity|].
  simpl. intros x [<-|[<-|[<-|[<-|[]]]]]; cbn; lia.
Qed.

(** C32 *)
Theorem C32_batches : forall cfg h max clk, fresh h ->
  let i := qrun cfg inner0 h in
  exists ms, qouts cfg i (QoConsume max clk) = RMsgs ms /\
    lenN ms <= max /\ NoDup (map m_id ms) /\ desc ms /\
    (lenN ms < max -> obs_wait (qnext cfg i (QoConsume max clk)) = []) /\
    (forall m x, In m ms -> In x (obs_wait (qnext cfg i (QoConsume max clk))) -> m_prio x <= m_prio m) /\
    Permutation (map body_of (obs_wait i)) (map body_of (ms ++ obs_wait (qnext cfg i (QoConsume max clk)))).
Proof. exact batch_ok. Qed.
Print Assumptions C32_batches.
(** and within one batch messages of equal priority come in arrival order: the
    batch is the beginning of the waiting list sorted stably by priority *)
Theorem C32_batch_order : forall cfg h max clk, fresh h ->
  let n := N.to_nat (N.min max (lenN (arrivals cfg h))) in
  exists ms, qouts cfg (qrun cfg inner0 h) (QoConsume max clk) = RMsgs ms /\
    map body_of ms = map body_of (firstn n (dsort (arrivals cfg h))) /\
    (forall k, filter (fun m => m_prio m =? k) (dsort (arrivals cfg h)) = filter (fun m => m_prio m =? k) (arrivals cfg h)).
Proof. exact batch_order. Qed.
Print Assumptions C32_batch_order.
Example C32_example : exists ms, qouts exc (qrun exc inner0 exh) (QoConsume 2 (fun _ => 300)) = RMsgs ms /\ map m_id ms = [4; 1].
Proof. eexists; split; [vm_compute; reflexivity|reflexivity]. Qed.

(** C33: from any moment at which message [id] (if present) has no attempts --
    e.g. before it is pushed, or right after it is moved out of the DLQ -- until
    it is moved out of the DLQ again, it is delivered at most max(1, max_retries)
    times, and the attempt count shown everywhere is the number of deliveries. *)
Theorem C33_retry_bound : forall cfg id h1 h2, fresh (h1 ++ h2) ->
  let i := qrun cfg inner0 h1 in
  (forall m, In m (obs_wait i ++ obs_fly i) -> m_id m = id -> m_att m = 0) ->
  ~ In id (map d_id (obs_dead i)) ->
  ~ In (QoMove id) h2 ->
  let k := deliveries id (outs cfg i h2) in
  let i' := qrun cfg i h2 in
  N.of_nat k <= N.max 1 (c_max cfg) /\
  (forall m, In m (obs_wait i' ++ obs_fly i') -> m_id m = id -> m_att m = N.of_nat k) /\
  (forall d, In d (obs_dead i') -> d_id d = id -> d_att d = N.of_nat k).
Proof. exact retry_bound. Qed.
Print Assumptions C33_retry_bound.
(** a message is dead-lettered only from flight, with exactly max_retries
    attempts, by a nack (with its reason) or by a timeout pass at or after its
    deadline; [max_retries >= 1].  That a nack or timeout then does dead-letter
    it is C36 / C34. *)
Theorem C33_dead_letter_cause_partial : forall cfg h o d, fresh (h ++ [o]) -> 1 <= c_max cfg ->
  let i := qrun cfg inner0 h in
  In d (obs_dead (qnext cfg i o)) -> ~ In d (obs_dead i) ->
  exists m r now, In m (obs_fly i) /\ d = dead_letter m r now /\ m_att m = c_max cfg /\
    (o = QoNack (m_id m) r now \/
     exists n1 t, o = QoExpire n1 now /\ r = timed_out /\ m_state m = InFlight t /\ t <= now).
Proof. exact dead_letter_cause. Qed.
Print Assumptions C33_dead_letter_cause_partial.
(** with max_retries = 0 a nack dead-letters a message that was never delivered *)
Theorem C33_zero_retries_refuted : exists cfg h d, fresh h /\ c_max cfg = 0 /\
  deliveries 7 (outs cfg inner0 h) = O /\ obs_dead (qrun cfg inner0 h) = [d] /\ d_id d = 7 /\ d_att d = 0.
Proof.
  exists (mkCfg 10 0), [QoPush 7 [1] 0 1; QoNack 7 [2] 2]. eexists.
  split; [nodup|]. repeat split; vm_compute; reflexivity.
Qed.
Print Assumptions C33_zero_retries_refuted.
Example C33_example : deliveries 2 (outs exc inner0 exh) = 2%nat /\ c_max exc = 2 /\
  (let i := qrun exc inner0 [] in (forall m, In m (obs_wait i ++ obs_fly i) -> m_id m = 2 -> m_att m = 0) /\ ~ In 2 (map d_id (obs_dead i)) /\ ~ In (QoMove 2) exh) /\
  map d_att (obs_dead (qrun exc inner0 exh)) = [2] /\ map d_reason (obs_dead (qrun exc inner0 exh)) = [[34]].
Proof.
  split; [vm_compute; reflexivity|]. split; [reflexivity|]. split; [|vm_compute; auto].
  split; [simpl; tauto|]. split; [simpl; tauto|]. simpl. intuition discriminate.
Qed.

(** C34: the timeout task compares deadlines with [now1] to decide whether to run
    and with [now2] to select; exactly the overdue messages leave flight, those
    below the limit to the back of the waiting list, the others to the DLQ. *)
Theorem C34_timeouts_exact : forall cfg h now1 now2, fresh h ->
  let i := qrun cfg inner0 h in
  let i' := qnext cfg i (QoExpire now1 now2) in
  let due m := match m_state m with InFlight t => t <=? now2 | Ready => false end in
  (if existsb (fun m => match m_state m with InFlight t => t <=? now1 | Ready => false end) (obs_fly i)
   then
     obs_fly i' = filter (fun m => negb (due m)) (obs_fly i) /\
     Permutation (obs_wait i')
       (obs_wait i ++ map requeued (filter (fun m => due m && (m_att m <? c_max cfg)) (obs_fly i))) /\
     obs_dead i' = obs_dead i ++
       map (fun m => dead_letter m timed_out now2) (filter (fun m => due m && (c_max cfg <=? m_att m)) (obs_fly i)) /\
     arrivals cfg (h ++ [QoExpire now1 now2]) =
       arrivals cfg h ++ map requeued (filter (fun m => due m && (m_att m <? c_max cfg)) (obs_fly i))
   else i' = i).
Proof. exact expire_exact. Qed.
Print Assumptions C34_timeouts_exact.
Example C34_example : let i := qrun exc inner0 (firstn 7 exh) in
  map m_vis (obs_fly i) = [211; 212; 216] /\ map m_id (obs_fly i) = [3; 1; 2] /\
  map m_id (obs_fly (qnext exc i (QoExpire 213 213))) = [2].
Proof. vm_compute; auto. Qed.

(** C35 *)
Theorem C35_ack_permanent : forall cfg h1 id h2,
  fresh (h1 ++ QoAck id :: h2) ->
  qouts cfg (qrun cfg inner0 h1) (QoAck id) = RBool true ->
  let i1 := qnext cfg (qrun cfg inner0 h1) (QoAck id) in
  ~ In id (map m_id (flat_map ret (outs cfg i1 h2))) /\
  ~ listed (qrun cfg i1 h2) id /\
  qouts cfg (qrun cfg i1 h2) (QoAck id) = RBool false /\
  forall r now, qouts cfg (qrun cfg i1 h2) (QoNack id r now) = RBool false.
Proof. exact ack_permanent. Qed.
Print Assumptions C35_ack_permanent.
Example C35_example : fresh (exh ++ QoAck 3 :: [QoExpire 900 900; QoPop 901]) /\
  qouts exc (qrun exc inner0 exh) (QoAck 3) = RBool true.
Proof. split; [nodup|vm_compute; reflexivity]. Qed.

(** C36 *)
Theorem C36_nack : forall cfg h m reason now, fresh h ->
  let i := qrun cfg inner0 h in
  let o := QoNack (m_id m) reason now in
  In m (obs_fly i) ->
  qouts cfg i o = RBool true /\
  obs_fly (qnext cfg i o) = filter (fun x => negb (m_id x =? m_id m)) (obs_fly i) /\
  (if m_att m <? c_max cfg
   then arrivals cfg (h ++ [o]) = arrivals cfg h ++ [requeued (noted reason m)] /\
        obs_dead (qnext cfg i o) = obs_dead i /\
        Permutation (obs_wait (qnext cfg i o)) (obs_wait i ++ [requeued (noted reason m)])
   else arrivals cfg (h ++ [o]) = arrivals cfg h /\
        obs_dead (qnext cfg i o) = obs_dead i ++ [dead_letter m reason now] /\
        obs_wait (qnext cfg i o) = obs_wait i).
Proof. exact nack_in_flight. Qed.
Print Assumptions C36_nack.
Example C36_example : exists m, In m (obs_fly (qrun exc inner0 (firstn 5 exh))) /\ m_id m = 2 /\ m_att m = 1 /\ c_max exc = 2 /\
  map m_id (arrivals exc (firstn 6 exh)) = [2] /\
  exists m', In m' (obs_fly (qrun exc inner0 (firstn 10 exh))) /\ m_id m' = 2 /\ m_att m' = 2.
Proof.
  eexists. split; [vm_compute; left; reflexivity|]. repeat (split; [vm_compute; reflexivity|]).
  eexists. split; [vm_compute; left; reflexivity|]. split; reflexivity.
Qed.

(** C37 is false: a consumer whose delivery has timed out can still ack. *)
Theorem C37_stale_ack_refuted : exists cfg h id, fresh h /\
  ~ In id (map m_id (obs_fly (qrun cfg inner0 h))) /\
  qouts cfg (qrun cfg inner0 h) (QoAck id) = RBool true /\
  exists m now, In (QoPop now) h /\ In (RMsg (Some m)) (outs cfg inner0 h) /\ m_id m = id /\ In (QoExpire (now + c_vt cfg) (now + c_vt cfg)) h.
Proof.
  exists (mkCfg 10 5), [QoPush 7 [1] 0 1; QoPop 2; QoExpire 12 12], 7.
  split; [nodup|].
  split; [vm_compute; tauto|]. split; [vm_compute; reflexivity|].
  eexists. exists 2. split; [simpl; auto|]. split; [vm_compute; right; left; reflexivity|]. split; [reflexivity|]. vm_compute; auto.
Qed.
Print Assumptions C37_stale_ack_refuted.
(** what holds: ack and nack succeed exactly for messages that are pending or
    in flight, and answer false otherwise (missing: "in flight" only) *)
Theorem C37_settle_present_partial : forall cfg h id, fresh h ->
  let i := qrun cfg inner0 h in
  let present := In id (map m_id (obs_wait i ++ obs_fly i)) in
  (qouts cfg i (QoAck id) = RBool true <-> present) /\
  (forall r now, qouts cfg i (QoNack id r now) = RBool true <-> present) /\
  (qouts cfg i (QoAck id) = RBool false <-> ~ present) /\
  (forall r now, qouts cfg i (QoNack id r now) = RBool false <-> ~ present).
Proof. exact settle_iff_present. Qed.
Print Assumptions C37_settle_present_partial.
Example C37_example : qouts exc (qrun exc inner0 exh) (QoAck 3) = RBool true /\ qouts exc (qrun exc inner0 exh) (QoAck 2) = RBool false.
Proof. vm_compute; auto. Qed.

(** C38: pages of any positive size laid end to end are the dead letters newest
    first, and every page reports the true total ... *)
Theorem C38_dlq_pages : forall cfg h limit n,
  let i := qrun cfg inner0 h in
  0 < limit -> lenN (obs_dead i) <= limit * N.of_nat n ->
  pages (fun off => snd (dlq_peek off limit (i_dlq i))) limit 0 n = rev (obs_dead i) /\
  forall off lim, fst (dlq_peek off lim (i_dlq i)) = lenN (obs_dead i).
Proof. exact peek_pages. Qed.
Print Assumptions C38_dlq_pages.
(** ... where [obs_dead] is in order of death: requests only remove entries and
    append new ones, and no id occurs twice *)
Theorem C38_death_order : forall cfg h o, fresh (h ++ [o]) ->
  exists keep new, obs_dead (qnext cfg (qrun cfg inner0 h) o) = filter keep (obs_dead (qrun cfg inner0 h)) ++ new.
Proof. exact dead_order. Qed.
Print Assumptions C38_death_order.
Theorem C38_dlq_distinct : forall cfg h, fresh h -> NoDup (map d_id (obs_dead (qrun cfg inner0 h))).
Proof. exact dead_distinct. Qed.
Print Assumptions C38_dlq_distinct.
Example C38_example : let h := [QoPush 1 [1] 0 1; QoPush 2 [2] 0 1; QoPush 3 [3] 0 1; QoNack 2 [] 2; QoNack 3 [] 3; QoNack 1 [] 4] in
  let i := qrun (mkCfg 9 0) inner0 h in
  map d_id (obs_dead i) = [2; 3; 1] /\
  map d_id (snd (dlq_peek 0 2 (i_dlq i))) = [1; 3] /\ map d_id (snd (dlq_peek 2 2 (i_dlq i))) = [2].
Proof. vm_compute; auto. Qed.

(** C39 *)
Theorem C39_move : forall cfg h id, fresh h ->
  let i := qrun cfg inner0 h in let i' := qnext cfg i (QoMove id) in
  match find (fun d => d_id d =? id) (obs_dead i) with
  | Some d =>
      qouts cfg i (QoMove id) = RBool true /\
      obs_dead i' = filter (fun d => negb (d_id d =? id)) (obs_dead i) /\
      arrivals cfg (h ++ [QoMove id]) = arrivals cfg h ++ [msg_pushed id (d_payload d) (d_prio d) (d_created d)] /\
      Permutation (obs_wait i') (obs_wait i ++ [msg_pushed id (d_payload d) (d_prio d) (d_created d)]) /\
      obs_fly i' = obs_fly i
  | None => qouts cfg i (QoMove id) = RBool false /\ i' = i
  end.
Proof. exact move_spec. Qed.
Print Assumptions C39_move.
Theorem C39_delete : forall cfg h id, fresh h ->
  let i := qrun cfg inner0 h in let i' := qnext cfg i (QoDelDlq id) in
  match find (fun d => d_id d =? id) (obs_dead i) with
  | Some d =>
      qouts cfg i (QoDelDlq id) = RBool true /\
      obs_dead i' = filter (fun d => negb (d_id d =? id)) (obs_dead i) /\
      S (length (obs_dead i')) = length (obs_dead i) /\
      i_state i' = i_state i
  | None => qouts cfg i (QoDelDlq id) = RBool false /\ i' = i
  end.
Proof. exact delete_spec. Qed.
Print Assumptions C39_delete.
Theorem C39_purge : forall cfg i,
  qouts cfg i QoPurge = RCount (lenN (obs_dead i)) /\
  obs_dead (qnext cfg i QoPurge) = [] /\ i_state (qnext cfg i QoPurge) = i_state i.
Proof. exact purge_spec. Qed.
Print Assumptions C39_purge.
Example C39_example : let i := qrun exc inner0 exh in
  qouts exc i (QoMove 2) = RBool true /\ qouts exc i (QoMove 3) = RBool false /\ qouts exc i (QoDelDlq 2) = RBool true /\
  map (fun m => (m_id m, m_att m)) (arrivals exc (exh ++ [QoMove 2])) = [(1, 1); (4, 0); (2, 0)].
Proof. vm_compute; auto. Qed.

(** C40: the counters count the listings, the pending counter is what a large
    enough consume would return, and listings split messages by state. *)
Theorem C40_stats : forall cfg h, fresh h ->
  let i := qrun cfg inner0 h in
  get_counters (i_state i) = (lenN (obs_wait i), lenN (obs_fly i)) /\
  lenN (obs_wait i) = lenN (arrivals cfg h) /\
  (forall max clk ms, lenN (obs_wait i) <= max -> qouts cfg i (QoConsume max clk) = RMsgs ms -> lenN ms = lenN (obs_wait i)) /\
  (forall m, In m (obs_wait i) <-> In m (obs_wait i ++ obs_fly i) /\ m_state m = Ready) /\
  (forall m, In m (obs_fly i) <-> In m (obs_wait i ++ obs_fly i) /\ m_state m <> Ready).
Proof. exact stats_ok. Qed.
Print Assumptions C40_stats.
Theorem C40_listing : forall cfg h (inflight : bool) search limit n, fresh h ->
  let i := qrun cfg inner0 h in
  let matching := filter (fun m => search (m_payload m)) (if inflight then obs_fly i else obs_wait i) in
  (forall off lim, fst (get_messages inflight off lim search (i_state i)) = lenN matching) /\
  (0 < limit -> lenN matching <= limit * N.of_nat n ->
   pages (fun off => snd (get_messages inflight off limit search (i_state i))) limit 0 n = matching) /\
  NoDup (map m_id matching).
Proof. exact listing_ok. Qed.
Print Assumptions C40_listing.
(** the three listings together hold every message that was pushed and not removed: C29 *)
Example C40_example : let i := qrun exc inner0 exh in get_counters (i_state i) = (2, 1) /\
  map m_id (snd (get_messages false 1 5 (fun _ => true) (i_state i))) = [4] /\
  map m_id (snd (get_messages false 0 5 (beqb [100]) (i_state i))) = [4].
Proof. vm_compute; auto. Qed.

(** C41 *)
Theorem C41_queues_independent : forall dvt dmax h o,
  qm_out dvt dmax (qm_run dvt dmax [] h) o
  = qm_out dvt dmax (qm_run dvt dmax [] (filter (fun x => beqb (op_name x) (op_name o)) h)) o.
Proof. exact queues_independent. Qed.
Print Assumptions C41_queues_independent.
Theorem C41_create_idempotent : forall dvt dmax s n vt max,
  qm_out dvt dmax s (QMExists n) = QMYes true -> qm_step dvt dmax s (QMCreate n vt max) = (s, QMOk).
Proof. exact create_idempotent. Qed.
Print Assumptions C41_create_idempotent.
Theorem C41_unknown_fails : forall dvt dmax s n q, qm_out dvt dmax s (QMExists n) = QMYes false ->
  fst (qm_step dvt dmax s (QMOp n q)) = s /\
  (qm_out dvt dmax s (QMOp n q) = QMErr \/ qm_out dvt dmax s (QMOp n q) = QMRes (RMsg None) \/
   qm_out dvt dmax s (QMOp n q) = QMRes (RBool false) \/ qm_out dvt dmax s (QMOp n q) = QMRes (RExpired [] [])) /\
  (forall id p pr now, q = QoPush id p pr now -> qm_out dvt dmax s (QMOp n q) = QMErr) /\
  (forall max clk, q = QoConsume max clk -> qm_out dvt dmax s (QMOp n q) = QMErr) /\
  (forall off lim, qm_step dvt dmax s (QMPeek n off lim) = (s, QMErr)).
Proof. exact unknown_fails. Qed.
Print Assumptions C41_unknown_fails.
Theorem C41_exists : forall dvt dmax h n,
  qm_out dvt dmax (qm_run dvt dmax [] h) (QMExists n) = QMYes (exists_spec n (rev h)).
Proof. exact exists_ok. Qed.
Print Assumptions C41_exists.
(** the state of a queue is the single-queue state after its own requests since
    its creation, with the configuration of that creation (settings not given are
    the server's defaults): this lifts C29-C40 *)
Theorem C41_own_history : forall dvt dmax s n vt max h,
  qm_get n s = None -> (forall o, In o h -> o <> QMDelete n) ->
  let cfg := mkCfg (match vt with Some v => v | None => dvt end) (match max with Some m => m | None => dmax end) in
  qm_get n (qm_run dvt dmax s (QMCreate n vt max :: h)) = Some (cfg, qrun cfg inner0 (own_ops n h)).
Proof. exact run_since_create. Qed.
Print Assumptions C41_own_history.
(** and so are its answers *)
Theorem C41_own_answers : forall dvt dmax s n vt max h,
  qm_out dvt dmax s (QMExists n) = QMYes false -> (forall o, In o h -> o <> QMDelete n) ->
  let cfg := mkCfg (match vt with Some v => v | None => dvt end) (match max with Some m => m | None => dmax end) in
  let i := qrun cfg inner0 (own_ops n h) in
  let s' := qm_run dvt dmax s (QMCreate n vt max :: h) in
  (forall q, qm_out dvt dmax s' (QMOp n q) = QMRes (qouts cfg i q)) /\
  (forall off lim, qm_out dvt dmax s' (QMPeek n off lim) = QMDead (lenN (obs_dead i)) (snd (dlq_peek off lim (i_dlq i)))) /\
  (forall b off lim f, let r := get_messages b off lim f (i_state i) in qm_out dvt dmax s' (QMList n b off lim f) = QMMsgs (fst r) (snd r)) /\
  qm_out dvt dmax s' (QMStats n) =
    QMStat (fst (get_counters (i_state i))) (snd (get_counters (i_state i))) (lenN (obs_dead i)) cfg.
Proof. exact own_answers. Qed.
Print Assumptions C41_own_answers.
Example C41_example :
  let h := [QMCreate [97] (Some 5) None; QMCreate [98] None (Some 1); QMOp [97] (QoPush 1 [1] 0 1); QMCreate [97] (Some 9) None; QMDelete [98]] in
  qm_out 30 5 (qm_run 30 5 [] h) (QMStats [97]) = QMStat 1 0 0 (mkCfg 5 5) /\
  qm_out 30 5 (qm_run 30 5 [] h) (QMExists [98]) = QMYes false /\ qm_out 30 5 [] (QMExists [97]) = QMYes false /\
  (forall o, In o (tl h) -> o <> QMDelete [97]) /\
  qm_out 30 5 (qm_run 30 5 [] h) (QMOp [98] (QoPush 1 [] 0 1)) = QMErr.
Proof. split; [reflexivity|]. split; [reflexivity|]. split; [reflexivity|]. split; [|reflexivity]. simpl. intuition (subst; discriminate). Qed.
