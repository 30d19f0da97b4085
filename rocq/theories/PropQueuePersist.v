(** Properties of queue durability (C42-C47, C77). *)
From Verif Require Import LibBase LibMap QueueModel QueueSpec QueueObs QueueProofs QueueRefine QueueTrace QueueFacts QueueFacts2 QueuePersistModel QueuePersistProofs QueuePersistInv QueuePersistSys QueuePersistCrash QueuePersistOrder.

Ltac nodup := unfold fresh; vm_compute; repeat (apply NoDup_cons; [simpl; intuition discriminate|]); apply NoDup_nil.
Definition exc : qconfig := mkCfg 10 2.
(** push three, deliver one, dead-letter one, everything flushed *)
Definition ex_evs : list pev :=
  [EReq (QoPush 1 [10] 0 1); EReq (QoPush 2 [20] 5 2); EReq (QoPop 3); ERecv; EFlush; EReq (QoNack 2 [7] 4); EReq (QoPop 5); EReq (QoNack 2 [8] 6);
   EReq (QoPush 3 [30] 5 7); EReq (QoPop 8); ERecv; EFlush].
Definition ex_s : psys := fold_left (pdo exc) ex_evs sys0.

(** C42: after the last flush a restart (rows loaded in any order, at any time)
    shows the same messages: payload, priority, attempts, deadline and creation time
    of every pending or in-flight message, and every dead letter unchanged.
    The history may itself contain crashes and restarts. *)
Theorem C42_restart_restores : forall cfg evs s clk s', psteps cfg sys0 evs s -> fresh (reqs evs) -> p_chan s = [] -> p_batch s = [] ->
  pstep cfg s (ECrash clk) s' ->
  Permutation (rows (p_mem s')) (rows (p_mem s)) /\ Permutation (obs_dead (p_mem s')) (obs_dead (p_mem s)).
Proof. exact restart_restores. Qed.
Print Assumptions C42_restart_restores.
(** and the queue answers every further request as the reference queue does *)
Theorem C42_serves_after_restart : forall cfg evs s h, psteps cfg sys0 evs s -> fresh (reqs evs ++ h) ->
  exists S, Permutation (s_wait S) (obs_wait (p_mem s)) /\ s_fly S = obs_fly (p_mem s) /\ s_dead S = obs_dead (p_mem s) /\
    outs cfg (p_mem s) h = a_outs cfg S h.
Proof. exact serves_after. Qed.
Print Assumptions C42_serves_after_restart.
Example C42_example : psteps exc sys0 ex_evs ex_s /\ fresh (reqs ex_evs) /\ p_chan ex_s = [] /\ p_batch ex_s = [] /\
  map fst (rows (p_mem ex_s)) = [1; 3] /\ map d_id (obs_dead (p_mem ex_s)) = [2] /\
  map m_id (obs_wait (p_mem ex_s)) = [1] /\ map m_id (obs_fly (p_mem ex_s)) = [3].
Proof. split; [apply pdo_ok|]. split; [nodup|]. vm_compute. auto 10. Qed.

(** C43: crash at any moment. [s0]: a moment with nothing pending (first start, a
    restart, or a completed flush); then any requests, batching and flushes, and a
    crash. The requests since then split into a kept and a lost part; every
    message shows after the restart what it showed after the kept part, or, for
    the first lost request, possibly what it showed after that one. *)
Theorem C43_crash_loses_suffix : forall cfg evs0 s0 evs s clk s',
  psteps cfg sys0 evs0 s0 -> p_chan s0 = [] -> p_batch s0 = [] ->
  psteps cfg s0 evs s -> crash_free evs -> pstep cfg s (ECrash clk) s' -> fresh (reqs evs0 ++ reqs evs) ->
  exists h1 h2, reqs evs = h1 ++ h2 /\
    forall x, seen x (p_mem s') = seen x (qrun cfg (p_mem s0) h1) \/
      exists o h3, h2 = o :: h3 /\ seen x (p_mem s') = seen x (qrun cfg (p_mem s0) (h1 ++ [o])).
Proof. exact crash_prefix. Qed.
Print Assumptions C43_crash_loses_suffix.
(** never twice, never in both places, never invented or altered, whatever crashes *)
Theorem C43_no_duplicates : forall cfg evs s, psteps cfg sys0 evs s -> fresh (reqs evs) ->
  NoDup (map m_id (obs_wait (p_mem s)) ++ map m_id (obs_fly (p_mem s)) ++ map d_id (obs_dead (p_mem s))) /\
  (forall b, In b (map body_of (obs_wait (p_mem s) ++ obs_fly (p_mem s)) ++ map dbody_of (obs_dead (p_mem s))) -> In b (pushed (reqs evs))).
Proof. exact only_pushed. Qed.
Print Assumptions C43_no_duplicates.
(** what is gone and flushed (acknowledged, deleted, purged) never comes back, whatever crashes later *)
Theorem C43_flushed_ack_permanent : forall cfg evs s id evs2 s2, psteps cfg sys0 evs s -> p_chan s = [] -> p_batch s = [] -> ~ listed (p_mem s) id ->
  psteps cfg s evs2 s2 -> fresh (reqs evs ++ reqs evs2) -> ~ In id (map body_id (pushed (reqs evs2))) ->
  ~ listed (p_mem s2) id /\ forall o, push_of o = [] -> ~ In id (map m_id (ret (qouts cfg (p_mem s2) o))).
Proof. exact gone_for_good. Qed.
Print Assumptions C43_flushed_ack_permanent.
(** a crash in the middle of a consume of two whose first update alone was flushed *)
Definition ex_mid : list pev := [EReq (QoPush 4 [40] 9 9); EReq (QoAck 3); EReq (QoConsume 2 (fun _ => 10))].
Example C43_example : exists s s', psteps exc ex_s (ex_mid ++ [ERecv; EFlush]) s /\ crash_free (ex_mid ++ [ERecv; EFlush]) /\
  pstep exc s (ECrash (fun _ => 12)) s' /\ fresh (reqs ex_evs ++ reqs (ex_mid ++ [ERecv; EFlush])) /\
  map m_id (obs_fly (p_mem s)) = [4; 1] /\ map m_id (obs_fly (p_mem s')) = [4] /\ map m_id (obs_wait (p_mem s')) = [1].
Proof.
  set (s1 := fold_left (pdo exc) ex_mid ex_s).
  set (c1 := firstn 3 (p_chan s1)). set (c2 := skipn 3 (p_chan s1)).
  set (s := mkSys (p_mem s1) c2 [] (exec_all c1 (p_db s1))).
  exists s, (pdo exc s (ECrash (fun _ => 12))). split; [|split; [|split; [|split; [nodup|]]]].
  - rewrite app_assoc_reverse || idtac. change (ex_mid ++ [ERecv; EFlush]) with ((ex_mid ++ [ERecv]) ++ [EFlush]).
    apply (psteps_snoc exc ex_s (ex_mid ++ [ERecv]) (mkSys (p_mem s1) c2 ([] ++ c1) (p_db s1)) EFlush s).
    + apply (psteps_snoc exc ex_s ex_mid (mkSys (p_mem s1) (c1 ++ c2) [] (p_db s1)) ERecv); [|constructor].
      replace (mkSys (p_mem s1) (c1 ++ c2) [] (p_db s1)) with s1 by (vm_compute; reflexivity). apply pdo_ok.
    + constructor.
  - intros e H. simpl in H. intuition (subst; reflexivity).
  - unfold s, pdo. constructor; reflexivity.
  - vm_compute. auto.
Qed.
Example C43_ack_example : exists s, psteps exc sys0 (ex_evs ++ [EReq (QoAck 1); ERecv; EFlush]) s /\ p_chan s = [] /\ p_batch s = [] /\
  ~ listed (p_mem s) 1 /\ listed (p_mem ex_s) 1.
Proof.
  eexists. split; [apply pdo_ok|]. vm_compute. split; [auto|]. split; [auto|]. split; [intuition discriminate|auto].
Qed.

(** C44 is false of the code: storage operations are sent after the lock is
    released, so those of two requests can overtake each other. *)
Theorem C44_acked_returns_refuted : exists cfg l id, fresh (creqs l) /\
  let s := crun cfg c0 l in concat (c_out s) = [] /\
  qouts cfg (qrun cfg inner0 (removelast (creqs l))) (last (creqs l) QoPurge) = RBool true /\ last (creqs l) QoPurge = QoAck id /\
  ~ listed (c_mem s) id /\
  let d := exec_all (c_sent s) db0 in listed (recover (fun _ => 100) (db_main d) (db_dead d)) id.
Proof.
  exists exc, [CReq (QoPush 1 [10] 0 1); CReq (QoAck 1); CSend 1; CSend 0], 1. split; [nodup|].
  vm_compute. split; [auto|]. split; [auto|]. split; [auto|]. split; [intuition discriminate|auto].
Qed.
Print Assumptions C44_acked_returns_refuted.
(** a dead letter that memory shows is missing after a restart *)
Theorem C44_dead_letter_lost_refuted : exists cfg l id, fresh (creqs l) /\
  let s := crun cfg c0 l in concat (c_out s) = [] /\ listed (c_mem s) id /\
  let d := exec_all (c_sent s) db0 in ~ listed (recover (fun _ => 100) (db_main d) (db_dead d)) id.
Proof.
  exists (mkCfg 10 1), [CReq (QoPush 1 [10] 0 1); CSend 0; CReq (QoPop 2); CSend 1; CReq QoPurge; CReq (QoNack 1 [7] 3); CSend 3; CSend 2], 1.
  split; [nodup|]. vm_compute. split; [auto|]. split; [auto|intuition discriminate].
Qed.
Print Assumptions C44_dead_letter_lost_refuted.
(** It holds when no request runs while an unsent operation concerns one of its
    messages (e.g. clients wait for the answer before touching a message again;
    a purge concerns every message). Missing for the full claim: nothing in the
    code enforces this. *)
Theorem C44_no_overtaking_partial : forall cfg l clk main dead, fresh (creqs l) -> hazard_free cfg c0 l ->
  let s := crun cfg c0 l in concat (c_out s) = [] ->
  let d := exec_all (c_sent s) db0 in Permutation main (db_main d) -> Permutation dead (db_dead d) ->
  Permutation (rows (recover clk main dead)) (rows (c_mem s)) /\ Permutation (obs_dead (recover clk main dead)) (obs_dead (c_mem s)).
Proof. exact concurrent_restart. Qed.
Print Assumptions C44_no_overtaking_partial.
Lemma ex_touch : forall x, existsb (touches x) [SInsert (new_message 2 [20] 0 2)] = true ->
  existsb (touches x) (concat [[SInsert (new_message 1 [10] 0 1)]]) = false.
Proof. intros x. simpl. rewrite !orb_false_r. intro H. apply N.eqb_eq in H. subst. reflexivity. Qed.
Example C44_example : let l := [CReq (QoPush 1 [10] 0 1); CReq (QoPush 2 [20] 0 2); CSend 1; CSend 0; CReq (QoPop 5); CSend 2] in
  fresh (creqs l) /\ hazard_free exc c0 l /\ concat (c_out (crun exc c0 l)) = [] /\
  c_sent (crun exc c0 l) <> sends exc inner0 (creqs l) /\ map m_id (obs_fly (c_mem (crun exc c0 l))) = [1].
Proof.
  split; [nodup|]. split; [|split; [reflexivity|split; [vm_compute; discriminate|reflexivity]]].
  cbn [hazard_free]. split; [intros x _; reflexivity|]. split; [exact ex_touch|]. split; [exact I|]. split; [exact I|].
  split; [intros x _; reflexivity|]. split; exact I.
Qed.

(** C45 *)
Theorem C45_recovered_state : forall clk main dead j id r,
  NoDup (akeys main ++ akeys dead) -> (forall k e, In (k, e) dead -> d_id e = k) -> nth_error main j = Some (id, r) ->
  let i := recover clk main dead in
  let flying := (clk j <? w_vis r) && (0 <? w_att r) in
  let m := mkMsg id (w_payload r) (w_prio r) (w_att r) (w_created r) (w_vis r) None (if flying then InFlight (w_vis r) else Ready) in
  (In id (map m_id (obs_fly i)) <-> clk j < w_vis r /\ 0 < w_att r) /\
  (In id (map m_id (obs_wait i)) <-> ~ (clk j < w_vis r /\ 0 < w_att r)) /\
  In m (obs_wait i ++ obs_fly i).
Proof. exact recovered_state. Qed.
Print Assumptions C45_recovered_state.
Theorem C45_recovered_live : forall cfg clk main dead, NoDup (akeys main ++ akeys dead) -> (forall k e, In (k, e) dead -> d_id e = k) ->
  let i := recover clk main dead in
  (forall m now1 now2, In m (obs_fly i) -> dl m <= now1 -> dl m <= now2 ->
     let i' := qnext cfg i (QoExpire now1 now2) in
     In (m_id m) (map m_id (obs_wait i')) \/ In (m_id m) (map d_id (obs_dead i'))) /\
  (forall m max clk, In m (obs_wait i) -> lenN (obs_wait i) <= max -> In (m_id m) (map m_id (ret (qouts cfg i (QoConsume max clk))))).
Proof. exact recovered_live. Qed.
Print Assumptions C45_recovered_live.
Example C45_example : let main := [(1, mkRow [10] 0 0 0 1); (2, mkRow [20] 0 50 1 1); (3, mkRow [30] 0 15 1 1)] in
  let i := recover (fun j => 20 + N.of_nat j) main [] in
  map m_id (obs_wait i) = [1; 3] /\ map m_id (obs_fly i) = [2].
Proof. vm_compute; auto. Qed.

(** C46 is false: the database holds no order of return to the queue. Two
    histories with the same database whose memory delivers different messages of
    the same priority next: no restart can be right for both. *)
Theorem C46_order_refuted : exists cfg h1 h2 now a b, fresh h1 /\ fresh h2 /\
  exec_all (sends cfg inner0 h1) db0 = exec_all (sends cfg inner0 h2) db0 /\
  qouts cfg (qrun cfg inner0 h1) (QoPop now) = RMsg (Some a) /\ qouts cfg (qrun cfg inner0 h2) (QoPop now) = RMsg (Some b) /\
  m_id a <> m_id b /\ m_prio a = m_prio b.
Proof.
  exists exc, [QoPush 1 [10] 0 1; QoPush 2 [20] 0 1; QoPop 2; QoNack 1 [7] 3], [QoPush 1 [10] 0 1; QoPop 2; QoNack 1 [7] 3; QoPush 2 [20] 0 1], 5.
  eexists. eexists. split; [nodup|]. split; [nodup|]. split; [vm_compute; reflexivity|]. split; [vm_compute; reflexivity|].
  split; [vm_compute; reflexivity|]. split; [vm_compute; discriminate|reflexivity].
Qed.
Print Assumptions C46_order_refuted.
(** With rows loaded in insertion order, and a history in which nothing returned to
    the queue (no nack, timeout or move), messages waiting before the restart keep
    their relative order within each priority. *)
Theorem C46_order_partial : forall cfg h clk k, fresh h -> forallb plain h = true ->
  let i := qrun cfg inner0 h in
  let d := exec_all (sends cfg inner0 h) db0 in
  let i' := recover clk (db_main d) (db_dead d) in
  let before := map m_id (filter (fun m => m_prio m =? k) (obs_wait i)) in
  filter (fun x => nmem x (map m_id (obs_wait i))) (map m_id (filter (fun m => m_prio m =? k) (obs_wait i'))) = before.
Proof. exact restart_order. Qed.
Print Assumptions C46_order_partial.
Example C46_example : let h := [QoPush 1 [10] 0 1; QoPush 2 [20] 0 1; QoPush 3 [30] 0 1; QoPush 4 [40] 0 2; QoPop 2; QoAck 3] in
  fresh h /\ forallb plain h = true /\ map m_id (obs_wait (qrun exc inner0 h)) = [2; 4] /\
  let d := exec_all (sends exc inner0 h) db0 in map m_id (obs_wait (recover (fun _ => 50) (db_main d) (db_dead d))) = [1; 2; 4].
Proof. split; [nodup|]. vm_compute; auto. Qed.

(** C47 is false for names that end in ".db"; it holds for all others. *)
Theorem C47_name_refuted : exists n, restored_name (db_file n) <> Some n.
Proof. exists [97; 46; 100; 98]. vm_compute. discriminate. Qed.
Print Assumptions C47_name_refuted.
Theorem C47_name_collision_refuted : exists a b, a <> b /\ restored_name (db_file a) = restored_name (db_file b).
Proof. exists [97], [97; 46; 100; 98]. vm_compute. split; [discriminate|auto]. Qed.
Print Assumptions C47_name_collision_refuted.
Theorem C47_name_exact_partial : forall n, restored_name (db_file n) = Some n <-> forall p, n <> p ++ dotdb.
Proof. exact restored_iff. Qed.
Print Assumptions C47_name_exact_partial.
Example C47_example : restored_name (db_file [113; 49]) = Some [113; 49].
Proof. reflexivity. Qed.

(** C77: the retry limit is not kept across restarts ... *)
Theorem C77_retry_limit_refuted : exists cfg evs s m, psteps cfg sys0 evs s /\ fresh (reqs evs) /\ 1 <= c_max cfg /\
  qouts cfg (p_mem s) (QoPop 30) = RMsg (Some m) /\ c_max cfg < m_att m.
Proof.
  exists (mkCfg 10 1), [EReq (QoPush 1 [10] 0 1); EReq (QoPop 5); ERecv; EFlush; ECrash (fun _ => 20)]. eexists. eexists.
  split; [apply pdo_ok|]. split; [nodup|]. split; [vm_compute; discriminate|]. split; [vm_compute; reflexivity|reflexivity].
Qed.
Print Assumptions C77_retry_limit_refuted.
(** ... but each restart adds at most one delivery. *)
Theorem C77_retry_limit_partial : forall cfg evs s o m, psteps cfg sys0 evs s -> fresh (reqs evs) -> push_of o = [] ->
  In m (ret (qouts cfg (p_mem s) o)) -> 1 <= m_att m /\ m_att m <= N.max 1 (c_max cfg) + crashes evs.
Proof. exact attempts_restart. Qed.
Print Assumptions C77_retry_limit_partial.
