(** Model of one queue: in-memory state, dead-letter queue and the storage
    operations each request emits (src/brokers/queue/domain/queue.rs, dlq.rs and
    the per-queue part of manager.rs).  Message ids (Uuid) are numbers; fresh ids
    are operation arguments because Uuid::new_v4 is random.  Clock readings are
    operation arguments. *)
From Verif Require Import LibBase LibMap.

(** queue.rs:22-26 *)
Inductive mstate := Ready | InFlight (ts : N).
(** queue.rs:28-38 *)
Record message := mkMsg {
  m_id : N; m_payload : bytes; m_prio : N; m_att : N; m_created : N;
  m_vis : N; m_reason : option bytes; m_state : mstate }.
(** dlq.rs:14-23 *)
Record dlqmsg := mkDlq {
  d_id : N; d_payload : bytes; d_prio : N; d_att : N; d_created : N;
  d_failed : N; d_reason : bytes }.
(** queue.rs:41-54 (Message::new) *)
Definition new_message (id : N) (payload : bytes) (prio now : N) : message :=
  mkMsg id payload prio 0 now 0 None Ready.
(** dlq.rs:26-36 (from_message); [now] is current_time_ms() *)
Definition from_message (m : message) (reason : bytes) (now : N) : dlqmsg :=
  mkDlq (m_id m) (m_payload m) (m_prio m) (m_att m) (m_created m) now reason.
(** dlq.rs:38-49 (to_message) *)
Definition to_message (d : dlqmsg) : message :=
  mkMsg (d_id d) (d_payload d) (d_prio d) 0 (d_created d) 0 None Ready.

(** field updates *)
Definition set_state (st : mstate) (m : message) : message :=
  mkMsg (m_id m) (m_payload m) (m_prio m) (m_att m) (m_created m) (m_vis m) (m_reason m) st.
Definition set_vis (v : N) (m : message) : message :=
  mkMsg (m_id m) (m_payload m) (m_prio m) (m_att m) (m_created m) v (m_reason m) (m_state m).
Definition set_att (a : N) (m : message) : message :=
  mkMsg (m_id m) (m_payload m) (m_prio m) a (m_created m) (m_vis m) (m_reason m) (m_state m).
Definition set_reason (r : option bytes) (m : message) : message :=
  mkMsg (m_id m) (m_payload m) (m_prio m) (m_att m) (m_created m) (m_vis m) r (m_state m).

(** queue.rs:69-73 (QueueConfig) *)
Record qconfig := mkCfg { c_vt : N; c_max : N }.
(** queue.rs:89-96: registry (HashMap), waiting_for_dispatch and waiting_for_ack
    (BTreeMap to LinkedHashSet) *)
Definition index := list (N * list N).
Record qstate := mkQ { q_reg : list (N * message); q_disp : index; q_ack : index }.
(** queue.rs:104-110 *)
Definition q_empty : qstate := mkQ [] [] [].

(** BTreeMap<_, LinkedHashSet>: `entry(k).or_default().insert(id)` *)
Definition idx_add (k id : N) (ix : index) : index :=
  bput k (nins id (match bget k ix with Some q => q | None => [] end)) ix.
(** `get_mut(k)`, remove the id, drop the set when it becomes empty
    (queue.rs:420-423, 426-429, 233-236) *)
Definition idx_del (k id : N) (ix : index) : index :=
  match bget k ix with
  | Some q => match nrem id q with [] => bdel k ix | q' => bput k q' ix end
  | None => ix
  end.
(** queue.rs:100-102 *)
Definition next_inflight_timeout (s : qstate) : option N :=
  match q_ack s with [] => None | (k, _) :: _ => Some k end.
Definition reg_get (id : N) (s : qstate) : option message := aget N.eqb id (q_reg s).
Definition reg_set (id : N) (m : message) (s : qstate) : qstate :=
  mkQ (aset N.eqb id m (q_reg s)) (q_disp s) (q_ack s).
(** add an id to the index that belongs to a state (queue.rs:118-127, 451-461) *)
Definition add_to_index (st : mstate) (id prio : N) (s : qstate) : qstate :=
  match st with
  | Ready => mkQ (q_reg s) (idx_add prio id (q_disp s)) (q_ack s)
  | InFlight ts => mkQ (q_reg s) (q_disp s) (idx_add ts id (q_ack s))
  end.
(** queue.rs:417-432 *)
Definition remove_from_index (st : mstate) (id prio : N) (s : qstate) : qstate :=
  match st with
  | Ready => mkQ (q_reg s) (idx_del prio id (q_disp s)) (q_ack s)
  | InFlight ts => mkQ (q_reg s) (q_disp s) (idx_del ts id (q_ack s))
  end.
(** queue.rs:113-128 *)
Definition q_push (m : message) (s : qstate) : qstate :=
  add_to_index (m_state m) (m_id m) (m_prio m) (reg_set (m_id m) m s).
Definition mstate_eqb (a b : mstate) : bool :=
  match a, b with
  | Ready, Ready => true
  | InFlight x, InFlight y => x =? y
  | _, _ => false
  end.
(** queue.rs:434-465; result: (state, whether the message exists) *)
Definition transition_to (id : N) (st : mstate) (s : qstate) : qstate * bool :=
  match reg_get id s with
  | None => (s, false)
  | Some m =>
      if mstate_eqb (m_state m) st then (s, true)
      else
        let s1 := remove_from_index (m_state m) id (m_prio m) s in
        let s2 := reg_set id (set_state st m) s1 in
        (add_to_index st id (m_prio m) s2, true)
  end.
(** queue.rs:471-478 *)
Definition delete_message (id : N) (s : qstate) : qstate * option message :=
  match reg_get id s with
  | None => (s, None)
  | Some m =>
      (remove_from_index (m_state m) id (m_prio m)
         (mkQ (adel N.eqb id (q_reg s)) (q_disp s) (q_ack s)), Some m)
  end.
(** `iter().rev().find_map(|(_, queue)| queue.front())` (queue.rs:385-388) *)
Fixpoint first_front (ix : index) : option N :=
  match ix with
  | [] => None
  | (_, []) :: ix' => first_front ix'
  | (_, x :: _) :: _ => Some x
  end.
(** u64 addition of a release build wraps (queue.rs:395) *)
Definition deadline (now vt : N) : N := (now + vt) mod 2 ^ 64.
(** queue.rs:381-414. attempts is u32; the increment cannot overflow before
    2^32 - 1 deliveries of one message and is left unbounded here. *)
Definition pop_single (now vt : N) (s : qstate) : qstate * option message :=
  match first_front (rev (q_disp s)) with
  | None => (s, None)
  | Some id =>
      let t := deadline now vt in
      let s1 := fst (transition_to id (InFlight t) s) in
      match reg_get id s1 with
      | Some m =>
          let m' := set_att (m_att m + 1) (set_vis t m) in
          (reg_set id m' s1, Some m')
      | None => (s1, None)
      end
  end.
(** queue.rs:141-158. [clk i] is the clock reading of the i-th pop. The loop runs
    until [max] messages are taken or nothing is waiting; [fuel] exhaustion is
    [None] (never happens with the fuel used, [take_batch_fuel]). *)
Fixpoint take_loop (fuel : nat) (i : nat) (max : N) (clk : nat -> N) (vt : N) (s : qstate)
  : option (qstate * list message) :=
  match fuel with
  | O => None
  | S f =>
      if N.of_nat i <? max then
        match pop_single (clk i) vt s with
        | (s', Some m) =>
            match take_loop f (S i) max clk vt s' with
            | Some (s'', ms) => Some (s'', m :: ms)
            | None => None
            end
        | (s', None) => Some (s', [])
        end
      else Some (s, [])
  end.
Definition take_batch (max : N) (clk : nat -> N) (vt : N) (s : qstate) : option (qstate * list message) :=
  take_loop (S (length (q_reg s))) 0 max clk vt s.
(** queue.rs:162-189; [now] is read by DlqMessage::from_message *)
Definition q_nack (id : N) (reason : bytes) (maxr now : N) (s : qstate)
  : qstate * option message * option dlqmsg :=
  match reg_get id s with
  | None => (s, None, None)
  | Some m =>
      let s0 := reg_set id (set_reason (Some reason) m) s in
      if maxr <=? m_att m then
        match delete_message id s0 with
        | (s1, Some m1) => (s1, None, Some (from_message m1 reason now))
        | (s1, None) => (s1, None, None)
        end
      else
        match transition_to id Ready s0 with
        | (s1, true) =>
            match reg_get id s1 with
            | Some m1 => (reg_set id (set_vis 0 m1) s1, Some (set_vis 0 m1), None)
            | None => (s1, None, None)
            end
        | (s1, false) => (s1, None, None)
        end
  end.
(** queue.rs:201-217: ids in the sets with key <= now, in key order *)
Fixpoint overdue_ids (now : N) (ix : index) : list N :=
  match ix with
  | [] => []
  | (ts, q) :: ix' => if ts <=? now then q ++ overdue_ids now ix' else []
  end.
Definition is_dlq (maxr id : N) (s : qstate) : bool :=
  match reg_get id s with Some m => maxr <=? m_att m | None => false end.
Definition is_retry (maxr id : N) (s : qstate) : bool :=
  match reg_get id s with Some m => negb (maxr <=? m_att m) | None => false end.
(** queue.rs:219-228: one requeue *)
Definition requeue_one (acc : qstate * list message) (id : N) : qstate * list message :=
  let (s, out) := acc in
  match transition_to id Ready s with
  | (s1, true) =>
      match reg_get id s1 with
      | Some m => (reg_set id (set_vis 0 m) s1, out ++ [set_vis 0 m])
      | None => (s1, out)
      end
  | (s1, false) => (s1, out)
  end.
(** "Timeout" (queue.rs:243) *)
Definition timeout_reason : bytes := [84; 105; 109; 101; 111; 117; 116].
(** queue.rs:230-245: one removal; only the in-flight index is cleaned *)
Definition dlq_one (now : N) (acc : qstate * list dlqmsg) (id : N) : qstate * list dlqmsg :=
  let (s, out) := acc in
  match reg_get id s with
  | None => (s, out)
  | Some m =>
      let s1 := mkQ (adel N.eqb id (q_reg s)) (q_disp s) (q_ack s) in
      let s2 := match m_state m with
                | InFlight ts => mkQ (q_reg s1) (q_disp s1) (idx_del ts id (q_ack s1))
                | Ready => s1
                end in
      (s2, out ++ [from_message m timeout_reason now])
  end.
(** queue.rs:195-248. failed_at: one clock reading [now] for all (the code reads
    the clock again for every dead letter). *)
Definition process_expired (maxr now : N) (s : qstate) : qstate * list message * list dlqmsg :=
  let ids := overdue_ids now (q_ack s) in
  let ids_ready := filter (fun id => is_retry maxr id s) ids in
  let ids_dlq := filter (fun id => is_dlq maxr id s) ids in
  let (s1, requeued) := fold_left requeue_one ids_ready (s, []) in
  let (s2, dead) := fold_left (dlq_one now) ids_dlq (s1, []) in
  (s2, requeued, dead).
(** queue.rs:250-263 *)
Definition idx_count (ix : index) : N := fold_right (fun e n => lenN (snd e) + n) 0 ix.
Definition get_counters (s : qstate) : N * N := (idx_count (q_disp s), idx_count (q_ack s)).
(** queue.rs:265-311. [inflight] selects the state filter ("pending"/"inflight",
    compared in lower case by the code; any other text gives (0, [])); [search]
    stands for `from_utf8_lossy(payload).contains(s)`. *)
Definition flat (ix : index) : list N := concat (map snd ix).
Definition msgs_of (reg : list (N * message)) (ids : list N) : list message :=
  flat_map (fun id => match aget N.eqb id reg with Some m => [m] | None => [] end) ids.
Definition get_messages (inflight : bool) (offset limit : N) (search : bytes -> bool) (s : qstate)
  : N * list message :=
  let ids := flat (if inflight then q_ack s else q_disp s) in
  let all := filter (fun m => search (m_payload m)) (msgs_of (q_reg s) ids) in
  (lenN all, takeN limit (dropN offset all)).

(** dlq.rs:52-101: LinkedHashMap in insertion order *)
Definition dlq := list (N * dlqmsg).
Definition dlq_push (d : dlqmsg) (q : dlq) : dlq := aput N.eqb (d_id d) d q.
Definition dlq_remove (id : N) (q : dlq) : dlq := adel N.eqb id q.
Definition dlq_peek (offset limit : N) (q : dlq) : N * list dlqmsg :=
  (lenN q, takeN limit (dropN offset (rev (avals q)))).

(** persistence.rs:19-48 (StorageOp); InsertDLQ is never emitted *)
Inductive storeop :=
| SInsert (m : message)
| SDelete (id : N)
| SUpdate (id vis att : N)
| SInsertDLQ (d : dlqmsg)
| SDeleteDLQ (id : N)
| SMoveToDLQ (id : N) (d : dlqmsg)
| SMoveToMain (id : N) (m : message)
| SPurgeDLQ.

(** manager.rs:33-38 (QueueInner) *)
Record inner := mkInner { i_state : qstate; i_dlq : dlq }.
Definition inner0 : inner := mkInner q_empty [].

(** Requests that reach one queue, with the clock readings / ids the code obtains *)
Inductive qop :=
| QoPush (id : N) (payload : bytes) (prio now : N)
| QoPop (now : N)
| QoConsume (max : N) (clk : nat -> N)       (* one take_batch under the lock *)
| QoAck (id : N)
| QoNack (id : N) (reason : bytes) (now : N)
| QoExpire (now1 now2 : N)                   (* one visit of the timeout task *)
| QoMove (id : N)
| QoDelDlq (id : N)
| QoPurge.
Inductive qout :=
| ROkay                       (* push *)
| RMsgs (ms : list message)   (* consume *)
| RMsg (m : option message)   (* pop *)
| RBool (b : bool)            (* ack, nack, move, delete *)
| RCount (n : N)              (* purge *)
| RExpired (requeued : list message) (dead : list dlqmsg)  (* internal *)
| RFuel.                      (* fuel exhausted: unreachable *)

Section Step.
  Variable cfg : qconfig.
  Definition upd_of (m : message) : storeop := SUpdate (m_id m) (m_vis m) (m_att m).
  (** One request under the queue's mutex, its answer, and the storage
      operations it sends afterwards, in order:
      push manager.rs:280-294, pop 296-314, consume 373-394 (and each turn of the
      long-poll loop 402-413), ack 316-332, nack 334-371, timeout task 168-203,
      move_to_queue 467-492, delete_dlq 495-509, purge_dlq 512-525. *)
  Definition qstep (i : inner) (o : qop) : inner * qout * list storeop :=
    match o with
    | QoPush id payload prio now =>
        let m := new_message id payload prio now in
        (mkInner (q_push m (i_state i)) (i_dlq i), ROkay, [SInsert m])
    | QoPop now =>
        match pop_single now (c_vt cfg) (i_state i) with
        | (s, Some m) => (mkInner s (i_dlq i), RMsg (Some m), [upd_of m])
        | (s, None) => (mkInner s (i_dlq i), RMsg None, [])
        end
    | QoConsume max clk =>
        match take_batch max clk (c_vt cfg) (i_state i) with
        | Some (s, ms) => (mkInner s (i_dlq i), RMsgs ms, map upd_of ms)
        | None => (i, RFuel, [])
        end
    | QoAck id =>
        match delete_message id (i_state i) with
        | (s, Some _) => (mkInner s (i_dlq i), RBool true, [SDelete id])
        | (s, None) => (mkInner s (i_dlq i), RBool false, [])
        end
    | QoNack id reason now =>
        match q_nack id reason (c_max cfg) now (i_state i) with
        | (s, Some m, _) => (mkInner s (i_dlq i), RBool true, [upd_of m])
        | (s, None, Some d) => (mkInner s (dlq_push d (i_dlq i)), RBool true, [SMoveToDLQ (d_id d) d])
        | (s, None, None) => (mkInner s (i_dlq i), RBool false, [])
        end
    | QoExpire now1 now2 =>
        match next_inflight_timeout (i_state i) with
        | Some ts =>
            if ts <=? now1 then
              match process_expired (c_max cfg) now2 (i_state i) with
              | (s, requeued, dead) =>
                  (mkInner s (fold_left (fun q d => dlq_push d q) dead (i_dlq i)),
                   RExpired requeued dead,
                   map (fun m => SUpdate (m_id m) 0 (m_att m)) requeued ++
                   map (fun d => SMoveToDLQ (d_id d) d) dead)
              end
            else (i, RExpired [] [], [])
        | None => (i, RExpired [] [], [])
        end
    | QoMove id =>
        match aget N.eqb id (i_dlq i) with
        | Some d =>
            let m := to_message d in
            (mkInner (q_push m (i_state i)) (dlq_remove id (i_dlq i)), RBool true, [SMoveToMain id m])
        | None => (i, RBool false, [])
        end
    | QoDelDlq id =>
        match aget N.eqb id (i_dlq i) with
        | Some _ => (mkInner (i_state i) (dlq_remove id (i_dlq i)), RBool true, [SDeleteDLQ id])
        | None => (i, RBool false, [])
        end
    | QoPurge => (mkInner (i_state i) [], RCount (lenN (i_dlq i)), [SPurgeDLQ])
    end.
  Definition qnext (i : inner) (o : qop) : inner := fst (fst (qstep i o)).
  Definition qouts (i : inner) (o : qop) : qout := snd (fst (qstep i o)).
  Definition qstore (i : inner) (o : qop) : list storeop := snd (qstep i o).
  Definition qrun (i : inner) (h : list qop) : inner := fold_left qnext h i.
End Step.
