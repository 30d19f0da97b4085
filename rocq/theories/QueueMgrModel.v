(** Model of the collection of queues kept by the queue manager
    (src/brokers/queue/manager.rs).  Persistence is modelled separately in
    QueuePersistModel; here a newly created queue starts empty (manager.rs:253
    build_queue recovers the file of that name, which delete_queue has removed). *)
From Verif Require Import LibBase LibMap QueueModel.

(** manager.rs:37-42 DashMap<String, Arc<QueueShared>>: each entry holds the
    configuration and the locked state of one queue. *)
Definition qmgr := list (bytes * (qconfig * inner)).
(** manager-level requests; [QMOp] covers push/pop/consume/ack/nack/move/delete/purge
    (manager.rs:280-424,467-525) and the timeout task (manager.rs:150-212);
    [QMPeek] peek_dlq 458-464; [QMList] get_messages 445-449; [QMStats] one entry of
    get_snapshot 426-443. *)
Inductive qmop :=
| QMCreate (name : bytes) (vt max : option N)
| QMDelete (name : bytes)
| QMExists (name : bytes)
| QMOp (name : bytes) (o : qop)
| QMPeek (name : bytes) (offset limit : N)
| QMList (name : bytes) (inflight : bool) (offset limit : N) (search : bytes -> bool)
| QMStats (name : bytes).
(** answers: [QMErr] is a "not found" error (tcp.rs:193-258 turn a [false] ack/nack
    into an error as well) *)
Inductive qmout :=
| QMOk | QMErr | QMRes (r : qout) | QMYes (b : bool)
| QMDead (total : N) (l : list dlqmsg)
| QMMsgs (total : N) (l : list message)
| QMStat (pending inflight dead : N) (cfg : qconfig).

Section Mgr.
  (** system defaults, queue/config.rs:18-30 (read from the environment) *)
  Variable dvt dmax : N.
  (** domain/queue.rs:90-99 QueueConfig::from_options *)
  Definition cfg_of (vt max : option N) : qconfig :=
    mkCfg (match vt with Some v => v | None => dvt end) (match max with Some m => m | None => dmax end).
  (** manager.rs:220-222 get_queue *)
  Definition qm_get (n : bytes) (s : qmgr) : option (qconfig * inner) := aget beqb n s.
  (** what an operation on an unknown queue answers: push/consume/move/delete/purge
      an error, ack/nack false, pop nothing; the timeout task does not exist *)
  Definition missing (o : qop) : qmout :=
    match o with
    | QoPop _ => QMRes (RMsg None)
    | QoAck _ | QoNack _ _ _ => QMRes (RBool false)
    | QoExpire _ _ => QMRes (RExpired [] [])
    | _ => QMErr
    end.
  Definition qm_step (s : qmgr) (o : qmop) : qmgr * qmout :=
    match o with
    | QMCreate n vt max => (* manager.rs:238-258 *)
        match qm_get n s with
        | Some _ => (s, QMOk)
        | None => (aset beqb n (cfg_of vt max, inner0) s, QMOk)
        end
    | QMDelete n => (adel beqb n s, QMOk) (* manager.rs:260-278 *)
    | QMExists n => (s, QMYes (match qm_get n s with Some _ => true | None => false end)) (* 451-453 *)
    | QMOp n q =>
        match qm_get n s with
        | Some (cfg, i) => (aset beqb n (cfg, qnext cfg i q) s, QMRes (qouts cfg i q))
        | None => (s, missing q)
        end
    | QMPeek n off lim =>
        match qm_get n s with
        | Some (_, i) => let (t, l) := dlq_peek off lim (i_dlq i) in (s, QMDead t l)
        | None => (s, QMErr)
        end
    | QMList n b off lim f =>
        match qm_get n s with
        | Some (_, i) => let (t, l) := get_messages b off lim f (i_state i) in (s, QMMsgs t l)
        | None => (s, QMErr)
        end
    | QMStats n =>
        match qm_get n s with
        | Some (cfg, i) => let (p, f) := get_counters (i_state i) in (s, QMStat p f (lenN (i_dlq i)) cfg)
        | None => (s, QMErr)
        end
    end.
  Definition qm_run (s : qmgr) (h : list qmop) : qmgr := fold_left (fun s o => fst (qm_step s o)) h s.
  Definition qm_out (s : qmgr) (o : qmop) : qmout := snd (qm_step s o).
End Mgr.
