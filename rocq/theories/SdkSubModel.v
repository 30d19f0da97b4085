(** The SDK's subscription bookkeeping (sdk/ts/src/brokers/pubsub.ts) on top of a
    connection that may be lost and re-established, together with the broker's
    history of pub/sub requests.

    A step is one thing that happens in the JavaScript thread or at the broker:
    the application calls subscribe or unsubscribe, the broker executes a request
    (requests of one connection in any order, connection.rs:56-70), a response
    arrives, a request fails, the part of subscribe/unsubscribe after its await
    runs, the connection is lost or comes back, a push arrives, somebody else does
    something at the broker.

    Simplifications. The two maps [exact] and [wild] have disjoint keys (the topic
    decides which one is used), so they are one list of (topic, handler), in order
    of insertion; a handler is named by the number of the subscribe call that
    brought it. The request id, the time limit and the frame bytes are in
    SdkConnModel; here a request just has a number. A request whose frame cannot be
    built fails like one that is refused. *)
From Verif Require Import LibBase LibMap PubSubModel SdkDispatch.

(** who waits for the response *)
Inductive ukind :=
| KSub (n : nat)    (** subscribe call number n, pubsub.ts:77 *)
| KUnsub (n : nat)  (** unsubscribe call number n, pubsub.ts:88 *)
| KRestore.         (** the 'reconnect' handler, pubsub.ts:49-51 *)
Record ureq := mkUreq { q_id : nat; q_kind : ukind; q_topic : bytes }.
Definition is_unsub (k : ukind) : bool := match k with KUnsub _ => true | _ => false end.

(** what can be observed from outside *)
Inductive subev :=
| VCall (n : nat) (sub : bool) (t : bytes)   (** the application calls subscribe (true) or unsubscribe *)
| VDone (n : nat) (ok : bool)                (** the promise of call n is resolved (true) or rejected *)
| VSent (r : nat) (sub : bool) (t : bytes)   (** request r (SUB or UNSUB of t) is written *)
| VServed (r : nat)                          (** the broker has executed request r *)
| VUp (c : N) | VLost
| VHandled (t d : bytes) (ns : list nat).    (** a push (t, d) runs the handlers of the calls ns, in this order *)

Record subst := mkSub {
  b_up : option N;             (** connected, and under which client id at the broker *)
  b_h : list (bytes * nat);    (** pubsub.ts:39-40 *)
  b_pend : list ureq;          (** requests without an outcome (connection.ts: pending) *)
  b_ready : list (ureq * bool);(** outcome known, the code after the await has not run yet *)
  b_wire : list ureq;          (** requests of this connection the broker has not executed *)
  b_served : list nat;         (** requests of this connection the broker has executed *)
  b_next : nat;                (** number of the next request *)
  b_calls : nat;               (** number of the next call *)
  b_srv : list pop             (** what the broker has executed *)
}.
Definition sub0 : subst := mkSub None [] [] [] [] [] 0 0 [].

Inductive subop :=
| XSub (t : bytes) | XUnsub (t : bytes)
| XServe (r : nat) (now : N) | XReply (r : nat) | XFail (r : nat) | XRun (r : nat)
| XLost | XUp (c : N) | XPush (t d : bytes) | XOther (o : pop).

Definition q_find (r : nat) (l : list ureq) : option ureq := find (fun q => Nat.eqb (q_id q) r) l.
Definition q_del (r : nat) (l : list ureq) : list ureq := filter (fun q => negb (Nat.eqb (q_id q) r)) l.

(** conn.send (connection.ts:210-250): not connected - rejected at once; else the
    request is entered in [pending] and written. *)
Definition send1 (k : ukind) (t : bytes) (s : subst) : subst * list subev :=
  let q := mkUreq (b_next s) k t in
  match b_up s with
  | None => (mkSub (b_up s) (b_h s) (b_pend s) (b_ready s ++ [(q, false)]) (b_wire s) (b_served s)
               (S (b_next s)) (b_calls s) (b_srv s), [])
  | Some _ => (mkSub (b_up s) (b_h s) (b_pend s ++ [q]) (b_ready s) (b_wire s ++ [q]) (b_served s)
               (S (b_next s)) (b_calls s) (b_srv s), [VSent (b_next s) (negb (is_unsub k)) t])
  end.
Definition with_h (h : list (bytes * nat)) (s : subst) : subst :=
  mkSub (b_up s) h (b_pend s) (b_ready s) (b_wire s) (b_served s) (b_next s) (b_calls s) (b_srv s).
Definition next_call (s : subst) : subst :=
  mkSub (b_up s) (b_h s) (b_pend s) (b_ready s) (b_wire s) (b_served s) (b_next s) (S (b_calls s)) (b_srv s).
Definition with_ready (y : list (ureq * bool)) (s : subst) : subst :=
  mkSub (b_up s) (b_h s) (b_pend s) y (b_wire s) (b_served s) (b_next s) (b_calls s) (b_srv s).
Definition h_del (t : bytes) (h : list (bytes * nat)) : list (bytes * nat) := adel beqb t h.

(** pubsub.ts:64-77. A topic that has a handler is refused (lines 65-67); the handler
    is entered before the request is sent (lines 70-74). *)
Definition do_sub (t : bytes) (s : subst) : subst * list subev :=
  let n := b_calls s in
  match aget beqb t (b_h s) with
  | Some _ => (next_call s, [VCall n true t; VDone n false])
  | None =>
    let (s', l) := send1 (KSub n) t (with_h (b_h s ++ [(t, n)]) (next_call s)) in
    (s', VCall n true t :: l)
  end.
(** pubsub.ts:85-88 *)
Definition do_unsub (t : bytes) (s : subst) : subst * list subev :=
  let n := b_calls s in
  match aget beqb t (b_h s) with
  | None => (next_call s, [VCall n false t; VDone n true])
  | Some _ => let (s', l) := send1 (KUnsub n) t (next_call s) in (s', VCall n false t :: l)
  end.
(** the code after the await: pubsub.ts:78-83 and 89-90; the restore only logs. The
    handler is deleted by topic. *)
Definition run_cont (q : ureq) (ok : bool) (s : subst) : subst * list subev :=
  match q_kind q with
  | KSub n => (if ok then s else with_h (h_del (q_topic q) (b_h s)) s, [VDone n ok])
  | KUnsub n => (if ok then with_h (h_del (q_topic q) (b_h s)) s else s, [VDone n ok])
  | KRestore => (s, [])
  end.
(** pubsub.ts:45-51: one SUB for every key of [exact], then of [wild]. *)
Definition restore_keys (h : list (bytes * nat)) : list bytes :=
  filter (fun t => negb (sdk_wild t)) (map fst h) ++ filter sdk_wild (map fst h).
Definition restore1 (sl : subst * list subev) (t : bytes) : subst * list subev :=
  let (s', l) := send1 KRestore t (fst sl) in (s', snd sl ++ l).
Definition restore (s : subst) : subst * list subev :=
  fold_left restore1 (restore_keys (b_h s)) (s, []).

(** what somebody else may do at the broker: not this connection's own requests *)
Definition foreign (c : option N) (o : pop) : bool :=
  match c, o with
  | Some c, (PSub c' _ _ | PUnsub c' _ | PConnect c') => negb (c =? c')
  | _, _ => true
  end.

Definition sstep (s : subst) (o : subop) : subst * list subev :=
  match o with
  | XSub t => do_sub t s
  | XUnsub t => do_unsub t s
  | XServe r now =>
    (* pub-sub/tcp.rs:76-84 *)
    match b_up s, q_find r (b_wire s) with
    | Some c, Some q =>
      (mkSub (b_up s) (b_h s) (b_pend s) (b_ready s) (q_del r (b_wire s)) (r :: b_served s) (b_next s) (b_calls s)
         (b_srv s ++ [if is_unsub (q_kind q) then PUnsub c (q_topic q) else PSub c (q_topic q) now]),
       [VServed r])
    | _, _ => (s, [])
    end
  | XReply r =>
    (* the broker answers OK to what it executed (pub-sub/tcp.rs:76-84) *)
    match q_find r (b_pend s) with
    | Some q =>
      if existsb (Nat.eqb r) (b_served s) then
        (mkSub (b_up s) (b_h s) (q_del r (b_pend s)) (b_ready s ++ [(q, true)]) (b_wire s) (b_served s)
           (b_next s) (b_calls s) (b_srv s), [])
      else (s, [])
    | None => (s, [])
    end
  | XFail r =>
    (* time limit (connection.ts:56-63) or an error response *)
    match q_find r (b_pend s) with
    | Some q =>
      (mkSub (b_up s) (b_h s) (q_del r (b_pend s)) (b_ready s ++ [(q, false)]) (b_wire s) (b_served s)
         (b_next s) (b_calls s) (b_srv s), [])
    | None => (s, [])
    end
  | XRun r =>
    match find (fun y => Nat.eqb (q_id (fst y)) r) (b_ready s) with
    | Some (q, ok) =>
      run_cont q ok (with_ready (filter (fun y => negb (Nat.eqb (q_id (fst y)) r)) (b_ready s)) s)
    | None => (s, [])
    end
  | XLost =>
    (* connection.ts:108-121 *)
    match b_up s with
    | Some _ => (mkSub None (b_h s) [] (b_ready s ++ map (fun q => (q, false)) (b_pend s)) [] []
                   (b_next s) (b_calls s) (b_srv s), [VLost])
    | None => (s, [])
    end
  | XUp c =>
    (* connection.ts:139-143. A reconnect follows a timer, so every continuation
       that is ready has run. The first connect finds no handlers. *)
    match b_up s, b_ready s with
    | None, [] =>
      let (s', l) := restore (mkSub (Some c) (b_h s) [] [] [] [] (b_next s) (b_calls s) (b_srv s ++ [PConnect c])) in
      (s', VUp c :: l)
    | _, _ => (s, [])
    end
  | XPush t d =>
    (* pubsub.ts:93-107 *)
    match b_up s with
    | Some _ => (s, [VHandled t d (flat_map (fun p => match aget beqb p (b_h s) with Some n => [n] | None => [] end)
                                     (sdk_dispatch (map fst (b_h s)) t))])
    | None => (s, [])
    end
  | XOther o =>
    if foreign (b_up s) o then
      (mkSub (b_up s) (b_h s) (b_pend s) (b_ready s) (b_wire s) (b_served s) (b_next s) (b_calls s) (b_srv s ++ [o]), [])
    else (s, [])
  end.
Definition sexec (sl : subst * list subev) (o : subop) : subst * list subev :=
  let (s', l) := sstep (fst sl) o in (s', snd sl ++ l).
Definition srun (xs : list subop) : subst * list subev := fold_left sexec xs (sub0, []).
Definition sst (xs : list subop) : subst := fst (srun xs).
Definition slog (xs : list subop) : list subev := snd (srun xs).
