(** Queue handles of the SDK: subscribe and stop on one handle
    (NexoQueue, sdk/ts/src/brokers/queue.ts:192-306), on top of runConcurrent as modelled
    in SdkLoopModel. JavaScript runs one piece of code at a time, from one await to the
    next; each event below is such a piece. *)
From Verif Require Import LibBase SdkLoopModel.
Arguments EStart {A}. Arguments EEnd {A}. Arguments EAck {A}. Arguments ENack {A}. Arguments ESkip {A}.
Arguments b_q {A}. Arguments b_ws {A}. Arguments mkB {A}. Arguments Ready {A}. Arguments Busy {A}. Arguments Done {A}. Arguments Dead {A}.

Section Handle.
  (** [A]: a delivered message (id and data, queue.ts:62-68). [conc]: the concurrency option
      (queue.ts:243); the options of all subscriptions of the handle are taken to be equal. *)
  Variable A : Type.
  Variable conc : N.

  (** where a subscribe call and its loop are: awaiting exists() (234), thrown, sleeping
      (249-252, 283, 287), awaiting consume (258), awaiting runConcurrent (262), ended (291) *)
  Inductive pc := PCheck | POut | PSleep | PWait | PBatch (b : batch A) | PEnd.
  (** one call of subscribe: its position, `active` (245), the stop() calls that await
      loopDone (299-302), batches the loop no longer awaits (Promise.all rejected) *)
  Record sub := mkS { s_pc : pc; s_act : bool; s_stops : nat; s_old : list (batch A) }.
  (** what can be observed of call number [k]: its EXISTS request is sent; it is refused as
      already subscribed; it throws; it returns; a CONSUME is sent; that is answered or
      fails; something happens to a message; stop() is called; a stop() returns. And the connection coming and going. *)
  Inductive hev := VCall (k : nat) | VRefused (k : nat) | VThrew (k : nat) | VOk (k : nat) | VAsk (k : nat) | VGot (k : nat) (r : option (list A)) | VDo (k : nat) (e : ev A) | VStop (k : nat) | VStopped (k : nat) | VConn (up : bool).
  (** the handle (193: isSubscribed), the connection's isConnected *)
  Record handle := mkH { h_flag : bool; h_up : bool; h_subs : list sub; h_log : list hev }.
  Definition handle0 : handle := mkH false true [] [].

  Definition upd (k : nat) (x : sub) (l : list sub) : list sub := firstn k l ++ x :: skipn (S k) l.
  Definition put (k : nat) (x : sub) (e : list hev) (h : handle) : handle := mkH (h_flag h) (h_up h) (upd k x (h_subs h)) (h_log h ++ e).
  (** the loop is left: queue.ts:291, and loopDone resolves the stop() calls (299-302) *)
  Definition finish (k : nat) (x : sub) (h : handle) : handle :=
    mkH false (h_up h) (upd k (mkS PEnd (s_act x) 0 (s_old x)) (h_subs h)) (h_log h ++ repeat (VStopped k) (s_stops x)).
  (** the head of the loop up to its next await: queue.ts:248-258 *)
  Definition top (k : nat) (x : sub) (h : handle) : handle :=
    if s_act x then
      if h_up h then put k (mkS PWait true (s_stops x) (s_old x)) [VAsk k] h
      else put k (mkS PSleep true (s_stops x) (s_old x)) [] h
    else finish k x h.
  (** the catch clause: queue.ts:280-288 (short and long sleeps are not told apart) *)
  Definition caught (k : nat) (x : sub) (h : handle) : handle :=
    if s_act x then put k (mkS PSleep true (s_stops x) (s_old x)) [] h else finish k x h.

  Inductive hop :=
  | HSub                                      (* subscribe() is called: queue.ts:231-234 *)
  | HExists (k : nat) (r : option bool)       (* its exists() settles: 234-291; None: it rejects *)
  | HWake (k : nat)                           (* a sleep ends: 249-252, 283, 287 *)
  | HAnswer (k : nat) (r : option (list A))   (* its consume settles: 258-262; None: it rejects *)
  | HWork (k : nat) (o : wop)                 (* a worker of the awaited batch: 262-278 *)
  | HOld (k j : nat) (o : wop)                (* a worker of an abandoned batch *)
  | HNext (k : nat)                           (* runConcurrent settles: 262, 280 *)
  | HStop (k : nat)                           (* stop() of that subscription: 298-302 *)
  | HConn (up : bool).                        (* the connection is lost or restored *)
  Definition hstep (h : handle) (o : hop) : handle :=
    match o with
    | HSub => let k := length (h_subs h) in
              if h_flag h then mkH (h_flag h) (h_up h) (h_subs h ++ [mkS POut false 0 []]) (h_log h ++ [VRefused k])
              else mkH (h_flag h) (h_up h) (h_subs h ++ [mkS PCheck false 0 []]) (h_log h ++ [VCall k])
    | HConn up => mkH (h_flag h) up (h_subs h) (h_log h ++ [VConn up])
    | HExists k r =>
      match nth_error (h_subs h) k with
      | Some (mkS PCheck _ _ _) =>
        match r with
        | Some true => top k (mkS PCheck true 0 []) (mkH true (h_up h) (h_subs h) (h_log h ++ [VOk k]))
        | _ => put k (mkS POut false 0 []) [VThrew k] h
        end
      | _ => h
      end
    | HWake k => match nth_error (h_subs h) k with
                 | Some x => match s_pc x with PSleep => top k x h | _ => h end
                 | None => h
                 end
    | HAnswer k r =>
      match nth_error (h_subs h) k with
      | Some x => match s_pc x with
                  | PWait => let h' := mkH (h_flag h) (h_up h) (h_subs h) (h_log h ++ [VGot k r]) in
                             match r with
                             | None => caught k x h'
                             | Some [] => top k x h'
                             | Some items => put k (mkS (PBatch (batch_new A conc items)) (s_act x) (s_stops x) (s_old x)) [] h'
                             end
                  | _ => h
                  end
      | None => h
      end
    | HWork k o =>
      match nth_error (h_subs h) k with
      | Some x => match s_pc x with
                  | PBatch b => let (b', e) := wstep A true (s_act x) (h_up h) b o in
                                put k (mkS (PBatch b') (s_act x) (s_stops x) (s_old x)) (map (VDo k) e) h
                  | _ => h
                  end
      | None => h
      end
    | HOld k j o =>
      match nth_error (h_subs h) k with
      | Some x => match nth_error (s_old x) j with
                  | Some b => let (b', e) := wstep A true (s_act x) (h_up h) b o in
                              put k (mkS (s_pc x) (s_act x) (s_stops x) (firstn j (s_old x) ++ b' :: skipn (S j) (s_old x))) (map (VDo k) e) h
                  | None => h
                  end
      | None => h
      end
    | HNext k =>
      match nth_error (h_subs h) k with
      | Some x => match s_pc x with
                  | PBatch b => if forallb (is_done A) (b_ws b) then top k x h
                                else if existsb (is_dead A) (b_ws b) then caught k (mkS (s_pc x) (s_act x) (s_stops x) (s_old x ++ [b])) h else h
                  | _ => h
                  end
      | None => h
      end
    | HStop k =>
      match nth_error (h_subs h) k with
      | Some x => match s_pc x with
                  | PCheck | POut => h
                  | PEnd => put k (mkS PEnd false 0 (s_old x)) [VStop k; VStopped k] h
                  | p => put k (mkS p false (S (s_stops x)) (s_old x)) [VStop k] h
                  end
      | None => h
      end
    end.
  Definition hrun (os : list hop) : handle := fold_left hstep os handle0.
End Handle.
Arguments PCheck {A}. Arguments POut {A}. Arguments PSleep {A}. Arguments PWait {A}. Arguments PBatch {A}. Arguments PEnd {A}.
Arguments mkS {A}. Arguments s_pc {A}. Arguments s_act {A}. Arguments s_stops {A}. Arguments s_old {A}.
Arguments VCall {A}. Arguments VRefused {A}. Arguments VThrew {A}. Arguments VOk {A}. Arguments VAsk {A}. Arguments VGot {A}. Arguments VDo {A}. Arguments VStop {A}. Arguments VStopped {A}. Arguments VConn {A}.
Arguments mkH {A}. Arguments h_flag {A}. Arguments h_up {A}. Arguments h_subs {A}. Arguments h_log {A}. Arguments handle0 {A}.
Arguments HSub {A}. Arguments HExists {A}. Arguments HWake {A}. Arguments HAnswer {A}. Arguments HWork {A}. Arguments HOld {A}. Arguments HNext {A}. Arguments HStop {A}. Arguments HConn {A}.
Arguments upd {A}. Arguments put {A}. Arguments finish {A}. Arguments top {A}. Arguments caught {A}. Arguments hstep {A}. Arguments hrun {A}.
