(** One client connection: the socket task, the push bridge, the main loop and the
    request tasks it spawns (src/transport/tcp/connection.rs), in any interleaving. *)
From Verif Require Import LibBase WireModel.

(** "Unsupported frame type" (connection.rs:75) *)
Definition unsupported : bytes :=
  [85; 110; 115; 117; 112; 112; 111; 114; 116; 101; 100; 32; 102; 114; 97; 109; 101; 32; 116; 121; 112; 101].

(** What one section of a request handler leads to: it goes on, answers, or panics. *)
Inductive hres (Loc : Type) := Go (l : Loc) | Answer (r : response) | Panic.
Arguments Go {Loc}. Arguments Answer {Loc}. Arguments Panic {Loc}.

Section Conn.
  (** [Eng]: the engine shared by all connections. [Loc]: where a handler stands.
      [start f]: the handler dispatcher.rs:22-43 runs for frame [f]. [hstep]: its next
      section (up to the next lock or await). [X], [xstep]: what everybody else does
      to the engine. [bye1], [bye2]: pubsub.disconnect and stream.disconnect of this
      client. [maxp]: largest payload accepted. [cap]: capacity of both channels
      (connection.rs:27-28). *)
  Variables Eng Loc X : Type.
  Variable start : inframe -> Loc.
  Variable hstep : Eng -> Loc -> Eng * hres Loc.
  Variable xstep : Eng -> X -> Eng.
  Variables bye1 bye2 : Eng -> Eng.
  Variables maxp cap : N.

  (** connection.rs:68-78: not started, inside dispatch, or holding the response that
      it is about to send. *)
  Inductive stage := Fresh | Inside (l : Loc) | Reply (r : response).
  (** [k_n]: number of the frame, no step looks at it. [k_poll]: a worker thread is
      running the task right now. *)
  Record task := mkTask { k_n : nat; k_f : inframe; k_at : stage; k_poll : bool }.
  (** The connection is open; the socket task has returned Ok or Err
      (connection.rs:81); connection.rs:99-100 have run; 101 has run; the function has
      returned: [Gone true] after 102, [Gone false] by 84-85. *)
  Inductive phase := Open | SockDone (ok : bool) | Aborted | Left | Gone (ok : bool).
  Record conn := mkConn {
    c_eng : Eng;
    c_rd : reader;                          (* FramedRead: all that could be decoded so far *)
    c_num : nat;                            (* frames taken from it *)
    c_hold : option (nat * inframe);        (* in run_socket, waiting for channel space *)
    c_in : list (nat * inframe);            (* inbound channel *)
    c_run : list task;                      (* request_set *)
    c_out : list (option nat * outframe);   (* outbound channel; None: a push *)
    c_push : list bytes;                    (* channel from the pub/sub engine *)
    c_bridge : option bytes;                (* in the bridge, waiting for channel space *)
    c_sent : list (option nat * outframe);  (* written to the socket *)
    c_lost : list nat;                      (* requests whose task panicked *)
    c_drop : list nat;                      (* requests dropped at the end *)
    c_phase : phase }.
  Definition conn0 (e : Eng) : conn := mkConn e reader0 0 None [] [] [] [] None [] [] [] Open.

  Inductive cop :=
  | KRecv (chunk : bytes)      (* bytes arrive *)
  | KNext                      (* run_socket takes a frame: connection.rs:120-122 *)
  | KPass                      (* ... and passes it on: 123 *)
  | KEof                       (* the client closed its side: 128, or an error if bytes are left over *)
  | KProto                     (* the decoder fails: 127 *)
  | KIo                        (* reading or writing fails: 127, 135-137 *)
  | KWrite                     (* 132-138 *)
  | KSpawn                     (* 62-78 *)
  | KPoll (i : nat)            (* a worker picks task i *)
  | KTask (i : nat)            (* ... and runs its next section *)
  | KYield (i : nat)           (* ... and puts it down at an await *)
  | KPushIn (p : bytes)        (* the pub/sub engine hands over a message *)
  | KBridge                    (* 42-44 *)
  | KBridgeOut                 (* 46 *)
  | KExt (x : X)               (* other connections and background tasks *)
  | KEnd                       (* the main loop sees the socket task's result: 82-86, then 99-100 *)
  | KBye1                      (* 101 *)
  | KBye2.                     (* 102 *)

  Definition set_eng v s := mkConn v (c_rd s) (c_num s) (c_hold s) (c_in s) (c_run s) (c_out s) (c_push s) (c_bridge s) (c_sent s) (c_lost s) (c_drop s) (c_phase s).
  Definition set_rd v s := mkConn (c_eng s) v (c_num s) (c_hold s) (c_in s) (c_run s) (c_out s) (c_push s) (c_bridge s) (c_sent s) (c_lost s) (c_drop s) (c_phase s).
  Definition set_num v s := mkConn (c_eng s) (c_rd s) v (c_hold s) (c_in s) (c_run s) (c_out s) (c_push s) (c_bridge s) (c_sent s) (c_lost s) (c_drop s) (c_phase s).
  Definition set_hold v s := mkConn (c_eng s) (c_rd s) (c_num s) v (c_in s) (c_run s) (c_out s) (c_push s) (c_bridge s) (c_sent s) (c_lost s) (c_drop s) (c_phase s).
  Definition set_in v s := mkConn (c_eng s) (c_rd s) (c_num s) (c_hold s) v (c_run s) (c_out s) (c_push s) (c_bridge s) (c_sent s) (c_lost s) (c_drop s) (c_phase s).
  Definition set_run v s := mkConn (c_eng s) (c_rd s) (c_num s) (c_hold s) (c_in s) v (c_out s) (c_push s) (c_bridge s) (c_sent s) (c_lost s) (c_drop s) (c_phase s).
  Definition set_out v s := mkConn (c_eng s) (c_rd s) (c_num s) (c_hold s) (c_in s) (c_run s) v (c_push s) (c_bridge s) (c_sent s) (c_lost s) (c_drop s) (c_phase s).
  Definition set_push v s := mkConn (c_eng s) (c_rd s) (c_num s) (c_hold s) (c_in s) (c_run s) (c_out s) v (c_bridge s) (c_sent s) (c_lost s) (c_drop s) (c_phase s).
  Definition set_bridge v s := mkConn (c_eng s) (c_rd s) (c_num s) (c_hold s) (c_in s) (c_run s) (c_out s) (c_push s) v (c_sent s) (c_lost s) (c_drop s) (c_phase s).
  Definition set_sent v s := mkConn (c_eng s) (c_rd s) (c_num s) (c_hold s) (c_in s) (c_run s) (c_out s) (c_push s) (c_bridge s) v (c_lost s) (c_drop s) (c_phase s).
  Definition set_lost v s := mkConn (c_eng s) (c_rd s) (c_num s) (c_hold s) (c_in s) (c_run s) (c_out s) (c_push s) (c_bridge s) (c_sent s) v (c_drop s) (c_phase s).
  Definition set_drop v s := mkConn (c_eng s) (c_rd s) (c_num s) (c_hold s) (c_in s) (c_run s) (c_out s) (c_push s) (c_bridge s) (c_sent s) (c_lost s) v (c_phase s).
  Definition set_phase v s := mkConn (c_eng s) (c_rd s) (c_num s) (c_hold s) (c_in s) (c_run s) (c_out s) (c_push s) (c_bridge s) (c_sent s) (c_lost s) (c_drop s) v.

  Definition is_open (s : conn) : bool := match c_phase s with Open => true | _ => false end.
  (** the main loop is still running (connection.rs:59-93) *)
  Definition looping (s : conn) : bool := match c_phase s with Open | SockDone _ => true | _ => false end.
  Definition swap (i : nat) (t : task) (l : list task) : list task := firstn i l ++ t :: skipn (S i) l.
  Definition del (i : nat) (l : list task) : list task := firstn i l ++ skipn (S i) l.
  (** numbers of the responses in a channel that nobody will read any more *)
  Definition nums {A} (l : list (option nat * A)) : list nat := flat_map (fun x => match fst x with Some n => [n] | None => [] end) l.
  (** the socket task returns: both channel ends it owns are dropped; frames already
      in the inbound channel can still be received *)
  Definition sock_end (ok : bool) (s : conn) : conn :=
    set_phase (SockDone ok)
      (set_drop (c_drop s ++ match c_hold s with Some x => [fst x] | None => [] end ++ nums (c_out s)) (set_hold None (set_out [] s))).
  (** connection.rs:99-100 and the return at 84-85 (dropping the JoinSet): tasks that
      are not being run right now disappear; those that are stop at their next await *)
  Definition abort (s : conn) : conn :=
    set_drop (c_drop s ++ map fst (c_in s) ++ map k_n (filter (fun t => negb (k_poll t)) (c_run s)))
      (set_in [] (set_run (filter k_poll (c_run s)) s)).
  (** one section of a task (connection.rs:69-78) *)
  Definition task_step (i : nat) (t : task) (s : conn) : conn :=
    match k_at t with
    | Fresh => set_run (swap i (mkTask (k_n t) (k_f t)
                 (if in_type (k_f t) =? TYPE_REQUEST then Inside (start (k_f t)) else Reply (RError unsupported)) true) (c_run s)) s
    | Inside l =>
      let (e, r) := hstep (c_eng s) l in
      match r with
      | Go l' => set_run (swap i (mkTask (k_n t) (k_f t) (Inside l') true) (c_run s)) (set_eng e s)
      | Answer a => set_run (swap i (mkTask (k_n t) (k_f t) (Reply a) true) (c_run s)) (set_eng e s)
      | Panic => set_lost (c_lost s ++ [k_n t]) (set_run (del i (c_run s)) (set_eng e s))
      end
    | Reply a =>
      if is_open s then
        if lenN (c_out s) <? cap then set_out (c_out s ++ [(Some (k_n t), OResponse (in_id (k_f t)) a)]) (set_run (del i (c_run s)) s) else s
      else set_drop (c_drop s ++ [k_n t]) (set_run (del i (c_run s)) s)
    end.

  Definition cstep (s : conn) (x : cop) : conn :=
    match x with
    | KRecv chunk => if is_open s then set_rd (feed (decode maxp) (c_rd s) chunk) s else s
    | KNext =>
      if is_open s then
        match c_hold s, nth_error (r_frames (c_rd s)) (c_num s) with
        | None, Some f => set_num (S (c_num s)) (set_hold (Some (c_num s, f)) s)
        | _, _ => s
        end
      else s
    | KPass =>
      match c_hold s with
      | Some nf => if lenN (c_in s) <? cap then set_in (c_in s ++ [nf]) (set_hold None s) else s
      | None => s
      end
    | KEof =>
      if is_open s && (length (r_frames (c_rd s)) <=? c_num s)%nat && match c_hold s with None => true | _ => false end && negb (r_err (c_rd s))
      then sock_end (match r_buf (c_rd s) with [] => true | _ => false end) s else s
    | KProto =>
      if is_open s && (length (r_frames (c_rd s)) <=? c_num s)%nat && match c_hold s with None => true | _ => false end && r_err (c_rd s)
      then sock_end false s else s
    | KIo => if is_open s && match c_hold s with None => true | _ => false end then sock_end false s else s
    | KWrite =>
      match c_hold s, c_out s with
      | None, o :: r => if is_open s then set_sent (c_sent s ++ [o]) (set_out r s) else s
      | _, _ => s
      end
    | KSpawn =>
      match c_in s with
      | nf :: r => if looping s then set_run (c_run s ++ [mkTask (fst nf) (snd nf) Fresh false]) (set_in r s) else s
      | [] => s
      end
    | KPoll i =>
      match nth_error (c_run s) i with
      | Some t => if looping s then set_run (swap i (mkTask (k_n t) (k_f t) (k_at t) true) (c_run s)) s else s
      | None => s
      end
    | KTask i =>
      match nth_error (c_run s) i with
      | Some t => if k_poll t then task_step i t s else s
      | None => s
      end
    | KYield i =>
      match nth_error (c_run s) i with
      | Some t => if looping s then set_run (swap i (mkTask (k_n t) (k_f t) (k_at t) false) (c_run s)) s
                  else set_drop (c_drop s ++ [k_n t]) (set_run (del i (c_run s)) s)
      | None => s
      end
    | KPushIn p => set_push (c_push s ++ [p]) s
    | KBridge =>
      match c_bridge s, c_push s with
      | None, p :: r => set_bridge (Some p) (set_push r s)
      | _, _ => s
      end
    | KBridgeOut =>
      match c_bridge s with
      | Some p => if is_open s && (lenN (c_out s) <? cap) then set_out (c_out s ++ [(None, OPush 0 p)]) (set_bridge None s) else s
      | None => s
      end
    | KExt x => set_eng (xstep (c_eng s) x) s
    | KEnd =>
      match c_phase s with
      | SockDone true => set_phase Aborted (abort s)
      | SockDone false => set_phase (Gone false) (abort s)
      | _ => s
      end
    | KBye1 => match c_phase s with Aborted => set_phase Left (set_eng (bye1 (c_eng s)) s) | _ => s end
    | KBye2 => match c_phase s with Left => set_phase (Gone true) (set_eng (bye2 (c_eng s)) s) | _ => s end
    end.
  Fixpoint crun (s : conn) (xs : list cop) : conn :=
    match xs with [] => s | x :: r => crun (cstep s x) r end.

  (** ** Specification *)
  (** [r] is a possible result of the handler of [f]: it ends in [r] when its sections
      run at some states of the engine. *)
  Inductive reaches : Loc -> Loc -> Prop :=
  | reach_here l : reaches l l
  | reach_step l l1 l2 e e' : reaches l l1 -> hstep e l1 = (e', Go l2) -> reaches l l2.
  Definition result_of (f : inframe) (r : response) : Prop :=
    if in_type f =? TYPE_REQUEST then exists l e e', reaches (start f) l /\ hstep e l = (e', Answer r)
    else r = RError unsupported.
  Definition panics (f : inframe) : Prop :=
    in_type f = TYPE_REQUEST /\ exists l e e', reaches (start f) l /\ hstep e l = (e', Panic).
  (** frames received, frames written, bytes written *)
  Definition requests (s : conn) : list inframe := r_frames (c_rd s).
  Definition is_response (o : outframe) : bool := match o with OResponse _ _ => true | OPush _ _ => false end.
  Definition written (s : conn) : list outframe := map snd (c_sent s).
  Definition responses (s : conn) : list outframe := filter is_response (written s).
  Definition wire (s : conn) : bytes := concat (map encode (written s)).
  (** nothing left to do for the requests received so far *)
  Definition idle (s : conn) : Prop :=
    c_num s = length (requests s) /\ c_hold s = None /\ c_in s = [] /\ c_run s = [] /\ c_out s = [] /\ c_phase s = Open.
End Conn.
