(** Model of the SDK's connection object: request ids, the table of pending
    requests, timeouts, loss of the socket, the reconnect loop, disconnect().
    JavaScript runs one callback at a time, so a history is a list of
    callbacks in the order they ran. *)
From Verif Require Import LibBase LibMap WireModel RespModel.

(** How a request promise ends (sdk/ts/src/connection.ts:224-249, 61, 117). *)
Inductive outcome :=
| Resolved (status : N) (data : bytes)   (* connection.ts:241 *)
| Failed (msg : bytes)                   (* connection.ts:238: server error *)
| TimedOut (ms : N)                      (* connection.ts:61 *)
| Closed                                 (* connection.ts:117 *)
| NotConnected                           (* connection.ts:226 *)
| Threw.                                 (* connection.ts:219-220: send() itself throws *)

(** What happened, in order. The application sees the settlements, the pushes
    and uncaught exceptions; the peer sees the written packets. *)
Inductive ev :=
| EAsked (n : nat) (id : Z) (now tmo : N) (* packet of the n-th send() written *)
| EFired (id : Z)                         (* packet without a promise written *)
| ESettled (n : nat) (o : outcome)        (* promise of the n-th send() settled *)
| EGot (id : Z) (status : N) (data : bytes) (* response frame handled *)
| EPushed (topic : bytes) (ty : N) (data : bytes) (* application told of a push *)
| EThrown                                 (* exception escapes the 'data' callback *)
| ESwept (now : N)                        (* timeout sweep ran *)
| ELost                                   (* socket closed, pending requests rejected *)
| EUp                                     (* a reconnect attempt succeeded, 'reconnect' emitted *)
| EEnd.                                   (* disconnect() called *)

(** One entry of the pending table (connection.ts:14-19): which send() it is,
    when it was made and its timeout; the deadline is their sum (line 244). *)
Record preq := mkPreq { p_call : nat; p_at : N; p_tmo : N }.
Definition p_deadline (p : preq) : N := p_at p + p_tmo p.

(** The socket: open, being connected, destroyed by disconnect() with its 'close'
    still to come, or dead. *)
Inductive sock := SOpen | SDial | SClosing | SDead.
(** Where the reconnect loop (connection.ts:132-148) stands: not running, in the
    sleep of line 137, awaiting the connect of line 140. *)
Inductive rloop := LNone | LSleep | LDial.

(** connection.ts:12-33 *)
Record cli := mkCli {
  u_up : bool;          (* isConnected *)
  u_should : bool;      (* shouldReconnect *)
  u_recon : bool;       (* isReconnecting *)
  u_sweep : bool;       (* sweepInterval set *)
  u_next : Z;           (* nextId *)
  u_calls : nat;        (* number of send() calls so far: names the promises *)
  u_pend : list (Z * preq);
  u_buf : bytes;
  u_sock : sock;
  u_loop : rloop }.

(** connection.ts:48-52, 94-97: the client after a successful connect() *)
Definition cli0 : cli := mkCli true true false true 1%Z 0 [] [] SOpen LNone.

Section Json.
(** whether JSON.parse accepts the text (codec.ts:41) *)
Variable json_ok : bytes -> bool.

(** connection.ts:196-203 with codec.ts:34-48: [None] = throws. An
    [onPush] is always set (pubsub.ts:43) and never throws (pubsub.ts:93-107). *)
Definition push_value (p : bytes) : option (bytes * (N * bytes)) :=
  match sdk_push p with
  | Some (t, (ty, d)) =>
      if (ty =? 2) && negb (lenN d =? 0) && negb (json_ok d) then None else Some (t, (ty, d))
  | None => None
  end.

(** connection.ts:230-242 (the stored resolve callback); [None] = throws while
    reading the error message *)
Definition settle_of (status : N) (data : bytes) : option outcome :=
  if status =? STATUS_ERR then
    match sdk_string data with Some (m, _) => Some (Failed m) | None => None end
  else Some (Resolved status data).

(** state updates *)
Definition with_pend (s : cli) (m : list (Z * preq)) : cli :=
  mkCli (u_up s) (u_should s) (u_recon s) (u_sweep s) (u_next s) (u_calls s) m
    (u_buf s) (u_sock s) (u_loop s).
Definition with_buf (s : cli) (b : bytes) : cli :=
  mkCli (u_up s) (u_should s) (u_recon s) (u_sweep s) (u_next s) (u_calls s) (u_pend s)
    b (u_sock s) (u_loop s).

(** connection.ts:177-208 handleFrame: new state, what happened, whether it threw *)
Definition handle_frame (s : cli) (f : inframe) : cli * list ev * bool :=
  match sdk_handle f with
  | EvResponse id status data =>
      let k := Z.of_N id in
      let got := EGot k status data in
      match aget Z.eqb k (u_pend s) with
      | Some p =>
          let s' := with_pend s (adel Z.eqb k (u_pend s)) in
          match settle_of status data with
          | Some o => (s', [got; ESettled (p_call p) o], false)
          | None => (s', [got], true)
          end
      | None => (s, [got], false)
      end
  | EvPush p =>
      match push_value p with
      | Some (t, (ty, d)) => (s, [EPushed t ty d], false)
      | None => (s, [], true)
      end
  | EvUnknown _ => (s, [], false)
  end.

(** connection.ts:160-174: frames are taken off the buffer one by one; an
    exception leaves the rest in the buffer until the next chunk. [fuel] bounds
    the frames; the caller gives more than the buffer can hold. *)
Fixpoint process (fuel : nat) (s : cli) : cli * list ev :=
  match fuel with
  | O => (s, [])
  | S fuel' =>
      match sdk_split (u_buf s) with
      | DFrame f rest =>
          let '(s1, l, threw) := handle_frame (with_buf s rest) f in
          if threw then (s1, l ++ [EThrown])
          else let '(s2, l2) := process fuel' s1 in (s2, l ++ l2)
      | _ => (s, [])
      end
  end.

(** Callbacks. The arguments of [USend]: Date.now(), the timeout, and whether
    building the packet throws (a value JSON.stringify rejects, codec.ts:155). *)
Inductive cliop :=
| USend (now tmo : N) (bad : bool)
| UFire (bad : bool)
| UData (chunk : bytes)
| USweep (now : N)
| UClose                (* the open or destroyed socket emits 'close' *)
| UWake                 (* the sleep of the reconnect loop ends *)
| UDialOk | UDialFail   (* the attempt in progress succeeds / fails *)
| UDisconnect.

(** connection.ts:215-216, 261-262: use up one id *)
Definition take_id (s : cli) (called : nat) : cli :=
  mkCli (u_up s) (u_should s) (u_recon s) (u_sweep s) (next_id (u_next s)) (u_calls s + called)
    (u_pend s) (u_buf s) (u_sock s) (u_loop s).

(** connection.ts:108-126 cleanup, the pending part: every entry is rejected *)
Definition reject_all (s : cli) : list ev :=
  map (fun kp => ESettled (p_call (snd kp)) Closed) (u_pend s).

(** connection.ts:57-63 *)
Definition expired (now : N) (kp : Z * preq) : bool := p_deadline (snd kp) <? now.

Definition ustep (s : cli) (o : cliop) : cli * list ev :=
  match o with
  | USend now tmo bad =>
      (* connection.ts:210-250 *)
      let id := u_next s in
      let n := u_calls s in
      let s1 := take_id s 1 in
      if bad || negb (writable_u32 id) then (s1, [ESettled n Threw])
      else if u_up s then
        (with_pend s1 (aput Z.eqb id (mkPreq n now tmo) (u_pend s1)), [EAsked n id now tmo])
      else (s1, [ESettled n NotConnected])
  | UFire bad =>
      (* connection.ts:258-268 *)
      if u_up s then
        (take_id s 0, if bad || negb (writable_u32 (u_next s)) then [] else [EFired (u_next s)])
      else (s, [])
  | UData chunk =>
      (* connection.ts:103-106, 150-158 *)
      match u_sock s with
      | SOpen => let s1 := with_buf s (u_buf s ++ chunk) in process (S (length (u_buf s1))) s1
      | _ => (s, [])
      end
  | USweep now =>
      (* connection.ts:56-64 *)
      if u_sweep s then
        (with_pend s (filter (fun kp => negb (expired now kp)) (u_pend s)),
         ESwept now ::
         map (fun kp => ESettled (p_call (snd kp)) (TimedOut (p_tmo (snd kp))))
             (filter (expired now) (u_pend s)))
      else (s, [])
  | UClose =>
      (* connection.ts:108-126; the entries are rejected before the table is
         cleared, all within one callback *)
      match u_sock s with
      | SOpen | SClosing =>
          let start := u_should s && negb (u_recon s) in
          (mkCli false (u_should s) (u_recon s || start) (u_sweep s) (u_next s) (u_calls s) [] []
             SDead (if start then LSleep else u_loop s),
           ELost :: reject_all s)
      | _ => (s, [])
      end
  | UWake =>
      (* connection.ts:137-140, 75-100: a new socket is made and connected *)
      match u_loop s with
      | LSleep =>
          (mkCli (u_up s) (u_should s) (u_recon s) (u_sweep s) (u_next s) (u_calls s) (u_pend s)
             (u_buf s) SDial LDial, [])
      | _ => (s, [])
      end
  | UDialOk =>
      (* connection.ts:94-97, 141-143 *)
      match u_loop s, u_sock s with
      | LDial, SDial =>
          (mkCli true (u_should s) false (u_sweep s) (u_next s) (u_calls s) (u_pend s)
             (u_buf s) SOpen LNone, [EUp])
      | _, _ => (s, [])
      end
  | UDialFail =>
      (* connection.ts:98, 108-126 ('close' follows 'error'), 136, 144: the loop
         goes on while shouldReconnect holds *)
      match u_loop s, u_sock s with
      | LDial, SDial =>
          (mkCli false (u_should s) (u_recon s) (u_sweep s) (u_next s) (u_calls s) [] []
             SDead (if u_should s then LSleep else LNone),
           ELost :: reject_all s)
      | _, _ => (s, [])
      end
  | UDisconnect =>
      (* connection.ts:270-277. destroy() during an attempt emits no 'error', so
         the await of line 140 never ends; the sleep of line 137 is not
         cancelled. Nothing more is read from a destroyed socket. *)
      (mkCli false false false false (u_next s) (u_calls s) [] (u_buf s)
         (match u_sock s with SDead => SDead | _ => SClosing end) (match u_loop s with LSleep => LSleep | _ => LNone end),
       [EEnd])
  end.

(** A whole history: final state and everything that happened. *)
Definition uexec (sl : cli * list ev) (o : cliop) : cli * list ev :=
  let '(s', l) := ustep (fst sl) o in (s', snd sl ++ l).
Definition urun (xs : list cliop) : cli * list ev := fold_left uexec xs (cli0, []).
Definition ustate (xs : list cliop) : cli := fst (urun xs).
Definition ulog (xs : list cliop) : list ev := snd (urun xs).
End Json.
