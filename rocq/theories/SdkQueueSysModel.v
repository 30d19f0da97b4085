(** Queue consumers end to end: queue handles of the SDK (SdkQueueModel) in any number of
    clients, one queue of the server (QueueModel), and the network between them. *)
From Verif Require Import LibBase LibMap QueueModel QueueObs SdkLoopModel SdkQueueModel.

Section Sys.
  (** [cfg]: the queue's settings. [conc], [size]: the options concurrency and batchSize
      (queue.ts:242-243), taken to be equal for all subscriptions. [dec]: decodeAny
      (queue.ts:66, modelled in WireModel); None: it throws. *)
  Variable cfg : qconfig.
  Variables conc size : N.
  Variable V : Type.
  Variable dec : bytes -> option V.

  (** a delivered message in the SDK: id and data (queue.ts:61-69) *)
  Definition item := (N * V)%type.
  (** queue.ts:61-69: one payload that does not decode makes consume() reject *)
  Fixpoint decoded (ms : list message) : option (list item) :=
    match ms with
    | [] => Some []
    | m :: ms' => match dec (m_payload m), decoded ms' with
                  | Some v, Some is => Some ((m_id m, v) :: is)
                  | _, _ => None
                  end
    end.

  (** requests under way to the server: the [n]-th CONSUME of subscription [k]
      (queue.ts:54-58), an ack (72-73), a nack (75-79) *)
  Inductive req := RAsk (k n : nat) | RAck (id : N) | RNack (id : N).
  (** an answer under way to client [a_c]: to the [a_n]-th CONSUME of subscription [a_k] *)
  Record answer := mkA { a_c : nat; a_k : nat; a_n : nat; a_ms : list message }.
  (** what can be observed: of a client, and of the queue (by whom: a client's subscription
      or anyone else, the timeout task included) *)
  Inductive yev := OClient (c : nat) (e : hev item) | OServer (who : option nat) (q : qop).
  Record sys := mkY { y_cl : nat -> handle item; y_q : inner; y_up : list (nat * req); y_down : list answer; y_log : list yev }.
  Definition sys0 : sys := mkY (fun _ => handle0) inner0 [] [] [].

  (** the CONSUMEs subscription [k] has sent; a request id is used once (sdk/ts/src/connection.ts:215-216, C84) *)
  Definition asks (k : nat) (l : list (hev item)) : nat := length (filter (fun e => match e with VAsk j => Nat.eqb j k | _ => false end) l).
  (** the frames an observation puts on the wire; [l] the client's log with it *)
  Definition frame (l : list (hev item)) (e : hev item) : list req :=
    match e with
    | VAsk k => [RAsk k (asks k l)]
    | VDo _ (EAck x) => [RAck (fst x)]
    | VDo _ (ENack x) => [RNack (fst x)]
    | _ => []
    end.
  Definition setc (c : nat) (h : handle item) (f : nat -> handle item) : nat -> handle item := fun d => if Nat.eqb d c then h else f d.
  (** client [c] makes step [o] *)
  Definition client (c : nat) (o : hop item) (y : sys) : sys :=
    let h := y_cl y c in
    let h' := hstep conc h o in
    let es := skipn (length (h_log h)) (h_log h') in
    mkY (setc c h' (y_cl y)) (y_q y) (y_up y ++ map (pair c) (flat_map (frame (h_log h')) es)) (y_down y) (y_log y ++ map (OClient c) es).
  (** the queue executes a request *)
  Definition server (who : option nat) (q : qop) (y : sys) : sys :=
    mkY (y_cl y) (qnext cfg (y_q y) q) (y_up y) (y_down y) (y_log y ++ [OServer who q]).
  Definition drop {B} (i : nat) (l : list B) : list B := firstn i l ++ skipn (S i) l.

  (** Requests are executed in any order, each at most once, at any time after they were
      sent; requests and answers can be lost. (The connection keeps the order of frames and
      loses only a tail of them: this allows more.) *)
  Inductive yop :=
  | YClient (c : nat) (o : hop item)                              (* anything a client does; answers come by YAnswer *)
  | YServe (i : nat) (now : N) (clk : nat -> N) (reason : bytes)  (* the [i]-th request under way is executed: src/brokers/queue/tcp.rs:193-258, queue/manager.rs:316-413 *)
  | YLose (i : nat)                                               (* ... is lost *)
  | YAnswer (j : nat)                                             (* the [j]-th answer arrives: sdk/ts/src/connection.ts:228-241, queue.ts:54-70 *)
  | YLoseA (j : nat)                                              (* ... is lost *)
  | YOther (q : qop).                                             (* a request of anyone else, or the timeout task *)
  Definition ystep (y : sys) (o : yop) : sys :=
    match o with
    | YClient c (HAnswer _ (Some _)) => y
    | YClient c o => client c o y
    | YServe i now clk reason =>
      match nth_error (y_up y) i with
      | Some (c, r) =>
        let y' := mkY (y_cl y) (y_q y) (drop i (y_up y)) (y_down y) (y_log y) in
        match r with
        | RAsk k n => let q := QoConsume size clk in
                      let y2 := server (Some c) q y' in
                      mkY (y_cl y2) (y_q y2) (y_up y2) (y_down y2 ++ [mkA c k n (ret (qouts cfg (y_q y) q))]) (y_log y2)
        | RAck id => server (Some c) (QoAck id) y'
        | RNack id => server (Some c) (QoNack id reason now) y'
        end
      | None => y
      end
    | YLose i => mkY (y_cl y) (y_q y) (drop i (y_up y)) (y_down y) (y_log y)
    | YAnswer j =>
      match nth_error (y_down y) j with
      | Some a => let y' := mkY (y_cl y) (y_q y) (y_up y) (drop j (y_down y)) (y_log y) in
                  if Nat.eqb (a_n a) (asks (a_k a) (h_log (y_cl y (a_c a))))
                  then client (a_c a) (HAnswer (a_k a) (decoded (a_ms a))) y'
                  else y'
      | None => y
      end
    | YLoseA j => mkY (y_cl y) (y_q y) (y_up y) (drop j (y_down y)) (y_log y)
    | YOther q => server None q y
    end.
  Definition yrun (os : list yop) : sys := fold_left ystep os sys0.

  (** ** Specification, on what is observed *)
  (** the requests the queue has executed *)
  Definition served (l : list yev) : list qop := flat_map (fun e => match e with OServer _ q => [q] | _ => [] end) l.
  (** what the clients' callbacks did *)
  Definition acts_of (l : list yev) : list (ev item) := flat_map (fun e => match e with OClient _ (VDo _ x) => [x] | _ => [] end) l.
End Sys.
