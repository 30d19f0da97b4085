(** What the history of a client's requests should look like, in terms of the
    log of written packets, received responses and settlements only. *)
From Verif Require Import LibBase WireModel RespModel SdkConnModel.

(** the promises settled, in order *)
Definition settled (log : list ev) : list nat :=
  flat_map (fun e => match e with ESettled n _ => [n] | _ => [] end) log.
(** the ids on the packets written, in order *)
Definition wrote (log : list ev) : list Z :=
  flat_map (fun e => match e with EAsked _ id _ _ => [id] | EFired id => [id] | _ => [] end) log.

(** While request [n], sent with [id] and due at [due], waits: it is not settled,
    no response with its id comes, its id is not used again, every timeout check
    is at or before its due time, the connection is not lost or ended. *)
Definition still_waiting (n : nat) (id : Z) (due : N) (e : ev) : Prop :=
  match e with
  | ESettled m _ => m <> n
  | EGot i _ _ => i <> id
  | EAsked _ i _ _ => i <> id
  | ESwept t => t <= due
  | ELost => False
  | EEnd => False
  | _ => True
  end.
Definition waits (n : nat) (id : Z) (due : N) (l : list ev) : Prop :=
  Forall (still_waiting n id due) l.

(** A settlement of request [n] with outcome [o] is right after the events
    [before]: the outcome tells what really happened. *)
Definition justified (before : list ev) (n : nat) (o : outcome) : Prop :=
  match o with
  | Resolved st d =>
      st <> STATUS_ERR /\
      exists a id now tmo b,
        before = a ++ EAsked n id now tmo :: b ++ [EGot id st d] /\ waits n id (now + tmo) b
  | Failed msg =>
      exists a id now tmo b d rest,
        before = a ++ EAsked n id now tmo :: b ++ [EGot id STATUS_ERR d] /\
        waits n id (now + tmo) b /\ sdk_string d = Some (msg, rest)
  | TimedOut ms =>
      exists a id now b t c,
        before = a ++ EAsked n id now ms :: b ++ ESwept t :: c /\ waits n id (now + ms) b /\
        now + ms < t /\ Forall (fun e => exists m ms', e = ESettled m (TimedOut ms')) c
  | Closed =>
      exists a id now tmo b c,
        before = a ++ EAsked n id now tmo :: b ++ ELost :: c /\ waits n id (now + tmo) b /\
        Forall (fun e => exists m, e = ESettled m Closed) c
  | NotConnected | Threw => forall id now tmo, ~ In (EAsked n id now tmo) before
  end.

(** the operations that make a packet *)
Definition makes_packet (o : cliop) : bool :=
  match o with USend _ _ _ => true | UFire _ => true | _ => false end.
Definition is_send (o : cliop) : bool := match o with USend _ _ _ => true | _ => false end.

(** What the client hears from the server, in order. *)
Inductive heard_ev :=
| HResponse (id status : N) (data : bytes)
| HPush (topic : bytes) (ty : N) (data : bytes).
Definition heard (log : list ev) : list heard_ev :=
  flat_map (fun e => match e with
    | EGot id st d => [HResponse (Z.to_N id) st d]
    | EPushed t ty d => [HPush t ty d]
    | _ => [] end) log.
(** A message as the SDK writes it (codec.ts:142-163): a type byte and the data,
    JSON text being what JSON.stringify gives. *)
Definition sdk_value (json_ok : bytes -> bool) (p : bytes) : Prop :=
  exists ty d, p = ty :: d /\ (ty = 2 -> d = [] \/ json_ok d = true).
(** What the application should hear of one frame the server writes. A push
    carries the topic and the message (src/brokers/pub-sub/domain/types.rs:35-44). *)
Inductive sounds (json_ok : bytes -> bool) : outframe -> heard_ev -> Prop :=
| SoundsResponse id r st d : response_parts r = (st, d) -> sounds json_ok (OResponse id r) (HResponse id st d)
| SoundsPush id topic ty d :
    lenN topic < 4294967296 -> (ty = 2 -> d = [] \/ json_ok d = true) ->
    sounds json_ok (OPush id (push_wire topic (ty :: d))) (HPush topic ty d).
(** operations during which the connection stays up *)
Definition steady (o : cliop) : bool :=
  match o with USend _ _ _ | UFire _ | UData _ | USweep _ => true | _ => false end.
Definition received (xs : list cliop) : list bytes :=
  flat_map (fun o => match o with UData c => [c] | _ => [] end) xs.

(** error responses carry a readable message (the server's always do) *)
Definition readable_errors (log : list ev) : Prop :=
  forall id d, In (EGot id STATUS_ERR d) log -> sdk_string d <> None.
(** the connection is new: nothing has been received on it yet *)
Definition fresh (json_ok : bytes -> bool) (xs : list cliop) : Prop :=
  xs = [] \/ exists zs, xs = zs ++ [UDialOk] /\ u_up (ustate json_ok zs) = false /\ u_up (ustate json_ok xs) = true.
