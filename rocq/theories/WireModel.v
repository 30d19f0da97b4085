(** Model of the TCP framing layer (server codec, SDK frame loop). *)
From Verif Require Import LibBase.

(** src/transport/tcp/protocol/frame.rs:24-26 *)
Definition TYPE_REQUEST : N := 1.
Definition TYPE_RESPONSE : N := 2.
Definition TYPE_PUSH_PUBSUB : N := 3.
(** src/transport/tcp/protocol/frame.rs:31-34 *)
Definition STATUS_OK : N := 0.
Definition STATUS_ERR : N := 1.
Definition STATUS_NULL : N := 2.
Definition STATUS_DATA : N := 3.

(** frame.rs:50-55 (FrameHeader) and 75-78 (InboundFrame): the header fields
    after big-endian conversion, plus the payload. *)
Record inframe := mkIn { in_type : N; in_meta : N; in_id : N; in_payload : bytes }.

(** Result of one decoder call: need more bytes, protocol error, or one frame
    with the bytes left in the buffer. *)
Inductive decres :=
| DNone
| DErr
| DFrame (f : inframe) (rest : bytes).

(** src/transport/tcp/protocol/codec.rs:24-58 (NexoCodec::decode).
    [maxp] is Config::global().server.max_payload_size (codec.rs:39).
    bytemuck::try_from_bytes (codec.rs:29-36) cannot fail on an exact 10-byte
    slice because FrameHeader has alignment 1, so that error branch is omitted. *)
Definition decode (maxp : N) (src : bytes) : decres :=
  match src with
  | t :: m :: i3 :: i2 :: i1 :: i0 :: l3 :: l2 :: l1 :: l0 :: body =>
      let plen := unbe [l3; l2; l1; l0] in
      if maxp <? plen then DErr
      else if lenN body <? plen then DNone
      else DFrame (mkIn t m (unbe [i3; i2; i1; i0]) (takeN plen body)) (dropN plen body)
  | _ => DNone
  end.

(** sdk/ts/src/codec.ts:170-177 (FrameWriter.finish): request frame around an
    already written argument area. writeUInt32BE throws on values >= 2^32,
    which is why the theorems require id and length below 2^32. *)
Definition encode_request (id opcode : N) (args : bytes) : bytes :=
  [TYPE_REQUEST; opcode] ++ be 4 id ++ be 4 (lenN args) ++ args.

(** frame.rs:89-94 (Response) *)
Inductive response :=
| ROk
| RData (d : bytes)
| RError (msg : bytes)
| RNull.
(** frame.rs:82-85 (OutboundFrame) *)
Inductive outframe :=
| OResponse (id : N) (r : response)
| OPush (id : N) (payload : bytes).

(** codec.rs:66-76: status byte and payload of a response; [be 4] truncates
    like `as u32`. *)
Definition response_parts (r : response) : N * bytes :=
  match r with
  | ROk => (STATUS_OK, [])
  | RNull => (STATUS_NULL, [])
  | RError msg => (STATUS_ERR, be 4 (lenN msg) ++ msg)
  | RData d => (STATUS_DATA, d)
  end.

(** codec.rs:63-97 (NexoCodec::encode) *)
Definition encode (o : outframe) : bytes :=
  match o with
  | OResponse id r =>
      let (status, payload) := response_parts r in
      [TYPE_RESPONSE; status] ++ be 4 id ++ be 4 (lenN payload) ++ payload
  | OPush id payload =>
      [TYPE_PUSH_PUBSUB; 0] ++ be 4 id ++ be 4 (lenN payload) ++ payload
  end.

(** sdk/ts/src/connection.ts:160-171: one turn of the SDK's frame loop (no size
    limit on this side). *)
Definition sdk_split (src : bytes) : decres :=
  match src with
  | t :: m :: i3 :: i2 :: i1 :: i0 :: l3 :: l2 :: l1 :: l0 :: body =>
      let plen := unbe [l3; l2; l1; l0] in
      if lenN body <? plen then DNone
      else DFrame (mkIn t m (unbe [i3; i2; i1; i0]) (takeN plen body)) (dropN plen body)
  | _ => DNone
  end.

(** The receive loop around a one-frame decoder: tokio_util FramedRead over
    codec.rs:24 (used in connection.rs:114-129 run_socket) and
    connection.ts:150-175 (processBuffer).  [fuel] bounds the number of frames
    taken from the buffer; [None] = fuel exhausted (excluded by the theorems,
    see [drain_fuel_ok]). Result: frames, whether a protocol error stopped the
    loop, bytes left. *)
Section Reader.
  Variable dec : bytes -> decres.
  Fixpoint drain (fuel : nat) (buf : bytes) : option (list inframe * bool * bytes) :=
    match fuel with
    | O => None
    | S fuel' =>
        match dec buf with
        | DNone => Some ([], false, buf)
        | DErr => Some ([], true, buf)
        | DFrame f rest =>
            match drain fuel' rest with
            | Some (fs, e, b) => Some (f :: fs, e, b)
            | None => None
            end
        end
    end.

  (** Reader state: bytes buffered, frames delivered so far, error latch (after
      an error FramedRead yields nothing more and the socket task returns,
      connection.rs:127). *)
  Record reader := mkReader { r_buf : bytes; r_frames : list inframe; r_err : bool }.
  Definition reader0 : reader := mkReader [] [] false.

  (** arrival of one chunk of bytes *)
  Definition feed (r : reader) (chunk : bytes) : reader :=
    if r_err r then r
    else
      let buf := r_buf r ++ chunk in
      match drain (S (length buf)) buf with
      | Some (fs, e, b) => mkReader b (r_frames r ++ fs) e
      | None => r
      end.
  Definition feed_all (chunks : list bytes) : reader := fold_left feed chunks reader0.
End Reader.

(** sdk connection.ts:177-208 (handleFrame): what the SDK hands on. *)
Inductive sdk_event :=
| EvResponse (id status : N) (payload : bytes)
| EvPush (payload : bytes)
| EvUnknown (ty : N).
Definition sdk_handle (f : inframe) : sdk_event :=
  if in_type f =? TYPE_RESPONSE then EvResponse (in_id f) (in_meta f) (in_payload f)
  else if in_type f =? TYPE_PUSH_PUBSUB then EvPush (in_payload f)
  else EvUnknown (in_type f).
