(** Model of response payload encodings, the SDK's decoders for them, the SDK's
    hexadecimal message ids and its correlation-id counter. *)
From Verif Require Import LibBase CmdModel.

(** A waiting message as the consume response shows it: 16-byte id, payload. *)
Definition cmsg := (bytes * bytes)%type.
(** src/brokers/queue/tcp.rs:132-143; [be 4] truncates like `as u32`. *)
Definition consume_wire (ms : list cmsg) : bytes :=
  be 4 (lenN ms) ++ concat (map (fun m => fst m ++ be 4 (lenN (snd m)) ++ snd m) ms).

(** A dead letter as shown to the client: id, payload, attempts, reason. *)
Definition dmsg := (bytes * bytes * N * bytes)%type.
(** src/brokers/queue/tcp.rs:150-167 *)
Definition peek_wire (total : N) (ms : list dmsg) : bytes :=
  be 4 total ++ be 4 (lenN ms) ++
  concat (map (fun m => let '(id, p, att, reason) := m in
    id ++ be 4 (lenN p) ++ p ++ be 4 att ++ be 4 (lenN reason) ++ reason) ms).
(** src/brokers/queue/tcp.rs:173-177 *)
Definition bool_wire (b : bool) : bytes := [if b then 1 else 0].
(** src/brokers/queue/tcp.rs:183-187 *)
Definition count_wire (n : N) : bytes := be 4 n.
(** src/brokers/stream/tcp.rs:121-127 *)
Definition publish_wire (seq : N) : bytes := be 8 seq.
(** A stream message as shown to the client: sequence, timestamp, payload. *)
Definition smsg := (N * N * bytes)%type.
(** src/brokers/stream/tcp.rs:131-143 *)
Definition fetch_wire (ms : list smsg) : bytes :=
  be 4 (lenN ms) ++
  concat (map (fun m => let '(seq, ts, p) := m in be 8 seq ++ be 8 ts ++ be 4 (lenN p) ++ p) ms).
(** src/brokers/stream/tcp.rs:151-160 *)
Definition join_wire (floor gen : N) (cid : bytes) : bytes :=
  be 8 floor ++ be 8 gen ++ be 4 (lenN cid) ++ cid.
(** src/brokers/pub-sub/domain/types.rs:35-44 (push packet) *)
Definition push_wire (topic payload : bytes) : bytes := be 4 (lenN topic) ++ topic ++ payload.

(** SDK cursor (sdk/ts/src/codec.ts:7-22): integer reads throw past the end
    ([None]); readBuffer / toString silently clip. UTF-8 decoding of strings is
    the identity on bytes here. *)
Definition sdk_u8 : rdr N := read_u8.
Definition sdk_u32 : rdr N := read_u32.
Definition sdk_u64 : rdr N := read_u64.
Definition sdk_clip (n : N) : rdr bytes := fun b => Some (takeN n b, dropN n b).
Definition sdk_string : rdr bytes := n <- sdk_u32 ;; sdk_clip n.

(** lower-case hexadecimal (Buffer.toString('hex'), codec.ts:24-28) *)
Definition hexd (n : N) : N := if n <? 10 then 48 + n else 87 + n.
Definition to_hex (b : bytes) : bytes := concat (map (fun x => [hexd (x / 16); hexd (x mod 16)]) b).
Definition sdk_uuid : rdr bytes := x <- sdk_clip 16 ;; ret (to_hex x).

(** codec.ts:34-48 decodeAny on a whole buffer: type byte and data; throws on an
    empty buffer. Interpretation of the data (JSON.parse etc.) is not modelled. *)
Definition decode_any (p : bytes) : option (N * bytes) :=
  match p with [] => None | t :: d => Some (t, d) end.
Definition any_of (p : bytes) : rdr (N * bytes) := fun b =>
  match decode_any p with Some x => Some (x, b) | None => None end.

(** n-fold repetition of a reader (the SDK's for loops); the first throw
    aborts the whole loop. *)
Fixpoint repeat_rd {A} (n : nat) (r : rdr A) : rdr (list A) :=
  match n with
  | O => ret []
  | S n' => x <- r ;; xs <- repeat_rd n' r ;; ret (x :: xs)
  end.
(** sdk/ts/src/brokers/queue.ts:60-66 *)
Definition sdk_consume_one : rdr (bytes * (N * bytes)) :=
  i <- sdk_uuid ;; n <- sdk_u32 ;; p <- sdk_clip n ;; d <- any_of p ;; ret (i, d).
(** queue.ts:56-67 *)
Definition sdk_consume : rdr (list (bytes * (N * bytes))) :=
  n <- sdk_u32 ;; repeat_rd (N.to_nat n) sdk_consume_one.
(** queue.ts:92-100 *)
Definition sdk_peek_one : rdr (bytes * (N * bytes) * N * bytes) :=
  i <- sdk_uuid ;; n <- sdk_u32 ;; p <- sdk_clip n ;; d <- any_of p ;;
  a <- sdk_u32 ;; r <- sdk_string ;; ret (i, d, a, r).
(** queue.ts:88-101 *)
Definition sdk_peek : rdr (N * list (bytes * (N * bytes) * N * bytes)) :=
  t <- sdk_u32 ;; n <- sdk_u32 ;; l <- repeat_rd (N.to_nat n) sdk_peek_one ;; ret (t, l).
(** queue.ts:109,117 *)
Definition sdk_bool : rdr bool := x <- sdk_u8 ;; ret (x =? 1).
(** sdk/ts/src/brokers/stream.ts:143-149 *)
Definition sdk_fetch_one : rdr (N * (N * bytes)) :=
  s <- sdk_u64 ;; t <- sdk_u64 ;; n <- sdk_u32 ;; p <- sdk_clip n ;; d <- any_of p ;; ret (s, d).
(** stream.ts:139-149 *)
Definition sdk_fetch : rdr (list (N * (N * bytes))) :=
  n <- sdk_u32 ;; repeat_rd (N.to_nat n) sdk_fetch_one.
(** stream.ts:99-101 *)
Definition sdk_join : rdr (N * N * bytes) :=
  f <- sdk_u64 ;; g <- sdk_u64 ;; c <- sdk_string ;; ret (f, g, c).
(** connection.ts:198-200: topic and typed data of a push *)
Definition sdk_push (p : bytes) : option (bytes * (N * bytes)) :=
  match sdk_string p with
  | Some (t, rest) => match decode_any rest with Some d => Some (t, d) | None => None end
  | None => None
  end.

(** codec.ts:121-140 FrameWriter.uuid: character codes to bytes; [None] = throws.
    [hi] is the pending high nibble. The internal buffer is taken as large
    enough (ensure(16) at codec.ts:122 reserves exactly 16 bytes). *)
Definition nibble (c : N) : option N :=
  if inr 48 57 c then Some (c - 48)
  else if inr 97 102 c then Some (c - 87)
  else if inr 65 70 c then Some (c - 55)
  else None.
Fixpoint uuid_write (hi : option N) (s : bytes) : option bytes :=
  match s with
  | [] => Some []
  | c :: s' =>
      if c =? 45 then uuid_write hi s'
      else match nibble c with
           | None => None
           | Some n =>
               match hi with
               | None => uuid_write (Some (n * 16)) s'
               | Some h => match uuid_write None s' with Some r => Some (h + n :: r) | None => None end
               end
           end
  end.

(** JavaScript ToInt32 *)
Definition to_int32 (z : Z) : Z :=
  (let m := z mod 2 ^ 32 in if m <? 2 ^ 31 then m else m - 2 ^ 32)%Z.
(** sdk/ts/src/connection.ts:216 and 262: `(nextId + 1) & 0xFFFFFFFF || 1`;
    0xFFFFFFFF becomes the int32 -1, so `&` only converts to int32. *)
Definition next_id (n : Z) : Z := (let v := to_int32 (n + 1) in if v =? 0 then 1 else v)%Z.
(** connection.ts:13,215: id used by the k-th request (k from 0) of a client *)
Fixpoint request_id (k : nat) : Z :=
  match k with O => 1%Z | S k' => next_id (request_id k') end.
(** codec.ts:174 writeUInt32BE(id, 2) throws outside 0 .. 2^32-1 *)
Definition writable_u32 (n : Z) : bool := (0 <=? n)%Z && (n <? 2 ^ 32)%Z.
