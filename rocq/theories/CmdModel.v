(** Model of request parsing: payload cursor, per-broker command parsers,
    opcode dispatcher, and the SDK's argument writers. *)
From Verif Require Import LibBase.

(** UTF-8 validity as checked by std::str::from_utf8 (called in
    src/transport/tcp/protocol/cursor.rs:44): RFC 3629 well-formed sequences. *)
Definition cont (b : N) : bool := (128 <=? b) && (b <=? 191).
Definition inr (lo hi b : N) : bool := (lo <=? b) && (b <=? hi).
Fixpoint utf8 (l : bytes) : bool :=
  match l with
  | [] => true
  | b :: r =>
      if b <? 128 then utf8 r
      else if inr 194 223 b then match r with c :: r1 => cont c && utf8 r1 | _ => false end
      else if inr 224 239 b then
        match r with
        | c :: d :: r2 =>
            (if b =? 224 then inr 160 191 c else if b =? 237 then inr 128 159 c else cont c)
              && cont d && utf8 r2
        | _ => false end
      else if inr 240 244 b then
        match r with
        | c :: d :: e :: r3 =>
            (if b =? 240 then inr 144 191 c else if b =? 244 then inr 128 143 c else cont c)
              && cont d && cont e && utf8 r3
        | _ => false end
      else false
  end.

(** A cursor read: [None] stands for Err(ParseError) (the message text is not
    modelled); otherwise value and remaining bytes. *)
Definition rdr (A : Type) := bytes -> option (A * bytes).
Definition ret {A} (a : A) : rdr A := fun b => Some (a, b).
Definition fail {A} : rdr A := fun _ => None.
Definition bind {A B} (r : rdr A) (f : A -> rdr B) : rdr B :=
  fun b => match r b with Some (a, b') => f a b' | None => None end.
Notation "x <- r ;; k" := (bind r (fun x => k)) (at level 60, r at next level, right associativity).

(** cursor.rs:9-11,28-... has_remaining + copy: take exactly n bytes *)
Definition read_n (n : N) : rdr bytes :=
  fun b => if lenN b <? n then None else Some (takeN n b, dropN n b).
(** cursor.rs:17-22 read_u8 *)
Definition read_u8 : rdr N := x <- read_n 1 ;; ret (unbe x).
(** cursor.rs:24-29 read_u32 *)
Definition read_u32 : rdr N := x <- read_n 4 ;; ret (unbe x).
(** cursor.rs:31-36 read_u64 *)
Definition read_u64 : rdr N := x <- read_n 8 ;; ret (unbe x).
(** cursor.rs:38-46 read_string *)
Definition read_string : rdr bytes :=
  len <- read_u32 ;; s <- read_n len ;; if utf8 s then ret s else fail.
(** cursor.rs:48-51 read_remaining *)
Definition read_remaining : rdr bytes := fun b => Some (b, []).
(** cursor.rs:53-60 read_uuid_bytes *)
Definition read_uuid : rdr bytes := read_n 16.

(** Parsed commands of all brokers. JSON option arguments are kept as their
    text; whether serde_json accepts the text for the opcode's option type is
    the oracle [json_ok] below (serde_json itself is not modelled). *)
Inductive command :=
| CEcho (payload : bytes)
| SSet (key json value : bytes) | SGet (key : bytes) | SDel (key : bytes)
| QCreate (name json : bytes) | QPush (name json payload : bytes) | QConsume (name json : bytes)
| QAck (id name : bytes) | QNack (id name reason : bytes)
| QExists (name : bytes) | QDelete (name : bytes)
| QPeek (name : bytes) (limit offset : N)
| QMove (name id : bytes) | QDelDlq (name id : bytes) | QPurge (name : bytes)
| PPub (topic json payload : bytes) | PSub (topic : bytes) | PUnsub (topic : bytes)
| TCreate (topic json : bytes) | TPub (topic payload : bytes)
| TFetch (topic group consumer : bytes) (gen limit wait : N)
| TJoin (group topic : bytes)
| TAck (topic group consumer : bytes) (gen seq : N)
| TSeek (topic group : bytes) (target : N)
| TExists (topic : bytes) | TDelete (topic : bytes)
| TLeave (topic group consumer : bytes) (gen : N).

Section Parse.
  Variable json_ok : N -> bytes -> bool.
  (** read_string followed by serde_json::from_str *)
  Definition read_json (op : N) : rdr bytes :=
    j <- read_string ;; if json_ok op j then ret j else fail.

  (** src/brokers/store/tcp.rs:39-60 *)
  Definition parse_store (op : N) : rdr command :=
    if op =? 2 then k <- read_string ;; j <- read_json op ;; v <- read_remaining ;; ret (SSet k j v)
    else if op =? 3 then k <- read_string ;; ret (SGet k)
    else if op =? 4 then k <- read_string ;; ret (SDel k)
    else fail.
  (** src/brokers/queue/tcp.rs:56-121 *)
  Definition parse_queue (op : N) : rdr command :=
    if op =? 16 then n <- read_string ;; j <- read_json op ;; ret (QCreate n j)
    else if op =? 17 then n <- read_string ;; j <- read_json op ;; p <- read_remaining ;; ret (QPush n j p)
    else if op =? 18 then n <- read_string ;; j <- read_json op ;; ret (QConsume n j)
    else if op =? 19 then i <- read_uuid ;; n <- read_string ;; ret (QAck i n)
    else if op =? 26 then i <- read_uuid ;; n <- read_string ;; r <- read_string ;; ret (QNack i n r)
    else if op =? 20 then n <- read_string ;; ret (QExists n)
    else if op =? 21 then n <- read_string ;; ret (QDelete n)
    else if op =? 22 then n <- read_string ;; l <- read_u32 ;; o <- read_u32 ;; ret (QPeek n l o)
    else if op =? 23 then n <- read_string ;; i <- read_uuid ;; ret (QMove n i)
    else if op =? 24 then n <- read_string ;; i <- read_uuid ;; ret (QDelDlq n i)
    else if op =? 25 then n <- read_string ;; ret (QPurge n)
    else fail.
  (** src/brokers/pub-sub/tcp.rs:35-56 *)
  Definition parse_pubsub (op : N) : rdr command :=
    if op =? 33 then t <- read_string ;; j <- read_json op ;; p <- read_remaining ;; ret (PPub t j p)
    else if op =? 34 then t <- read_string ;; ret (PSub t)
    else if op =? 35 then t <- read_string ;; ret (PUnsub t)
    else fail.
  (** src/brokers/stream/tcp.rs:48-112 *)
  Definition parse_stream (op : N) : rdr command :=
    if op =? 48 then t <- read_string ;; j <- read_json op ;; ret (TCreate t j)
    else if op =? 49 then t <- read_string ;; p <- read_remaining ;; ret (TPub t p)
    else if op =? 50 then
      t <- read_string ;; g <- read_string ;; c <- read_string ;;
      gen <- read_u64 ;; l <- read_u32 ;; w <- read_u32 ;; ret (TFetch t g c gen l w)
    else if op =? 51 then g <- read_string ;; t <- read_string ;; ret (TJoin g t)
    else if op =? 52 then
      t <- read_string ;; g <- read_string ;; c <- read_string ;;
      gen <- read_u64 ;; s <- read_u64 ;; ret (TAck t g c gen s)
    else if op =? 56 then
      t <- read_string ;; g <- read_string ;; x <- read_u8 ;;
      if x <=? 1 then ret (TSeek t g x) else fail
    else if op =? 53 then t <- read_string ;; ret (TExists t)
    else if op =? 54 then t <- read_string ;; ret (TDelete t)
    else if op =? 57 then
      t <- read_string ;; g <- read_string ;; c <- read_string ;; gen <- read_u64 ;; ret (TLeave t g c gen)
    else fail.

  Inductive broker := BStore | BQueue | BPubSub | BStream.
  (** OPCODE_MIN/OPCODE_MAX: store/tcp.rs:14-15, queue/tcp.rs:19-20,
      pub-sub/tcp.rs:16-17, stream/tcp.rs:17-18 *)
  Definition opcode_min (b : broker) : N :=
    match b with BStore => 2 | BQueue => 16 | BPubSub => 33 | BStream => 48 end.
  Definition opcode_max (b : broker) : N :=
    match b with BStore => 15 | BQueue => 31 | BPubSub => 47 | BStream => 63 end.
  Definition in_range (b : broker) (op : N) : bool := (opcode_min b <=? op) && (op <=? opcode_max b).
  Definition parse_of (b : broker) : N -> rdr command :=
    match b with BStore => parse_store | BQueue => parse_queue | BPubSub => parse_pubsub | BStream => parse_stream end.

  (** What the dispatcher does with a request: run a command, answer a parse
      error from a broker, or answer "Unknown opcode". *)
  Inductive dispatched := DCmd (c : command) | DParseError (b : broker) | DUnknown.
  Definition run_broker (b : broker) (op : N) (payload : bytes) : dispatched :=
    match parse_of b op payload with Some (c, _) => DCmd c | None => DParseError b end.
  (** src/transport/tcp/dispatcher.rs:22-43 *)
  Definition dispatch (op : N) (payload : bytes) : dispatched :=
    if op =? 0 then DCmd (CEcho payload)
    else if in_range BStore op then run_broker BStore op payload
    else if in_range BQueue op then run_broker BQueue op payload
    else if in_range BPubSub op then run_broker BPubSub op payload
    else if in_range BStream op then run_broker BStream op payload
    else DUnknown.
End Parse.

(** SDK side. sdk/ts/src/codec.ts:107-115 (string), 93-98 (u32), 100-105 (u64),
    86-91 (u8), 121-140 (uuid: 16 bytes for a 32-digit id). *)
Definition w_string (s : bytes) : bytes := be 4 (lenN s) ++ s.
Definition w_u8 (n : N) : bytes := be 1 n.
Definition w_u32 (n : N) : bytes := be 4 n.
Definition w_u64 (n : N) : bytes := be 8 n.

(** Opcode the SDK uses: brokers/store.ts:4-8, queue.ts:8-20, pubsub.ts:4-8,
    stream.ts:10-20. *)
Definition sdk_opcode (c : command) : N :=
  match c with
  | CEcho _ => 0
  | SSet _ _ _ => 2 | SGet _ => 3 | SDel _ => 4
  | QCreate _ _ => 16 | QPush _ _ _ => 17 | QConsume _ _ => 18 | QAck _ _ => 19
  | QExists _ => 20 | QDelete _ => 21 | QPeek _ _ _ => 22 | QMove _ _ => 23
  | QDelDlq _ _ => 24 | QPurge _ => 25 | QNack _ _ _ => 26
  | PPub _ _ _ => 33 | PSub _ => 34 | PUnsub _ => 35
  | TCreate _ _ => 48 | TPub _ _ => 49 | TFetch _ _ _ _ _ _ => 50 | TJoin _ _ => 51
  | TAck _ _ _ _ _ => 52 | TExists _ => 53 | TDelete _ => 54 | TSeek _ _ _ => 56
  | TLeave _ _ _ _ => 57
  end.
(** Fixed-layout part and trailing payload of each call: store.ts:10-26,
    queue.ts:24-124, pubsub.ts:10-23, stream.ts:82-87,95-98,130-137,155-161,177-202,222-228. *)
Definition sdk_head (c : command) : bytes :=
  match c with
  | CEcho _ => []
  | SSet k j _ => w_string k ++ w_string j
  | SGet k => w_string k | SDel k => w_string k
  | QCreate n j => w_string n ++ w_string j
  | QPush n j _ => w_string n ++ w_string j
  | QConsume n j => w_string n ++ w_string j
  | QAck i n => i ++ w_string n
  | QNack i n r => i ++ w_string n ++ w_string r
  | QExists n => w_string n | QDelete n => w_string n
  | QPeek n l o => w_string n ++ w_u32 l ++ w_u32 o
  | QMove n i => w_string n ++ i
  | QDelDlq n i => w_string n ++ i
  | QPurge n => w_string n
  | PPub t j _ => w_string t ++ w_string j
  | PSub t => w_string t | PUnsub t => w_string t
  | TCreate t j => w_string t ++ w_string j
  | TPub t _ => w_string t
  | TFetch t g c gen l w => w_string t ++ w_string g ++ w_string c ++ w_u64 gen ++ w_u32 l ++ w_u32 w
  | TJoin g t => w_string g ++ w_string t
  | TAck t g c gen s => w_string t ++ w_string g ++ w_string c ++ w_u64 gen ++ w_u64 s
  | TSeek t g x => w_string t ++ w_string g ++ w_u8 x
  | TExists t => w_string t | TDelete t => w_string t
  | TLeave t g c gen => w_string t ++ w_string g ++ w_string c ++ w_u64 gen
  end.
Definition sdk_tail (c : command) : bytes :=
  match c with
  | CEcho p => p | SSet _ _ v => v | QPush _ _ p => p | PPub _ _ p => p | TPub _ p => p
  | _ => []
  end.
Definition sdk_args (c : command) : bytes := sdk_head c ++ sdk_tail c.
