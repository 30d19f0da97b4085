(** Options of commands: the SDK writes them as JSON (sdk/ts/src/brokers), the server
    reads them into structs (src/brokers/*/options.rs), fills in its defaults and keeps
    those of queues and streams in files. *)
From Coq Require Import String Ascii.
From Verif Require Import LibBase CmdModel ValueModel JsonModel.

(** names, in ASCII *)
Definition w (s : string) : txt := map N_of_ascii (list_ascii_of_string s).

(** ** serde_json *)
(** `serde_json::from_str` reads straight into the struct; here the text is read into a
    value first. (A text that is wrong in both ways is refused either way.) *)
Definition server_json (b : bytes) : option jv := JsonModel.parse (utf8_lossy b).
(** unsigned integers (serde's Deserialize for u8, u32, u64, usize): a number without sign,
    fraction and exponent, in range *)
Definition dec_val (t : txt) : N := fold_left (fun n c => n * 10 + (c - 48)) t 0.
Definition as_uint (max : N) (v : jv) : option N :=
  match v with JNum t => if forallb digit t && (dec_val t <=? max) then Some (dec_val t) else None | _ => None end.
Definition as_bool (v : jv) : option bool := match v with JBool b => Some b | _ => None end.
Definition as_str (v : jv) : option txt := match v with JStr u => Some u | _ => None end.
(** Option<T>: null is None *)
Definition opt {A} (f : jv -> option A) (v : jv) : option (option A) :=
  match v with JNull => Some None | _ => match f v with Some a => Some (Some a) | None => None end end.
Definition named (k : txt) (l : list (txt * jv)) : list jv := map snd (filter (fun kv : txt * jv => beqb (fst kv) k) l).
(** a field of type Option<T>: absent is None, twice is an error (serde derive) *)
Definition field {A} (k : txt) (f : jv -> option A) (l : list (txt * jv)) : option (option A) :=
  match named k l with [] => Some None | [v] => opt f v | _ => None end.
(** a field of another type must be there *)
Definition need {A} (k : txt) (f : jv -> option A) (l : list (txt * jv)) : option A :=
  match named k l with [v] => f v | _ => None end.
Definition surrogate (c : N) : bool := hi_sur c || lo_sur c.
(** a struct with fields [ks]: an object, or its fields in order as an array. A name that
    is no text is refused. [deny]: deny_unknown_fields. *)
Definition struct (ks : list txt) (deny : bool) (v : jv) : option (list (txt * jv)) :=
  match v with
  | JObj l => if forallb (fun kv => negb (existsb surrogate (fst kv)) && (negb deny || existsb (beqb (fst kv)) ks)) l then Some l else None
  | JArr l => if Nat.eqb (List.length l) (List.length ks) then Some (combine ks l) else None
  | _ => None
  end.
Definition both {A B} (a : option A) (b : option B) : option (A * B) := match a, b with Some x, Some y => Some (x, y) | _, _ => None end.
Definition u8_max : N := 255.
Definition u32_max : N := 2 ^ 32 - 1.
Definition u64_max : N := 2 ^ 64 - 1.

(** ** The option structs *)
(** queue/options.rs:7-12 *)
Definition queue_create (v : jv) : option (option N * option N) :=
  match struct [w "visibilityTimeoutMs"; w "maxRetries"] false v with
  | Some l => both (field (w "visibilityTimeoutMs") (as_uint u64_max) l) (field (w "maxRetries") (as_uint u32_max) l)
  | None => None
  end.
(** queue/options.rs:14-18 *)
Definition queue_push (v : jv) : option (option N) :=
  match struct [w "priority"] true v with Some l => field (w "priority") (as_uint u8_max) l | None => None end.
(** queue/options.rs:20-25 *)
Definition queue_consume (v : jv) : option (option N * option N) :=
  match struct [w "batchSize"; w "waitMs"] false v with
  | Some l => both (field (w "batchSize") (as_uint u64_max) l) (field (w "waitMs") (as_uint u64_max) l)
  | None => None
  end.
(** stream/options.rs:6-11 *)
Definition retention (v : jv) : option (option N * option N) :=
  match struct [w "maxAgeMs"; w "maxBytes"] false v with
  | Some l => both (field (w "maxAgeMs") (as_uint u64_max) l) (field (w "maxBytes") (as_uint u64_max) l)
  | None => None
  end.
(** stream/options.rs:13-17 *)
Definition stream_create (v : jv) : option (option (option N * option N)) :=
  match struct [w "retention"] false v with Some l => field (w "retention") retention l | None => None end.
(** pub-sub/options.rs:7-12 *)
Definition publish_opts (v : jv) : option (option bool * option N) :=
  match struct [w "retain"; w "ttl"] false v with
  | Some l => both (field (w "retain") as_bool l) (field (w "ttl") (as_uint u64_max) l)
  | None => None
  end.
(** store/tcp.rs:26-30 *)
Definition set_opts (v : jv) : option (option N) :=
  match struct [w "ttl"] false v with Some l => field (w "ttl") (as_uint u64_max) l | None => None end.

Definition is_some {A} (o : option A) : bool := match o with Some _ => true | None => false end.
(** what the command parsers accept as options: the oracle of CmdModel, made concrete
    (store/tcp.rs:44, queue/tcp.rs:61,68,76, pub-sub/tcp.rs:40, stream/tcp.rs:53) *)
Definition json_ok (op : N) (j : bytes) : bool :=
  match server_json j with
  | None => false
  | Some v =>
    if op =? 2 then is_some (set_opts v) else if op =? 16 then is_some (queue_create v) else if op =? 17 then is_some (queue_push v)
    else if op =? 18 then is_some (queue_consume v) else if op =? 33 then is_some (publish_opts v) else if op =? 48 then is_some (stream_create v) else false
  end.

(** ** Defaults *)
Definition or_else {A} (o : option A) (d : A) : A := match o with Some a => a | None => d end.
(** the server's configuration: queue/config.rs, stream/config.rs, pub-sub/config.rs, store/config.rs *)
Record sysconf := mkC { c_vis : N; c_retries : N; c_batch : N; c_wait : N; c_age : N; c_bytes : N; c_pub_ttl : N; c_ttl : N }.
(** queue/config.rs:17-29, stream/config.rs:20-38, pub-sub/config.rs:11-20, store/config.rs:9-16 *)
Definition sys_default : sysconf := mkC 30000 5 10 0 604800000 1073741824 3600 3600.
Section Settings.
  Variable sys : sysconf.
  (** QueueConfig::from_options: queue/domain/queue.rs:77-82 *)
  Definition q_settings (o : option N * option N) : N * N := (or_else (fst o) (c_vis sys), or_else (snd o) (c_retries sys)).
  (** queue/tcp.rs:207 *)
  Definition push_priority (o : option N) : N := or_else o 0.
  (** queue/manager.rs:377-378 *)
  Definition consume_settings (o : option N * option N) : N * N := (or_else (fst o) (c_batch sys), or_else (snd o) (c_wait sys)).
  (** TopicConfig::from_options: stream/domain/topic.rs:29-44 *)
  Definition limit (o : option N) (d : N) : option N := match o with None => Some d | Some v => if v =? 0 then None else Some v end.
  Definition t_retention (o : option (option N * option N)) : option N * option N :=
    match o with Some r => (limit (fst r) (c_age sys), limit (snd r) (c_bytes sys)) | None => (Some (c_age sys), Some (c_bytes sys)) end.
  (** PubSubPublishConfig::from_options: pub-sub/options.rs:21-28 *)
  Definition publish_settings (o : option bool * option N) : bool * N := (or_else (fst o) false, or_else (snd o) (c_pub_ttl sys)).
  (** store/domain/map.rs:57-63 *)
  Definition set_ttl (o : option N) : N := match o with None => c_ttl sys | Some v => if v =? 0 then c_ttl sys else v end.

  (** the settings a command is executed with, from the text of its options *)
  Inductive setting := SQueue (vis retries : N) | SPriority (p : N) | SConsume (batch wait : N) | SRetention (age size : option N) | SPublish (retain : bool) (ttl : N) | SSetTtl (ttl : N).
  Definition setting_of (op : N) (j : bytes) : option setting :=
    match server_json j with
    | None => None
    | Some v =>
      if op =? 2 then option_map (fun o => SSetTtl (set_ttl o)) (set_opts v)
      else if op =? 16 then option_map (fun o => SQueue (fst (q_settings o)) (snd (q_settings o))) (queue_create v)
      else if op =? 17 then option_map (fun o => SPriority (push_priority o)) (queue_push v)
      else if op =? 18 then option_map (fun o => SConsume (fst (consume_settings o)) (snd (consume_settings o))) (queue_consume v)
      else if op =? 33 then option_map (fun o => SPublish (fst (publish_settings o)) (snd (publish_settings o))) (publish_opts v)
      else if op =? 48 then option_map (fun o => SRetention (fst (t_retention o)) (snd (t_retention o))) (stream_create v)
      else None
    end.
End Settings.

(** ** The SDK *)
(** `options || {}`: store.ts:14, pubsub.ts:14, queue.ts:28,46 (only for objects, null and
    undefined; stream.ts:179 passes null on) *)
Definition sdk_opts (o : jv) : bytes := utf8_write (str (match o with JUndef | JNull => JObj [] | v => v end)).
(** `??` *)
Definition nullish (v d : jv) : jv := match v with JUndef | JNull => d | _ => v end.
Definition prop (k : txt) (o : jv) : jv := match o with JObj l => match named k l with v :: _ => v | [] => JUndef end | _ => JUndef end.
(** queue.ts:241-242,258 and 53, config.ts: the options of a CONSUME *)
Definition sdk_consume (o : jv) : bytes :=
  utf8_write (str (JObj [(w "batchSize", nullish (prop (w "batchSize") o) (JNum (w "50"))); (w "waitMs", nullish (prop (w "waitMs") o) (JNum (w "20000")))])).

(** ** Files *)
(** `serde_json::to_string_pretty`, over scalar values *)
Definition esc_rust (u : txt) : txt := flat_map esc1 u.
Definition indent (d : nat) : txt := 10 :: repeat 32 (2 * d)%nat.
Definition boxed (a b : N) (d : nat) (l : list txt) : txt := match l with [] => [a; b] | _ => [a] ++ join (map (app (indent (S d))) l) ++ indent d ++ [b] end.
Fixpoint pretty (d : nat) (v : jv) : txt :=
  match v with
  | JUndef | JNull | JNaN => t_null
  | JBool b => if b then t_true else t_false
  | JNum t => t
  | JStr u => [34] ++ esc_rust u ++ [34]
  | JArr l => boxed 91 93 d (map (pretty (S d)) l)
  | JObj l => boxed 123 125 d (map (fun kv => ([34] ++ esc_rust (fst kv) ++ [34]) ++ [58; 32] ++ pretty (S d) (snd kv)) l)
  end.
(** decimal digits: itoa *)
Fixpoint dec_fuel (k : nat) (n : N) : txt := match k with O => [] | S k => if n <? 10 then [48 + n] else dec_fuel k (n / 10) ++ [48 + n mod 10] end.
Definition dec (n : N) : txt := dec_fuel (S (N.to_nat (N.log2 n))) n.
Definition num (n : N) : jv := JNum (dec n).
Definition opt_num (o : option N) : jv := match o with Some n => num n | None => JNull end.
(** QueueConfig (queue/domain/queue.rs:70-74) in its file: queue/manager.rs:247-251 *)
Definition queue_file (c : N * N) : bytes := flat_map utf8_put (pretty 0 (JObj [(w "visibility_timeout_ms", num (fst c)); (w "max_retries", num (snd c))])).
(** reading it at the start of the server: queue/manager.rs:79-84; None: there is no file *)
Definition queue_load (sys : sysconf) (f : option bytes) : N * N :=
  match f with
  | Some b => match (match server_json b with
                     | Some v => match struct [w "visibility_timeout_ms"; w "max_retries"] false v with
                                 | Some l => both (need (w "visibility_timeout_ms") (as_uint u64_max) l) (need (w "max_retries") (as_uint u32_max) l)
                                 | None => None
                                 end
                     | None => None
                     end) with
              | Some c => c
              | None => q_settings sys (None, None)
              end
  | None => q_settings sys (None, None)
  end.
(** TopicConfig: stream/domain/topic.rs:12-25. The numbers in the order of the struct,
    without the retention. *)
Record tconf := mkTC { tc_path : txt; tc_seg : N; tc_ret : option N * option N; tc_check : N; tc_flush : N; tc_soft : N; tc_hard : N; tc_evict : N; tc_pending : N; tc_wait : N; tc_deliv : N }.
Definition topic_keys : list txt := [w "persistence_path"; w "max_segment_size"; w "retention"; w "retention_check_ms"; w "default_flush_ms"; w "ram_soft_limit"; w "ram_hard_limit"; w "eviction_interval_ms"; w "max_ack_pending"; w "ack_wait_ms"; w "max_deliveries"].
Definition topic_json (c : tconf) : jv :=
  JObj (combine topic_keys [JStr (tc_path c); num (tc_seg c); JObj [(w "maxAgeMs", opt_num (fst (tc_ret c))); (w "maxBytes", opt_num (snd (tc_ret c)))]; num (tc_check c); num (tc_flush c);
    num (tc_soft c); num (tc_hard c); num (tc_evict c); num (tc_pending c); num (tc_wait c); num (tc_deliv c)]).
(** stream/manager.rs:112-122 *)
Definition topic_file (c : tconf) : bytes := flat_map utf8_put (pretty 0 (topic_json c)).
Definition topic_of (v : jv) : option tconf :=
  match struct topic_keys false v with
  | Some l =>
    match need (w "persistence_path") as_str l, need (w "max_segment_size") (as_uint u64_max) l, need (w "retention") retention l, need (w "retention_check_ms") (as_uint u64_max) l, need (w "default_flush_ms") (as_uint u64_max) l,
      need (w "ram_soft_limit") (as_uint u64_max) l, need (w "ram_hard_limit") (as_uint u64_max) l, need (w "eviction_interval_ms") (as_uint u64_max) l, need (w "max_ack_pending") (as_uint u64_max) l, need (w "ack_wait_ms") (as_uint u64_max) l, need (w "max_deliveries") (as_uint u32_max) l with
    | Some a, Some b, Some c, Some d, Some e, Some f, Some g, Some h, Some i, Some j, Some k => Some (mkTC a b c d e f g h i j k)
    | _, _, _, _, _, _, _, _, _, _, _ => None
    end
  | None => None
  end.
(** TopicConfig::from_options: stream/domain/topic.rs:27-59; [env]: the server's own configuration *)
Definition topic_new (sys : sysconf) (env : tconf) (o : option (option N * option N)) : tconf :=
  mkTC (tc_path env) (tc_seg env) (t_retention sys o) (tc_check env) (tc_flush env) (tc_soft env) (tc_hard env) (tc_evict env) (tc_pending env) (tc_wait env) (tc_deliv env).
(** load_topic_config: stream/manager.rs:435-442 *)
Definition topic_load (sys : sysconf) (env : tconf) (o : option (option N * option N)) (f : option bytes) : tconf :=
  match f with
  | Some b => match (match server_json b with Some v => topic_of v | None => None end) with Some c => c | None => topic_new sys env o end
  | None => topic_new sys env o
  end.
(** where a topic is read from (stream/manager.rs:484-490) and where its records are
    written to (69-73: one writer for all topics, stream/domain/persistence.rs:208) *)
Definition reads_from (c : tconf) : txt := tc_path c.
Definition writes_to (env : tconf) : txt := tc_path env.

(** ** Environment variables: queue/config.rs:46-51, stream/config.rs:61-66, pub-sub/config.rs:34-39, store/config.rs:28-33 *)
(** `str::parse` for unsigned integers *)
Definition parse_uint (max : N) (t : txt) : option N :=
  let d := match t with 43 :: r => r | _ => t end in
  match d with [] => None | _ => if forallb digit d && (dec_val d <=? max) then Some (dec_val d) else None end.
Definition env_uint (max d : N) (v : option txt) : N := match v with Some t => or_else (parse_uint max t) d | None => d end.
(** src/config.rs:72-78; None: panics *)
Definition env_strict (max d : N) (v : option txt) : option N := match v with Some t => parse_uint max t | None => Some d end.
