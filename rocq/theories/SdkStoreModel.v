(** The store of the SDK (sdk/ts/src/brokers/store.ts): the requests it makes of what the
    application gives, what it makes of the answers, and the lifetime the server reads
    from the options. *)
From Verif Require Import LibBase WireModel CmdModel ValueModel JsonModel OptionsModel.

(** store.ts:10-16,37-39 (set): key, options, value; [None]: JSON.stringify gives no text *)
Definition sdk_set (key : txt) (v : value jv) (opts : jv) : option command :=
  match any jv js_stringify v with
  | Some b => Some (SSet (utf8_write key) (sdk_opts opts) b)
  | None => None
  end.
(** store.ts:18-19,41-43 (get) *)
Definition sdk_get (key : txt) : command := SGet (utf8_write key).
(** store.ts:24-25,45-47 (del) *)
Definition sdk_del (key : txt) : command := SDel (utf8_write key).
(** store.ts:20-21: what `get` resolves to; [None]: it rejects (connection.ts:81-84 for an
    error response) *)
Definition sdk_got (r : response) : option (value jv) :=
  match r with
  | RNull => Some (VJson JNull)
  | RData b => decode_any jv js_parse JNull b
  | ROk => decode_any jv js_parse JNull []
  | RError _ => None
  end.
(** src/brokers/store/tcp.rs:25-29,43-48,69-73: the `ttl` of the options of a SET; options
    that cannot be read never get here (json_ok) *)
Definition ttl_read (j : bytes) : option N :=
  match server_json j with
  | Some v => match set_opts v with Some o => o | None => None end
  | None => None
  end.
