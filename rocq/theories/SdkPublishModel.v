(** Publishing values with the SDK (sdk/ts/src/brokers/pubsub.ts): the request it makes, what
    the server does with its options, what the subscriber's SDK hands to the handlers. *)
From Verif Require Import LibBase WireModel CmdModel RespModel ValueModel JsonModel OptionsModel PubSubModel.

(** pubsub.ts:10-16,60-62 (publish); [None]: JSON.stringify gives no text *)
Definition sdk_publish (topic : txt) (v : value jv) (opts : jv) : option command :=
  match any jv js_stringify v with
  | Some b => Some (CmdModel.PPub (utf8_write topic) (sdk_opts opts) b)
  | None => None
  end.
(** src/brokers/pub-sub/tcp.rs:76-80: the publish the broker executes at time [now] *)
Definition served (sys : sysconf) (now : N) (c : command) : option pop :=
  match c with
  | CmdModel.PPub k j b => match setting_of sys 33 j with Some (SPublish rt ttl) => Some (PubSubModel.PPub k b rt (Some ttl) now) | _ => None end
  | _ => None
  end.
(** connection.ts:197-202: topic and data of a push; [None]: an exception, nothing is handed on *)
Definition sdk_pushed (p : bytes) : option (txt * value jv) :=
  match sdk_string p with
  | Some (t, rest) => match decode_any jv js_parse JNull rest with Some d => Some (utf8_read t, d) | None => None end
  | None => None
  end.
