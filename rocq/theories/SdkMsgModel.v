(** Messages and records with the SDK's values: the requests queue.push and stream.publish
    make, what the server makes of them, and the data the SDK hands to the application. *)
From Verif Require Import LibBase WireModel CmdModel ValueModel JsonModel OptionsModel QueueModel StreamTopicModel StreamStoreModel StreamSysModel.

(** sdk/ts/src/brokers/queue.ts:43-48,227-229 (push); [None]: JSON.stringify gives no text *)
Definition sdk_push (name : txt) (v : value jv) (opts : jv) : option command :=
  match any jv js_stringify v with
  | Some b => Some (QPush (utf8_write name) (sdk_opts opts) b)
  | None => None
  end.
(** src/brokers/queue/tcp.rs:206-212, queue/manager.rs:280-294: the push the queue executes, as
    message [id] at time [now]; [None]: an error response *)
Definition push_served (sys : sysconf) (id now : N) (c : command) : option qop :=
  match c with
  | QPush _ j b => match setting_of sys 17 j with Some (SPriority p) => Some (QoPush id b p now) | _ => None end
  | _ => None
  end.
(** queue.ts:91-100 (peekDLQ): the data of the dead letters; [None]: decodeAny throws *)
Fixpoint sdk_dead (ds : list dlqmsg) : option (list (N * value jv)) :=
  match ds with
  | [] => Some []
  | d :: ds' => match decode_any jv js_parse JNull (d_payload d), sdk_dead ds' with
                | Some v, Some vs => Some ((d_id d, v) :: vs)
                | _, _ => None
                end
  end.
(** sdk/ts/src/brokers/stream.ts:197-202 (publish) *)
Definition sdk_append (name : txt) (v : value jv) : option command :=
  match any jv js_stringify v with
  | Some b => Some (TPub (utf8_write name) b)
  | None => None
  end.
(** src/brokers/stream/tcp.rs:185-188: the publish the topic executes at time [ts] *)
Definition append_served (ts : N) (c : command) : option sop :=
  match c with TPub _ b => Some (SPub ts b) | _ => None end.
(** stream.ts:142-149: the batch of a FETCH; [None]: decodeAny throws *)
Fixpoint sdk_batch (ms : list msg) : option (list (N * value jv)) :=
  match ms with
  | [] => Some []
  | m :: ms' => match decode_any jv js_parse JNull (m_pay m), sdk_batch ms' with
                | Some v, Some vs => Some ((m_seq m, v) :: vs)
                | _, _ => None
                end
  end.
