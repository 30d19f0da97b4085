(** What a client can observe of a queue, used to state the queue properties.
    Everything here is defined from requests, answers and listings. *)
From Verif Require Import LibBase LibMap QueueModel QueueSpec.

(** listings: pending, in-flight (HTTP/TCP message listing) and dead letters (peek) *)
Definition obs_wait (i : inner) : list message := msgs_of (q_reg (i_state i)) (flat (q_disp (i_state i))).
Definition obs_fly (i : inner) : list message := msgs_of (q_reg (i_state i)) (flat (q_ack (i_state i))).
Definition obs_dead (i : inner) : list dlqmsg := avals (i_dlq i).

(** the unchanging part of a message *)
Definition body := (N * bytes * N * N)%type.
Definition body_of (m : message) : body := (m_id m, m_payload m, m_prio m, m_created m).
Definition dbody_of (d : dlqmsg) : body := (d_id d, d_payload d, d_prio d, d_created d).
Definition body_id (b : body) : N := fst (fst (fst b)).

(** messages pushed by a history *)
Definition push_of (o : qop) : list body :=
  match o with QoPush id payload prio now => [(id, payload, prio, now)] | _ => [] end.
Definition pushed (h : list qop) : list body := flat_map push_of h.
(** every push uses a new id (random UUIDs) *)
Definition fresh (h : list qop) : Prop := NoDup (map body_id (pushed h)).

(** messages handed out by an answer *)
Definition ret (r : qout) : list message :=
  match r with RMsgs ms => ms | RMsg (Some m) => [m] | _ => [] end.

Section Trace.
  Variable cfg : qconfig.
  Fixpoint outs (i : inner) (h : list qop) : list qout :=
    match h with [] => [] | o :: h' => qouts cfg i o :: outs (qnext cfg i o) h' end.
  (** messages that leave for good with one request: a successful ack, a
      successful dead-letter deletion, a purge *)
  Definition gone (i : inner) (o : qop) : list body :=
    match o, qouts cfg i o with
    | QoAck id, RBool true => map body_of (filter (fun m => m_id m =? id) (obs_wait i ++ obs_fly i))
    | QoDelDlq id, RBool true => map dbody_of (filter (fun d => d_id d =? id) (obs_dead i))
    | QoPurge, _ => map dbody_of (obs_dead i)
    | _, _ => []
    end.
  Fixpoint removed (i : inner) (h : list qop) : list body :=
    match h with [] => [] | o :: h' => gone i o ++ removed (qnext cfg i o) h' end.
  (** number of deliveries of a message *)
  Definition deliveries (id : N) (rs : list qout) : nat :=
    length (filter (fun m => m_id m =? id) (flat_map ret rs)).
End Trace.
