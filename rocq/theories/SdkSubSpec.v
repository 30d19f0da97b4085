(** What the application and the broker can see of the SDK's subscriptions, read
    off the log only. *)
From Verif Require Import LibBase PubSubModel PubSubSpec SdkSubModel.

(** what happened since the connection came up last *)
Definition since_up (l : list subev) : list subev :=
  fold_left (fun a e => match e with VUp _ => [] | _ => a ++ [e] end) l [].
(** is the client connected, and as which client of the broker *)
Definition up_as (l : list subev) : option N :=
  fold_left (fun a e => match e with VUp c => Some c | VLost => None | _ => a end) l None.
(** every call about the pattern of [t] has been resolved or rejected *)
Definition all_settled (t : bytes) (l : list subev) : Prop :=
  forall m b t', In (VCall m b t') l -> reads t' = reads t -> exists ok, In (VDone m ok) l.
(** the broker has executed every SUB (UNSUB) request about the pattern of [t] that
    was written on the present connection *)
Definition all_served (sub : bool) (t : bytes) (l : list subev) : Prop :=
  forall r t', In (VSent r sub t') (since_up l) -> reads t' = reads t -> In (VServed r) l.
Definition is_call (o : subop) : bool := match o with XSub _ | XUnsub _ => true | _ => false end.
(** how many calls the application has made: the number of the next one *)
Definition call_no (xs : list subop) : nat := length (filter is_call xs).
(** [n] occurs exactly once *)
Definition exactly_once (n : nat) (l : list nat) : Prop := exists a b, l = a ++ n :: b /\ ~ In n a /\ ~ In n b.
(** the application calls subscribe (true) or unsubscribe *)
Definition the_call (sub : bool) (t : bytes) : subop := if sub then XSub t else XUnsub t.
(** how often call number [n] has been resolved or rejected *)
Definition dones (n : nat) (l : list subev) : nat := length (filter (fun e => match e with VDone m _ => Nat.eqb m n | _ => false end) l).
