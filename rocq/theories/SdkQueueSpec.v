(** What queue subscriptions of the SDK promise, on what can be observed of a handle. *)
From Verif Require Import LibBase SdkLoopModel SdkQueueModel.

Section Spec.
  Context {A : Type}.
  Implicit Type l : list (hev A).
  (** there is a connection *)
  Definition online l : bool := fold_left (fun b e => match e with VConn up => up | _ => b end) l true.
  (** what happened to messages of subscription [k] *)
  Definition doings (k : nat) l : list (ev A) := flat_map (fun e => match e with VDo j x => if Nat.eqb j k then [x] else [] | _ => [] end) l.
  (** the messages subscription [k] was given *)
  Definition received (k : nat) l : list A := flat_map (fun e => match e with VGot j (Some ms) => if Nat.eqb j k then ms else [] | _ => [] end) l.
  (** a CONSUME of subscription [k] is unanswered *)
  Definition waiting (k : nat) l : bool := fold_left (fun b e => match e with VAsk j => if Nat.eqb j k then true else b | VGot j _ => if Nat.eqb j k then false else b | _ => b end) l false.
  (** the subscription takes part in the event *)
  Definition acts (k : nat) (e : hev A) : Prop := match e with VAsk j | VGot j _ | VDo j _ => j = k | _ => False end.
  (** writing a frame never throws (C11 says when it does) *)
  Definition fine (o : hop A) : Prop :=
    match o with HWork _ (WTake _ bad) | HWork _ (WEnd _ _ bad) | HOld _ _ (WTake _ bad) | HOld _ _ (WEnd _ _ bad) => bad = false | _ => True end.
  (** what the loop of subscription [k] does by itself: its timers, its workers and the
      user's callbacks; not the answers to its CONSUMEs *)
  Definition own (k : nat) (o : hop A) : Prop := match o with HWake j | HWork j _ | HNext j => j = k | _ => False end.
  (** every event of [ys], after [os], changes something *)
  Definition all_real (conc : N) (os ys : list (hop A)) : Prop := forall a o b, ys = a ++ o :: b -> hrun conc (os ++ a ++ [o]) <> hrun conc (os ++ a).
  (** subscribe() is called only when the earlier calls of the handle have returned or thrown *)
  Definition one_by_one (conc : N) (os : list (hop A)) : Prop := forall a b, os = a ++ HSub :: b ->
    forall k, In (VCall k) (h_log (hrun conc a)) -> In (VOk k) (h_log (hrun conc a)) \/ In (VThrew k) (h_log (hrun conc a)).
End Spec.
