(** What a stream subscription of the SDK promises, on what can be observed of it. *)
From Verif Require Import LibBase StreamTopicModel SdkLoopModel SdkStreamModel.

(** the identity the subscription goes by: the one its last JOIN was answered with,
    until something fails *)
Definition current (l : list tev) : option ident :=
  fold_left (fun c e => match e with VJoined i => Some i | VErr => None | _ => c end) l None.
(** there is a connection *)
Definition online (l : list tev) : bool :=
  fold_left (fun b e => match e with VUp _ => true | VLost => false | _ => b end) l false.
(** the callback and the acknowledgements *)
Definition does (l : list tev) : list (ev item) := flat_map (fun e => match e with VDo x => [x] | _ => [] end) l.
(** message [m] came with the last answer to a FETCH, which was made as [i], and the
    callback has been started on it *)
Definition in_hand (l : list tev) (i : ident) (m : msg) : Prop :=
  exists a ms b, l = a ++ VGot i ms :: b /\ In m ms /\ (forall j ns, ~ In (VGot j ns) b) /\ In (VDo (EStart item (i, m))) b.
(** the requests of the loop *)
Definition request (e : tev) : Prop := match e with VJoin | VFetch _ => True | _ => False end.
(** messages have been taken in and the callbacks of that batch are not all through *)
Definition handling (l : list tev) : bool :=
  fold_left (fun b e => match e with VGot _ (_ :: _) => true | VFetch _ | VErr | VEnd => false | _ => b end) l false.
(** stop() has been called and has not returned *)
Definition stopping (l : list tev) : bool :=
  fold_left (fun b e => match e with VStop => true | VStopped => false | _ => b end) l false.
