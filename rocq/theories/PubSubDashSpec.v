(** What the pub/sub page of the dashboard should show, in terms of the requests. *)
From Verif Require Import LibBase LibMap PubSubModel PubSubSpec TopicSpec.

(** every connection that ended has been cleaned up (the connection's last act) *)
Definition settled (h : list pop) : Prop := forall c h1 h2, h = h1 ++ PClose c :: h2 -> In (PDisconnect c) h2.
(** retained topics have no level "+" or "#" *)
Definition named_topics (h : list pop) : Prop := forall t d ttl now, In (PPub t d true ttl now) h -> ~ In lplus (split t) /\ ~ In lhash (split t).
(** topics and patterns of the requests are not empty and do not begin with a slash *)
Definition plain_name (t : bytes) : Prop := t <> [] /\ forall t', t <> slash :: t'.
Definition plain_names (h : list pop) : Prop :=
  (forall t d ttl now, In (PPub t d true ttl now) h -> plain_name t) /\ (forall p, In p (patterns h) -> plain_name p).

(** [n] clients satisfy [P] *)
Definition counts (n : N) (P : N -> Prop) : Prop := exists cs, NoDup cs /\ (forall c, In c cs <-> P c) /\ lenN cs = n.
(** names are in non-decreasing order *)
Inductive ordered (le : bytes -> bytes -> bool) : list bytes -> Prop :=
| ord_nil : ordered le []
| ord_cons : forall x l, (forall y, In y l -> le x y = true) -> ordered le l -> ordered le (x :: l).

(** the retained value of a topic as seen at time [now] *)
Definition visible (now : N) (v : option retained) : option bytes :=
  match v with Some r => if is_expired now r then None else Some (rt_data r) | None => None end.
(** the text typed into the search field occurs in the name *)
Definition found (search : option bytes) (name : bytes) : Prop := forall s, search = Some s -> exists a b, name = a ++ s ++ b.
