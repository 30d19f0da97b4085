(** Pub/sub specification: topic matching and what a history of requests means,
    written without the topic tree. *)
From Verif Require Import LibBase LibMap PubSubModel.

(** MQTT matching of a pattern against a topic, level by level. *)
Inductive mqtt : list level -> list level -> Prop :=
| mq_end : mqtt [] []
| mq_hash : forall t, mqtt [lhash] t
| mq_plus : forall x p t, mqtt p t -> mqtt (lplus :: p) (x :: t)
| mq_lit : forall x p t, x <> lplus -> x <> lhash -> mqtt p t -> mqtt (x :: p) (x :: t).

(** '#' occurs only as the last level *)
Definition valid_pattern (p : bytes) : Prop := forall a b, split p = a ++ lhash :: b -> b = [].

(** the broker reads a pattern up to its first '#' *)
Fixpoint trunc (p : list level) : list level :=
  match p with [] => [] | x :: p' => if beqb x lhash then [lhash] else x :: trunc p' end.
Definition reads (p : bytes) : list level := trunc (split p).

(** client [c] is connected after [h]: it connected and neither disconnected nor
    lost its connection since *)
Definition connected (c : N) (h : list pop) : Prop :=
  exists h1 h2, h = h1 ++ PConnect c :: h2 /\ ~ In (PDisconnect c) h2 /\ ~ In (PClose c) h2.

(** [c] holds a subscription read as [q] after [h] *)
Definition holds (c : N) (q : list level) (h : list pop) : Prop :=
  exists h1 p now h2, h = h1 ++ PSub c p now :: h2 /\ reads p = q /\ connected c h1 /\
    ~ In (PDisconnect c) h2 /\ ~ In (PClose c) h2 /\ forall p', In (PUnsub c p') h2 -> reads p' <> q.

(** [c] holds the subscription [p] after [h] *)
Definition subscribed (c : N) (p : bytes) (h : list pop) : Prop :=
  exists h1 now h2, h = h1 ++ PSub c p now :: h2 /\ connected c h1 /\
    ~ In (PDisconnect c) h2 /\ ~ In (PClose c) h2 /\ ~ In (PUnsub c p) h2.

Definition connects (h : list pop) : list N := flat_map (fun o => match o with PConnect c => [c] | _ => [] end) h.
(** client ids are fresh (UUIDs) *)
Definition fresh_clients (h : list pop) : Prop := NoDup (connects h).
Definition patterns (h : list pop) : list bytes :=
  flat_map (fun o => match o with PSub _ p _ => [p] | PUnsub _ p => [p] | _ => [] end) h.

Section Kept.
  Variables (ticks inst_max default_ttl : N).
  Definition eff_ttl (ttl : option N) : N := match ttl with Some t => t | None => default_ttl end.
  (** the retained message of topic [t] after one more request *)
  Definition kept_step (t : bytes) (v : option retained) (o : pop) : option retained :=
    match o with
    | PPub t' d true ttl now =>
      if beqb t t' then
        match d with
        | [] => None
        | _ => match ret_new ticks inst_max now d (eff_ttl ttl) with Some r => Some r | None => v end
        end
      else v
    | PClean now => match v with Some r => if is_expired now r then None else v | None => None end
    | _ => v
    end.
  Definition kept (t : bytes) (h : list pop) : option retained := fold_left (kept_step t) h None.
End Kept.

(** the name under which a retained topic is pushed to a new subscriber and stored:
    leading empty levels are lost (radix_tree.rs:159,166,179,191) *)
Fixpoint shown_as (t : bytes) : bytes :=
  match t with b :: t' => if b =? slash then shown_as t' else t | [] => [] end.
