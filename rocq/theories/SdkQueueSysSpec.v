(** What queue consumers promise end to end, on the common log of clients and queue. *)
From Verif Require Import LibBase LibMap QueueModel QueueObs SdkLoopModel SdkQueueModel SdkQueueSysModel.
Arguments OClient {V}. Arguments OServer {V}. Arguments y_log {V}. Arguments y_q {V}. Arguments served {V}. Arguments acts_of {V}.
Arguments YClient {V}. Arguments YServe {V}. Arguments YLose {V}. Arguments YAnswer {V}. Arguments YLoseA {V}. Arguments YOther {V}.

Section Spec.
  Context {V : Type}.
  Implicit Type L : list (yev V).
  (** a callback ran to its end for message [id] with data [v], well or not *)
  Definition handled (id : N) (v : V) (ok : bool) L : Prop := exists c k, In (OClient c (VDo k (EEnd (id, v) ok))) L.
  (** message [id] was passed over because its subscription was stopped *)
  Definition passed (id : N) (v : V) L : Prop := exists c k, In (OClient c (VDo k (ESkip (id, v)))) L.
  (** a request of someone else removed message [b] for good: an acknowledgement, or the
      deletion or purge of dead letters *)
  Definition removed_by_others (cfg : qconfig) (b : body) L : Prop := exists pre q post, L = pre ++ OServer None q :: post /\ In b (gone cfg (qrun cfg inner0 (served pre)) q).
  (** how often callbacks were started for message [id]; ended; ended well *)
  Definition started (id : N) L : nat := length (filter (fun e => match e with EStart x => fst x =? id | _ => false end) (acts_of L)).
  Definition finished (id : N) L : nat := length (filter (fun e => match e with EEnd x _ => fst x =? id | _ => false end) (acts_of L)).
  Definition succeeded (id : N) L : nat := length (filter (fun e => match e with EEnd x true => fst x =? id | _ => false end) (acts_of L)).
  (** no delivery timed out *)
  Definition in_time (cfg : qconfig) L : Prop := forall pre who n1 n2 post, L = pre ++ OServer who (QoExpire n1 n2) :: post ->
    qouts cfg (qrun cfg inner0 (served pre)) (QoExpire n1 n2) = RExpired [] [].
  (** nobody else nacks *)
  Definition own_nacks L : Prop := forall id r now, ~ In (OServer None (QoNack id r now)) L.
  (** everything the queue lists: waiting, in flight, dead letters *)
  Definition listed_bodies (i : inner) : list body := map body_of (obs_wait i) ++ map body_of (obs_fly i) ++ map dbody_of (obs_dead i).
  Definition body_data (b : body) : bytes := snd (fst (fst b)).
End Spec.
