(** Client-side dispatch of pushes (sdk/ts/src/brokers/pubsub.ts). *)
From Verif Require Import LibBase LibMap PubSubModel PubSubSpec PubSubProofs.

(** pubsub.ts:109-111 *)
Definition sdk_wild (p : bytes) : bool := existsb (fun b => (b =? 43) || (b =? 35)) p.
(** pubsub.ts:113-119. Strings are compared as their UTF-8 bytes. *)
Fixpoint sdk_matches (p t : list level) : bool :=
  match p with
  | [] => match t with [] => true | _ => false end
  | x :: p' =>
    if beqb x lhash then true
    else match t with
         | [] => false
         | y :: t' => if beqb x lplus || beqb x y then sdk_matches p' t' else false
         end
  end.
(** pubsub.ts:64-83, 93-107: the patterns whose handlers are called for a push on
    [t]; [hs] lists the patterns having a handler, in the order they were added. The
    exact map is looked up by the topic, the wildcard map is scanned. *)
Definition sdk_dispatch (hs : list bytes) (t : bytes) : list bytes :=
  (if existsb (beqb t) (filter (fun p => negb (sdk_wild p)) hs) then [t] else []) ++
  filter (fun p => sdk_matches (split p) (split t)) (filter sdk_wild hs).

Lemma sdk_matches_ok : forall p t, sdk_matches p t = true <-> mqtt (trunc p) t.
Proof.
  induction p as [|x p IH]; intros t; cbn [sdk_matches trunc].
  - destruct t; split; intro H; try discriminate; auto; [constructor|inversion H].
  - destruct (beqb x lhash) eqn:E.
    + split; auto. intros _. constructor.
    + apply beqb_neq in E. destruct t as [|y t].
      * split; [discriminate|]. intro H. inversion H; subst. congruence.
      * destruct (beqb x lplus) eqn:E2; cbn [orb].
        -- apply beqb_eq in E2. subst x. rewrite IH. split; intro H; [constructor; auto|]. inversion H; subst; auto; congruence.
        -- apply beqb_neq in E2. destruct (beqb x y) eqn:E3.
           ++ apply beqb_eq in E3. subst y. rewrite IH. split; intro H; [constructor; auto|]. inversion H; subst; auto; congruence.
           ++ apply beqb_neq in E3. split; [discriminate|]. intro H. inversion H; subst; congruence.
Qed.
Lemma split_sub : forall s w b, In w (split s) -> In b w -> In b s.
Proof.
  induction s as [|x s IH]; cbn; intros w b H Hb; [destruct H as [<-|[]]; destruct Hb|]. destruct (x =? slash) eqn:E.
  - destruct H as [<-|H]; [destruct Hb|]. right. eauto.
  - pose proof (split_nonnil s). destruct (split s) as [|v vs]; [congruence|]. destruct H as [<-|H].
    + destruct Hb as [<-|Hb]; auto. right. eapply IH; [left; reflexivity|auto].
    + right. eapply IH; [right; exact H|auto].
Qed.
Lemma lit_mqtt : forall p t, (forall x, In x p -> x <> lplus /\ x <> lhash) -> mqtt (trunc p) t <-> p = t.
Proof.
  induction p as [|x p IH]; intros t H; cbn [trunc].
  - split; intro K; [inversion K; auto|subst; constructor].
  - assert (Hx : x <> lplus /\ x <> lhash) by (apply H; left; auto). destruct Hx as [H1 H2]. pose proof H2 as H2'. apply beqb_neq in H2'. rewrite H2'. split.
    + intro K. inversion K; subst; try congruence. f_equal. apply IH; auto. intros; apply H; right; auto.
    + intros <-. constructor; auto. apply IH; auto. intros; apply H; right; auto.
Qed.
Lemma plain_mqtt : forall p t, sdk_wild p = false -> mqtt (reads p) (split t) <-> p = t.
Proof.
  intros p t H. unfold reads. rewrite lit_mqtt.
  - split; [apply split_inj|intros ->; auto].
  - intros x Hx. assert (K : forall b, In b x -> b <> 43 /\ b <> 35).
    { intros b Hb. pose proof (split_sub p x b Hx Hb) as Hp. unfold sdk_wild in H. rewrite <- not_true_iff_false in H. split; intros ->; apply H; apply existsb_exists; eexists; (split; [exact Hp|reflexivity]). }
    split; intros ->; [destruct (K 43)|destruct (K 35)]; unfold lplus, lhash; cbn; auto.
Qed.
Lemma dispatch_in : forall hs t p, In p (sdk_dispatch hs t) <-> In p hs /\ mqtt (reads p) (split t).
Proof.
  intros hs t p. unfold sdk_dispatch. rewrite in_app_iff, !filter_In, sdk_matches_ok. fold (reads p). split.
  - intros [H|[[H1 H2] H3]]; auto. destruct (existsb (beqb t) (filter (fun p => negb (sdk_wild p)) hs)) eqn:E; [|destruct H]. destruct H as [<-|[]].
    apply existsb_exists in E. destruct E as [y [E1 E2]]. apply beqb_eq in E2. subst y. apply filter_In in E1. destruct E1 as [E1 E3]. apply negb_true_iff in E3. split; auto. apply plain_mqtt; auto.
  - intros [H1 H2]. destruct (sdk_wild p) eqn:W; auto. apply plain_mqtt in H2; auto. subst t. left.
    assert (E : existsb (beqb p) (filter (fun p => negb (sdk_wild p)) hs) = true).
    { apply existsb_exists. exists p. split; [apply filter_In; rewrite W; auto|apply beqb_refl]. }
    rewrite E. left; auto.
Qed.
Lemma dispatch_NoDup : forall hs t, NoDup hs -> NoDup (sdk_dispatch hs t).
Proof.
  intros hs t H. unfold sdk_dispatch. destruct (existsb (beqb t) (filter (fun p => negb (sdk_wild p)) hs)) eqn:E; cbn [app]; [|apply NoDup_filter, NoDup_filter; auto].
  constructor; [|apply NoDup_filter, NoDup_filter; auto]. rewrite !filter_In. intros [[_ H2] _].
  apply existsb_exists in E. destruct E as [y [E1 E2]]. apply beqb_eq in E2. subst y. apply filter_In in E1. destruct E1 as [_ E3]. rewrite H2 in E3. discriminate.
Qed.
