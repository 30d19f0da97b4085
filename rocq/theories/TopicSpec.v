(** Topic names and MQTT matching, written without the broker's own functions.
    Bytes: '/' is 47, '+' is 43, '#' is 35. *)
From Verif Require Import LibBase LibMap PubSubModel PubSubSpec PubSubProofs.

(** the levels of a topic: at least one, none containing '/', and the topic is
    these levels with '/' between them *)
Definition levels_of (t : bytes) (ls : list bytes) : Prop :=
  ls <> [] /\ (forall l, In l ls -> ~ In 47 l) /\ 47 :: t = concat (map (cons 47) ls).
Inductive MQTT : list bytes -> list bytes -> Prop :=
| MQ_end : MQTT [] []
| MQ_hash : forall t, MQTT [[35]] t
| MQ_plus : forall x p t, MQTT p t -> MQTT ([43] :: p) (x :: t)
| MQ_lit : forall x p t, x <> [43] -> x <> [35] -> MQTT p t -> MQTT (x :: p) (x :: t).
Definition matches (p t : bytes) : Prop := exists pl tl, levels_of p pl /\ levels_of t tl /\ MQTT pl tl.
(** a pattern with '#' in the middle is cut after it *)
Inductive cut : list bytes -> list bytes -> Prop :=
| cut_end : cut [] []
| cut_hash : forall r, cut ([35] :: r) [[35]]
| cut_go : forall x r r', x <> [35] -> cut r r' -> cut (x :: r) (x :: r').
Definition matches_cut (p t : bytes) : Prop := exists pl pl' tl, levels_of p pl /\ cut pl pl' /\ levels_of t tl /\ MQTT pl' tl.

Lemma split_levels : forall t, levels_of t (split t).
Proof.
  intro t. split; [apply split_nonnil|]. split; [intros l H; apply (split_noslash t l H)|].
  pose proof (split_join t) as J. destruct (split t) as [|w ws]; [destruct J|]. cbn [map concat app]. unfold joinr in J. change slash with 47 in J. rewrite J. reflexivity.
Qed.
Lemma one_join : forall (w w' : bytes) ws ws', ~ In 47 w -> ~ In 47 w' -> w ++ concat (map (cons 47) ws) = w' ++ concat (map (cons 47) ws') ->
  w = w' /\ concat (map (cons 47) ws) = concat (map (cons 47) ws').
Proof.
  induction w as [|b w IH]; intros w' ws ws' H H' E.
  - destruct w' as [|c w']; [auto|]. cbn in E. destruct ws as [|v vs]; cbn in E; [discriminate|]. injection E as E _. destruct H'. left; auto.
  - destruct w' as [|c w'].
    + cbn in E. destruct ws' as [|v vs]; cbn in E; [discriminate|]. injection E as E _. destruct H. left; auto.
    + cbn in E. injection E as <- E. destruct (IH w' ws ws') as [-> E2]; auto; intro K; [apply H|apply H']; right; auto.
Qed.
Lemma join_inj : forall a b, (forall l, In l a -> ~ In 47 l) -> (forall l, In l b -> ~ In 47 l) -> concat (map (cons 47) a) = concat (map (cons 47) b) -> a = b.
Proof.
  induction a as [|x a IH]; intros [|y b] Ha Hb E; try discriminate; auto. cbn in E. injection E as E.
  destruct (one_join x y a b) as [-> E2]; auto; [apply Ha; left; auto|apply Hb; left; auto|]. f_equal. apply IH; auto; intros l Hl; [apply Ha|apply Hb]; right; auto.
Qed.
Lemma levels_iff : forall t ls, levels_of t ls <-> split t = ls.
Proof.
  intros t ls. split; [|intros <-; apply split_levels]. intros [_ [H2 H3]]. destruct (split_levels t) as [_ [S2 S3]]. apply join_inj; auto. congruence.
Qed.
Lemma MQTT_iff : forall p t, MQTT p t <-> mqtt p t.
Proof. intros p t. split; induction 1; constructor; auto. Qed.
Lemma matches_iff : forall p t, matches p t <-> mqtt (split p) (split t).
Proof.
  intros p t. split.
  - intros [pl [tl [H1 [H2 H3]]]]. apply levels_iff in H1, H2. subst. apply MQTT_iff; auto.
  - intro H. exists (split p), (split t). split; [apply split_levels|]. split; [apply split_levels|apply MQTT_iff; auto].
Qed.
Lemma cut_iff : forall p q, cut p q <-> trunc p = q.
Proof.
  intros p q. split.
  - induction 1 as [|r|x r r' Hx H IH]; cbn [trunc]; auto. destruct (beqb x lhash) eqn:E; [apply beqb_eq in E; destruct (Hx E)|rewrite IH; reflexivity].
  - intros <-. induction p as [|x p IH]; cbn [trunc]; [constructor|]. destruct (beqb x lhash) eqn:E.
    + apply beqb_eq in E. subst x. constructor.
    + constructor; auto. intros ->. discriminate.
Qed.
Lemma matches_cut_iff : forall p t, matches_cut p t <-> mqtt (reads p) (split t).
Proof.
  intros p t. unfold reads. split.
  - intros [pl [pl' [tl [H1 [H2 [H3 H4]]]]]]. apply levels_iff in H1, H3. apply cut_iff in H2. subst. apply MQTT_iff; auto.
  - intro H. exists (split p), (trunc (split p)), (split t). split; [apply split_levels|]. split; [apply cut_iff; auto|]. split; [apply split_levels|apply MQTT_iff; auto].
Qed.
