(** Searching texts: lemmas. *)
From Verif Require Import LibBase LibMap Utf8 CmdModel ValueModel ValueProofs JsonModel QueueModel QueueDashModel.

(** [s] occurs in [t] *)
Definition occurs (s t : list N) : Prop := exists a b, t = a ++ s ++ b.

Lemma starts_spec s : forall t, starts s t = true <-> exists b, t = s ++ b.
Proof.
  induction s as [|x s IH]; intro t; cbn [starts]; [split; [intros _; exists t; reflexivity|reflexivity]|]. destruct t as [|y t]; [split; [discriminate|intros (b & E); discriminate]|].
  rewrite andb_true_iff, N.eqb_eq, IH. split; [intros (-> & b & ->); exists b; reflexivity|intros (b & E); injection E as -> ->; eauto].
Qed.
Lemma contains_spec s t : contains s t = true <-> occurs s t.
Proof.
  induction t as [|y t IH]; cbn [contains].
  - rewrite orb_false_r, starts_spec. split; [intros (b & E); exists [], b; exact E|]. intros (a & b & E). symmetry in E. apply app_eq_nil in E. destruct E as (-> & E). exists b. auto.
  - rewrite orb_true_iff, starts_spec, IH. split; [intros [(b & E)|(a & b & ->)]; [exists [], b; exact E|exists (y :: a), b; reflexivity]|].
    intros (a & b & E). destruct a as [|z a]; [left; exists b; exact E|]. injection E as -> ->. right. exists a, b. reflexivity.
Qed.
Lemma occurs_nil t : occurs [] t. Proof. exists [], t. reflexivity. Qed.
Lemma occurs_cons s x t : ~ In x s -> (occurs s (x :: t) <-> occurs s t).
Proof.
  intro N. split; [|intros (a & b & ->); exists (x :: a), b; reflexivity]. intros (a & b & E). destruct a as [|z a]; [|injection E as -> ->; exists a, b; reflexivity].
  destruct s as [|y s]; [apply occurs_nil|]. cbn [app] in E. injection E as -> ->. destruct N. left. reflexivity.
Qed.
(** ** 16-bit units and scalar values *)
Definition free (q : list N) : Prop := match q with [] => True | x :: _ => lo_sur x = false end.
Lemma units_free n r : scalar n -> free (units n ++ r).
Proof.
  intro S. unfold units. destruct (N.ltb_spec n 65536) as [L|L]; cbn [app free].
  - unfold lo_sur. apply inr_out. unfold scalar in S. lia.
  - unfold lo_sur. apply inr_out. unfold scalar in S. left. assert ((n - 65536) / 1024 < 1024) by (apply N.div_lt_upper_bound; lia). lia.
Qed.
Lemma text_free ns r : Forall scalar ns -> ns <> [] -> free (text_of ns ++ r).
Proof. intros F N. destruct F as [|n ns S F]; [congruence|]. unfold text_of. cbn [flat_map]. rewrite <- app_assoc. apply units_free. exact S. Qed.
Lemma points_app : forall k a q, (length a <= k)%nat -> free q -> code_points (a ++ q) = code_points a ++ code_points q.
Proof.
  induction k as [|k IH]; intros a q L F; [destruct a; [reflexivity|cbn in L; lia]|]. destruct a as [|x a]; [reflexivity|]. cbn [length] in L. cbn [app code_points].
  destruct (hi_sur x).
  - destruct a as [|y a]; cbn [app].
    + destruct q as [|z q]; [reflexivity|]. cbn [free] in F. rewrite F. reflexivity.
    + destruct (lo_sur y); [rewrite IH by (cbn in L; auto; lia); reflexivity|]. change (y :: a ++ q) with ((y :: a) ++ q). rewrite IH by (cbn in L |- *; auto; lia). reflexivity.
  - destruct (lo_sur x); rewrite IH by (auto; lia); reflexivity.
Qed.
Lemma points_text ns r : Forall scalar ns -> code_points (text_of ns ++ r) = ns ++ code_points r.
Proof. intro F. induction F as [|n ns S F IH]; [reflexivity|]. unfold text_of in *. cbn [flat_map app]. rewrite <- app_assoc, code_points_units by auto. rewrite IH. reflexivity. Qed.
Lemma points_occurs q u : text q -> occurs q u -> occurs (code_points q) (code_points u).
Proof.
  intros (ns & F & ->) (a & b & ->). rewrite code_points_text by auto. destruct ns as [|n ns]; [apply occurs_nil|]. exists (code_points a), (code_points b).
  rewrite (points_app (length a)) by (auto using text_free || (apply text_free; [auto|discriminate])). rewrite points_text by auto. reflexivity.
Qed.
Lemma occurs_points q u : text q -> text u -> occurs (code_points q) (code_points u) -> occurs q u.
Proof.
  intros (ns & F & ->) (ms & G & ->) O. rewrite !code_points_text in O by auto. destruct O as (a & b & ->). exists (text_of a), (text_of b). unfold text_of. rewrite !flat_map_app. reflexivity.
Qed.
(** ** JSON strings *)
Lemma esc_app : forall k a q, (length a <= k)%nat -> free q -> esc (a ++ q) = esc a ++ esc q.
Proof.
  induction k as [|k IH]; intros a q L F; [destruct a; [reflexivity|cbn in L; lia]|]. destruct a as [|x a]; [reflexivity|]. cbn [length] in L. cbn [app esc].
  destruct (hi_sur x).
  - destruct a as [|y a]; cbn [app].
    + destruct q as [|z q]; [cbn [esc]; rewrite app_nil_r; reflexivity|]. cbn [free] in F. rewrite F. reflexivity.
    + destruct (lo_sur y); [rewrite IH by (cbn in L; auto; lia); reflexivity|]. change (y :: a ++ q) with ((y :: a) ++ q). rewrite IH by (cbn in L |- *; auto; lia). rewrite app_assoc. reflexivity.
  - destruct (lo_sur x); rewrite IH by (auto; lia); rewrite app_assoc; reflexivity.
Qed.
(** a character JSON.stringify leaves as it is *)
Definition plain (n : N) : Prop := 32 <= n /\ n <> 34 /\ n <> 92.
Lemma esc1_plain n : plain n -> esc1 n = [n].
Proof.
  intros (A & B & C). unfold esc1. destruct (N.eqb_spec n 34); [congruence|]. destruct (N.eqb_spec n 92); [congruence|].
  destruct (N.eqb_spec n 8); [lia|]. destruct (N.eqb_spec n 12); [lia|]. destruct (N.eqb_spec n 10); [lia|]. destruct (N.eqb_spec n 13); [lia|]. destruct (N.eqb_spec n 9); [lia|]. destruct (N.ltb_spec n 32); [lia|reflexivity].
Qed.
Lemma esc_text ns r : Forall scalar ns -> Forall plain ns -> esc (text_of ns ++ r) = text_of ns ++ esc r.
Proof.
  intros F P. induction F as [|n ns S F IH]; [reflexivity|]. inversion P as [|? ? P1 P2]; subst. unfold text_of in *. cbn [flat_map]. rewrite <- !app_assoc. rewrite <- IH by auto. generalize (flat_map units ns ++ r). intro t. clear IH F P.
  unfold units. destruct (N.ltb_spec n 65536) as [L|L]; cbn [app esc].
  - assert (hi_sur n = false) as -> by (apply inr_out; unfold scalar in S; lia). assert (lo_sur n = false) as -> by (apply inr_out; unfold scalar in S; lia). rewrite esc1_plain by auto. reflexivity.
  - assert ((n - 65536) / 1024 < 1024) by (apply N.div_lt_upper_bound; unfold scalar in S; lia). assert ((n - 65536) mod 1024 < 1024) by (apply N.mod_lt; lia).
    assert (hi_sur (55296 + (n - 65536) / 1024) = true) as -> by (apply inr_in; lia). assert (lo_sur (56320 + (n - 65536) mod 1024) = true) as -> by (apply inr_in; lia). reflexivity.
Qed.
Lemma esc_occurs ns u : Forall scalar ns -> Forall plain ns -> occurs (text_of ns) u -> occurs (text_of ns) (esc u).
Proof.
  intros F P (a & b & ->). destruct ns as [|n ns]; [apply occurs_nil|]. exists (esc a), (esc b). rewrite (esc_app (length a)) by (lia || (apply text_free; [auto|discriminate])). rewrite esc_text by auto. reflexivity.
Qed.
Lemma occurs_in s t a b : occurs s t -> occurs s (a ++ t ++ b).
Proof. intros (x & y & ->). exists (a ++ x), (y ++ b). rewrite <- !app_assoc. reflexivity. Qed.
Lemma occurs_join s x l : In x l -> occurs s x -> occurs s (join l).
Proof.
  intros I O. induction l as [|y l IH]; [destruct I|]. destruct I as [->|I].
  - destruct l as [|z l]; [exact O|]. change (join (x :: z :: l)) with ([] ++ x ++ [44] ++ join (z :: l)). apply occurs_in. exact O.
  - destruct l as [|z l]; [destruct I|]. change (join (y :: z :: l)) with (y ++ [44] ++ join (z :: l)). specialize (IH I). rewrite app_assoc. rewrite <- (app_nil_r (join (z :: l))). apply occurs_in. exact IH.
Qed.
