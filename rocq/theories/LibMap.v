(** Association lists standing for the hash maps, B-tree maps and linked
    hash sets of the code (no model content). *)
From Verif Require Import LibBase.

Section AMap.
  Context {K V : Type}.
  Variable eqb : K -> K -> bool.

  (** lookup *)
  Fixpoint aget (k : K) (m : list (K * V)) : option V :=
    match m with
    | [] => None
    | (k', v) :: m' => if eqb k k' then Some v else aget k m'
    end.
  (** removal *)
  Fixpoint adel (k : K) (m : list (K * V)) : list (K * V) :=
    match m with
    | [] => []
    | (k', v) :: m' => if eqb k k' then adel k m' else (k', v) :: adel k m'
    end.
  (** insert or overwrite; the new entry goes to the back *)
  Definition aput (k : K) (v : V) (m : list (K * V)) : list (K * V) := adel k m ++ [(k, v)].
  (** overwrite in place if present, append otherwise *)
  Fixpoint aset (k : K) (v : V) (m : list (K * V)) : list (K * V) :=
    match m with
    | [] => [(k, v)]
    | (k', v') :: m' => if eqb k k' then (k, v) :: m' else (k', v') :: aset k v m'
    end.
  Definition akeys (m : list (K * V)) : list K := map fst m.
  Definition avals (m : list (K * V)) : list V := map snd m.

  Hypothesis eqb_ok : forall a b, eqb a b = true <-> a = b.

  Lemma eqb_refl' : forall a, eqb a a = true.
  Proof. intros; apply eqb_ok; reflexivity. Qed.
  Lemma eqb_neq' : forall a b, a <> b -> eqb a b = false.
  Proof. intros a b H; destruct (eqb a b) eqn:E; auto. apply eqb_ok in E; contradiction. Qed.

  Lemma aget_adel_same : forall k m, aget k (adel k m) = None.
  Proof.
    intros k; induction m as [|[k' v] m IH]; simpl; auto.
    destruct (eqb k k') eqn:E; auto. simpl. rewrite E; auto.
  Qed.
  Lemma aget_adel_other : forall k k' m, k <> k' -> aget k (adel k' m) = aget k m.
  Proof.
    intros k k' m Hn; induction m as [|[k2 v] m IH]; simpl; auto.
    destruct (eqb k' k2) eqn:E.
    - apply eqb_ok in E; subst k2. rewrite (eqb_neq' k k') by auto. exact IH.
    - simpl. destruct (eqb k k2); auto.
  Qed.
  Lemma aget_app : forall k m1 m2,
    aget k (m1 ++ m2) = match aget k m1 with Some v => Some v | None => aget k m2 end.
  Proof.
    intros k m1 m2; induction m1 as [|[k' v] m IH]; simpl; auto.
    destruct (eqb k k'); auto.
  Qed.
  Lemma aget_aput_same : forall k v m, aget k (aput k v m) = Some v.
  Proof.
    intros; unfold aput. rewrite aget_app, aget_adel_same. simpl. rewrite eqb_refl'. reflexivity.
  Qed.
  Lemma aget_aput_other : forall k k' v m, k <> k' -> aget k (aput k' v m) = aget k m.
  Proof.
    intros; unfold aput. rewrite aget_app, aget_adel_other by auto.
    simpl. rewrite (eqb_neq' k k') by auto. destruct (aget k m); reflexivity.
  Qed.
  Lemma aget_aset_same : forall k v m, aget k (aset k v m) = Some v.
  Proof.
    intros k v; induction m as [|[k' v'] m IH]; simpl.
    - rewrite eqb_refl'; reflexivity.
    - destruct (eqb k k') eqn:E; simpl; [rewrite eqb_refl'; reflexivity|]. rewrite E; exact IH.
  Qed.
  Lemma aget_aset_other : forall k k' v m, k <> k' -> aget k (aset k' v m) = aget k m.
  Proof.
    intros k k' v m Hn; induction m as [|[k2 v2] m IH]; simpl.
    - rewrite (eqb_neq' k k') by auto; reflexivity.
    - destruct (eqb k' k2) eqn:E; simpl.
      + apply eqb_ok in E; subst k2. rewrite (eqb_neq' k k') by auto; reflexivity.
      + destruct (eqb k k2); auto.
  Qed.
  Lemma aget_In : forall k v m, aget k m = Some v -> In (k, v) m.
  Proof.
    intros k v; induction m as [|[k' v'] m IH]; simpl; intro H; [discriminate|].
    destruct (eqb k k') eqn:E.
    - apply eqb_ok in E; inv H; auto.
    - right; auto.
  Qed.
  Lemma aget_None_notin : forall k m, aget k m = None <-> ~ In k (akeys m).
  Proof.
    intros k; induction m as [|[k' v'] m IH]; simpl; split; intro H; auto.
    - destruct (eqb k k') eqn:E; [discriminate|]. intros [->|Hin].
      + rewrite eqb_refl' in E; discriminate.
      + apply IH in H; contradiction.
    - destruct (eqb k k') eqn:E.
      + apply eqb_ok in E; subst. exfalso; apply H; auto.
      + apply IH; intro; apply H; auto.
  Qed.
  Lemma aget_Some_in : forall k m, (exists v, aget k m = Some v) <-> In k (akeys m).
  Proof.
    intros k m. destruct (aget k m) eqn:E.
    - split; intros _; eauto. apply aget_In in E.
      unfold akeys; apply in_map_iff; exists (k, v); auto.
    - apply aget_None_notin in E. split; [intros [v H]; discriminate|contradiction].
  Qed.
  Lemma In_aget : forall k v m, NoDup (akeys m) -> In (k, v) m -> aget k m = Some v.
  Proof.
    intros k v; induction m as [|[k' v'] m IH]; simpl; intros Hn H; [contradiction|].
    inv Hn. destruct H as [H|H].
    - inv H. rewrite eqb_refl'; reflexivity.
    - rewrite eqb_neq'; auto. intro; subst. apply H2. unfold akeys.
      apply in_map_iff; exists (k', v); auto.
  Qed.
  Lemma akeys_adel_in : forall k k' m, In k (akeys (adel k' m)) <-> In k (akeys m) /\ k <> k'.
  Proof.
    intros k k' m; induction m as [|[k2 v2] m IH]; simpl; [tauto|].
    destruct (eqb k' k2) eqn:E.
    - apply eqb_ok in E; subst. rewrite IH. intuition congruence.
    - simpl. rewrite IH. split; [intros [->|H]; split; auto; [intro; subst; rewrite eqb_refl' in E; discriminate| tauto | tauto]|].
      intros [[->|H] Hn]; auto.
  Qed.
  Lemma adel_In : forall k v k' m, In (k, v) (adel k' m) <-> In (k, v) m /\ k <> k'.
  Proof.
    intros k v k' m; induction m as [|[k2 v2] m IH]; simpl; [tauto|].
    destruct (eqb k' k2) eqn:E.
    - apply eqb_ok in E; subst. rewrite IH. intuition congruence.
    - simpl. rewrite IH. split.
      + intros [H|H]; [|tauto]. inv H. split; auto. intro; subst. rewrite eqb_refl' in E; discriminate.
      + intros [[H|H] Hn]; auto.
  Qed.
  Lemma NoDup_adel : forall k m, NoDup (akeys m) -> NoDup (akeys (adel k m)).
  Proof.
    intros k; induction m as [|[k2 v2] m IH]; simpl; intro H; auto.
    inv H. destruct (eqb k k2) eqn:E; auto. simpl. constructor; auto.
    intro Hin; apply akeys_adel_in in Hin; tauto.
  Qed.
  Lemma akeys_app : forall m1 m2, akeys (m1 ++ m2) = akeys m1 ++ akeys m2.
  Proof. intros; apply map_app. Qed.
  Lemma NoDup_snoc : forall (A : Type) (x : A) l, NoDup l -> ~ In x l -> NoDup (l ++ [x]).
  Proof.
    intros A x l H Hn. apply NoDup_Add with (a := x) (l := l).
    - replace l with (l ++ []) at 1 by apply app_nil_r. apply Add_app.
    - split; auto.
  Qed.
  Lemma NoDup_aput : forall k v m, NoDup (akeys m) -> NoDup (akeys (aput k v m)).
  Proof.
    intros k v m H; unfold aput. rewrite akeys_app. simpl. apply NoDup_snoc.
    - apply NoDup_adel; auto.
    - intro Hin; apply akeys_adel_in in Hin; tauto.
  Qed.
  Lemma akeys_aput_in : forall k k' v m, In k (akeys (aput k' v m)) <-> k = k' \/ In k (akeys m).
  Proof.
    intros k k' v m. unfold aput. rewrite akeys_app, in_app_iff, akeys_adel_in. simpl.
    split; [intros [[H _]|[->|[]]]; auto|].
    intros [->|H]; auto. destruct (eqb k k') eqn:E.
    - apply eqb_ok in E; subst; auto.
    - left; split; auto. intro; subst; rewrite eqb_refl' in E; discriminate.
  Qed.
  Lemma adel_notin : forall k m, ~ In k (akeys m) -> adel k m = m.
  Proof.
    intros k; induction m as [|[k2 v2] m IH]; simpl; intro H; auto.
    rewrite eqb_neq' by auto. rewrite IH; auto.
  Qed.
  Lemma akeys_aset_in : forall k k' v m, In k (akeys (aset k' v m)) <-> k = k' \/ In k (akeys m).
  Proof.
    intros k k' v m; induction m as [|[k2 v2] m IH]; simpl; [intuition|].
    destruct (eqb k' k2) eqn:E; simpl.
    - apply eqb_ok in E; subst. intuition.
    - rewrite IH. intuition.
  Qed.
  Lemma akeys_aset_present : forall k v m, In k (akeys m) -> akeys (aset k v m) = akeys m.
  Proof.
    intros k v; induction m as [|[k2 v2] m IH]; simpl; intro H; [contradiction|].
    destruct (eqb k k2) eqn:E; simpl.
    - apply eqb_ok in E; subst; reflexivity.
    - f_equal; apply IH. destruct H as [->|H]; auto. rewrite eqb_refl' in E; discriminate.
  Qed.
  Lemma aset_absent : forall k v m, ~ In k (akeys m) -> aset k v m = m ++ [(k, v)].
  Proof.
    intros k v; induction m as [|[k2 v2] m IH]; simpl; intro H; auto.
    rewrite eqb_neq' by auto. rewrite IH; auto.
  Qed.
  Lemma NoDup_aset : forall k v m, NoDup (akeys m) -> NoDup (akeys (aset k v m)).
  Proof.
    intros k v; induction m as [|[k2 v2] m IH]; simpl; intro H.
    - repeat constructor; auto.
    - destruct (eqb k k2) eqn:E; simpl.
      + apply eqb_ok in E; subst; auto.
      + inv H. constructor; auto. intro Hin; apply akeys_aset_in in Hin.
        destruct Hin as [->|Hin]; auto. rewrite eqb_refl' in E; discriminate.
  Qed.
  Lemma aset_In : forall k v k' v' m, NoDup (akeys m) ->
    (In (k, v) (aset k' v' m) <-> (k = k' /\ v = v') \/ (k <> k' /\ In (k, v) m)).
  Proof.
    intros k v k' v' m; induction m as [|[k2 v2] m IH]; simpl; intro Hn.
    - split; [intros [H|[]]; inv H; auto|intros [[-> ->]|[_ []]]; auto].
    - inv Hn. destruct (eqb k' k2) eqn:E; simpl.
      + apply eqb_ok in E; subst k2. split.
        * intros [H|H]; [inv H; auto|]. right; split; auto. intro; subst.
          apply H1. apply in_map_iff; exists (k', v); auto.
        * intros [[-> ->]|[Hk [H|H]]]; auto. inv H; contradiction.
      + rewrite IH by auto. split.
        * intros [H|[H|[H3 H]]]; auto. inv H. right; split; auto.
          intro; subst; rewrite eqb_refl' in E; discriminate.
        * intros [[-> ->]|[Hk [H|H]]]; auto.
  Qed.
End AMap.

(** B-tree map with N keys: association list sorted by key. *)
Section BMap.
  Context {V : Type}.
  Fixpoint bput (k : N) (v : V) (m : list (N * V)) : list (N * V) :=
    match m with
    | [] => [(k, v)]
    | (k', v') :: m' =>
        if k =? k' then (k, v) :: m'
        else if k <? k' then (k, v) :: (k', v') :: m'
        else (k', v') :: bput k v m'
    end.
  Notation bget := (aget N.eqb).
  Notation bdel := (adel N.eqb).
  Definition ksorted (m : list (N * V)) : Prop := StronglySorted (fun a b => fst a < fst b) m.

  Lemma bget_bput_same : forall k v m, bget k (bput k v m) = Some v.
  Proof.
    intros k v; induction m as [|[k' v'] m IH]; simpl.
    - rewrite N.eqb_refl; reflexivity.
    - destruct (k =? k') eqn:E; simpl; [rewrite N.eqb_refl; reflexivity|].
      destruct (k <? k'); simpl; [rewrite N.eqb_refl; reflexivity|]. rewrite E; exact IH.
  Qed.
  Lemma bget_bput_other : forall k k' v m, k <> k' -> bget k (bput k' v m) = bget k m.
  Proof.
    intros k k' v m Hn; induction m as [|[k2 v2] m IH]; simpl.
    - destruct (N.eqb_spec k k'); [contradiction|reflexivity].
    - destruct (N.eqb_spec k' k2) as [->|Hk]; simpl.
      + destruct (N.eqb_spec k k2); [contradiction|reflexivity].
      + destruct (k' <? k2) eqn:E; simpl.
        * destruct (N.eqb_spec k k'); [contradiction|reflexivity].
        * destruct (k =? k2); auto.
  Qed.
  Lemma bput_In : forall x k v m, In x (bput k v m) -> x = (k, v) \/ In x m.
  Proof.
    intros x k v m; induction m as [|[k2 v2] m IH]; simpl; intro H.
    - destruct H as [H|[]]; auto.
    - destruct (k =? k2); [destruct H as [H|H]; auto|].
      destruct (k <? k2); [destruct H as [H|H]; auto|].
      destruct H as [H|H]; auto. apply IH in H; tauto.
  Qed.
  Lemma bput_keys_in : forall x k v m, In x (akeys (bput k v m)) <-> x = k \/ In x (akeys m).
  Proof.
    intros x k v m; induction m as [|[k2 v2] m IH]; simpl; [intuition|].
    destruct (N.eqb_spec k k2) as [->|Hk]; simpl; [intuition|].
    destruct (k <? k2); simpl; [intuition|]. rewrite IH; intuition.
  Qed.
  Lemma ksorted_bput : forall k v m, ksorted m -> ksorted (bput k v m).
  Proof.
    unfold ksorted; intros k v; induction m as [|[k2 v2] m IH]; simpl; intro H.
    - constructor; constructor.
    - inv H. destruct (N.eqb_spec k k2) as [->|Hk].
      + constructor; auto.
      + destruct (N.ltb_spec k k2) as [Hl|Hl].
        * constructor; [constructor; auto|]. constructor; [simpl; auto|].
          eapply Forall_impl; [|exact H3]. simpl; intros [a b]; simpl; lia.
        * constructor; auto. apply Forall_forall. intros x Hx. apply bput_In in Hx.
          destruct Hx as [->|Hx]; simpl; [lia|]. rewrite Forall_forall in H3. apply H3 in Hx; auto.
  Qed.
  Lemma ksorted_bdel : forall k m, ksorted m -> ksorted (bdel k m).
  Proof.
    unfold ksorted; intros k; induction m as [|[k2 v2] m IH]; simpl; intro H; auto.
    inv H. destruct (k =? k2); auto. constructor; auto.
    apply Forall_forall. intros [a b] Hx. apply (adel_In N.eqb N.eqb_eq) in Hx.
    rewrite Forall_forall in H3. apply H3; tauto.
  Qed.
  Lemma ksorted_NoDup : forall m, ksorted m -> NoDup (akeys m).
  Proof.
    unfold ksorted; induction m as [|[k v] m IH]; simpl; intro H; [constructor|].
    inv H. constructor; auto. intro Hin. unfold akeys in Hin. apply in_map_iff in Hin.
    destruct Hin as [[a b] [Ha Hin]]. simpl in Ha; subst.
    rewrite Forall_forall in H3. apply H3 in Hin. simpl in Hin; lia.
  Qed.
End BMap.
Notation bget := (aget N.eqb).
Notation bdel := (adel N.eqb).

(** Linked hash set: list in insertion order, re-insertion moves to the back. *)
Definition nrem (x : N) (l : list N) : list N := filter (fun y => negb (y =? x)) l.
Definition nins (x : N) (l : list N) : list N := nrem x l ++ [x].
Definition nmem (x : N) (l : list N) : bool := existsb (fun y => y =? x) l.

Lemma nmem_In : forall x l, nmem x l = true <-> In x l.
Proof.
  intros x l; unfold nmem; rewrite existsb_exists; split.
  - intros [y [H1 H2]]. apply N.eqb_eq in H2; subst; auto.
  - intro H; exists x; split; auto. apply N.eqb_refl.
Qed.
Lemma nmem_false : forall x l, nmem x l = false <-> ~ In x l.
Proof.
  intros x l; rewrite <- nmem_In. destruct (nmem x l); split; intros; congruence.
Qed.
Lemma nrem_In : forall x y l, In x (nrem y l) <-> In x l /\ x <> y.
Proof.
  intros x y l; unfold nrem; rewrite filter_In. rewrite negb_true_iff, N.eqb_neq; tauto.
Qed.
Lemma nrem_notin : forall x l, ~ In x l -> nrem x l = l.
Proof.
  intros x l; induction l as [|y l IH]; simpl; intro H; auto.
  destruct (N.eqb_spec y x); simpl; [exfalso; auto|]. f_equal; auto.
Qed.
Lemma NoDup_filter' : forall A (f : A -> bool) l, NoDup l -> NoDup (filter f l).
Proof.
  intros A f l; induction l as [|x l IH]; simpl; intro H; auto. inv H.
  destruct (f x); auto. constructor; auto. intro Hin; apply filter_In in Hin; tauto.
Qed.
Lemma NoDup_nrem : forall x l, NoDup l -> NoDup (nrem x l).
Proof. intros; apply NoDup_filter'; auto. Qed.
Lemma nins_In : forall x y l, In x (nins y l) <-> x = y \/ In x l.
Proof.
  intros x y l; unfold nins; rewrite in_app_iff, nrem_In; simpl.
  destruct (N.eq_dec x y); intuition.
Qed.
Lemma NoDup_nins : forall x l, NoDup l -> NoDup (nins x l).
Proof.
  intros x l H; unfold nins. apply NoDup_snoc; [apply NoDup_nrem; auto|].
  rewrite nrem_In; tauto.
Qed.
Lemma nins_notin : forall x l, ~ In x l -> nins x l = l ++ [x].
Proof. intros; unfold nins; rewrite nrem_notin by auto; reflexivity. Qed.
Lemma nrem_cons_same : forall x l, NoDup (x :: l) -> nrem x (x :: l) = l.
Proof.
  intros x l H; inv H. simpl. rewrite N.eqb_refl; simpl. apply nrem_notin; auto.
Qed.
Lemma nrem_app : forall x a b, nrem x (a ++ b) = nrem x a ++ nrem x b.
Proof. intros; unfold nrem; apply filter_app. Qed.
