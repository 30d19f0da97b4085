(** Common imports and small list / byte libraries (no model content).
    Only the Coq standard library is used. *)
From Coq Require Export List Arith NArith ZArith Lia Bool Permutation Sorted.
From Coq Require Export ZifyBool ZifyNat ZifyN.
Export ListNotations.
Ltac Zify.zify_post_hook ::= Z.div_mod_to_equations.
Global Open Scope N_scope.
Global Open Scope list_scope.
Global Arguments N.add : simpl never.
Global Arguments N.sub : simpl never.
Global Arguments N.mul : simpl never.
Global Arguments N.div : simpl never.
Global Arguments N.modulo : simpl never.
Global Arguments N.pow : simpl never.
Global Arguments N.eqb : simpl never.
Global Arguments N.ltb : simpl never.
Global Arguments N.leb : simpl never.

(** Byte strings; each element is meant to be below 256. *)
Definition bytes := list N.
Definition byte_ok (b : N) : Prop := b < 256.
Definition bytes_ok (l : bytes) : Prop := Forall byte_ok l.

Definition lenN {A} (l : list A) : N := N.of_nat (length l).

Lemma lenN_app : forall A (a b : list A), lenN (a ++ b) = lenN a + lenN b.
Proof. intros; unfold lenN; rewrite app_length; lia. Qed.
Lemma lenN_nil : forall A, lenN (@nil A) = 0.
Proof. reflexivity. Qed.
Lemma lenN_cons : forall A (x : A) l, lenN (x :: l) = 1 + lenN l.
Proof. intros; unfold lenN; simpl length; lia. Qed.
Lemma lenN_0_nil : forall A (l : list A), lenN l = 0 -> l = [].
Proof. intros A [|x l] H; auto. rewrite lenN_cons in H; lia. Qed.

(** take / drop with N counts (usize arguments of the code) *)
Definition takeN {A} (n : N) (l : list A) : list A := firstn (N.to_nat n) l.
Definition dropN {A} (n : N) (l : list A) : list A := skipn (N.to_nat n) l.

Lemma takeN_dropN : forall A n (l : list A), takeN n l ++ dropN n l = l.
Proof. intros; apply firstn_skipn. Qed.
Lemma lenN_takeN : forall A n (l : list A), lenN (takeN n l) = N.min n (lenN l).
Proof. intros; unfold lenN, takeN; rewrite firstn_length; lia. Qed.
Lemma lenN_dropN : forall A n (l : list A), lenN (dropN n l) = lenN l - n.
Proof. intros; unfold lenN, dropN; rewrite skipn_length; lia. Qed.
Lemma takeN_app_exact : forall A (a b : list A), takeN (lenN a) (a ++ b) = a.
Proof.
  intros; unfold takeN, lenN; rewrite Nat2N.id, firstn_app, Nat.sub_diag, firstn_all; simpl.
  apply app_nil_r.
Qed.
Lemma dropN_app_exact : forall A (a b : list A), dropN (lenN a) (a ++ b) = b.
Proof.
  intros; unfold dropN, lenN; rewrite Nat2N.id, skipn_app, Nat.sub_diag, skipn_all; reflexivity.
Qed.
Lemma takeN_all : forall A n (l : list A), lenN l <= n -> takeN n l = l.
Proof. intros; unfold takeN; apply firstn_all2; unfold lenN in *; lia. Qed.
Lemma dropN_all : forall A n (l : list A), lenN l <= n -> dropN n l = [].
Proof. intros; unfold dropN; apply skipn_all2; unfold lenN in *; lia. Qed.
Lemma takeN_0 : forall A (l : list A), takeN 0 l = [].
Proof. reflexivity. Qed.
Lemma dropN_0 : forall A (l : list A), dropN 0 l = l.
Proof. reflexivity. Qed.
Lemma takeN_nil : forall A n, takeN n (@nil A) = [].
Proof. intros; unfold takeN; apply firstn_nil. Qed.
Lemma dropN_nil : forall A n, dropN n (@nil A) = [].
Proof. intros; unfold dropN; apply skipn_nil. Qed.
Lemma takeN_app_le : forall A n (a b : list A), n <= lenN a -> takeN n (a ++ b) = takeN n a.
Proof.
  intros A n a b H; unfold takeN. rewrite firstn_app.
  replace (N.to_nat n - length a)%nat with 0%nat by (unfold lenN in H; lia).
  simpl; apply app_nil_r.
Qed.
Lemma dropN_app_le : forall A n (a b : list A), n <= lenN a -> dropN n (a ++ b) = dropN n a ++ b.
Proof.
  intros A n a b H; unfold dropN. rewrite skipn_app.
  replace (N.to_nat n - length a)%nat with 0%nat by (unfold lenN in H; lia).
  reflexivity.
Qed.
Lemma dropN_app_ge : forall A n (a b : list A), lenN a <= n -> dropN n (a ++ b) = dropN (n - lenN a) b.
Proof.
  intros A n a b H; unfold dropN. rewrite skipn_app.
  rewrite (skipn_all2 a) by (unfold lenN in H; lia). simpl.
  f_equal; unfold lenN; lia.
Qed.
Lemma takeN_app_ge : forall A n (a b : list A), lenN a <= n -> takeN n (a ++ b) = a ++ takeN (n - lenN a) b.
Proof.
  intros A n a b H; unfold takeN. rewrite firstn_app.
  rewrite (firstn_all2 a) by (unfold lenN in H; lia).
  do 2 f_equal; unfold lenN; lia.
Qed.
Lemma dropN_dropN : forall A a b (l : list A), dropN a (dropN b l) = dropN (a + b) l.
Proof.
  intros A a b l; unfold dropN.
  rewrite N2Nat.inj_add.
  generalize (N.to_nat a) as x; generalize (N.to_nat b) as y; intros y x.
  revert l; induction y as [|y IH]; intros l.
  - rewrite Nat.add_0_r; reflexivity.
  - destruct l as [|h t]; [rewrite !skipn_nil; reflexivity|].
    rewrite Nat.add_succ_r; simpl; apply IH.
Qed.
Lemma takeN_cons : forall A n (x : A) l, 0 < n -> takeN n (x :: l) = x :: takeN (n - 1) l.
Proof.
  intros A n x l H; unfold takeN. replace (N.to_nat n) with (S (N.to_nat (n - 1))) by lia. reflexivity.
Qed.
Lemma dropN_cons : forall A n (x : A) l, 0 < n -> dropN n (x :: l) = dropN (n - 1) l.
Proof.
  intros A n x l H; unfold dropN. replace (N.to_nat n) with (S (N.to_nat (n - 1))) by lia. reflexivity.
Qed.

(** big-endian integers *)
Fixpoint be (k : nat) (n : N) : bytes :=
  match k with
  | O => []
  | S k' => be k' (n / 256) ++ [n mod 256]
  end.
Definition unbe (l : bytes) : N := fold_left (fun a b => a * 256 + b) l 0.

Lemma be_length : forall k n, length (be k n) = k.
Proof. induction k as [|k IH]; intros n; simpl; auto. rewrite app_length, IH; simpl; lia. Qed.
Lemma be_lenN : forall k n, lenN (be k n) = N.of_nat k.
Proof. intros; unfold lenN; rewrite be_length; reflexivity. Qed.
Lemma be_ok : forall k n, bytes_ok (be k n).
Proof.
  induction k as [|k IH]; intros n; simpl; [constructor|].
  apply Forall_app; split; [apply IH|]. constructor; [|constructor].
  unfold byte_ok; lia.
Qed.
Lemma unbe_app : forall a b, unbe (a ++ [b]) = unbe a * 256 + b.
Proof. intros; unfold unbe; rewrite fold_left_app; reflexivity. Qed.
Lemma unbe_be : forall k n, unbe (be k n) = n mod 256 ^ (N.of_nat k).
Proof.
  induction k as [|k IH]; intros n.
  - simpl. rewrite N.mod_1_r. reflexivity.
  - cbn [be]. rewrite unbe_app, IH.
    replace (N.of_nat (S k)) with (N.succ (N.of_nat k)) by lia.
    rewrite N.pow_succ_r'.
    rewrite N.mod_mul_r by (try lia; apply N.pow_nonzero; lia).
    lia.
Qed.
Lemma unbe_be_small : forall k n, n < 256 ^ (N.of_nat k) -> unbe (be k n) = n.
Proof. intros; rewrite unbe_be; apply N.mod_small; assumption. Qed.
Lemma be_unbe : forall l, bytes_ok l -> be (length l) (unbe l) = l.
Proof.
  intros l; induction l as [|b l IH] using rev_ind; intros H; [reflexivity|].
  apply Forall_app in H; destruct H as [H1 H2]. inversion H2 as [|? ? Hb _]; subst.
  rewrite app_length; simpl length. rewrite Nat.add_1_r. cbn [be].
  rewrite unbe_app. unfold byte_ok in Hb.
  replace ((unbe l * 256 + b) / 256) with (unbe l) by lia.
  replace ((unbe l * 256 + b) mod 256) with b by lia.
  rewrite IH by assumption. reflexivity.
Qed.
Lemma unbe_bound : forall l, bytes_ok l -> unbe l < 256 ^ lenN l.
Proof.
  intros l; induction l as [|b l IH] using rev_ind; intros H.
  - unfold lenN; simpl. rewrite N.pow_0_r. cbn; lia.
  - apply Forall_app in H; destruct H as [H1 H2]. inversion H2 as [|? ? Hb _]; subst.
    rewrite unbe_app, lenN_app, lenN_cons, lenN_nil.
    replace (lenN l + (1 + 0)) with (N.succ (lenN l)) by lia. rewrite N.pow_succ_r'.
    specialize (IH H1). unfold byte_ok in Hb. lia.
Qed.

Lemma bytes_ok_app : forall a b, bytes_ok (a ++ b) <-> bytes_ok a /\ bytes_ok b.
Proof. intros; apply Forall_app. Qed.
Lemma bytes_ok_takeN : forall n l, bytes_ok l -> bytes_ok (takeN n l).
Proof.
  intros n l H. rewrite <- (takeN_dropN _ n l) in H. apply bytes_ok_app in H; tauto.
Qed.
Lemma bytes_ok_dropN : forall n l, bytes_ok l -> bytes_ok (dropN n l).
Proof.
  intros n l H. rewrite <- (takeN_dropN _ n l) in H. apply bytes_ok_app in H; tauto.
Qed.

(** equality tests *)
Fixpoint beqb (a b : bytes) : bool :=
  match a, b with
  | [], [] => true
  | x :: a', y :: b' => N.eqb x y && beqb a' b'
  | _, _ => false
  end.
Lemma beqb_eq : forall a b, beqb a b = true <-> a = b.
Proof.
  induction a as [|x a IH]; destruct b as [|y b]; simpl; split; intro H; try discriminate; auto.
  - apply andb_true_iff in H; destruct H as [H1 H2]. apply N.eqb_eq in H1. apply IH in H2. congruence.
  - inversion H; subst. apply andb_true_iff; split; [apply N.eqb_refl|apply IH; reflexivity].
Qed.
Lemma beqb_refl : forall a, beqb a a = true.
Proof. intros; apply beqb_eq; reflexivity. Qed.
Lemma beqb_neq : forall a b, beqb a b = false <-> a <> b.
Proof.
  intros a b; rewrite <- beqb_eq. destruct (beqb a b); split; intros H; congruence.
Qed.
Lemma N_eqb_eq : forall a b, N.eqb a b = true <-> a = b.
Proof. exact N.eqb_eq. Qed.

Ltac inv H := inversion H; subst; clear H.
