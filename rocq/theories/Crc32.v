(** CRC-32 as computed by crc32fast::Hasher (stream/domain/persistence.rs:391, 426, 514,
    552, 587): reflected polynomial 0xEDB88320, start and final xor 0xFFFFFFFF. The
    proofs hold for any checksum below 2^32; this one is used in the examples. *)
From Verif Require Import LibBase.

Definition crc_bit (c : N) : N := if N.odd c then N.lxor (N.div2 c) 3988292384 else N.div2 c.
Definition crc_byte (c b : N) : N :=
  crc_bit (crc_bit (crc_bit (crc_bit (crc_bit (crc_bit (crc_bit (crc_bit (N.lxor c (b mod 256))))))))).
Definition crc32 (b : bytes) : N := N.lxor (fold_left crc_byte b 4294967295) 4294967295.

Example crc32_check : crc32 [49; 50; 51; 52; 53; 54; 55; 56; 57] = 3421780262.
Proof. vm_compute. reflexivity. Qed.

Lemma lxor_bound a b k : a < 2 ^ k -> b < 2 ^ k -> N.lxor a b < 2 ^ k.
Proof.
  intros A B. destruct (N.eq_dec (N.lxor a b) 0) as [->|NZ]; [apply N.neq_0_lt_0, N.pow_nonzero; discriminate|].
  apply N.log2_lt_pow2; [lia|]. pose proof (N.log2_lxor a b) as L.
  assert (F : forall x, x < 2 ^ k -> N.log2 x < k \/ x = 0).
  { intros x X. destruct (N.eq_dec x 0); [right; auto|]. left. apply N.log2_lt_pow2; [lia|auto]. }
  destruct (F a A) as [X| ->]; destruct (F b B) as [Y| ->]; rewrite ?N.lxor_0_l, ?N.lxor_0_r in *; try lia; try congruence.
Qed.
Lemma crc_bit_bound c : c < 2 ^ 32 -> crc_bit c < 2 ^ 32.
Proof.
  intro H. unfold crc_bit. assert (D : N.div2 c < 2 ^ 32) by (rewrite N.div2_div; apply N.div_lt_upper_bound; lia).
  destruct (N.odd c); auto. apply lxor_bound; auto. reflexivity.
Qed.
Theorem crc32_bound b : crc32 b < 2 ^ 32.
Proof.
  unfold crc32. apply lxor_bound; [|reflexivity].
  assert (G : forall b c, c < 2 ^ 32 -> fold_left crc_byte b c < 2 ^ 32).
  { induction b0 as [|x b0 IH]; intros c H; simpl; auto. apply IH. unfold crc_byte. repeat apply crc_bit_bound.
    apply lxor_bound; auto. pose proof (N.mod_lt x 256). lia. }
  apply G. reflexivity.
Qed.
