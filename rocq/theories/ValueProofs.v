(** Proofs about values on the wire and on the dashboard. *)
From Verif Require Import LibBase CmdModel Utf8 ValueModel.

(** the string with these code points *)
Definition text_of (ns : list N) : list N := flat_map units ns.
Definition text (u : list N) : Prop := exists ns, Forall scalar ns /\ u = text_of ns.

Lemma put_enc n : utf8_put n = utf8_enc n.
Proof. reflexivity. Qed.

Lemma div_4096 n : n / 4096 = n / 64 / 64.
Proof. rewrite N.div_div by discriminate. reflexivity. Qed.
Lemma div_262144 n : n / 262144 = n / 64 / 64 / 64.
Proof. rewrite !N.div_div by discriminate. reflexivity. Qed.

Lemma inr_in lo hi b : lo <= b -> b <= hi -> inr lo hi b = true.
Proof. intros. unfold inr. rewrite andb_true_iff, !N.leb_le. auto. Qed.
Lemma inr_out lo hi b : b < lo \/ hi < b -> inr lo hi b = false.
Proof. unfold inr. intro H. destruct (N.leb_spec lo b), (N.leb_spec b hi); try lia; reflexivity. Qed.
Lemma cont_in b : 128 <= b -> b < 192 -> cont b = true.
Proof. intros. unfold cont. rewrite andb_true_iff, !N.leb_le. lia. Qed.
Lemma lossy_put n r : scalar n -> utf8_lossy (utf8_put n ++ r) = n :: utf8_lossy r.
Proof.
  intro S. unfold scalar in S. unfold utf8_put.
  destruct (N.ltb_spec n 128).
  { cbn [app utf8_lossy]. cmp; reflexivity. }
  destruct (N.ltb_spec n 2048).
  { cbn [app utf8_lossy]. unfold inr, cont. pose proof (N.mod_lt n 64 ltac:(lia)). pose proof (N.div_mod n 64 ltac:(lia)). assert (n / 64 < 32) by (apply N.div_lt_upper_bound; lia). assert (2 <= n / 64) by (apply N.div_le_lower_bound; lia).
    set (a := n / 64) in *. set (c := n mod 64) in *. clearbody a c. cmp; cbn [andb]; f_equal; lia. }
  destruct (N.ltb_spec n 65536).
  { assert (n / 4096 < 16) by (apply N.div_lt_upper_bound; lia). pose proof (N.mod_lt n 64 ltac:(lia)). pose proof (N.mod_lt (n / 64) 64 ltac:(lia)).
    assert (E : n / 64 = 64 * (n / 4096) + (n / 64) mod 64) by (rewrite div_4096; apply N.div_mod; discriminate).
    pose proof (N.div_mod n 64 ltac:(lia)). set (a := n / 4096) in *. set (b := n / 64) in *. set (c := n mod 64) in *. set (d := b mod 64) in *. clearbody a d c. clearbody b.
    cbn [app utf8_lossy]. unfold inr, cont. cmp; cbn [andb]; f_equal; lia. }
  assert (n / 262144 < 5) by (apply N.div_lt_upper_bound; lia). pose proof (N.mod_lt n 64 ltac:(lia)). pose proof (N.mod_lt (n / 64) 64 ltac:(lia)). pose proof (N.mod_lt (n / 4096) 64 ltac:(lia)).
  assert (E : n / 64 = 64 * (n / 4096) + (n / 64) mod 64) by (rewrite div_4096; apply N.div_mod; discriminate).
  assert (E2 : n / 4096 = 64 * (n / 262144) + (n / 4096) mod 64) by (rewrite div_262144, div_4096; apply N.div_mod; discriminate).
  pose proof (N.div_mod n 64 ltac:(lia)). set (a := n / 262144) in *. set (b := n / 4096) in *. set (c := n / 64) in *. set (d := b mod 64) in *. set (e := c mod 64) in *. set (f := n mod 64) in *. clearbody d e f. clearbody a b c.
  cbn [app utf8_lossy].
  rewrite (proj2 (N.ltb_ge (240 + a) 128)) by lia. rewrite (inr_out 194 223 (240 + a)), (inr_out 224 239 (240 + a)), (inr_in 240 244 (240 + a)) by lia. rewrite (cont_in (128 + e)), (cont_in (128 + f)) by lia.
  replace (if 240 + a =? 240 then inr 144 191 (128 + d) else if 240 + a =? 244 then inr 128 143 (128 + d) else cont (128 + d)) with true.
  - f_equal. lia.
  - destruct (N.eqb_spec (240 + a) 240); [symmetry; apply inr_in; lia|]. destruct (N.eqb_spec (240 + a) 244); [symmetry; apply inr_in; lia|]. symmetry. apply cont_in; lia.
Qed.
Lemma lossy_all ns : Forall scalar ns -> utf8_lossy (flat_map utf8_put ns) = ns.
Proof. induction 1 as [|n ns S _ IH]; [reflexivity|]. cbn [flat_map]. rewrite lossy_put by auto. rewrite IH. reflexivity. Qed.

Lemma code_points_scalar : forall u, Forall (fun x => x < 65536) u -> Forall scalar (code_points u).
Proof.
  intro u. remember (length u) as k eqn:E. revert u E. induction k as [k IH] using lt_wf_ind. intros u E F. destruct u as [|a r]; [constructor|]. inversion F as [|x y F1 F2]; subst. cbn [length] in IH.
  assert (R : scalar repl) by (unfold scalar, repl; lia).
  cbn [code_points]. unfold hi_sur, lo_sur, inr. destruct ((55296 <=? a) && (a <=? 56319)) eqn:H1.
  - destruct r as [|b r']; [constructor; auto|]. inversion F2 as [|x y F3 F4]; subst. apply andb_prop in H1. destruct H1 as [H1 H2]. apply N.leb_le in H1, H2.
    destruct ((56320 <=? b) && (b <=? 57343)) eqn:H3.
    + apply andb_prop in H3. destruct H3 as [H3 H4]. apply N.leb_le in H3, H4. constructor; [unfold scalar; lia|]. apply (IH (length r')); auto.
    + constructor; auto. apply (IH (length (b :: r'))); auto.
  - destruct ((56320 <=? a) && (a <=? 57343)) eqn:H3; constructor; auto; try (apply (IH (length r)); auto; cbn; lia).
    unfold scalar. apply andb_false_iff in H1, H3. rewrite !N.leb_gt in H1, H3. lia.
Qed.
Lemma code_points_units n r : scalar n -> code_points (units n ++ r) = n :: code_points r.
Proof.
  intro S. unfold scalar in S. unfold units. destruct (N.ltb_spec n 65536).
  - cbn [app code_points]. unfold hi_sur, lo_sur, inr. cmp; cbn [andb]; reflexivity.
  - pose proof (N.mod_lt (n - 65536) 1024 ltac:(lia)). pose proof (N.div_mod (n - 65536) 1024 ltac:(lia)). assert ((n - 65536) / 1024 < 1024) by (apply N.div_lt_upper_bound; lia).
    set (a := (n - 65536) / 1024) in *. set (b := (n - 65536) mod 1024) in *. clearbody a b. cbn [app code_points]. unfold hi_sur, lo_sur, inr. cmp; cbn [andb]; f_equal; lia.
Qed.
Lemma code_points_text ns : Forall scalar ns -> code_points (text_of ns) = ns.
Proof. induction 1 as [|n ns S _ IH]; [reflexivity|]. unfold text_of. cbn [flat_map]. rewrite code_points_units by auto. f_equal. exact IH. Qed.

(** what is written is read back, with lone surrogates replaced *)
Lemma write_lossy u : Forall (fun x => x < 65536) u -> utf8_lossy (utf8_write u) = code_points u.
Proof. intro F. apply lossy_all. apply code_points_scalar. auto. Qed.
Lemma write_read u : Forall (fun x => x < 65536) u -> utf8_read (utf8_write u) = text_of (code_points u).
Proof. intro F. unfold utf8_read. rewrite write_lossy by auto. reflexivity. Qed.
Lemma text_units u : text u -> Forall (fun x => x < 65536) u.
Proof.
  intros (ns & F & ->). induction F as [|n ns S _ IH]; [constructor|]. cbn. apply Forall_app. split; [|exact IH]. unfold units. unfold scalar in S. destruct (N.ltb_spec n 65536); repeat constructor; auto.
  - assert ((n - 65536) / 1024 < 1024) by (apply N.div_lt_upper_bound; lia). lia.
  - pose proof (N.mod_lt (n - 65536) 1024 ltac:(lia)). lia.
Qed.
Lemma text_back u : text u -> utf8_read (utf8_write u) = u.
Proof. intro T. rewrite write_read by (apply text_units; auto). destruct T as (ns & F & ->). rewrite code_points_text by auto. reflexivity. Qed.
Lemma write_utf8 u : Forall (fun x => x < 65536) u -> utf8 (utf8_write u) = true.
Proof. intro F. apply utf8_exact. exists (code_points u). split; [apply code_points_scalar; auto|]. unfold utf8_write. rewrite flat_map_concat_map. reflexivity. Qed.
Lemma utf8_put_cons n : exists x r, utf8_put n = x :: r.
Proof. unfold utf8_put. repeat match goal with |- context [if ?x then _ else _] => destruct x end; eauto. Qed.
Lemma write_nil u : utf8_write u = [] -> u = [].
Proof.
  destruct u as [|a r]; auto. unfold utf8_write. cbn [code_points]. intro E. exfalso.
  assert (X : exists n l, (if hi_sur a then match r with b :: r' => if lo_sur b then 65536 + (a - 55296) * 1024 + (b - 56320) :: code_points r' else repl :: code_points r | [] => [repl] end
    else if lo_sur a then repl :: code_points r else a :: code_points r) = n :: l).
  { destruct (hi_sur a); [destruct r as [|b r']; [|destruct (lo_sur b)]|destruct (lo_sur a)]; eauto. }
  destruct X as (n & l & X). rewrite X in E. cbn [flat_map] in E. destruct (utf8_put_cons n) as (x & y & P). rewrite P in E. discriminate.
Qed.

(** valid UTF-8 is read exactly; the decoder agrees with the check *)
Lemma lossy_exact l : utf8 l = true -> exists ns, Forall scalar ns /\ l = concat (map utf8_enc ns) /\ utf8_lossy l = ns.
Proof. intro U. apply utf8_exact in U. destruct U as (ns & F & ->). exists ns. split; auto. split; auto. rewrite <- flat_map_concat_map. apply (lossy_all ns F). Qed.

(** ** Hexadecimal *)
Lemma hex_digit_inj a b : a < 16 -> b < 16 -> hex_digit a = hex_digit b -> a = b.
Proof. intros A B. unfold hex_digit. cmp. Qed.
Lemma hex_inj : forall a b, bytes_ok a -> bytes_ok b -> hex_encode a = hex_encode b -> a = b.
Proof.
  unfold bytes_ok, byte_ok. induction a as [|x a IH]; intros [|y b] A B E; try discriminate; auto.
  cbn [hex_encode flat_map app] in E. injection E as E1 E2 E3. inversion A; subst. inversion B; subst.
  assert (x / 16 < 16) by (apply N.div_lt_upper_bound; lia). assert (y / 16 < 16) by (apply N.div_lt_upper_bound; lia).
  apply hex_digit_inj in E1; auto. apply hex_digit_inj in E2; [|apply N.mod_lt; discriminate|apply N.mod_lt; discriminate].
  f_equal; [|apply IH; auto]. rewrite (N.div_mod x 16), (N.div_mod y 16) by discriminate. congruence.
Qed.
Lemma hex_len : forall a, lenN (hex_encode a) = 2 * lenN a.
Proof. induction a as [|x a IH]; [reflexivity|]. cbn [hex_encode flat_map app]. rewrite !lenN_cons. change (flat_map _ a) with (hex_encode a). rewrite IH. lia. Qed.
