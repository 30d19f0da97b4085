(** The UTF-8 check accepts exactly the encodings of Unicode scalar values. *)
From Verif Require Import LibBase CmdModel.

(** Unicode scalar values and their encoding (RFC 3629), independent of the check. *)
Definition scalar (n : N) : Prop := n < 55296 \/ (57344 <= n /\ n < 1114112).
Definition utf8_enc (n : N) : bytes :=
  if n <? 128 then [n]
  else if n <? 2048 then [192 + n / 64; 128 + n mod 64]
  else if n <? 65536 then [224 + n / 4096; 128 + (n / 64) mod 64; 128 + n mod 64]
  else [240 + n / 262144; 128 + (n / 4096) mod 64; 128 + (n / 64) mod 64; 128 + n mod 64].

Ltac cmp := repeat match goal with
  | |- context [?a <? ?b] => destruct (N.ltb_spec a b); try lia
  | |- context [?a <=? ?b] => destruct (N.leb_spec a b); try lia
  | |- context [?a =? ?b] => destruct (N.eqb_spec a b); try lia
  end.
Lemma utf8_enc_ok n r : scalar n -> utf8 (utf8_enc n ++ r) = utf8 r.
Proof.
  intro S. unfold scalar in S. unfold utf8_enc.
  destruct (N.ltb_spec n 128).
  { cbn [app utf8]. cmp; reflexivity. }
  destruct (N.ltb_spec n 2048).
  { cbn [app utf8]. unfold inr, cont. cmp; reflexivity. }
  destruct (N.ltb_spec n 65536).
  { assert (n / 4096 < 16) by (apply N.div_lt_upper_bound; lia). pose proof (N.mod_lt n 64 ltac:(lia)). pose proof (N.mod_lt (n / 64) 64 ltac:(lia)).
    assert (E : n / 64 = 64 * (n / 4096) + (n / 64) mod 64).
    { replace 4096 with (64 * 64) by reflexivity. rewrite <- N.div_div by discriminate. apply N.div_mod. discriminate. }
    pose proof (N.div_mod n 64 ltac:(lia)). set (a := n / 4096) in *. set (b := n / 64) in *. set (c := n mod 64) in *. set (d := b mod 64) in *. clearbody a d c. clearbody b.
    cbn [app utf8]. unfold inr, cont. cmp; reflexivity. }
  assert (n / 262144 < 5) by (apply N.div_lt_upper_bound; lia). pose proof (N.mod_lt n 64 ltac:(lia)). pose proof (N.mod_lt (n / 64) 64 ltac:(lia)). pose proof (N.mod_lt (n / 4096) 64 ltac:(lia)).
  assert (E : n / 64 = 64 * (n / 4096) + (n / 64) mod 64).
  { replace 4096 with (64 * 64) by reflexivity. rewrite <- N.div_div by discriminate. apply N.div_mod. discriminate. }
  assert (E2 : n / 4096 = 64 * (n / 262144) + (n / 4096) mod 64).
  { replace 262144 with (4096 * 64) by reflexivity. rewrite <- N.div_div by discriminate. apply N.div_mod. discriminate. }
  pose proof (N.div_mod n 64 ltac:(lia)). set (a := n / 262144) in *. set (b := n / 4096) in *. set (c := n / 64) in *. set (d := b mod 64) in *. set (e := c mod 64) in *. set (f := n mod 64) in *. clearbody d e f. clearbody a b c.
  cbn [app utf8]. unfold inr, cont. cmp; reflexivity.
Qed.
Lemma utf8_encs_ok ns : Forall scalar ns -> utf8 (concat (map utf8_enc ns)) = true.
Proof. induction 1 as [|n ns S _ IH]; [reflexivity|]. cbn [map concat]. rewrite utf8_enc_ok; auto. Qed.

Lemma split64 q r : r < 64 -> (64 * q + r) / 64 = q /\ (64 * q + r) mod 64 = r.
Proof. intro H. split; [symmetry; apply (N.div_unique _ 64 q r); lia|symmetry; apply (N.mod_unique _ 64 q r); lia]. Qed.
Lemma utf8_first l : utf8 l = true -> l <> [] -> exists n r, scalar n /\ l = utf8_enc n ++ r /\ utf8 r = true.
Proof.
  destruct l as [|b r]; [congruence|]. intros U _. cbn [utf8] in U. unfold scalar, utf8_enc.
  destruct (N.ltb_spec b 128).
  { exists b, r. split; [lia|]. split; [cmp; reflexivity|exact U]. }
  unfold inr, cont in U. destruct ((194 <=? b) && (b <=? 223)) eqn:E2.
  { destruct r as [|c r]; [discriminate|]. apply andb_prop in E2. destruct E2 as (E2 & E3). apply andb_prop in U. destruct U as (U1 & U). apply andb_prop in U1. destruct U1 as (U1 & U2).
    apply N.leb_le in E2, E3, U1, U2. destruct (split64 (b - 192) (c - 128)) as (S1 & S2); [lia|]. exists (64 * (b - 192) + (c - 128)), r. split; [clear S1 S2; lia|]. split; [|exact U].
    rewrite S1, S2. clear S1 S2. cmp; cbn [app]; repeat f_equal; lia. }
  destruct ((224 <=? b) && (b <=? 239)) eqn:E3.
  { destruct r as [|c [|d r]]; try discriminate. apply andb_prop in E3. destruct E3 as (E3 & E4). apply andb_prop in U. destruct U as (U1 & U). apply andb_prop in U1. destruct U1 as (U1 & U2). apply andb_prop in U2. destruct U2 as (U2 & U3).
    apply N.leb_le in E3, E4, U2, U3.
    assert (C : 128 <= c /\ c <= 191 /\ (b = 224 -> 160 <= c) /\ (b = 237 -> c <= 159)).
    { destruct (N.eqb_spec b 224), (N.eqb_spec b 237); try lia; apply andb_prop in U1; destruct U1 as (U1 & U4); apply N.leb_le in U1, U4; lia. }
    clear U1 E2. assert (d - 128 < 64 /\ c - 128 < 64) as (Q2 & Q3) by lia. destruct (split64 (64 * (b - 224) + (c - 128)) (d - 128) Q2) as (S1 & S2). destruct (split64 (b - 224) (c - 128) Q3) as (S3 & S4).
    assert (S5 : (64 * (64 * (b - 224) + (c - 128)) + (d - 128)) / 4096 = b - 224) by (replace 4096 with (64 * 64) by reflexivity; rewrite <- N.div_div by discriminate; rewrite S1; exact S3).
    exists (64 * (64 * (b - 224) + (c - 128)) + (d - 128)), r. split; [clear S1 S2 S3 S4 S5; lia|]. split; [|exact U].
    rewrite S5, S1, S2, S4. clear S1 S2 S3 S4 S5. cmp; cbn [app]; repeat f_equal; lia. }
  destruct ((240 <=? b) && (b <=? 244)) eqn:E4; [|discriminate].
  destruct r as [|c [|d [|e r]]]; try discriminate. apply andb_prop in E4. destruct E4 as (E4 & E5). apply andb_prop in U. destruct U as (U1 & U). apply andb_prop in U1. destruct U1 as (U1 & U2). apply andb_prop in U2. destruct U2 as (U2 & U3).
  apply andb_prop in U1. destruct U1 as (U1 & U4). apply andb_prop in U4. destruct U4 as (U4 & U5).
  apply N.leb_le in E4, E5, U2, U3, U4, U5.
  assert (C : 128 <= c /\ c <= 191 /\ (b = 240 -> 144 <= c) /\ (b = 244 -> c <= 143)).
  { destruct (N.eqb_spec b 240), (N.eqb_spec b 244); try lia; apply andb_prop in U1; destruct U1 as (U1 & U6); apply N.leb_le in U1, U6; lia. }
  clear U1 E2 E3. set (x := 64 * (b - 240) + (c - 128)). set (y := 64 * x + (d - 128)).
  assert (e - 128 < 64 /\ d - 128 < 64 /\ c - 128 < 64) as (Q1 & Q2 & Q3) by lia. destruct (split64 y (e - 128) Q1) as (S1 & S2). destruct (split64 x (d - 128) Q2) as (S3 & S4). destruct (split64 (b - 240) (c - 128) Q3) as (S5 & S6).
  fold y in S3, S4. fold x in S5, S6.
  assert (S7 : (64 * y + (e - 128)) / 4096 = x) by (replace 4096 with (64 * 64) by reflexivity; rewrite <- N.div_div by discriminate; rewrite S1; exact S3).
  assert (S8 : (64 * y + (e - 128)) / 262144 = b - 240) by (replace 262144 with (4096 * 64) by reflexivity; rewrite <- N.div_div by discriminate; rewrite S7; exact S5).
  exists (64 * y + (e - 128)), r. split; [clear S1 S2 S3 S4 S5 S6 S7 S8; lia|]. split; [|exact U].
  rewrite S8, S7, S1, S2, S4, S6. clear S1 S2 S3 S4 S5 S6 S7 S8. unfold y, x. clear x y. cmp; cbn [app]; repeat f_equal; lia.
Qed.
Theorem utf8_exact l : utf8 l = true <-> exists ns, Forall scalar ns /\ l = concat (map utf8_enc ns).
Proof.
  split.
  - remember (length l) as k eqn:E. revert l E. induction k as [k IH] using lt_wf_ind. intros l E U. destruct l as [|b l]; [exists []; split; [constructor|reflexivity]|].
    destruct (utf8_first (b :: l) U ltac:(discriminate)) as (n & r & S & EQ & U').
    assert (LT : (length r < k)%nat).
    { rewrite E, EQ, app_length. assert (1 <= length (utf8_enc n))%nat; [|lia]. unfold utf8_enc. repeat match goal with |- context [if ?x then _ else _] => destruct x end; cbn; lia. }
    destruct (IH (length r) LT r eq_refl U') as (ns & F & ->). exists (n :: ns). split; [constructor; auto|]. exact EQ.
  - intros (ns & F & ->). apply utf8_encs_ok. exact F.
Qed.
