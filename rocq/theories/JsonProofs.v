(** What is written as JSON is read back. *)
From Verif Require Import LibBase CmdModel Utf8 ValueModel ValueProofs JsonModel.

(** ** Induction over values *)
Section Ind.
  Variable P : jv -> Prop.
  Hypotheses (H1 : P JUndef) (H2 : P JNull) (H3 : forall b, P (JBool b)) (H4 : forall t, P (JNum t)) (H5 : P JNaN) (H6 : forall u, P (JStr u)).
  Hypothesis H7 : forall l, Forall P l -> P (JArr l).
  Hypothesis H8 : forall l, Forall (fun kv => P (snd kv)) l -> P (JObj l).
  Fixpoint jv_ind2 (v : jv) : P v :=
    match v with
    | JUndef => H1 | JNull => H2 | JBool b => H3 b | JNum t => H4 t | JNaN => H5 | JStr u => H6 u
    | JArr l => H7 l ((fix go l := match l return Forall P l with [] => Forall_nil _ | x :: l' => Forall_cons x (jv_ind2 x) (go l') end) l)
    | JObj l => H8 l ((fix go l := match l return Forall (fun kv : txt * jv => P (snd kv)) l with [] => Forall_nil _ | x :: l' => Forall_cons x (jv_ind2 (snd x)) (go l') end) l)
    end.
End Ind.

(** ** Numbers *)
Definition isdigit (c : N) : Prop := 48 <= c /\ c <= 57.
Definition some_digits (l : txt) : Prop := l <> [] /\ Forall isdigit l.
(** RFC 8259, section 6 *)
Definition json_number (t : txt) : Prop := exists s i f e, t = s ++ i ++ f ++ e /\
  (s = [] \/ s = [45]) /\ (i = [48] \/ some_digits i /\ hd 0 i <> 48) /\
  (f = [] \/ exists d, f = 46 :: d /\ some_digits d) /\
  (e = [] \/ exists x g d, e = x :: g ++ d /\ (x = 101 \/ x = 69) /\ (g = [] \/ g = [43] \/ g = [45]) /\ some_digits d).
(** what may follow a value *)
Definition stop (r : txt) : Prop := match r with [] => True | c :: _ => c = 44 \/ c = 93 \/ c = 125 \/ is_ws c = true end.
Definition nodigit (r : txt) : Prop := match r with [] => True | c :: _ => digit c = false end.
Lemma ws_ws c : is_ws c = true -> c = 32 \/ c = 9 \/ c = 10 \/ c = 13.
Proof. unfold is_ws. rewrite !orb_true_iff, !N.eqb_eq. tauto. Qed.
Lemma stop_in c r : stop (c :: r) -> c = 44 \/ c = 93 \/ c = 125 \/ c = 32 \/ c = 9 \/ c = 10 \/ c = 13.
Proof. intros [H|[H|[H|H]]]; auto. apply ws_ws in H. tauto. Qed.
Ltac stops R := apply stop_in in R; destruct R as [->|[->|[->|[->|[->|[->| ->]]]]]]; reflexivity.
Lemma digit_is c : isdigit c -> digit c = true.
Proof. intros (A & B). unfold digit. apply inr_in; auto. Qed.
Lemma span_digits d r : Forall isdigit d -> nodigit r -> span digit (d ++ r) = (d, r).
Proof.
  induction 1 as [|c d C _ IH]; intro N.
  - cbn. destruct r as [|c r]; auto. cbn. cbn in N. rewrite N. reflexivity.
  - cbn [app span]. rewrite (digit_is c C), IH by auto. reflexivity.
Qed.
Lemma digits_get d r : some_digits d -> nodigit r -> digits (d ++ r) = Some (d, r).
Proof. intros (N & F) S. unfold digits. rewrite span_digits by auto. destruct d; [congruence|reflexivity]. Qed.
Lemma lex_number t r : json_number t -> stop r -> lex_num (t ++ r) = Some (t, r).
Proof.
  intros (s & i & f & e & -> & S & I & F & E) R.
  assert (R1 : nodigit r) by (destruct r as [|c r]; cbn [nodigit]; auto; stops R).
  assert (X1 : num_exp (e ++ r) = Some (e, r)).
  { destruct E as [->|(x & g & d & -> & X & G & D)].
    - cbn. destruct r as [|c r]; auto. stops R.
    - assert (EX : (x =? 101) || (x =? 69) = true) by (destruct X as [->| ->]; reflexivity). cbn [app num_exp]. rewrite EX. destruct G as [->|G].
      + cbn [app]. destruct D as (D1 & D2). destruct d as [|c d]; [congruence|]. cbn [app]. inversion D2 as [|? ? C ?]; subst. destruct C as (C1 & C2).
        rewrite (proj2 (N.eqb_neq c 43)), (proj2 (N.eqb_neq c 45)) by lia. cbn [orb]. change (c :: d ++ r) with ((c :: d) ++ r). rewrite digits_get by (auto; split; auto). reflexivity.
      + destruct G as [->| ->]; cbn [app]; cbn [N.eqb Pos.eqb orb]; rewrite digits_get by auto; reflexivity. }
  assert (X2 : nodigit (e ++ r)) by (destruct E as [->|(x & g & d & -> & [->| ->] & _)]; cbn; auto).
  assert (X3 : num_frac (f ++ e ++ r) = Some (f, e ++ r)).
  { destruct F as [->|(d & -> & D)].
    - cbn [app]. destruct E as [->|(x & g & d & -> & [->| ->] & _)]; [|reflexivity|reflexivity]. cbn [app]. destruct r as [|c r]; auto. stops R.
    - cbn [app num_frac]. cbn [N.eqb Pos.eqb]. rewrite digits_get by auto. reflexivity. }
  assert (X4 : nodigit (f ++ e ++ r)) by (destruct F as [->|(d & -> & _)]; cbn; auto).
  assert (X5 : num_int (i ++ f ++ e ++ r) = Some (i, f ++ e ++ r)).
  { destruct I as [->|(I & I0)]; [reflexivity|]. pose proof I as (I1 & I2). destruct i as [|c i]; [congruence|]. cbn [app num_int]. cbn [hd] in I0. rewrite (proj2 (N.eqb_neq c 48)) by auto.
    change (c :: i ++ f ++ e ++ r) with ((c :: i) ++ f ++ e ++ r). apply digits_get; auto. }
  assert (X6 : num_abs ((i ++ f ++ e) ++ r) = Some (i ++ f ++ e, r)).
  { rewrite <- !app_assoc. unfold num_abs. rewrite X5, X3, X1. reflexivity. }
  destruct S as [->| ->].
  - cbn [app]. assert (X7 : exists c l, i = c :: l /\ c <> 45).
    { destruct I as [->|((I1 & I2) & _)]; [exists 48, []; split; [auto|lia]|]. destruct i as [|c i]; [congruence|]. inversion I2 as [|? ? (C1 & C2) ?]; subst. exists c, i. split; auto. lia. }
    destruct X7 as (c & l & -> & C). cbn [app] in *. unfold lex_num. rewrite (proj2 (N.eqb_neq c 45)) by auto. exact X6.
  - change (([45] ++ i ++ f ++ e) ++ r) with (45 :: ((i ++ f ++ e) ++ r)). unfold lex_num. cbn [N.eqb Pos.eqb]. rewrite X6. reflexivity.
Qed.
Lemma number_head t : json_number t -> exists c l, t = c :: l /\ (isdigit c \/ c = 45).
Proof.
  intros (s & i & f & e & -> & [->| ->] & I & _); [|cbn; eauto].
  destruct I as [->|((I1 & I2) & _)]; [exists 48; cbn; unfold isdigit; eexists; split; eauto; left; lia|]. destruct i as [|c i]; [congruence|]. inversion I2; subst. cbn. eauto.
Qed.

(** ** Strings *)
Definition units_ok (u : txt) : Prop := Forall (fun x => x < 65536) u.
Lemma hexn_digit n : n < 16 -> hexn (hex_digit n) = Some n.
Proof.
  intro H. unfold hexn, hex_digit, inr. destruct (N.ltb_spec n 10).
  - rewrite (proj2 (N.leb_le 48 (48 + n))), (proj2 (N.leb_le (48 + n) 57)) by lia. cbn [andb]. f_equal. lia.
  - rewrite (proj2 (N.leb_gt (87 + n) 57)), andb_false_r by lia. rewrite (proj2 (N.leb_le 97 (87 + n))), (proj2 (N.leb_le (87 + n) 102)) by lia. cbn [andb]. f_equal. lia.
Qed.
Lemma pstr_u a b x d r : pstr (92 :: 117 :: a :: b :: x :: d :: r) =
  match hexn a, hexn b, hexn x, hexn d with Some a, Some b, Some x, Some d => pre (a * 4096 + b * 256 + x * 16 + d) (pstr r) | _, _, _, _ => None end.
Proof. reflexivity. Qed.
Lemma pstr_u4 a r : a < 65536 -> pstr (u4 a ++ r) = pre a (pstr r).
Proof.
  intro A. unfold u4. cbn [app]. rewrite pstr_u, !hexn_digit.
  - f_equal. pose proof (N.div_mod a 16 ltac:(lia)) as H1. pose proof (N.div_mod (a / 16) 16 ltac:(lia)) as H2. pose proof (N.div_mod (a / 16 / 16) 16 ltac:(lia)) as H3.
    rewrite !N.div_div in H2, H3 by lia. change (16 * 16) with 256 in *. change (256 * 16) with 4096 in *. rewrite !N.div_div in H3 by lia. change (256 * 16) with 4096 in *. revert H1 H2 H3.
    generalize (a / 4096), ((a / 256) mod 16), ((a / 16) mod 16), (a mod 16), (a / 16), (a / 256). intros. lia.
  - apply N.mod_lt. lia.
  - apply N.mod_lt. lia.
  - apply N.mod_lt. lia.
  - apply N.div_lt_upper_bound; lia.
Qed.
Lemma pstr_plain c r : 32 <= c -> c <> 34 -> c <> 92 -> pstr (c :: r) = pre c (pstr r).
Proof. intros A B C. cbn [pstr]. rewrite (proj2 (N.eqb_neq c 34)), (proj2 (N.eqb_neq c 92)), (proj2 (N.ltb_ge c 32)) by auto. reflexivity. Qed.
Lemma pstr_esc1 a r : a < 65536 -> pstr (esc1 a ++ r) = pre a (pstr r).
Proof.
  intro A. unfold esc1.
  destruct (N.eqb_spec a 34) as [->|A1]; [reflexivity|]. destruct (N.eqb_spec a 92) as [->|A2]; [reflexivity|]. destruct (N.eqb_spec a 8) as [->|A3]; [reflexivity|]. destruct (N.eqb_spec a 12) as [->|A4]; [reflexivity|].
  destruct (N.eqb_spec a 10) as [->|A5]; [reflexivity|]. destruct (N.eqb_spec a 13) as [->|A6]; [reflexivity|]. destruct (N.eqb_spec a 9) as [->|A7]; [reflexivity|].
  destruct (N.ltb_spec a 32); [apply pstr_u4; auto|]. cbn [app]. apply pstr_plain; auto.
Qed.
Lemma hi_range a : hi_sur a = true -> 55296 <= a /\ a <= 56319.
Proof. unfold hi_sur, inr. intro H. apply andb_true_iff in H. destruct H as (H1 & H2). apply N.leb_le in H1, H2. auto. Qed.
Lemma lo_range a : lo_sur a = true -> 56320 <= a /\ a <= 57343.
Proof. unfold lo_sur, inr. intro H. apply andb_true_iff in H. destruct H as (H1 & H2). apply N.leb_le in H1, H2. auto. Qed.
Lemma pstr_esc : forall u r, units_ok u -> pstr (esc u ++ 34 :: r) = Some (u, r).
Proof.
  intro u. remember (length u) as k eqn:L. revert u L. induction k as [k IH] using lt_wf_ind. intros u L r F. destruct u as [|a u]; [reflexivity|].
  inversion F as [|x y F1 F2]; subst. cbn [length] in IH. cbn [esc]. destruct (hi_sur a) eqn:HA.
  - destruct u as [|b u']; [rewrite pstr_u4 by auto; reflexivity|]. inversion F2 as [|x y F3 F4]; subst. destruct (lo_sur b) eqn:LB.
    + apply hi_range in HA. apply lo_range in LB. cbn [app]. rewrite !pstr_plain by lia. rewrite (IH (length u')) by (cbn [length]; auto). reflexivity.
    + rewrite <- app_assoc, pstr_u4 by auto. rewrite (IH (length (b :: u'))) by auto. reflexivity.
  - destruct (lo_sur a); rewrite <- app_assoc, ?pstr_u4, ?pstr_esc1 by auto; rewrite (IH (length u)) by auto; reflexivity.
Qed.

(** ** Values, for any way [E] of writing strings that is read back as [D], with spaces [W]
    before each member and before the end, and [C] after each colon *)
Section Enc.
  Variables E D : txt -> txt.
  Variable W : nat -> txt.
  Variable C : txt.
  Definition quoteE (u : txt) : txt := [34] ++ E u ++ [34].
  Definition around (a b : N) (d : nat) (l : list txt) : txt := match l with [] => [a; b] | _ => [a] ++ join (map (app (W (S d))) l) ++ W d ++ [b] end.
  Fixpoint strE (d : nat) (v : jv) : txt :=
    match v with
    | JUndef | JNull | JNaN => t_null
    | JBool b => if b then t_true else t_false
    | JNum t => t
    | JStr u => quoteE u
    | JArr l => around 91 93 d (map (strE (S d)) l)
    | JObj l => around 123 125 d (flat_map (fun kv => if is_undef (snd kv) then [] else [quoteE (fst kv) ++ [58] ++ C ++ strE (S d) (snd kv)]) l)
    end.
  Fixpoint normE (v : jv) : jv :=
    match v with
    | JUndef | JNaN => JNull
    | JStr u => JStr (D u)
    | JArr l => JArr (map normE l)
    | JObj l => JObj (flat_map (fun kv => if is_undef (snd kv) then [] else [(D (fst kv), normE (snd kv))]) l)
    | v => v
    end.
End Enc.
(** numbers are numbers, strings are [P] *)
Fixpoint wfP (P : txt -> Prop) (v : jv) : Prop :=
  match v with
  | JNum t => json_number t
  | JStr u => P u
  | JArr l => fold_right (fun x p => wfP P x /\ p) True l
  | JObj l => fold_right (fun kv p => (P (fst kv) /\ wfP P (snd kv)) /\ p) True l
  | _ => True
  end.
Fixpoint size (v : jv) : nat :=
  match v with
  | JArr l => S (fold_right (fun x n => (S (size x) + n)%nat) O l)
  | JObj l => S (fold_right (fun kv n => ((if is_undef (snd kv) then O else S (size (snd kv))) + n)%nat) O l)
  | _ => 1
  end.
Section Read.
  Variables E D : txt -> txt.
  Variable W : nat -> txt.
  Variable C : txt.
  Variable P : txt -> Prop.
  Hypothesis EQ : forall u r, P u -> pstr (E u ++ 34 :: r) = Some (D u, r).
  Definition blank (w : txt) : Prop := Forall (fun c => is_ws c = true) w.
  Hypothesis WB : forall d, blank (W d).
  Hypothesis CB : blank C.
  Local Notation STR := (strE E W C).
  Local Notation NORM := (normE D).
  Local Notation wf := (wfP P).
  Lemma ws_blank w t : blank w -> ws (w ++ t) = ws t.
  Proof. induction 1 as [|c w B _ IH]; auto. cbn [app ws]. rewrite B. exact IH. Qed.
  Lemma pv_blank w t n : blank w -> pv n (w ++ t) = pv n t.
  Proof. intro B. destruct n; auto. cbn [pv]. rewrite ws_blank by auto. reflexivity. Qed.
  Lemma pobj_blank w t n : blank w -> pobj n (w ++ t) = pobj n t.
  Proof. intro B. destruct n; auto. cbn [pobj]. rewrite ws_blank by auto. reflexivity. Qed.
  Lemma parr_blank w t n : blank w -> parr n (w ++ t) = parr n t.
  Proof. intro B. destruct n; auto. cbn [parr]. rewrite pv_blank by auto. reflexivity. Qed.
  (** the first unit of a value: not a space, and not a closing bracket *)
  Definition vstart (c : N) : Prop := is_ws c = false /\ c <> 93 /\ c <> 125.
  Lemma str_head d v : wf v -> exists c l, STR d v = c :: l /\ vstart c.
  Proof.
    assert (H : forall c, (c = 34 \/ c = 91 \/ c = 123 \/ c = 110 \/ c = 116 \/ c = 102 \/ isdigit c \/ c = 45) -> vstart c).
    { intros c H. unfold vstart. enough (c <> 32 /\ c <> 9 /\ c <> 10 /\ c <> 13 /\ c <> 93 /\ c <> 125) as (A1 & A2 & A3 & A4 & A5).
      - unfold is_ws. rewrite (proj2 (N.eqb_neq c 32)), (proj2 (N.eqb_neq c 9)), (proj2 (N.eqb_neq c 10)), (proj2 (N.eqb_neq c 13)) by auto. auto.
      - unfold isdigit in H. lia. }
    destruct v; intro WF; cbn [strE wfP] in *; try (eexists; eexists; split; [reflexivity|apply H; tauto]).
    - destruct b; eexists; eexists; (split; [reflexivity|apply H; tauto]).
    - destruct (number_head t WF) as (c & l & -> & X). exists c, l. split; auto. apply H. tauto.
    - unfold around. destruct (map (STR (S d)) l); eexists; eexists; (split; [reflexivity|apply H; tauto]).
    - unfold around. destruct (flat_map _ l); eexists; eexists; (split; [reflexivity|apply H; tauto]).
  Qed.
  Lemma ws_start c l : vstart c -> ws (c :: l) = c :: l.
  Proof. intros (A & _). cbn. rewrite A. reflexivity. Qed.
  Lemma stop_blank w c r : blank w -> c = 44 \/ c = 93 \/ c = 125 -> stop (w ++ c :: r).
  Proof. intros B X. destruct B as [|x w B _]; cbn; tauto. Qed.
  Definition reads (v : jv) : Prop := wf v -> forall d n r, (size v <= n)%nat -> stop r -> pv n (STR d v ++ r) = Some (NORM v, r).
  Lemma arr_reads d : forall l, Forall reads l -> l <> [] -> wf (JArr l) -> forall n w r, blank w -> (fold_right (fun x n => (S (size x) + n)%nat) O l <= n)%nat ->
    parr n (join (map (app (W (S d))) (map (STR (S d)) l)) ++ w ++ 93 :: r) = Some (map NORM l, r).
  Proof.
    induction 1 as [|v l V _ IH]; intros NE WF n w r B L; [congruence|]. cbn [wfP fold_right] in WF, L. destruct WF as (W1 & W2). destruct n as [|n]; [lia|]. destruct l as [|x l].
    - cbn [map join parr]. rewrite <- app_assoc, pv_blank by auto. rewrite V; [|auto|cbn [fold_right] in L; lia|apply stop_blank; auto]. rewrite ws_blank by auto. reflexivity.
    - set (l' := x :: l) in *. assert (J : join (map (app (W (S d))) (map (STR (S d)) (v :: l'))) ++ w ++ 93 :: r = W (S d) ++ STR (S d) v ++ 44 :: (join (map (app (W (S d))) (map (STR (S d)) l')) ++ w ++ 93 :: r)).
      { change (join (map (app (W (S d))) (map (STR (S d)) (v :: l')))) with ((W (S d) ++ STR (S d) v) ++ [44] ++ join (map (app (W (S d))) (map (STR (S d)) l'))). rewrite <- !app_assoc. reflexivity. }
      rewrite J. cbn [parr]. rewrite pv_blank by auto. rewrite V; [|auto|lia|cbn; auto].
      set (t := join (map (app (W (S d))) (map (STR (S d)) l')) ++ w ++ 93 :: r). change (ws (44 :: t)) with (44 :: t). cbn [N.eqb Pos.eqb].
      unfold t. rewrite IH; [reflexivity|discriminate|exact W2|auto|lia].
  Qed.
  Definition fields (d : nat) (l : list (txt * jv)) : list txt := flat_map (fun kv => if is_undef (snd kv) then [] else [quoteE E (fst kv) ++ [58] ++ C ++ STR d (snd kv)]) l.
  Definition nfields (l : list (txt * jv)) : list (txt * jv) := flat_map (fun kv => if is_undef (snd kv) then [] else [(D (fst kv), NORM (snd kv))]) l.
  Lemma fields_cons d k v l : fields d ((k, v) :: l) = if is_undef v then fields d l else (quoteE E k ++ [58] ++ C ++ STR d v) :: fields d l.
  Proof. unfold fields. cbn [flat_map fst snd]. destruct (is_undef v); reflexivity. Qed.
  Lemma nfields_cons k v l : nfields ((k, v) :: l) = if is_undef v then nfields l else (D k, NORM v) :: nfields l.
  Proof. unfold nfields. cbn [flat_map fst snd]. destruct (is_undef v); reflexivity. Qed.
  Lemma no_fields d l : fields d l = [] -> nfields l = [].
  Proof. induction l as [|(k, v) l IH]; auto. rewrite fields_cons, nfields_cons. destruct (is_undef v); [auto|discriminate]. Qed.
  Lemma obj_reads d : forall l, Forall (fun kv => reads (snd kv)) l -> fields (S d) l <> [] -> wf (JObj l) -> forall n w r, blank w -> (fold_right (fun kv n => ((if is_undef (snd kv) then O else S (size (snd kv))) + n)%nat) O l <= n)%nat ->
    pobj n (join (map (app (W (S d))) (fields (S d) l)) ++ w ++ 125 :: r) = Some (nfields l, r).
  Proof.
    induction 1 as [|(k, v) l V _ IH]; intros NE WF n w r B L; [cbn in NE; congruence|]. cbn [wfP fold_right fst snd] in WF, L. destruct WF as ((W0 & W1) & W2). cbn [fst snd] in V.
    rewrite fields_cons in NE |- *. rewrite nfields_cons. destruct (is_undef v) eqn:U.
    - apply IH; auto.
    - destruct n as [|n]; [lia|].
      assert (K : forall t X, stop t -> pobj (S n) ((W (S d) ++ quoteE E k ++ [58] ++ C ++ STR (S d) v) ++ t) = X <->
        match ws t with d0 :: r' => if d0 =? 125 then Some ([(D k, NORM v)], r') else if d0 =? 44 then match pobj n r' with Some (l1, r3) => Some ((D k, NORM v) :: l1, r3) | None => None end else None | [] => None end = X).
      { intros t X S. rewrite <- !app_assoc, pobj_blank by auto. unfold quoteE. rewrite <- !app_assoc. cbn [app]. set (u := 58 :: C ++ STR (Datatypes.S d) v ++ t). cbn [pobj]. change (ws (34 :: E k ++ 34 :: u)) with (34 :: E k ++ 34 :: u).
        cbn [N.eqb Pos.eqb]. rewrite EQ by auto. unfold u. change (ws (58 :: C ++ STR (Datatypes.S d) v ++ t)) with (58 :: C ++ STR (Datatypes.S d) v ++ t). cbn [N.eqb Pos.eqb].
        rewrite pv_blank by auto. rewrite V; [tauto|auto|lia|auto]. }
      destruct (fields (S d) l) as [|f fs] eqn:FL.
      + rewrite (no_fields _ l FL). cbn [map join]. apply K; [apply stop_blank; auto|]. rewrite ws_blank by auto. reflexivity.
      + assert (J : join (map (app (W (S d))) ((quoteE E k ++ [58] ++ C ++ STR (S d) v) :: f :: fs)) ++ w ++ 125 :: r = (W (S d) ++ quoteE E k ++ [58] ++ C ++ STR (S d) v) ++ 44 :: (join (map (app (W (S d))) (f :: fs)) ++ w ++ 125 :: r)).
        { change (join (map (app (W (S d))) ((quoteE E k ++ [58] ++ C ++ STR (S d) v) :: f :: fs))) with ((W (S d) ++ quoteE E k ++ [58] ++ C ++ STR (S d) v) ++ [44] ++ join (map (app (W (S d))) (f :: fs))). rewrite <- !app_assoc. reflexivity. }
        rewrite J. apply K; [cbn; auto|]. set (t := join (map (app (W (S d))) (f :: fs)) ++ w ++ 125 :: r). change (ws (44 :: t)) with (44 :: t). cbn [N.eqb Pos.eqb]. unfold t. rewrite IH; [reflexivity|discriminate|exact W2|auto|lia].
  Qed.
  Lemma all_reads : forall v, reads v.
  Proof.
    induction v using jv_ind2; intros WF d n r L S; (destruct n as [|n]; [cbn in L; lia|]); try (cbn [strE pv normE]; reflexivity).
    - destruct b; reflexivity.
    - cbn [strE normE wfP] in *. destruct (number_head t WF) as (c & l & ET & X0). pose proof (lex_number t r WF S) as X. rewrite ET in *. cbn [app] in *. cbn [pv]. rewrite ws_start.
      + assert (c <> 34 /\ c <> 91 /\ c <> 123 /\ c <> 110 /\ c <> 116 /\ c <> 102) as (A1 & A2 & A3 & A4 & A5 & A6) by (unfold isdigit in X0; lia).
        rewrite (proj2 (N.eqb_neq _ _) A1), (proj2 (N.eqb_neq _ _) A2), (proj2 (N.eqb_neq _ _) A3), (proj2 (N.eqb_neq _ _) A4), (proj2 (N.eqb_neq _ _) A5), (proj2 (N.eqb_neq _ _) A6), X. reflexivity.
      + assert (W' : wf (JNum (c :: l))) by exact WF. destruct (str_head d _ W') as (c' & l' & E1 & V). cbn [strE] in E1. injection E1 as <- _. exact V.
    - cbn [strE normE wfP] in *. unfold quoteE. cbn [app]. rewrite <- app_assoc. cbn [app pv]. change (ws (34 :: E u ++ 34 :: r)) with (34 :: E u ++ 34 :: r). cbn [N.eqb Pos.eqb]. rewrite EQ by auto. reflexivity.
    - destruct l as [|v l]; [reflexivity|]. set (vs := v :: l) in *. assert (NE : vs <> []) by discriminate. cbn [strE normE size] in *. unfold around. destruct (map (STR (Datatypes.S d)) vs) as [|y ys] eqn:M; [discriminate|]. rewrite <- M. clear y ys M.
      cbn [app]. rewrite <- !app_assoc. cbn [app pv].
      set (t := join (map (app (W (Datatypes.S d))) (map (STR (Datatypes.S d)) vs)) ++ W d ++ 93 :: r). change (ws (91 :: t)) with (91 :: t). cbn [N.eqb Pos.eqb].
      assert (HD : exists c x, ws t = c :: x /\ vstart c).
      { assert (W1 : wf v) by (cbn [wfP vs fold_right] in WF; tauto). destruct (str_head (Datatypes.S d) v W1) as (c & x & E1 & V). unfold t, vs. cbn [map]. destruct l as [|w l].
        - cbn [join map]. rewrite <- app_assoc, ws_blank, E1 by auto. cbn [app]. rewrite ws_start by auto. eauto.
        - cbn [map]. set (q := map (app (W (Datatypes.S d))) (map (STR (Datatypes.S d)) l)). change (join ((W (Datatypes.S d) ++ STR (Datatypes.S d) v) :: (W (Datatypes.S d) ++ STR (Datatypes.S d) w) :: q)) with ((W (Datatypes.S d) ++ STR (Datatypes.S d) v) ++ [44] ++ join ((W (Datatypes.S d) ++ STR (Datatypes.S d) w) :: q)).
          rewrite <- !app_assoc, ws_blank, E1 by auto. cbn [app]. rewrite ws_start by auto. eauto. }
      destruct HD as (c & x & E1 & V). rewrite E1. destruct V as (_ & V1 & V2). rewrite (proj2 (N.eqb_neq c 93)) by auto. unfold t. rewrite arr_reads; auto. lia.
    - cbn [strE normE size] in *. change (flat_map (fun kv : txt * jv => if is_undef (snd kv) then [] else [quoteE E (fst kv) ++ [58] ++ C ++ STR (Datatypes.S d) (snd kv)]) l) with (fields (Datatypes.S d) l).
      change (flat_map (fun kv : txt * jv => if is_undef (snd kv) then [] else [(D (fst kv), NORM (snd kv))]) l) with (nfields l). unfold around. destruct (fields (Datatypes.S d) l) as [|f fs] eqn:FL.
      + rewrite (no_fields _ l FL). reflexivity.
      + assert (HD : exists x, f = 34 :: x).
        { clear - FL. revert FL. induction l as [|(k, v) l IH]; [discriminate|]. rewrite fields_cons. destruct (is_undef v); [exact IH|]. intro FL. injection FL as <- _. unfold quoteE. cbn [app]. eauto. }
        destruct HD as (x & HD). rewrite <- FL. cbn [app]. rewrite <- !app_assoc. cbn [app pv]. set (t := join (map (app (W (Datatypes.S d))) (fields (Datatypes.S d) l)) ++ W d ++ 125 :: r). change (ws (123 :: t)) with (123 :: t). cbn [N.eqb Pos.eqb].
        assert (HT : exists y, ws t = 34 :: y).
        { unfold t. rewrite FL, HD. destruct fs as [|g gs]; cbn [map].
          - cbn [join]. rewrite <- app_assoc, ws_blank by auto. cbn [app]. eexists. reflexivity.
          - set (q := map (app (W (Datatypes.S d))) gs). change (join ((W (Datatypes.S d) ++ 34 :: x) :: (W (Datatypes.S d) ++ g) :: q)) with ((W (Datatypes.S d) ++ 34 :: x) ++ [44] ++ join ((W (Datatypes.S d) ++ g) :: q)).
            rewrite <- !app_assoc, ws_blank by auto. cbn [app]. eexists. reflexivity. }
        destruct HT as (y & HT). rewrite HT. cbn [N.eqb Pos.eqb]. unfold t. rewrite obj_reads; auto; [rewrite FL; discriminate|lia].
  Qed.
  Lemma join_len (w : txt) (l : list txt) : (length (join l) <= length (join (map (app w) l)))%nat.
  Proof.
    induction l as [|x l IH]; [cbn; lia|]. destruct l as [|y l]; [cbn [map join]; rewrite app_length; lia|].
    change (join (map (app w) (x :: y :: l))) with ((w ++ x) ++ [44] ++ join (map (app w) (y :: l))). change (join (x :: y :: l)) with (x ++ [44] ++ join (y :: l)). rewrite !app_length. cbn [length]. lia.
  Qed.
  Lemma around_len a b d l : (length (join l) + 2 <= length (around W a b d l))%nat.
  Proof. unfold around. destruct l as [|x l]; [cbn; lia|]. rewrite !app_length. pose proof (join_len (W (S d)) (x :: l)). cbn [length]. lia. Qed.
  Lemma size_len : forall v d, wf v -> (size v <= 2 * length (STR d v))%nat.
  Proof.
    induction v using jv_ind2; intros d WF; try (cbn; lia).
    - destruct b; cbn; lia.
    - cbn [strE size]. destruct (number_head t WF) as (c & l & -> & _). cbn [length]. lia.
    - cbn [strE size]. pose proof (around_len 91 93 d (map (STR (S d)) l)) as A. cbn [wfP] in WF.
      enough (fold_right (fun x n => (S (size x) + n)%nat) O l <= 2 * length (join (map (STR (S d)) l)) + 2)%nat by lia. clear A.
      revert WF. induction H as [|v l V _ IH]; intro WF; [cbn; lia|]. cbn [fold_right] in WF |- *. destruct WF as (W1 & W2). specialize (V (S d) W1). specialize (IH W2). destruct l as [|w l].
      + cbn [map join fold_right]. lia.
      + change (join (map (STR (S d)) (v :: w :: l))) with (STR (S d) v ++ [44] ++ join (map (STR (S d)) (w :: l))). rewrite !app_length. cbn [length]. lia.
    - cbn [strE size]. cbn [wfP] in WF. change (flat_map (fun kv : txt * jv => if is_undef (snd kv) then [] else [quoteE E (fst kv) ++ [58] ++ C ++ STR (S d) (snd kv)]) l) with (fields (S d) l).
      pose proof (around_len 123 125 d (fields (S d) l)) as A.
      enough (fold_right (fun kv n => ((if is_undef (snd kv) then O else S (size (snd kv))) + n)%nat) O l <= 2 * length (join (fields (S d) l)) + 2)%nat by lia. clear A.
      revert WF. induction H as [|(k, v) l V _ IH]; intro WF; [cbn; lia|]. cbn [fold_right fst snd] in WF, V |- *. destruct WF as ((W0 & W1) & W2). specialize (V (S d) W1). specialize (IH W2).
      rewrite fields_cons. destruct (is_undef v); [exact IH|].
      destruct (fields (S d) l) as [|f fs].
      + cbn [join]. cbn [join length] in IH. rewrite !app_length. unfold quoteE. rewrite !app_length. cbn [length]. lia.
      + change (join ((quoteE E k ++ [58] ++ C ++ STR (S d) v) :: f :: fs)) with ((quoteE E k ++ [58] ++ C ++ STR (S d) v) ++ [44] ++ join (f :: fs)). rewrite !app_length. cbn [length]. lia.
  Qed.
  Theorem read_back v d : wf v -> parse (STR d v) = Some (NORM v).
  Proof. intro WF. unfold parse. pose proof (all_reads v WF d (2 * length (STR d v))%nat [] (size_len v d WF) I) as X. rewrite app_nil_r in X. rewrite X. reflexivity. Qed.
End Read.
(** strings consist of 16-bit units *)
Notation wf := (wfP units_ok).
(** without spaces *)
Notation compact E := (strE E (fun _ => []) []).
Lemma around_compact a b d l : around (fun _ => []) a b d l = [a] ++ join l ++ [b].
Proof.
  assert (X : map (app (@nil N)) l = l) by exact (map_id l).
  unfold around. destruct l as [|x l]; [reflexivity|]. rewrite X. reflexivity.
Qed.
Lemma str_enc : forall v d, str v = compact esc d v.
Proof.
  induction v using jv_ind2; intro d; try reflexivity.
  - cbn [str strE]. rewrite around_compact. do 3 f_equal. induction H as [|v l V _ IH]; auto. cbn [map]. rewrite IH, <- V. reflexivity.
  - cbn [str strE]. rewrite around_compact. do 3 f_equal. induction H as [|(k, v) l V _ IH]; auto. cbn [flat_map fst snd] in *. rewrite IH, <- V. reflexivity.
Qed.
(** the members as written *)
Notation members := (fields esc (fun _ => []) []).
Lemma str_obj d l : str (JObj l) = [123] ++ join (members d l) ++ [125].
Proof. rewrite (str_enc (JObj l) (pred d)). cbn [strE]. rewrite around_compact. f_equal. f_equal. f_equal. unfold fields. induction l as [|(k, v) l IH]; auto. cbn [flat_map fst snd]. rewrite IH, <- !str_enc. reflexivity. Qed.

(** ** What is written is text, and in scalar values it is read alike *)
Lemma text_app a b : text a -> text b -> text (a ++ b).
Proof. intros (x & X & ->) (y & Y & ->). exists (x ++ y). split; [apply Forall_app; auto|]. unfold text_of. rewrite flat_map_app. reflexivity. Qed.
Lemma text_nil : text [].
Proof. exists []. split; auto. Qed.
Definition low (u : txt) : Prop := Forall (fun c => c < 55296) u.
Lemma text_low u : low u -> text u.
Proof.
  induction 1 as [|c u C _ IH]; [apply text_nil|]. change (c :: u) with ([c] ++ u). apply text_app; auto. exists [c]. split; [constructor; auto; unfold scalar; lia|].
  unfold text_of, units. cbn [flat_map]. rewrite (proj2 (N.ltb_lt c 65536)) by lia. reflexivity.
Qed.
Lemma cp_app a b : text a -> code_points (a ++ b) = code_points a ++ code_points b.
Proof.
  intros (ns & F & ->). rewrite code_points_text by auto. induction F as [|n ns S _ IH]; [reflexivity|]. unfold text_of. cbn [flat_map]. rewrite <- app_assoc. rewrite code_points_units by auto.
  change (flat_map units ns) with (text_of ns). rewrite IH. reflexivity.
Qed.
Lemma cp_low u : low u -> code_points u = u.
Proof.
  induction 1 as [|c u C _ IH]; auto. cbn [code_points]. replace (hi_sur c) with false by (symmetry; unfold hi_sur, inr; apply andb_false_iff; left; apply N.leb_gt; lia).
  replace (lo_sur c) with false by (symmetry; unfold lo_sur, inr; apply andb_false_iff; left; apply N.leb_gt; lia). rewrite IH. reflexivity.
Qed.
Lemma hex_low n : n < 16 -> hex_digit n < 55296.
Proof. intro H. unfold hex_digit. destruct (n <? 10); lia. Qed.
Lemma u4_low a : a < 65536 -> low (u4 a).
Proof. intro A. unfold u4. repeat constructor; try lia; apply hex_low; try (apply N.mod_lt; lia). apply N.div_lt_upper_bound; lia. Qed.
Lemma esc1_low a : a < 55296 -> low (esc1 a).
Proof.
  intro A. unfold esc1. repeat match goal with |- context [if ?x then _ else _] => destruct x end; try (repeat constructor; lia). apply u4_low. lia.
Qed.
Lemma pair_point a b : hi_sur a = true -> lo_sur b = true -> scalar (65536 + (a - 55296) * 1024 + (b - 56320)) /\ [a; b] = units (65536 + (a - 55296) * 1024 + (b - 56320)).
Proof.
  intros HA LB. apply hi_range in HA. apply lo_range in LB. split; [unfold scalar; lia|]. unfold units. rewrite (proj2 (N.ltb_ge (65536 + (a - 55296) * 1024 + (b - 56320)) 65536)) by lia.
  replace (65536 + (a - 55296) * 1024 + (b - 56320) - 65536) with ((b - 56320) + (a - 55296) * 1024) by lia. rewrite N.div_add, N.mod_add, N.div_small, N.mod_small by lia. f_equal; [lia|f_equal; lia].
Qed.
(** pairs of surrogates taken together, others left *)
Fixpoint merge (u : txt) : txt :=
  match u with
  | [] => []
  | a :: r => if hi_sur a then
                match r with
                | b :: r' => if lo_sur b then (65536 + (a - 55296) * 1024 + (b - 56320)) :: merge r' else a :: merge r
                | [] => [a]
                end
              else a :: merge r
  end.
Lemma not_sur a : a < 65536 -> hi_sur a = false -> lo_sur a = false -> a < 55296 \/ 57343 < a.
Proof. unfold hi_sur, lo_sur, inr. intros A H L. apply andb_false_iff in H, L. rewrite !N.leb_gt in *. lia. Qed.
Lemma esc1_text a : a < 65536 -> hi_sur a = false -> lo_sur a = false -> text (esc1 a) /\ code_points (esc1 a) = esc1 a.
Proof.
  intros A H L. destruct (not_sur a A H L) as [X|X].
  - split; [apply text_low|apply cp_low]; apply esc1_low; auto.
  - assert (E1 : esc1 a = [a]) by (unfold esc1; rewrite !(proj2 (N.eqb_neq a _)) by lia; rewrite (proj2 (N.ltb_ge a 32)) by lia; reflexivity).
    rewrite E1. split; [exists [a]; split; [constructor; auto; unfold scalar; lia|unfold text_of, units; cbn [flat_map]; rewrite (proj2 (N.ltb_lt a 65536)) by lia; reflexivity]|].
    cbn [code_points]. rewrite H, L. reflexivity.
Qed.
Lemma esc_cp : forall u, units_ok u -> text (esc u) /\ forall r, pstr (code_points (esc u) ++ 34 :: r) = Some (merge u, r).
Proof.
  intro u. remember (length u) as k eqn:L. revert u L. induction k as [k IH] using lt_wf_ind. intros u L F. destruct u as [|a u]; [split; [apply text_nil|reflexivity]|].
  inversion F as [|x y F1 F2]; subst. cbn [length] in IH. cbn [esc merge].
  assert (U4 : forall v, (length v < S (length u))%nat -> units_ok v -> text (u4 a ++ esc v) /\ forall r, pstr (code_points (u4 a ++ esc v) ++ 34 :: r) = Some (a :: merge v, r)).
  { intros v Lv Fv. destruct (IH (length v) Lv v eq_refl Fv) as (T & P). assert (T4 : text (u4 a)) by (apply text_low, u4_low; auto). split; [apply text_app; auto|]. intro r. rewrite cp_app by auto. rewrite (cp_low (u4 a)) by (apply u4_low; auto).
    rewrite <- app_assoc, pstr_u4 by auto. rewrite P. reflexivity. }
  destruct (hi_sur a) eqn:HA.
  - destruct u as [|b u'].
    + specialize (U4 [] ltac:(cbn; lia) (Forall_nil _)). cbn [esc merge] in U4. rewrite app_nil_r in U4. exact U4.
    + inversion F2 as [|x y F3 F4]; subst. destruct (lo_sur b) eqn:LB; [|apply U4; auto].
      destruct (IH (length u') ltac:(cbn [length]; lia) u' eq_refl F4) as (T & P). destruct (pair_point a b HA LB) as (S & EU). change (a :: b :: esc u') with ([a; b] ++ esc u'). rewrite EU.
      split; [apply text_app; auto; eexists; split; [constructor; [exact S|constructor]|unfold text_of; cbn [flat_map]; rewrite app_nil_r; reflexivity]|].
      intro r. rewrite code_points_units by auto. cbn [app]. rewrite pstr_plain by lia. rewrite P. reflexivity.
  - destruct (lo_sur a) eqn:LA; [apply U4; auto|]. destruct (IH (length u) ltac:(lia) u eq_refl F2) as (T & P). destruct (esc1_text a F1 HA LA) as (T1 & C1).
    split; [apply text_app; auto|]. intro r. rewrite cp_app, C1 by auto. rewrite <- app_assoc, pstr_esc1 by auto. rewrite P. reflexivity.
Qed.
Definition esc_points (u : txt) : txt := code_points (esc u).
Lemma quote_text u : units_ok u -> text (quote u) /\ code_points (quote u) = quoteE esc_points u.
Proof.
  intro F. destruct (esc_cp u F) as (T & _). assert (T0 : text [34]) by (apply text_low; repeat constructor; lia). unfold quote, quoteE. split; [apply text_app; auto; apply text_app; auto|].
  rewrite cp_app, (cp_app (esc u)) by auto. reflexivity.
Qed.
Lemma number_low t : json_number t -> low t.
Proof.
  intros (s & i & f & e & -> & S & I & F & E). assert (X : forall d, some_digits d -> low d).
  { intros d (_ & D). eapply Forall_impl; [|exact D]. intros c (A & B). lia. }
  assert (low s) by (destruct S as [->| ->]; repeat constructor; lia). assert (low i) by (destruct I as [->|(I & _)]; [repeat constructor; lia|apply X; auto]).
  assert (low f) by (destruct F as [->|(d & -> & D)]; [constructor|constructor; [lia|apply X; auto]]).
  assert (low e). { destruct E as [->|(x & g & d & -> & XX & G & D)]; [constructor|]. constructor; [lia|]. apply Forall_app. split; [|apply X; auto]. destruct G as [->|[->| ->]]; repeat constructor; lia. }
  repeat (apply Forall_app; split); auto.
Qed.
Lemma join_text (l : list txt) : Forall text l -> text (join l) /\ code_points (join l) = join (map code_points l).
Proof.
  assert (T0 : text [44]) by (apply text_low; repeat constructor; lia).
  induction 1 as [|x l X F IH]; [split; [apply text_nil|reflexivity]|]. destruct IH as (T & C). destruct l as [|y l]; [split; auto|].
  change (join (x :: y :: l)) with (x ++ [44] ++ join (y :: l)). split; [apply text_app; auto; apply text_app; auto|]. rewrite cp_app, (cp_app [44]) by auto. rewrite C. reflexivity.
Qed.
Lemma str_text : forall v, wf v -> text (str v) /\ forall d, code_points (str v) = compact esc_points d v.
Proof.
  assert (T91 : text [91]) by (apply text_low; repeat constructor; lia). assert (T123 : text [123]) by (apply text_low; repeat constructor; lia).
  assert (T93 : text [93]) by (apply text_low; repeat constructor; lia). assert (T125 : text [125]) by (apply text_low; repeat constructor; lia). assert (T58 : text [58]) by (apply text_low; repeat constructor; lia).
  induction v using jv_ind2; intro WF; try (split; [apply text_low; repeat constructor; lia|reflexivity]).
  - split; [apply text_low; destruct b; repeat constructor; lia|destruct b; reflexivity].
  - cbn [str strE]. split; [apply text_low|intro; apply cp_low]; apply number_low; auto.
  - cbn [str strE]. destruct (quote_text u WF). auto.
  - cbn [str strE]. assert (X : Forall text (map str l) /\ forall d, map code_points (map str l) = map (compact esc_points d) l).
    { cbn [wfP] in WF. revert WF. induction H as [|v l V _ IH]; intro WF; [split; [constructor|reflexivity]|]. cbn [fold_right] in WF. destruct WF as (W1 & W2). destruct (V W1) as (V1 & V2), (IH W2) as (I1 & I2). cbn [map].
      split; [constructor; auto|]. intro d. rewrite V2 with (d := d), I2 with (d := d). reflexivity. }
    destruct X as (X1 & X2). destruct (join_text _ X1) as (J1 & J2). split; [apply text_app; auto; apply text_app; auto|]. intro d. rewrite around_compact, cp_app, (cp_app (join (map str l))) by auto. rewrite J2, X2 with (d := S d). reflexivity.
  - assert (X : Forall text (members 0 l) /\ forall d, map code_points (members 0 l) = fields esc_points (fun _ => []) [] d l).
    { cbn [wfP] in WF. revert WF. induction H as [|(k, v) l V _ IH]; intro WF; [split; [constructor|reflexivity]|]. cbn [fold_right fst snd] in WF, V. destruct WF as ((W0 & W1) & W2). destruct (V W1) as (V1 & V2), (IH W2) as (I1 & I2).
      rewrite fields_cons. destruct (is_undef v) eqn:U; [split; auto; intro d; rewrite fields_cons, U; auto|]. destruct (quote_text k W0) as (Q1 & Q2). change (quoteE esc k) with (quote k). rewrite <- str_enc. change ([] ++ str v) with (str v).
      split; [constructor; auto; apply text_app; auto; apply (text_app [58]); auto|]. intro d. cbn [map]. rewrite I2 with (d := d), fields_cons, U, cp_app, (cp_app [58]), V2 with (d := d), Q2 by auto. reflexivity. }
    destruct X as (X1 & X2). rewrite (str_obj 0).
    destruct (join_text _ X1) as (J1 & J2). split; [apply text_app; auto; apply text_app; auto|]. intro d. rewrite cp_app, (cp_app (join (members 0 l))) by auto. rewrite J2, X2 with (d := S d). cbn [strE]. rewrite around_compact. reflexivity.
Qed.
Lemma str_nonempty v : wf v -> str v <> [].
Proof. intro WF. destruct (str_head esc (fun u => u) (fun _ => []) [] units_ok (fun u r U => pstr_esc u r U) (fun _ => Forall_nil _) O v WF) as (c & l & E & _). rewrite (str_enc v O), E. discriminate. Qed.

(** JavaScript reads back what it wrote *)
Lemma js_back v : wf v -> parse (str v) = Some (normE (fun u => u) v).
Proof. intro WF. rewrite (str_enc v O). apply read_back with (P := units_ok); auto; try constructor. intros. apply pstr_esc; auto. Qed.
(** and so does the server *)
Lemma server_back v : wf v -> parse (utf8_lossy (utf8_write (str v))) = Some (normE merge v).
Proof.
  intro WF. destruct (str_text v WF) as (T & X). rewrite write_lossy by (apply text_units; auto). rewrite (X O). apply read_back with (P := units_ok); auto; try constructor. intros u r U. apply (esc_cp u U).
Qed.

(** ** Objects whose names are distinct are unchanged by JSON.parse *)
Fixpoint uniq (v : jv) : Prop :=
  match v with
  | JArr l => fold_right (fun x p => uniq x /\ p) True l
  | JObj l => NoDup (map fst l) /\ fold_right (fun kv p => uniq (snd kv) /\ p) True l
  | _ => True
  end.
Lemma oput_new k v l : ~ In k (map fst l) -> oput k v l = l ++ [(k, v)].
Proof.
  induction l as [|(j, w) l IH]; intro N; [reflexivity|]. cbn [oput map fst] in *. assert (j <> k) by (intros ->; apply N; left; auto). rewrite (proj2 (beqb_neq j k)) by auto. rewrite IH; [reflexivity|]. intro; apply N; right; auto.
Qed.
Lemma oput_all : forall (l o : list (txt * jv)), NoDup (map fst (o ++ l)) -> fold_left (fun o kv => oput (fst kv) (snd kv) o) l o = o ++ l.
Proof.
  induction l as [|(k, v) l IH]; intros o N; [rewrite app_nil_r; reflexivity|]. cbn [fold_left fst snd].
  assert (~ In k (map fst o)). { rewrite map_app in N. cbn [map fst] in N. apply NoDup_remove_2 in N. intro; apply N. apply in_or_app. auto. }
  rewrite oput_new by auto. rewrite IH; rewrite <- app_assoc; auto.
Qed.
Lemma js_of_id : forall v, uniq v -> js_of v = v.
Proof.
  induction v using jv_ind2; intro U; auto.
  - cbn [js_of]. f_equal. cbn [uniq] in U. revert U. induction H as [|v l V _ IH]; intro U; auto. cbn [fold_right map] in *. destruct U. rewrite V, IH; auto.
  - cbn [js_of uniq] in *. destruct U as (N & U). assert (X : map (fun kv : txt * jv => (fst kv, js_of (snd kv))) l = l).
    { clear N. revert U. induction H as [|(k, v) l V _ IH]; intro U; auto. cbn [fold_right map fst snd] in *. destruct U. rewrite V, IH; auto. }
    rewrite X. rewrite oput_all; auto.
Qed.
