(** Lemmas about option objects and configuration files. *)
From Coq Require Import String.
From Verif Require Import LibBase CmdModel Utf8 ValueModel ValueProofs JsonModel JsonProofs OptionsModel.

(** ** Numbers *)
(** [decimal n t]: [t] is [n] in decimal *)
Inductive decimal : N -> txt -> Prop :=
| d_one : forall d, d < 10 -> decimal d [48 + d]
| d_more : forall n d t, decimal n t -> n <> 0 -> d < 10 -> decimal (10 * n + d) (t ++ [48 + d]).
Lemma dec_val_snoc t c : dec_val (t ++ [c]) = dec_val t * 10 + (c - 48).
Proof. unfold dec_val. rewrite fold_left_app. reflexivity. Qed.
Lemma digit_in c : digit c = true <-> isdigit c.
Proof. unfold digit, isdigit, inr. rewrite andb_true_iff, !N.leb_le. reflexivity. Qed.
Lemma digits_in t : forallb digit t = true <-> Forall isdigit t.
Proof. rewrite forallb_forall, Forall_forall. split; intros H x I; apply digit_in; auto. Qed.
Lemma decimal_val n t : decimal n t -> dec_val t = n /\ Forall isdigit t /\ t <> [].
Proof.
  induction 1 as [d D|n d t D (IH1 & IH2 & IH3) NZ L].
  - split; [unfold dec_val; cbn [fold_left]; lia|]. split; [constructor; [unfold isdigit; lia|constructor]|discriminate].
  - rewrite dec_val_snoc, IH1. split; [lia|]. split; [apply Forall_app; split; auto; constructor; [unfold isdigit; lia|constructor]|]. destruct t; discriminate.
Qed.
Lemma decimal_head n t : decimal n t -> t = [48] \/ hd 0 t <> 48.
Proof.
  induction 1 as [d D|n d t D IH NZ L].
  - destruct (N.eq_dec d 0) as [->|]; [left; reflexivity|right; cbn [hd]; lia].
  - right. destruct IH as [->|IH]; [|destruct t as [|a t]; [destruct (decimal_val _ _ D) as (_ & _ & X); contradiction|exact IH]].
    destruct (decimal_val _ _ D) as (X & _). vm_compute in X. congruence.
Qed.
Lemma decimal_number n t : decimal n t -> json_number t.
Proof.
  intro D. destruct (decimal_val n t D) as (_ & F & NE). exists [], t, [], []. rewrite !app_nil_r. split; [reflexivity|]. split; [auto|]. split; [|auto]. destruct (decimal_head n t D) as [H|H]; [left; auto|right]. split; [split|]; auto.
Qed.
Lemma dec_val_pos t : t <> [] -> hd 0 t <> 48 -> Forall isdigit t -> dec_val t <> 0.
Proof.
  induction t as [|c t IH] using rev_ind; [congruence|]. intros _ H F. apply Forall_app in F. destruct F as (F1 & F2). inversion F2 as [|? ? (C1 & C2) _]; subst. rewrite dec_val_snoc.
  destruct t as [|a t]; [cbn [hd app] in H; vm_compute (dec_val []); lia|]. specialize (IH ltac:(discriminate) H F1). lia.
Qed.
Lemma val_decimal t : t <> [] -> Forall isdigit t -> (t = [48] \/ hd 0 t <> 48) -> decimal (dec_val t) t.
Proof.
  intros NE F H. destruct H as [->|H]; [apply (d_one 0); lia|]. revert NE F H. induction t as [|c t IH] using rev_ind; [congruence|]. intros _ F H. apply Forall_app in F. destruct F as (F1 & F2). inversion F2 as [|? ? (C1 & C2) _]; subst. rewrite dec_val_snoc.
  destruct t as [|a t].
  - change (dec_val [] * 10 + (c - 48)) with (0 + (c - 48)). cbn [app]. replace [c] with [48 + (c - 48)] by (f_equal; lia). rewrite N.add_0_l. apply d_one. lia.
  - pose proof (dec_val_pos (a :: t) ltac:(discriminate) H F1). specialize (IH ltac:(discriminate) F1 H). replace [c] with [48 + (c - 48)] by (f_equal; lia). rewrite (N.mul_comm (dec_val _)). apply d_more; auto. lia.
Qed.
Lemma number_decimal t : json_number t -> forallb digit t = true -> decimal (dec_val t) t.
Proof.
  intros (s & i & f & e & -> & S & I & F & E) D. rewrite !forallb_app, !andb_true_iff in D. destruct D as (D1 & D2 & D3 & D4).
  assert (s = []) by (destruct S as [->| ->]; auto; discriminate). assert (f = []) by (destruct F as [->|(d & -> & _)]; auto; discriminate).
  assert (e = []). { destruct E as [->|(x & g & d & -> & X & _)]; auto. cbn [forallb] in D4. destruct X as [-> | ->]; discriminate. }
  subst. rewrite !app_nil_r. cbn [app]. destruct I as [->|((NE & F') & H)]; apply val_decimal; auto; try discriminate. constructor; [unfold isdigit; lia|constructor].
Qed.
Lemma dec_fuel_ok : forall k n, n < 2 ^ N.of_nat k -> (1 <= k)%nat -> decimal n (dec_fuel k n).
Proof.
  induction k as [|k IH]; intros n L K; [lia|]. cbn [dec_fuel]. destruct (N.ltb_spec n 10); [apply d_one; auto|].
  rewrite Nat2N.inj_succ, N.pow_succ_r' in L. pose proof (N.div_mod n 10 ltac:(discriminate)) as DM. pose proof (N.mod_lt n 10 ltac:(discriminate)) as ML. generalize dependent (n / 10). generalize dependent (n mod 10). intros m ML q DM.
  subst n. assert (k <> O) by (intros ->; change (2 ^ N.of_nat 0) with 1 in L; lia). apply d_more; try lia. apply IH; lia.
Qed.
Lemma dec_ok n : decimal n (dec n).
Proof.
  unfold dec. apply dec_fuel_ok; [|lia]. rewrite Nat2N.inj_succ, N2Nat.id. destruct (N.eq_dec n 0) as [->|]; [reflexivity|]. apply N.log2_spec. lia.
Qed.
Lemma as_uint_dec max n t : decimal n t -> as_uint max (JNum t) = if n <=? max then Some n else None.
Proof. intro D. destruct (decimal_val n t D) as (V & F & _). cbn [as_uint]. rewrite (proj2 (digits_in t) F), V. reflexivity. Qed.
Lemma as_uint_inv max v n : (forall t, v = JNum t -> json_number t) -> as_uint max v = Some n -> n <= max /\ exists t, v = JNum t /\ decimal n t.
Proof.
  intros J H. destruct v; try discriminate. cbn [as_uint] in H. destruct (forallb digit t) eqn:D; [|discriminate]. destruct (N.leb_spec (dec_val t) max) as [L|L]; [|discriminate]. cbn [andb] in H. injection H as <-. split; auto. exists t. split; auto. apply number_decimal; auto.
Qed.

(** ** Names *)
Lemma merge_low k : low k -> forall u, merge u = k -> u = k.
Proof.
  induction 1 as [|c k C _ IH]; intros u E.
  - destruct u as [|a u]; auto. exfalso. cbn [merge] in E. destruct (hi_sur a); [destruct u as [|b u]; [discriminate|destruct (lo_sur b)]|]; discriminate.
  - destruct u as [|a u]; [discriminate|]. cbn [merge] in E. destruct (hi_sur a) eqn:H.
    + exfalso. pose proof (hi_range a H). destruct u as [|b u]; [injection E as E _; lia|]. destruct (lo_sur b); injection E as E _; lia.
    + injection E as -> E. f_equal. auto.
Qed.
Lemma merge_id u : low u -> merge u = u.
Proof.
  induction 1 as [|c u C _ IH]; auto. cbn [merge]. destruct (hi_sur c) eqn:H; [pose proof (hi_range c H); lia|]. rewrite IH. reflexivity.
Qed.
Lemma merge_units n r : scalar n -> merge (units n ++ r) = n :: merge r.
Proof.
  intro S. unfold units. destruct (N.ltb_spec n 65536) as [L|L].
  - cbn [app merge]. assert (H : hi_sur n = false) by (unfold hi_sur; apply inr_out; unfold scalar in S; lia). rewrite H. reflexivity.
  - pose proof (N.mod_lt (n - 65536) 1024 ltac:(discriminate)) as M. pose proof (N.div_mod (n - 65536) 1024 ltac:(discriminate)) as DM. generalize dependent ((n - 65536) mod 1024). generalize dependent ((n - 65536) / 1024). intros q m M DM.
    unfold scalar in S. cbn [app merge]. assert (H : hi_sur (55296 + q) = true) by (unfold hi_sur; apply inr_in; lia). assert (H2 : lo_sur (56320 + m) = true) by (unfold lo_sur; apply inr_in; lia). rewrite H, H2. f_equal. lia.
Qed.
Lemma merge_text u : text u -> Forall scalar (merge u).
Proof.
  intros (ns & S & ->). induction S as [|n ns S _ IH]; [constructor|]. unfold text_of in *. cbn [flat_map]. rewrite merge_units by auto. constructor; auto.
Qed.
Lemma scalar_clean u : Forall scalar u -> existsb surrogate u = false.
Proof.
  induction 1 as [|c u C _ IH]; auto. cbn [existsb]. rewrite IH. unfold surrogate, hi_sur, lo_sur, scalar in *. rewrite !inr_out by lia. reflexivity.
Qed.

(** ** Members *)
Definition names (l : list (txt * jv)) : list txt := map fst l.
Definition sent (l : list (txt * jv)) : list (txt * jv) := flat_map (fun kv => if is_undef (snd kv) then [] else [(merge (fst kv), normE merge (snd kv))]) l.
(** the value of a member; undefined if it is not there *)
Definition member (k : txt) (l : list (txt * jv)) (v : jv) : Prop := In (k, v) l \/ ~ In k (names l) /\ v = JUndef.
Lemma named_app k a b : named k (a ++ b) = named k a ++ named k b.
Proof. unfold named. rewrite filter_app, map_app. reflexivity. Qed.
Lemma sent_cons kv l : sent (kv :: l) = (if is_undef (snd kv) then [] else [(merge (fst kv), normE merge (snd kv))]) ++ sent l.
Proof. reflexivity. Qed.
Lemma named_none k l : low k -> ~ In k (names l) -> named k (sent l) = [].
Proof.
  intros K. induction l as [|(j, x) l IH]; intro N; auto. unfold names in *. cbn [map fst] in N. rewrite sent_cons, named_app, IH by (intro; apply N; right; auto). rewrite app_nil_r. cbn [fst snd].
  destruct (is_undef x); auto. unfold named. cbn [filter fst map]. destruct (beqb (merge j) k) eqn:E; auto. apply beqb_eq in E. exfalso. apply N. left. apply merge_low in E; auto.
Qed.
Lemma named_get k l v : low k -> NoDup (names l) -> member k l v -> named k (sent l) = if is_undef v then [] else [normE merge v].
Proof.
  intros K ND [I|(N & ->)]; [|apply named_none; auto]. induction l as [|(j, x) l IH]; [destruct I|]. unfold names in ND. cbn [map fst] in ND. inversion ND as [|? ? N1 N2]; subst.
  rewrite sent_cons, named_app. cbn [fst snd]. destruct I as [I|I].
  - injection I as -> ->. rewrite (named_none k l K N1), app_nil_r. destruct (is_undef v); auto. unfold named. cbn [filter fst]. rewrite (merge_id k K), (proj2 (beqb_eq k k)) by auto. reflexivity.
  - rewrite (IH N2 I). destruct (is_undef x); auto. unfold named. cbn [filter fst]. destruct (beqb (merge j) k) eqn:E; auto. apply beqb_eq in E. apply merge_low in E; auto. subst j.
    exfalso. apply N1. apply in_map_iff. exists (k, v). auto.
Qed.
(** an optional number of at most [max]: not given, or given *)
Inductive given (max : N) : jv -> option N -> Prop :=
| g_undef : given max JUndef None
| g_null : given max JNull None
| g_num : forall n t, decimal n t -> n <= max -> given max (JNum t) (Some n).
(** no number of at most [max]; NaN and the infinities are not counted here *)
Definition wrong (max : N) (v : jv) : Prop := v <> JUndef /\ v <> JNull /\ v <> JNaN /\ forall t n, v = JNum t -> decimal n t -> max < n.
Lemma field_given max k l v o : low k -> NoDup (names l) -> member k l v -> given max v o -> field k (as_uint max) (sent l) = Some o.
Proof.
  intros K ND M G. unfold field. rewrite (named_get k l v K ND M). destruct G as [| |n t D L]; cbn [is_undef normE]; auto. unfold opt. rewrite (as_uint_dec max n t D), (proj2 (N.leb_le n max)) by auto. reflexivity.
Qed.
Lemma norm_num v t : normE merge v = JNum t -> v = JNum t.
Proof. destruct v; try discriminate. auto. Qed.
Lemma wf_member P k l v : wfP P (JObj l) -> In (k, v) l -> wfP P v.
Proof. cbn [wfP]. induction l as [|(j, x) l IH]; intros W I; [destruct I|]. cbn [fold_right fst snd] in W. destruct W as ((W1 & W2) & W3), I as [I|I]; auto. injection I as -> ->. auto. Qed.
Lemma field_wrong max k l v : low k -> NoDup (names l) -> wf (JObj l) -> member k l v -> wrong max v -> field k (as_uint max) (sent l) = None.
Proof.
  intros K ND W M (N1 & N2 & N3 & N4). unfold field. rewrite (named_get k l v K ND M). assert (WV : wf v). { destruct M as [M|(_ & ->)]; [eapply wf_member; eauto|exact I]. }
  assert (U : is_undef v = false) by (destruct v; auto; congruence). rewrite U. assert (X : as_uint max (normE merge v) = None).
  { destruct (as_uint max (normE merge v)) as [n|] eqn:E; auto. apply as_uint_inv in E.
    - destruct E as (L & t & E & D). apply norm_num in E. specialize (N4 t n E D). lia.
    - intros t E2. apply norm_num in E2. subst v. exact WV. }
  unfold opt. rewrite X. destruct v; auto; congruence.
Qed.
Lemma struct_sent ks deny l : Forall (fun k => text k) (names l) -> (deny = true -> forall k v, In (k, v) l -> v <> JUndef -> In k ks /\ low k) -> struct ks deny (JObj (sent l)) = Some (sent l).
Proof.
  intros T D. unfold struct. assert (X : forallb (fun kv : txt * jv => negb (existsb surrogate (fst kv)) && (negb deny || existsb (beqb (fst kv)) ks)) (sent l) = true); [|rewrite X; reflexivity].
  apply forallb_forall. intros (k, v) I. unfold sent in I. apply in_flat_map in I. destruct I as ((j, x) & I & J). cbn [fst snd] in *. destruct (is_undef x) eqn:U; [destruct J|]. destruct J as [J|[]]. injection J as <- <-.
  rewrite scalar_clean. 2: { apply merge_text. rewrite Forall_forall in T. apply T. apply in_map_iff. exists (j, x). auto. }
  cbn [negb andb]. destruct deny; auto. cbn [negb orb]. destruct (D eq_refl j x I) as (D1 & D2); [intros ->; discriminate|]. apply existsb_exists. exists j. split; auto. apply beqb_eq. apply merge_id; auto.
Qed.
Lemma struct_strict ks l k v : Forall low ks -> In (k, v) l -> v <> JUndef -> ~ In k ks -> struct ks true (JObj (sent l)) = None.
Proof.
  intros LK I U N. unfold struct. assert (X : forallb (fun kv : txt * jv => negb (existsb surrogate (fst kv)) && (negb true || existsb (beqb (fst kv)) ks)) (sent l) = false); [|rewrite X; reflexivity].
  apply not_true_is_false. intro F. rewrite forallb_forall in F. specialize (F (merge k, normE merge v)). cbn [fst snd] in F. cbn [negb orb] in F.
  assert (IN : In (merge k, normE merge v) (sent l)). { apply in_flat_map. exists (k, v). split; auto. cbn [fst snd]. destruct v; cbn [is_undef]; try (left; reflexivity). congruence. }
  apply F in IN. apply andb_true_iff in IN. destruct IN as (_ & IN). apply existsb_exists in IN. destruct IN as (j & J & E). apply beqb_eq in E. rewrite Forall_forall in LK. apply merge_low in E; auto. subst j. auto.
Qed.
Lemma struct_some ks deny l m : struct ks deny (JObj l) = Some m -> m = l.
Proof. unfold struct. destruct (forallb _ l); congruence. Qed.
Lemma server_obj l : wf (JObj l) -> server_json (sdk_opts (JObj l)) = Some (JObj (sent l)).
Proof. intro W. unfold server_json, sdk_opts. rewrite server_back by auto. reflexivity. Qed.

(** ** Files *)
Lemma pstr_esc1_scalar a r : scalar a -> pstr (esc1 a ++ r) = pre a (pstr r).
Proof.
  intro S. destruct (N.lt_ge_cases a 65536); [apply pstr_esc1; auto|]. assert (E1 : esc1 a = [a]) by (unfold esc1; rewrite !(proj2 (N.eqb_neq a _)) by lia; rewrite (proj2 (N.ltb_ge a 32)) by lia; reflexivity). rewrite E1. cbn [app]. apply pstr_plain; lia.
Qed.
Lemma pstr_rust : forall u r, Forall scalar u -> pstr (esc_rust u ++ 34 :: r) = Some (u, r).
Proof.
  intros u r F. induction F as [|a u A _ IH]; [reflexivity|]. unfold esc_rust in *. cbn [flat_map]. rewrite <- app_assoc, pstr_esc1_scalar by auto. rewrite IH. reflexivity.
Qed.
Fixpoint defined (v : jv) : Prop :=
  match v with
  | JUndef | JNaN => False
  | JArr l => fold_right (fun x p => defined x /\ p) True l
  | JObj l => fold_right (fun kv p => defined (snd kv) /\ p) True l
  | _ => True
  end.
Lemma pretty_enc : forall v d, defined v -> pretty d v = strE esc_rust indent [32] d v.
Proof.
  induction v using jv_ind2; intros d D; try reflexivity.
  - cbn [pretty strE]. unfold boxed, around. replace (map (pretty (S d)) l) with (map (strE esc_rust indent [32] (S d)) l); [reflexivity|]. cbn [defined] in D. revert D. induction H as [|v l V _ IH]; intro D; auto. cbn [fold_right map] in *. destruct D. rewrite IH, V; auto.
  - cbn [pretty strE]. unfold boxed, around. match goal with |- context [map ?f l] => replace (map f l) with (flat_map (fun kv : txt * jv => if is_undef (snd kv) then [] else [quoteE esc_rust (fst kv) ++ [58] ++ [32] ++ strE esc_rust indent [32] (S d) (snd kv)]) l) end; [reflexivity|].
    cbn [defined] in D. revert D. induction H as [|(k, v) l V _ IH]; intro D; auto. cbn [fold_right map flat_map fst snd] in *. destruct D as (D1 & D2). rewrite IH, (V (S d)) by auto. destruct v; try reflexivity; destruct D1.
Qed.
Lemma norm_defined : forall v, defined v -> normE (fun u => u) v = v.
Proof.
  induction v using jv_ind2; intro D; try reflexivity; try (destruct D).
  - cbn [normE]. f_equal. cbn [defined] in D. revert D. induction H as [|v l V _ IH]; intro D; auto. cbn [fold_right map] in *. destruct D. rewrite IH, V; auto.
  - cbn [normE]. f_equal. cbn [defined] in D. revert D. induction H as [|(k, v) l V _ IH]; intro D; auto. cbn [fold_right flat_map fst snd] in *. destruct D as (D1 & D2). rewrite IH by auto. rewrite (V D1). destruct v; try reflexivity; destruct D1.
Qed.
Notation scalars := (Forall scalar).
Lemma low_scalars u : low u -> scalars u.
Proof. unfold low. apply Forall_impl. intros c C. unfold scalar. lia. Qed.
Lemma indent_scalars d : scalars (indent d).
Proof. unfold indent. constructor; [unfold scalar; lia|]. apply Forall_forall. intros x I. apply repeat_spec in I. subst. unfold scalar; lia. Qed.
Lemma esc_scalars u : scalars u -> scalars (esc_rust u).
Proof.
  induction 1 as [|a u A _ IH]; [constructor|]. unfold esc_rust in *. cbn [flat_map]. apply Forall_app. split; auto. destruct (N.lt_ge_cases a 55296) as [L|L]; [apply low_scalars, esc1_low; auto|].
  assert (E1 : esc1 a = [a]) by (unfold esc1; rewrite !(proj2 (N.eqb_neq a _)) by lia; rewrite (proj2 (N.ltb_ge a 32)) by lia; reflexivity). rewrite E1. auto.
Qed.
Lemma join_scalars l : Forall (fun t : txt => scalars t) l -> scalars (join l).
Proof.
  induction 1 as [|x l X F IH]; [constructor|]. destruct l as [|y l]; cbn [join]; auto. apply Forall_app. split; auto. constructor; auto. unfold scalar; lia.
Qed.
Lemma boxed_scalars a b d l : scalar a -> scalar b -> Forall (fun t : txt => scalars t) l -> scalars (boxed a b d l).
Proof.
  intros A B F. unfold boxed. destruct l as [|x l]; [auto|]. apply Forall_app. split; [auto|]. apply Forall_app. split.
  - apply join_scalars. apply Forall_forall. intros t I. apply in_map_iff in I. destruct I as (y & <- & I). apply Forall_app. split; [apply indent_scalars|]. rewrite Forall_forall in F. auto.
  - apply Forall_app. split; [apply indent_scalars|auto].
Qed.
Lemma pretty_scalars : forall v d, wfP scalars v -> scalars (pretty d v).
Proof.
  assert (Q : forall u, scalars u -> scalars ([34] ++ esc_rust u ++ [34])). { intros u U. apply Forall_app. split; [repeat constructor; unfold scalar; lia|]. apply Forall_app. split; [apply esc_scalars; auto|repeat constructor; unfold scalar; lia]. }
  induction v using jv_ind2; intros d W; cbn [pretty].
  - apply low_scalars; repeat constructor; lia.
  - apply low_scalars; repeat constructor; lia.
  - destruct b; apply low_scalars; repeat constructor; lia.
  - apply low_scalars, number_low; auto.
  - apply low_scalars; repeat constructor; lia.
  - auto.
  - apply boxed_scalars; try (unfold scalar; lia). cbn [wfP] in W. revert W. induction H as [|v l V _ IH]; intro W; constructor; cbn [fold_right] in W; destruct W; auto.
  - apply boxed_scalars; try (unfold scalar; lia). cbn [wfP] in W. revert W. induction H as [|(k, v) l V _ IH]; intro W; constructor; cbn [fold_right fst snd] in *; destruct W as ((W1 & W2) & W3); auto. apply Forall_app. split; auto. apply Forall_app. split; auto.
    repeat constructor; unfold scalar; lia.
Qed.
Lemma file_back v : wfP scalars v -> defined v -> server_json (flat_map utf8_put (pretty 0 v)) = Some v.
Proof.
  intros W D. unfold server_json. rewrite lossy_all by (apply pretty_scalars; auto). rewrite pretty_enc by auto. rewrite <- (norm_defined v D) at 2. apply read_back with (P := scalars); auto.
  - intros u r U. apply pstr_rust; auto.
  - intro d. unfold blank, indent. constructor; [reflexivity|]. apply Forall_forall. intros x I. apply repeat_spec in I. subst. reflexivity.
  - repeat constructor.
Qed.
