(** A JSON text that was cut short is not read as anything. *)
From Verif Require Import LibBase CmdModel Utf8 ValueModel ValueProofs JsonModel JsonProofs OptionsModel OptionsProofs.
Open Scope N_scope.

(** ** What is read does not depend on what follows *)
Lemma ws_more s c r t : ws s = c :: r -> ws (s ++ t) = c :: r ++ t.
Proof. induction s as [|x s IH]; cbn [ws app]; [discriminate|]. destruct (is_ws x); auto. intro E. injection E as <- <-. reflexivity. Qed.
Lemma ws_end s c r : ws s = c :: r -> exists p, s = p ++ c :: r.
Proof. induction s as [|x s IH]; cbn [ws]; [discriminate|]. destruct (is_ws x). - intro E. destruct (IH E) as (p & ->). exists (x :: p). reflexivity. - intro E. exists []. exact E. Qed.
Lemma pre_some u r s l : pre u r = Some (s, l) -> exists s', r = Some (s', l) /\ s = u :: s'.
Proof. unfold pre. destruct r as [(a, b)|]; [|discriminate]. intro E. injection E as <- <-. eauto. Qed.
Lemma pstr_more t : forall k s, (length s <= k)%nat -> forall u l, pstr s = Some (u, l) -> pstr (s ++ t) = Some (u, l ++ t) /\ exists p, s = p ++ l.
Proof.
  induction k as [|k IH]; intros s L u l.
  - destruct s; [discriminate|cbn in L; lia].
  - destruct s as [|c r]; [discriminate|]. cbn [length] in L. cbn [pstr app].
    destruct (c =? 34). { intro E. injection E as <- <-. split; auto. exists [c]. reflexivity. }
    destruct (c =? 92).
    + destruct r as [|e r']; [discriminate|]. cbn [app]. destruct (e =? 117).
      * destruct r' as [|a [|b [|x [|d r2]]]]; try discriminate. cbn [app]. destruct (hexn a), (hexn b), (hexn x), (hexn d); try discriminate. intro E. apply pre_some in E. destruct E as (s' & E & ->).
        destruct (IH r2 ltac:(cbn in *; lia) _ _ E) as (A & p & B). rewrite A. split; [reflexivity|]. rewrite B. eexists (c :: e :: a :: b :: x :: d :: p). reflexivity.
      * destruct (unesc e); [|discriminate]. intro E. apply pre_some in E. destruct E as (s' & E & ->).
        destruct (IH r' ltac:(cbn in *; lia) _ _ E) as (A & p & B). rewrite A. split; [reflexivity|]. rewrite B. eexists (c :: e :: p). reflexivity.
    + destruct (c <? 32); [discriminate|]. intro E. apply pre_some in E. destruct E as (s' & E & ->).
      destruct (IH r ltac:(cbn in *; lia) _ _ E) as (A & p & B). rewrite A. split; [reflexivity|]. rewrite B. eexists (c :: p). reflexivity.
Qed.
Lemma span_more p s t a c r : span p s = (a, c :: r) -> span p (s ++ t) = (a, c :: r ++ t).
Proof.
  revert a. induction s as [|x s IH]; intro a; cbn [span app]; [discriminate|]. destruct (p x).
  - destruct (span p s) as (a', b'). intro E. injection E as <- ->. rewrite (IH a' eq_refl). reflexivity.
  - intro E. injection E as <- <- <-. reflexivity.
Qed.
Lemma span_end p s a b : span p s = (a, b) -> s = a ++ b.
Proof. revert a. induction s as [|x s IH]; intro a; cbn [span]; [intro E; injection E as <- <-; reflexivity|]. destruct (p x); [|intro E; injection E as <- <-; reflexivity]. destruct (span p s) as (a', b'). intro E. injection E as <- ->. rewrite (IH a' eq_refl). reflexivity. Qed.
Lemma digits_more s t a c r : digits s = Some (a, c :: r) -> digits (s ++ t) = Some (a, c :: r ++ t).
Proof. unfold digits. destruct (span digit s) as (a', b') eqn:E. destruct a' as [|d a']; [discriminate|]. intro X. injection X as <- ->. rewrite (span_more _ _ t _ _ _ E). reflexivity. Qed.
Lemma digits_end s a b : digits s = Some (a, b) -> s = a ++ b.
Proof. unfold digits. destruct (span digit s) as (a', b') eqn:E. destruct a' as [|d a']; [discriminate|]. intro X. injection X as <- <-. apply span_end in E. exact E. Qed.
Lemma int_more s t a c r : num_int s = Some (a, c :: r) -> num_int (s ++ t) = Some (a, c :: r ++ t).
Proof. destruct s as [|x s]; [discriminate|]. cbn [num_int app]. destruct (x =? 48); [intro E; injection E as <- ->; reflexivity|]. apply (digits_more (x :: s)). Qed.
Lemma int_end s a b : num_int s = Some (a, b) -> exists p, s = p ++ b.
Proof. destruct s as [|x s]; [discriminate|]. cbn [num_int]. destruct (x =? 48). - intro E. injection E as <- <-. exists [x]. reflexivity. - intro E. apply digits_end in E. exists a. exact E. Qed.
Lemma frac_more s t a c r : num_frac s = Some (a, c :: r) -> num_frac (s ++ t) = Some (a, c :: r ++ t).
Proof.
  destruct s as [|x s]; [discriminate|]. cbn [num_frac app]. destruct (x =? 46); [|intro E; injection E as <- <- <-; reflexivity].
  destruct (digits s) as [(d, r')|] eqn:E; [|discriminate]. intro X. injection X as <- ->. rewrite (digits_more _ t _ _ _ E). reflexivity.
Qed.
Lemma frac_end s a b : num_frac s = Some (a, b) -> exists p, s = p ++ b.
Proof.
  destruct s as [|x s]; cbn [num_frac]; [intro E; injection E as <- <-; exists []; reflexivity|]. destruct (x =? 46); [|intro E; injection E as <- <-; exists []; reflexivity].
  destruct (digits s) as [(d, r')|] eqn:E; [|discriminate]. intro X. injection X as <- <-. apply digits_end in E. exists (x :: d). cbn [app]. congruence.
Qed.
Lemma exp_more s t a c r : num_exp s = Some (a, c :: r) -> num_exp (s ++ t) = Some (a, c :: r ++ t).
Proof.
  destruct s as [|x s]; [discriminate|]. cbn [num_exp app]. destruct ((x =? 101) || (x =? 69)); [|intro E; injection E as <- <- <-; reflexivity]. destruct s as [|y s]; [discriminate|]. cbn [app]. destruct ((y =? 43) || (y =? 45)).
  - destruct (digits s) as [(d, r')|] eqn:E; [|discriminate]. intro X. injection X as <- ->. rewrite (digits_more _ t _ _ _ E). reflexivity.
  - destruct (digits (y :: s)) as [(d, r')|] eqn:E; [|discriminate]. intro X. injection X as <- ->. pose proof (digits_more _ t _ _ _ E) as D. cbn [app] in D. rewrite D. reflexivity.
Qed.
Lemma exp_end s a b : num_exp s = Some (a, b) -> exists p, s = p ++ b.
Proof.
  destruct s as [|x s]; cbn [num_exp]; [intro E; injection E as <- <-; exists []; reflexivity|]. destruct ((x =? 101) || (x =? 69)); [|intro E; injection E as <- <-; exists []; reflexivity]. destruct s as [|y s]; [discriminate|]. destruct ((y =? 43) || (y =? 45)).
  - destruct (digits s) as [(d, r')|] eqn:E; [|discriminate]. intro X. injection X as <- <-. apply digits_end in E. exists (x :: y :: d). cbn [app]. congruence.
  - destruct (digits (y :: s)) as [(d, r')|] eqn:E; [|discriminate]. intro X. injection X as <- <-. apply digits_end in E. exists (x :: d). cbn [app]. congruence.
Qed.
Lemma abs_more s t a c r : num_abs s = Some (a, c :: r) -> num_abs (s ++ t) = Some (a, c :: r ++ t).
Proof.
  unfold num_abs. destruct (num_int s) as [(i, r0)|] eqn:E0; [|discriminate]. destruct (num_frac r0) as [(f, r1)|] eqn:E1; [|discriminate]. destruct (num_exp r1) as [(e, r2)|] eqn:E2; [|discriminate]. intro X. injection X as <- ->.
  destruct r1 as [|c1 r1]; [discriminate|]. destruct r0 as [|c0 r0]; [discriminate|]. rewrite (int_more _ t _ _ _ E0). change (c0 :: r0 ++ t) with ((c0 :: r0) ++ t). rewrite (frac_more _ t _ _ _ E1). change (c1 :: r1 ++ t) with ((c1 :: r1) ++ t). rewrite (exp_more _ t _ _ _ E2). reflexivity.
Qed.
Lemma abs_end s a b : num_abs s = Some (a, b) -> exists p, s = p ++ b.
Proof.
  unfold num_abs. destruct (num_int s) as [(i, r0)|] eqn:E0; [|discriminate]. destruct (num_frac r0) as [(f, r1)|] eqn:E1; [|discriminate]. destruct (num_exp r1) as [(e, r2)|] eqn:E2; [|discriminate]. intro X. injection X as <- <-.
  apply int_end in E0. apply frac_end in E1. apply exp_end in E2. destruct E0 as (p0 & ->), E1 as (p1 & ->), E2 as (p2 & ->). exists (p0 ++ p1 ++ p2). rewrite !app_assoc. reflexivity.
Qed.
Lemma lex_more s t a c r : lex_num s = Some (a, c :: r) -> lex_num (s ++ t) = Some (a, c :: r ++ t).
Proof.
  destruct s as [|x s]; [discriminate|]. cbn [lex_num app]. destruct (x =? 45); [|apply (abs_more (x :: s))]. destruct (num_abs s) as [(n, r')|] eqn:E; [|discriminate]. intro X. injection X as <- ->. rewrite (abs_more _ t _ _ _ E). reflexivity.
Qed.
Lemma lex_end s a b : lex_num s = Some (a, b) -> exists p, s = p ++ b.
Proof.
  destruct s as [|x s]; [discriminate|]. cbn [lex_num]. destruct (x =? 45); [|apply abs_end]. destruct (num_abs s) as [(n, r')|] eqn:E; [|discriminate]. intro X. injection X as <- <-. apply abs_end in E. destruct E as (p & ->). exists (x :: p). reflexivity.
Qed.
Lemma lit_more w : forall s t r, lit w s = Some r -> lit w (s ++ t) = Some (r ++ t) /\ exists p, s = p ++ r.
Proof.
  induction w as [|a w IH]; intros s t r; cbn [lit].
  - intro E. injection E as <-. split; auto. exists []. reflexivity.
  - destruct s as [|c s]; [discriminate|]. cbn [app]. destruct (a =? c); [|discriminate]. intro E. destruct (IH _ t _ E) as (A & p & B). split; auto. rewrite B. exists (c :: p). reflexivity.
Qed.
Definition is_num (v : jv) : bool := match v with JNum _ => true | _ => false end.
Lemma pv_more t : forall n,
  (forall m s v l, (n <= m)%nat -> pv n s = Some (v, l) -> (l <> [] \/ is_num v = false -> pv m (s ++ t) = Some (v, l ++ t)) /\ exists p, s = p ++ l) /\
  (forall m s v l, (n <= m)%nat -> parr n s = Some (v, l) -> parr m (s ++ t) = Some (v, l ++ t) /\ exists p, s = p ++ l) /\
  (forall m s v l, (n <= m)%nat -> pobj n s = Some (v, l) -> pobj m (s ++ t) = Some (v, l ++ t) /\ exists p, s = p ++ 125 :: l).
Proof.
  induction n as [|n (IV & IA & IO)]; [repeat split; discriminate|].
  split; [|split]; intros [|m] s v l L; try lia; apply le_S_n in L.
  - cbn [pv]. destruct (ws s) as [|c r] eqn:W; [discriminate|]. rewrite (ws_more _ _ _ t W). destruct (ws_end _ _ _ W) as (p0 & Ep). 
    assert (G : forall x l' (X : exists p, r = p ++ l'), x = l' -> exists p, s = p ++ x). { intros x l' (p & ->) ->. exists (p0 ++ c :: p). rewrite Ep, <- app_assoc. reflexivity. }
    destruct (c =? 34).
    { destruct (pstr r) as [(u, r')|] eqn:E; [|discriminate]. intro X. injection X as <- <-. destruct (pstr_more t (length r) r (le_n _) _ _ E) as (A & B). rewrite A. split; [auto|]. eapply G; eauto. }
    destruct (c =? 91).
    { destruct (ws r) as [|d r'] eqn:W2; [discriminate|]. rewrite (ws_more _ _ _ t W2). destruct (d =? 93).
      - intro X. injection X as <- <-. split; [auto|]. destruct (ws_end _ _ _ W2) as (p1 & ->). eapply G; [|reflexivity]. exists (p1 ++ [d]). rewrite <- app_assoc. reflexivity.
      - destruct (parr n r) as [(l0, r2)|] eqn:E; [|discriminate]. intro X. injection X as <- <-. destruct (IA m _ _ _ L E) as (A & B). rewrite A. split; [auto|]. eapply G; eauto. }
    destruct (c =? 123).
    { destruct (ws r) as [|d r'] eqn:W2; [discriminate|]. rewrite (ws_more _ _ _ t W2). destruct (d =? 125).
      - intro X. injection X as <- <-. split; [auto|]. destruct (ws_end _ _ _ W2) as (p1 & ->). eapply G; [|reflexivity]. exists (p1 ++ [d]). rewrite <- app_assoc. reflexivity.
      - destruct (pobj n r) as [(l0, r2)|] eqn:E; [|discriminate]. intro X. injection X as <- <-. destruct (IO m _ _ _ L E) as (A & p & B). rewrite A. split; [auto|]. eapply G; [|reflexivity]. exists (p ++ [125]). rewrite <- app_assoc. exact B. }
    assert (GL : forall w (x : jv), match lit w (c :: r) with Some r' => Some (x, r') | None => None end = Some (v, l) ->
      (l <> [] \/ is_num v = false -> match lit w (c :: r ++ t) with Some r' => Some (x, r') | None => None end = Some (v, l ++ t)) /\ exists p, s = p ++ l).
    { intros w x. destruct (lit w (c :: r)) as [r'|] eqn:E; [|discriminate]. intro X. injection X as <- <-. destruct (lit_more w (c :: r) t _ E) as (A & p & B). cbn [app] in A. rewrite A. split; auto. exists (p0 ++ p). rewrite Ep, B, <- app_assoc. reflexivity. }
    destruct (c =? 110); [apply GL|]. destruct (c =? 116); [apply GL|]. destruct (c =? 102); [apply GL|].
    destruct (lex_num (c :: r)) as [(x, r')|] eqn:E; [|discriminate]. intro X. injection X as <- <-. split.
    + intros [H|H]; [|discriminate]. destruct r' as [|d r']; [congruence|]. pose proof (lex_more _ t _ _ _ E) as A. cbn [app] in A. rewrite A. reflexivity.
    + apply lex_end in E. destruct E as (p & E). exists (p0 ++ p). rewrite Ep, E, <- app_assoc. reflexivity.
  - cbn [parr]. destruct (pv n s) as [(x, r)|] eqn:E; [|discriminate]. destruct (IV m _ _ _ L E) as (A & p & B). destruct (ws r) as [|c r'] eqn:W; [discriminate|].
    rewrite A by (left; intros ->; discriminate). rewrite (ws_more _ _ _ t W). destruct (ws_end _ _ _ W) as (p1 & ->).
    destruct (c =? 93). { intro X. injection X as <- <-. split; auto. exists (p ++ p1 ++ [c]). rewrite B, <- !app_assoc. reflexivity. }
    destruct (c =? 44); [|discriminate]. destruct (parr n r') as [(l0, r2)|] eqn:E2; [|discriminate]. intro X. injection X as <- <-. destruct (IA m _ _ _ L E2) as (A2 & p2 & B2). rewrite A2. split; auto. exists (p ++ p1 ++ c :: p2). rewrite B, B2, <- !app_assoc. reflexivity.
  - cbn [pobj]. destruct (ws s) as [|q r0] eqn:W; [discriminate|]. rewrite (ws_more _ _ _ t W). destruct (ws_end _ _ _ W) as (p0 & B0). destruct (q =? 34); [|discriminate].
    destruct (pstr r0) as [(k, r1)|] eqn:E; [|discriminate]. destruct (pstr_more t (length r0) r0 (le_n _) _ _ E) as (A & p & B). rewrite A. destruct (ws r1) as [|c r2] eqn:W1; [discriminate|]. rewrite (ws_more _ _ _ t W1). destruct (ws_end _ _ _ W1) as (p1 & B1). destruct (c =? 58); [|discriminate].
    destruct (pv n r2) as [(x, r)|] eqn:E2; [|discriminate]. destruct (IV m _ _ _ L E2) as (A2 & p2 & B2). destruct (ws r) as [|d r'] eqn:W2; [discriminate|].
    rewrite A2 by (left; intros ->; discriminate). rewrite (ws_more _ _ _ t W2). destruct (ws_end _ _ _ W2) as (p3 & B3).
    assert (G : s = (p0 ++ q :: p ++ p1 ++ c :: p2 ++ p3) ++ d :: r'). { rewrite B0, B, B1, B2, B3. rewrite <- !app_assoc. cbn [app]. rewrite <- !app_assoc. cbn [app]. rewrite <- !app_assoc. reflexivity. }
    destruct (N.eqb_spec d 125) as [->|]. { intro X. injection X as <- <-. split; auto. eexists. exact G. }
    destruct (d =? 44); [|discriminate]. destruct (pobj n r') as [(l0, r3)|] eqn:E3; [|discriminate]. intro X. injection X as <- <-. destruct (IO m _ _ _ L E3) as (A4 & p4 & B4). rewrite A4. split; auto. eexists (_ ++ d :: p4). rewrite <- app_assoc. cbn [app]. rewrite <- B4. exact G.
Qed.

(** ** A text of an object, cut *)
Lemma ws_blank l : ws l = [] -> Forall (fun c => is_ws c = true) l.
Proof. induction l as [|c l IH]; cbn [ws]; [constructor|]. destruct (is_ws c) eqn:E; [|discriminate]. constructor; auto. Qed.
Lemma obj_read r v : parse (123 :: r) = Some v -> exists n l p, pv n (123 :: r) = Some (v, l) /\ (n <= 2 * length (123%N :: r))%nat /\ is_num v = false /\ ws l = [] /\ 123 :: r = p ++ 125 :: l.
Proof.
  unfold parse. set (n := (2 * length (123%N :: r))%nat). destruct (pv n (123 :: r)) as [(v0, l)|] eqn:E; [|discriminate]. destruct (ws l) eqn:W; [|discriminate]. intro X. injection X as <-. exists n, l.
  destruct n as [|n]; [discriminate|]. cbn [pv ws] in E. change (is_ws 123) with false in E. cbv iota in E. change (123 =? 34) with false in E. change (123 =? 91) with false in E. change (123 =? 123) with true in E. cbv iota in E.
  assert (G : is_num v0 = false /\ exists p, 123 :: r = p ++ 125 :: l).
  { destruct (ws r) as [|d r'] eqn:W2; [discriminate|]. destruct (N.eqb_spec d 125) as [->|].
    - injection E as <- <-. split; auto. destruct (ws_end _ _ _ W2) as (p & ->). exists (123 :: p). reflexivity.
    - destruct (pobj n r) as [(l0, r2)|] eqn:E2; [|discriminate]. injection E as <- <-. split; auto. destruct (pv_more [] n) as (_ & _ & IO). destruct (IO n _ _ _ (le_n _) E2) as (_ & p & ->). exists (123 :: p). reflexivity. }
  destruct G as (G1 & p & G2). exists p. split; [|auto]. cbn [pv ws]. change (is_ws 123) with false. cbv iota. change (123 =? 34) with false. change (123 =? 91) with false. change (123 =? 123) with true. cbv iota. exact E.
Qed.
Lemma obj_cut r t p v : 123 :: r ++ t = p ++ [125] -> t <> [] -> parse (123 :: r) = Some v -> parse (123 :: r ++ t) = None.
Proof.
  intros T NT H. destruct (obj_read _ _ H) as (n & l & _ & E & L & N & W & _). unfold parse. destruct (pv_more t n) as (IV & _). destruct (IV (2 * length (123%N :: r ++ t))%nat _ _ _ ltac:(cbn [length] in *; rewrite app_length; lia) E) as (A & _).
  specialize (A (or_intror N)). cbn [app] in A. rewrite A. destruct (ws (l ++ t)) eqn:W2; [|reflexivity]. exfalso. apply ws_blank in W2. apply Forall_app in W2. destruct W2 as (_ & W2).
  destruct (exists_last NT) as (t0 & z & ->). apply Forall_app in W2. destruct W2 as (_ & W2). apply Forall_inv in W2. rewrite app_comm_cons, app_assoc in T. apply app_inj_tail in T. destruct T as (_ & ->). discriminate.
Qed.
Lemma obj_tail r z v : 128 <= z -> parse (123 :: r ++ [z]) = Some v -> False.
Proof.
  intros Z H. destruct (obj_read _ _ H) as (_ & l & p & _ & _ & _ & W & E). apply ws_blank in W. destruct l as [|a l] using rev_ind.
  - rewrite app_comm_cons in E. apply app_inj_tail in E. destruct E as (_ & ->). lia.
  - apply Forall_app in W. destruct W as (_ & W). apply Forall_inv in W. rewrite !app_comm_cons, app_assoc in E. apply app_inj_tail in E. destruct E as (_ & ->). apply ws_ws in W. lia.
Qed.

(** ** A file of text, cut *)
Lemma high_lossy : forall k l, (length l <= k)%nat -> Forall (fun b => 128 <= b) l -> Forall (fun b => 128 <= b) (utf8_lossy l) /\ (l <> [] -> utf8_lossy l <> []).
Proof.
  assert (R : 128 <= repl) by (vm_compute; discriminate).
  induction k as [|k IH]; intros l L F.
  - destruct l; [|cbn in L; lia]. split; [constructor|auto].
  - destruct l as [|b r]; [split; [constructor|auto]|]. inversion F as [|? ? Fb Fr]; subst. cbn [length] in L. cbn [utf8_lossy]. rewrite (proj2 (N.ltb_ge b 128)) by auto.
    assert (I : forall x, (length x <= k)%nat -> Forall (fun b => 128 <= b) x -> Forall (fun b => 128 <= b) (utf8_lossy x)) by (intros x Lx Fx; apply (IH x Lx Fx)).
    assert (C : forall a x, 128 <= a -> (length x <= k)%nat -> Forall (fun b => 128 <= b) x -> Forall (fun b => 128 <= b) (a :: utf8_lossy x) /\ (b :: r <> [] -> a :: utf8_lossy x <> [])).
    { intros a x A Lx Fx. split; [constructor; auto|discriminate]. }
    assert (C0 : Forall (fun b => 128 <= b) [repl] /\ (b :: r <> [] -> [repl] <> [])) by (split; [repeat constructor; auto|discriminate]).
    destruct (inr 194 223 b) eqn:I1.
    { unfold inr in I1. apply andb_true_iff in I1. rewrite !N.leb_le in I1. destruct r as [|c r1]; auto. inversion Fr; subst. cbn [length] in L. destruct (cont c); apply C; auto; cbn [length]; lia. }
    destruct (inr 224 239 b) eqn:I2.
    { unfold inr in I2. apply andb_true_iff in I2. rewrite !N.leb_le in I2. destruct r as [|c r1]; auto. inversion Fr; subst. cbn [length] in L.
      destruct (if b =? 224 then inr 160 191 c else if b =? 237 then inr 128 159 c else cont c) eqn:I3; [|apply C; auto; cbn [length]; lia].
      destruct r1 as [|d r2]; auto. inversion H2; subst. cbn [length] in L. destruct (cont d); apply C; auto; cbn [length]; try lia.
      destruct (N.eqb_spec b 224); [|lia]. unfold inr in I3. apply andb_true_iff in I3. rewrite !N.leb_le in I3. lia. }
    destruct (inr 240 244 b) eqn:I4; [|apply C; auto; lia].
    unfold inr in I4. apply andb_true_iff in I4. rewrite !N.leb_le in I4. destruct r as [|c r1]; auto. inversion Fr; subst. cbn [length] in L.
    destruct (if b =? 240 then inr 144 191 c else if b =? 244 then inr 128 143 c else cont c) eqn:I3; [|apply C; auto; cbn [length]; lia].
    destruct r1 as [|d r2]; auto. inversion H2; subst. cbn [length] in L. destruct (cont d); [|apply C; auto; cbn [length]; lia]. destruct r2 as [|e r3]; auto. inversion H4; subst. cbn [length] in L. destruct (cont e); apply C; auto; cbn [length]; try lia.
    destruct (N.eqb_spec b 240); [|lia]. unfold inr in I3. apply andb_true_iff in I3. rewrite !N.leb_le in I3. lia.
Qed.
Lemma put_high n a b : utf8_put n = a ++ b -> b <> [] -> Forall (fun b => 128 <= b) a.
Proof.
  unfold utf8_put. destruct (N.ltb_spec n 128).
  - intros E NB. destruct a as [|x a]; [constructor|]. injection E as _ E. symmetry in E. apply app_eq_nil in E. destruct E. contradiction.
  - intros E _. assert (F : Forall (fun b => 128 <= b) (a ++ b)). { rewrite <- E. destruct (n <? 2048); [|destruct (n <? 65536)]; repeat constructor; lia. } apply Forall_app in F. tauto.
Qed.
Lemma text_cut : forall ns, Forall scalar ns -> forall f rest, f ++ rest = flat_map utf8_put ns -> rest <> [] ->
  exists n1 n2, ns = n1 ++ n2 /\ n2 <> [] /\ (utf8_lossy f = n1 \/ exists y z n n3, utf8_lossy f = n1 ++ y ++ [z] /\ 128 <= z /\ n2 = n :: n3 /\ 128 <= n).
Proof.
  induction 1 as [|n ns S F IH]; intros f rest E NR.
  - cbn in E. apply app_eq_nil in E. destruct E. contradiction.
  - cbn [flat_map] in E. destruct (app_eq_app _ _ _ _ E) as (m & [(E1 & E2)|(E1 & E2)]).
    + destruct rest as [|x rest]; [congruence|]. destruct (IH m (x :: rest)) as (n1 & n2 & -> & N2 & C); [symmetry; exact E2|discriminate|]. exists (n :: n1), n2. split; [reflexivity|]. split; auto. rewrite E1, lossy_put by auto.
      destruct C as [->|(y & z & a & b & -> & Z)]; [left; reflexivity|right; exists y, z, a, b; split; [reflexivity|auto]].
    + destruct m as [|x m].
      * rewrite app_nil_r in E1. cbn [app] in E2. subst f. exists [n], ns. split; [reflexivity|]. split; [intros ->; cbn in E2; congruence|]. left. rewrite <- (app_nil_r (utf8_put n)), lossy_put by auto. reflexivity.
      * exists [], (n :: ns). split; [reflexivity|]. split; [discriminate|]. destruct f as [|b f]; [left; reflexivity|right]. destruct (high_lossy _ _ (le_n _) (put_high _ _ _ E1 ltac:(discriminate))) as (H1 & H2).
        destruct (exists_last (H2 ltac:(discriminate))) as (y & z & Ez). exists y, z, n, ns. rewrite Ez in *. split; [reflexivity|]. apply Forall_app in H1. destruct H1 as (_ & H1). apply Forall_inv in H1. split; [exact H1|]. split; [reflexivity|].
        unfold utf8_put in E1. destruct (N.ltb_spec n 128); auto. injection E1 as _ E1. symmetry in E1. apply app_eq_nil in E1. destruct E1. discriminate.
Qed.
(** No part of the file of an object is read as anything. *)
Lemma file_cut (l : list (txt * jv)) f rest : wfP scalars (JObj l) -> defined (JObj l) -> f ++ rest = flat_map utf8_put (pretty 0 (JObj l)) -> rest <> [] -> server_json f = None.
Proof.
  intros W D E NR. pose proof (file_back _ W D) as FB. unfold server_json in *. rewrite lossy_all in FB by (apply pretty_scalars; auto).
  assert (X : exists m, pretty 0 (JObj l) = 123 :: m ++ [125]).
  { cbn [pretty]. unfold boxed. match goal with |- context [match ?q with [] => _ | _ => _ end] => destruct q as [|y0 q0]; [exists []; reflexivity|] end. eexists. cbn [app]. rewrite app_assoc. reflexivity. }
  destruct X as (m & X). destruct (text_cut _ (pretty_scalars _ 0%nat W) f rest E NR) as (n1 & n2 & E1 & N2 & C). rewrite X in E1, FB.
  destruct n1 as [|c n1]; cbn [app] in E1.
  - destruct C as [->|(y & z & a & b & -> & Z & -> & A)]; [reflexivity|]. injection E1 as <- _. lia.
  - injection E1 as <- E1. destruct C as [->|(y & z & a & b & -> & Z & _)].
    + destruct (parse (123 :: n1)) as [v|] eqn:P; auto. rewrite E1 in FB. rewrite (obj_cut n1 n2 (123 :: m) v) in FB; auto; [discriminate|]. rewrite <- E1. reflexivity.
    + cbn [app]. rewrite app_assoc. destruct (parse (123 :: (n1 ++ y) ++ [z])) as [v|] eqn:P; auto. exfalso. eapply obj_tail; eauto.
Qed.
