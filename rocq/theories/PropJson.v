(** Property C100, for the values that go as JSON. *)
From Verif Require Import LibBase CmdModel Utf8 ValueModel ValueProofs JsonModel JsonProofs PropValue.

(** A value JavaScript can hold: strings and names are 16-bit units, numbers are numbers,
    the names of an object are distinct. *)
Inductive held : jv -> Prop :=
| h_undef : held JUndef
| h_null : held JNull
| h_bool : forall b, held (JBool b)
| h_num : forall t, json_number t -> held (JNum t)
| h_nan : held JNaN
| h_str : forall u, js_string u -> held (JStr u)
| h_arr : forall l, Forall held l -> held (JArr l)
| h_obj : forall l, Forall (fun kv => js_string (fst kv) /\ held (snd kv)) l -> NoDup (map fst l) -> held (JObj l).
(** [view v x]: [x] is what JSON keeps of [v]: a member that is undefined
    is left out; NaN, the infinities and an undefined element are null; all else is kept. *)
Inductive view : jv -> jv -> Prop :=
| v_undef : view JUndef JNull
| v_nan : view JNaN JNull
| v_null : view JNull JNull
| v_bool : forall b, view (JBool b) (JBool b)
| v_num : forall t, view (JNum t) (JNum t)
| v_str : forall u, view (JStr u) (JStr u)
| v_arr : forall l m, Forall2 view l m -> view (JArr l) (JArr m)
| v_obj : forall l m, views l m -> view (JObj l) (JObj m)
with views : list (txt * jv) -> list (txt * jv) -> Prop :=
| vs_nil : views [] []
| vs_drop : forall k l m, views l m -> views ((k, JUndef) :: l) m
| vs_keep : forall k v x l m, v <> JUndef -> view v x -> views l m -> views ((k, v) :: l) ((k, x) :: m).
(** [plain v]: no undefined, NaN or infinity anywhere *)
Inductive plain : jv -> Prop :=
| p_null : plain JNull
| p_bool : forall b, plain (JBool b)
| p_num : forall t, plain (JNum t)
| p_str : forall u, plain (JStr u)
| p_arr : forall l, Forall plain l -> plain (JArr l)
| p_obj : forall l, Forall (fun kv => plain (snd kv)) l -> plain (JObj l).

Notation keep := (fun u : txt => u).
Lemma held_wf : forall v, held v -> wf v.
Proof.
  induction v using jv_ind2; intro G; inversion G; subst; cbn [wfP]; auto.
  - match goal with X : Forall held l |- _ => revert X end. clear - H. induction H as [|v l V _ IH]; intro X; cbn [fold_right]; auto. inversion X; subst. auto.
  - match goal with X : Forall _ l |- _ => revert X end. clear - H. induction H as [|(k, v) l V _ IH]; intro X; cbn [fold_right]; auto. inversion X as [|? ? (X1 & X2) X3]; subst. cbn [fst snd] in *. auto.
Qed.
Lemma norm_view : forall v, view v (normE keep v).
Proof.
  induction v using jv_ind2; cbn [normE]; try constructor.
  - induction H as [|v l V _ IH]; cbn [map]; constructor; auto.
  - induction H as [|(k, v) l V _ IH]; cbn [flat_map fst snd]; [constructor|]. destruct v; cbn [is_undef app]; constructor; auto; discriminate.
Qed.
Lemma norm_uniq : forall v, held v -> uniq (normE keep v).
Proof.
  induction v using jv_ind2; intro G; inversion G; subst; cbn [normE uniq]; auto.
  - match goal with X : Forall held l |- _ => revert X end. clear - H. induction H as [|v l V _ IH]; intro X; cbn [fold_right map]; auto. inversion X; subst. auto.
  - match goal with X : Forall _ l, Y : NoDup _ |- _ => revert X Y end. clear - H. intros X Y. split.
    + clear H X. induction l as [|(k, v) l IH]; cbn [flat_map map fst snd]; [constructor|]. cbn [map fst] in Y. inversion Y as [|? ? Y1 Y2]; subst.
      assert (NI : ~ In k (map fst (flat_map (fun kv : txt * jv => if is_undef (snd kv) then [] else [(fst kv, normE keep (snd kv))]) l))).
      { intro I. apply in_map_iff in I. destruct I as ((k', x) & E & I). cbn [fst] in E. subst k'. apply in_flat_map in I. destruct I as ((k', y) & I & J). cbn [fst snd] in J. destruct (is_undef y); [destruct J|]. destruct J as [J|[]]. injection J as -> _.
        apply Y1. apply in_map_iff. exists (k, y). auto. }
      destruct (is_undef v); cbn [app map fst]; [apply IH; auto|constructor; auto].
    + clear Y. induction H as [|(k, v) l V _ IH]; cbn [flat_map]; [exact I|]. inversion X as [|? ? (X1 & X2) X3]; subst. cbn [fst snd] in *. destruct (is_undef v); cbn [app fold_right snd]; auto.
Qed.
Lemma norm_plain : forall v, plain v -> normE keep v = v.
Proof.
  induction v using jv_ind2; intro G; inversion G; subst; cbn [normE]; auto.
  - f_equal. match goal with X : Forall plain l |- _ => revert X end. clear - H. induction H as [|v l V _ IH]; intro X; cbn [map]; auto. inversion X; subst. f_equal; auto.
  - f_equal. match goal with X : Forall _ l |- _ => revert X end. clear - H. induction H as [|(k, v) l V _ IH]; intro X; cbn [flat_map]; auto. inversion X as [|? ? X1 X2]; subst. cbn [fst snd] in *.
    destruct v; cbn [is_undef app]; try (rewrite V, IH by auto; reflexivity). inversion X1.
Qed.

(** * C100: what goes as JSON comes back as JSON sees it. *)
Theorem C100_json_values : forall v, held v -> (forall u, v <> JStr u) ->
  exists b x, any jv js_stringify (VJson v) = Some b /\ view v x /\ decode_any jv js_parse JNull b = Some (VJson x) /\ (plain v -> x = v).
Proof.
  intros v H NS. pose proof (held_wf v H) as WF. exists (t_json :: utf8_write (str v)), (normE keep v). split; [reflexivity|]. split; [apply norm_view|]. split; [|apply norm_plain].
  unfold decode_any. change (t_json =? t_json) with true. cbn iota. destruct (str_text v WF) as (T & _).
  destruct (utf8_write (str v)) as [|y r] eqn:W; [apply write_nil in W; destruct (str_nonempty v WF W)|]. rewrite <- W, text_back by auto. unfold js_parse. rewrite js_back by auto.
  pose proof (js_of_id _ (norm_uniq v H)) as E. destruct v; cbn [normE] in *; try rewrite E; try reflexivity. destruct (NS u eq_refl).
Qed.
Print Assumptions C100_json_values.
(** Two plain values with the same bytes are the same value. *)
Theorem C100_json_distinct : forall v w, held v -> held w -> plain v -> plain w -> (forall u, v <> JStr u) -> (forall u, w <> JStr u) ->
  any jv js_stringify (VJson v) = any jv js_stringify (VJson w) -> v = w.
Proof.
  intros v w H1 H2 P1 P2 N1 N2 E. destruct (C100_json_values v H1 N1) as (b & x & A & _ & D & X). destruct (C100_json_values w H2 N2) as (c & y & A' & _ & D' & X').
  specialize (X P1). specialize (X' P2). subst x y. rewrite E, A' in A. injection A as ->. congruence.
Qed.
Print Assumptions C100_json_distinct.
(** The three kinds are never confused: the bytes of a JSON value are those of no string
    and no Buffer. *)
Theorem C100_kinds : forall v u b p, any jv js_stringify (VJson v) = Some p -> any jv js_stringify (VStr u) <> Some p /\ any jv js_stringify (VBuf b) <> Some p.
Proof. intros v u b p E. injection E as <-. split; intro F; discriminate. Qed.
Print Assumptions C100_kinds.
(** Not every value comes back: NaN is null, and so is an infinity within an array. *)
Theorem C100_nan_refuted : exists v b x, held v /\ any jv js_stringify (VJson v) = Some b /\ decode_any jv js_parse JNull b = Some (VJson x) /\ x <> v.
Proof.
  exists (JArr [JNaN]), (t_json :: utf8_write (str (JArr [JNaN]))), (JArr [JNull]). split; [repeat constructor|]. split; [reflexivity|]. split; [vm_compute; reflexivity|discriminate].
Qed.
Print Assumptions C100_nan_refuted.
(** {"a":[1.5e+300,"😀\ud800\n"],"b":undefined,"":{}} *)
Notation jex := (JObj [([97], JArr [JNum [49; 46; 53; 101; 43; 51; 48; 48]; JStr [55357; 56832; 55296; 10]]); ([98], JUndef); ([], JObj [])]).
Example C100_json_example : held jex /\ plain (JArr [JNull; JStr [55296]]) /\
  (match any jv js_stringify (VJson jex) with Some b => decode_any jv js_parse JNull b | None => None end) = Some (VJson (JObj [([97], JArr [JNum [49; 46; 53; 101; 43; 51; 48; 48]; JStr [55357; 56832; 55296; 10]]); ([], JObj [])])).
Proof.
  split; [|split; [repeat constructor|vm_compute; reflexivity]].
  assert (json_number [49; 46; 53; 101; 43; 51; 48; 48]).
  { exists [], [49], [46; 53], [101; 43; 51; 48; 48]. unfold some_digits, isdigit. split; [reflexivity|]. split; [auto|]. split; [|split].
    - right. split; [split; [discriminate|]|discriminate]. constructor; [lia|constructor].
    - right. exists [53]. split; [reflexivity|]. split; [discriminate|]. constructor; [lia|constructor].
    - right. exists 101, [43], [51; 48; 48]. split; [reflexivity|]. split; [auto|]. split; [auto|]. split; [discriminate|]. repeat (constructor; [lia|]). constructor. }
  assert (N1 : ~ In [97] [[98]; []]) by (intros [E|[E|[]]]; discriminate). assert (N2 : ~ In [98] [(@nil N)]) by (intros [E|[]]; discriminate).
  constructor; [|cbn [map fst]; repeat constructor; auto].
  repeat constructor; cbn [fst snd]; unfold js_string; auto; repeat (constructor; try lia); auto.
Qed.
