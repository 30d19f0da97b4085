(** Properties C100 (values between SDK clients) and C101 (payloads on the dashboard). *)
From Verif Require Import LibBase CmdModel Utf8 ValueModel ValueProofs.

(** a JavaScript string: 16-bit units *)
Definition js_string (u : list N) : Prop := Forall (fun x => x < 65536) u.
(** What comes back as it was, under the runtime's JSON functions: Buffers, strings that
    are text (no lone surrogate), and what JSON.parse gives back from JSON.stringify's text. *)
Definition faithful {J} (stringify : J -> option (list N)) (parse : list N -> option (value J)) (v : value J) : Prop :=
  match v with
  | VBuf _ => True
  | VStr u => text u
  | VJson j => exists t, stringify j = Some t /\ text t /\ t <> [] /\ parse t = Some (VJson j)
  end.

(** [repaired u ns]: the code points of [u], U+FFFD for each surrogate without partner *)
Definition high (a : N) : Prop := 55296 <= a /\ a <= 56319.
Definition low (a : N) : Prop := 56320 <= a /\ a <= 57343.
Inductive repaired : list N -> list N -> Prop :=
| rep_nil : repaired [] []
| rep_char : forall n u ns, scalar n -> repaired u ns -> repaired (units n ++ u) (n :: ns)
| rep_lone : forall a u ns, high a \/ low a -> (high a -> match u with b :: _ => ~ low b | [] => True end) -> repaired u ns -> repaired (a :: u) (65533 :: ns).
Lemma repaired_points : forall u, js_string u -> repaired u (code_points u).
Proof.
  intro u. remember (length u) as k eqn:E. revert u E. induction k as [k IH] using lt_wf_ind. intros u E F. destruct u as [|a r]; [constructor|]. inversion F as [|x y F1 F2]; subst. cbn [length] in IH.
  cbn [code_points]. unfold hi_sur, lo_sur, inr. destruct (N.leb_spec 55296 a), (N.leb_spec a 56319); cbn [andb].
  - destruct r as [|b r']; [apply rep_lone; [left; unfold high; lia|auto|constructor]|]. inversion F2 as [|x y F3 F4]; subst.
    destruct (N.leb_spec 56320 b), (N.leb_spec b 57343); cbn [andb].
    + assert (D1 : (65536 + (a - 55296) * 1024 + (b - 56320) - 65536) / 1024 = a - 55296) by (symmetry; apply (N.div_unique _ 1024 _ (b - 56320)); lia).
      assert (D2 : (65536 + (a - 55296) * 1024 + (b - 56320) - 65536) mod 1024 = b - 56320) by (symmetry; apply (N.mod_unique _ 1024 (a - 55296)); lia).
      assert (U : a :: b :: r' = units (65536 + (a - 55296) * 1024 + (b - 56320)) ++ r').
      { unfold units. destruct (N.ltb_spec (65536 + (a - 55296) * 1024 + (b - 56320)) 65536); [lia|]. rewrite D1, D2. cbn [app]. f_equal; [lia|f_equal; lia]. }
      rewrite U. clear D1 D2 U. apply rep_char; [unfold scalar; lia|]. apply (IH (length r')); auto.
    + apply rep_lone; [left; unfold high; lia|unfold low; lia|]. apply (IH (length (b :: r'))); auto.
    + apply rep_lone; [left; unfold high; lia|unfold low; lia|]. apply (IH (length (b :: r'))); auto.
    + apply rep_lone; [left; unfold high; lia|unfold low; lia|]. apply (IH (length (b :: r'))); auto.
  - assert (R : repaired r (code_points r)) by (apply (IH (length r)); auto). destruct (N.leb_spec 56320 a), (N.leb_spec a 57343); cbn [andb]; try lia.
    + apply rep_lone; auto; [right; unfold low; lia|unfold high; lia].
    + replace (a :: r) with (units a ++ r) by (unfold units; destruct (N.ltb_spec a 65536); [reflexivity|lia]). apply rep_char; auto. unfold scalar; lia.
  - assert (R : repaired r (code_points r)) by (apply (IH (length r)); auto). destruct (N.leb_spec 56320 a), (N.leb_spec a 57343); cbn [andb]; try lia.
    replace (a :: r) with (units a ++ r) by (unfold units; destruct (N.ltb_spec a 65536); [reflexivity|lia]). apply rep_char; auto. unfold scalar; lia.
  - lia.
Qed.
(** [unhex h]: the bytes written in hexadecimal as [h] *)
Definition hexval (c : N) : option N := if (48 <=? c) && (c <=? 57) then Some (c - 48) else if (97 <=? c) && (c <=? 102) then Some (c - 87) else None.
Fixpoint unhex (l : list N) : option bytes :=
  match l with
  | [] => Some []
  | a :: b :: r => match hexval a, hexval b, unhex r with Some x, Some y, Some z => Some (16 * x + y :: z) | _, _, _ => None end
  | _ => None
  end.
Lemma hexval_digit n : n < 16 -> hexval (hex_digit n) = Some n.
Proof.
  intro H. unfold hexval, hex_digit. destruct (N.ltb_spec n 10).
  - rewrite (proj2 (N.leb_le 48 (48 + n))), (proj2 (N.leb_le (48 + n) 57)) by lia. cbn [andb]. f_equal. lia.
  - rewrite (proj2 (N.leb_gt (87 + n) 57)), andb_false_r by lia. rewrite (proj2 (N.leb_le 97 (87 + n))), (proj2 (N.leb_le (87 + n) 102)) by lia. cbn [andb]. f_equal. lia.
Qed.
Lemma unhex_encode : forall b, bytes_ok b -> unhex (hex_encode b) = Some b.
Proof.
  unfold bytes_ok, byte_ok. induction 1 as [|x b H _ IH]; [reflexivity|]. cbn [hex_encode flat_map app unhex]. change (flat_map _ b) with (hex_encode b). rewrite IH.
  assert (x / 16 < 16) by (apply N.div_lt_upper_bound; lia). pose proof (N.mod_lt x 16 ltac:(lia)). rewrite !hexval_digit by auto. rewrite <- N.div_mod by discriminate. reflexivity.
Qed.

(** * C100 *)
Theorem C100_round_trip_partial : forall J stringify parse null (v : value J), faithful stringify parse v ->
  exists b, any J stringify v = Some b /\ decode_any J parse null b = Some v.
Proof.
  intros J stringify parse null [b|u|j] F; cbn [faithful any] in *.
  - eexists. split; reflexivity.
  - eexists. split; [reflexivity|]. cbn. rewrite text_back by auto. reflexivity.
  - destruct F as (t & E & T & NE & P). rewrite E. eexists. split; [reflexivity|]. unfold decode_any. change (t_json =? t_json) with true. cbn iota.
    destruct (utf8_write t) as [|x r] eqn:W; [apply write_nil in W; congruence|]. rewrite <- W, text_back by auto. exact P.
Qed.
Print Assumptions C100_round_trip_partial.
(** Two values with the same bytes are the same value. *)
Theorem C100_distinct_partial : forall J stringify parse null (v w : value J) b, faithful stringify parse v -> faithful stringify parse w ->
  @decode_any J parse null b = Some v -> any J stringify v = Some b -> any J stringify w = Some b -> v = w.
Proof.
  intros J stringify parse null v w b F G D E1 E2. destruct (C100_round_trip_partial J stringify parse null w G) as (b' & E3 & D'). congruence.
Qed.
Print Assumptions C100_distinct_partial.
(** Any string arrives as a string: the same code points, lone surrogates replaced by
    U+FFFD. What is written is valid UTF-8, so the server accepts it as a name, too. *)
Theorem C100_strings : forall J stringify parse null (u : list N), js_string u ->
  exists b ns, any J stringify (VStr u) = Some (1 :: b) /\ decode_any J parse null (1 :: b) = Some (VStr (text_of ns)) /\
    Forall scalar ns /\ b = concat (map utf8_enc ns) /\ repaired u ns /\ (text u -> u = text_of ns).
Proof.
  intros J stringify parse null u F. exists (utf8_write u), (code_points u). split; [reflexivity|]. split; [cbn; rewrite write_read by auto; reflexivity|].
  split; [apply code_points_scalar; auto|]. split; [unfold utf8_write; rewrite flat_map_concat_map; reflexivity|]. split; [apply repaired_points; auto|].
  intros (ns & S & ->). rewrite code_points_text; auto.
Qed.
Print Assumptions C100_strings.
(** Reading any payload of valid UTF-8 gives exactly its text. *)
Theorem C100_any_text : forall J parse null ns, Forall scalar ns ->
  @decode_any J parse null (t_string :: concat (map utf8_enc ns)) = Some (VStr (text_of ns)).
Proof. intros J parse null ns S. change utf8_enc with utf8_put. cbn. unfold utf8_read. rewrite <- flat_map_concat_map, (lossy_all ns S). reflexivity. Qed.
Print Assumptions C100_any_text.
(** A lone surrogate does not come back, and two strings (two keys of the store, two
    topics) become one. *)
Theorem C100_lone_refuted : exists u w, js_string u /\ js_string w /\ u <> w /\ utf8_write u = utf8_write w /\ utf8_read (utf8_write u) <> u.
Proof.
  exists [55296], [56320]. split; [repeat constructor|]. split; [repeat constructor|]. split; [discriminate|]. split; [reflexivity|discriminate].
Qed.
Print Assumptions C100_lone_refuted.

(** Non-vacuity: JSON texts of numbers, written in decimal *)
Definition xstr (j : N) : option (list N) := if j =? 0 then Some [110; 117; 108; 108] else if j <? 10 then Some [48 + j] else None.
Definition xparse (t : list N) : option (value N) :=
  match t with [110; 117; 108; 108] => Some (VJson 0) | [d] => if (49 <=? d) && (d <=? 57) then Some (VJson (d - 48)) else None | _ => None end.
Lemma smile : text [97; 233; 8364; 55357; 56832].
Proof. exists [97; 233; 8364; 128512]. split; [repeat constructor; unfold scalar; lia|vm_compute; reflexivity]. Qed.
Example C100_example : faithful xstr xparse (VStr [97; 233; 8364; 55357; 56832]) /\ faithful xstr xparse (VJson 7) /\ faithful xstr xparse (VJson 0) /\
  any N xstr (VStr [97; 233; 8364; 55357; 56832]) = Some [1; 97; 195; 169; 226; 130; 172; 240; 159; 152; 128] /\
  decode_any N xparse 0 [1; 97; 195; 169; 226; 130; 172; 240; 159; 152; 128] = Some (VStr [97; 233; 8364; 55357; 56832]) /\
  any N xstr (VJson 7) = Some [2; 55] /\ decode_any N xparse 0 [2; 55] = Some (VJson 7) /\
  any N xstr (VBuf [0; 255]) = Some [0; 0; 255] /\ any N xstr (VJson 12) = None /\
  utf8_lossy [97; 240; 159; 152; 65; 255; 226; 130] = [97; 65533; 65; 65533; 65533].
Proof.
  split; [exact smile|]. split; [exists [55]; split; [reflexivity|split; [exists [55]; split; [repeat constructor; unfold scalar; lia|reflexivity]|split; [discriminate|reflexivity]]]|].
  split; [exists [110; 117; 108; 108]; split; [reflexivity|split; [exists [110; 117; 108; 108]; split; [repeat constructor; unfold scalar; lia|reflexivity]|split; [discriminate|reflexivity]]]|].
  vm_compute. auto 10.
Qed.

(** * C101 *)
(** what the dashboard shows of a value sent by the SDK *)
Theorem C101_shown : forall J (stringify : J -> option (list N)) V vnull vstr serde v p, any J stringify v = Some p ->
  let shown := payload_to_json V vnull vstr serde p in
  match v with
  | VBuf b => exists h, shown = vstr ([48; 120] ++ h) /\ (bytes_ok b -> unhex h = Some b)
  | VStr u => js_string u -> exists ns, repaired u ns /\ shown = vstr ns /\ (text u -> u = text_of ns)
  | VJson j => forall t ns, stringify j = Some t -> Forall scalar ns -> t = text_of ns ->
      shown = match serde (concat (map utf8_enc ns)) with Some x => x | None => vstr ns end
  end.
Proof.
  intros J stringify V vnull vstr serde v p E shown. unfold shown. destruct v as [b|u|j]; cbn [any] in E.
  - injection E as <-. exists (hex_encode b). split; [reflexivity|]. apply unhex_encode.
  - injection E as <-. intro F. exists (code_points u). split; [apply repaired_points; auto|]. rewrite <- (write_lossy u F). split; [reflexivity|].
    rewrite (write_lossy u F). intros (ns & S & ->). rewrite code_points_text; auto.
  - intros t ns ET F ->. rewrite ET in E. injection E as <-. unfold utf8_write. rewrite code_points_text by auto. rewrite <- flat_map_concat_map. 
    change (match serde (flat_map utf8_put ns) with Some x => x | None => vstr (utf8_lossy (flat_map utf8_put ns)) end = match serde (flat_map utf8_put ns) with Some x => x | None => vstr ns end).
    rewrite (lossy_all ns F). reflexivity.
Qed.
Print Assumptions C101_shown.
(** Buffers: different ones are shown differently, and so are different texts. *)
Theorem C101_distinct_partial : forall J (stringify : J -> option (list N)) V vnull vstr serde v w p q, (forall a b, vstr a = vstr b -> a = b) ->
  any J stringify v = Some p -> any J stringify w = Some q ->
  match v, w with VBuf a, VBuf b => bytes_ok a /\ bytes_ok b | VStr a, VStr b => text a /\ text b | _, _ => False end ->
  payload_to_json V vnull vstr serde p = payload_to_json V vnull vstr serde q -> v = w.
Proof.
  intros J stringify V vnull vstr serde v w p q INJ E1 E2 K E. pose proof (C101_shown J stringify V vnull vstr serde v p E1) as S1. pose proof (C101_shown J stringify V vnull vstr serde w q E2) as S2. cbv zeta in S1, S2.
  destruct v as [a|a|a], w as [b|b|b]; try contradiction.
  - destruct S1 as (h1 & S1 & U1), S2 as (h2 & S2 & U2). rewrite S1, S2 in E. apply INJ in E. apply app_inv_head in E. destruct K as [K1 K2]. specialize (U1 K1). specialize (U2 K2). congruence.
  - destruct K as [K1 K2]. destruct (S1 (text_units a K1)) as (n1 & _ & T1 & X1). destruct (S2 (text_units b K2)) as (n2 & _ & T2 & X2). rewrite T1, T2 in E. apply INJ in E. rewrite (X1 K1), (X2 K2), E. reflexivity.
Qed.
Print Assumptions C101_distinct_partial.
(** a payload of another client, without one of the three type bytes: JSON or text *)
Theorem C101_untyped : forall V vnull vstr serde t r, 2 < t ->
  payload_to_json V vnull vstr serde (t :: r) =
    match serde (t :: r) with Some x => x | None => vstr (utf8_lossy (t :: r)) end /\
  forall ns, Forall scalar ns -> t :: r = concat (map utf8_enc ns) -> serde (t :: r) = None -> payload_to_json V vnull vstr serde (t :: r) = vstr ns.
Proof.
  intros V vnull vstr serde t r H. assert (E : payload_to_json V vnull vstr serde (t :: r) = match serde (t :: r) with Some x => x | None => vstr (utf8_lossy (t :: r)) end).
  { unfold payload_to_json. rewrite (proj2 (N.leb_gt t t_json)) by (unfold t_json; lia). reflexivity. }
  split; auto. intros ns S EQ N1. rewrite E, N1. f_equal. rewrite EQ, <- flat_map_concat_map. apply (lossy_all ns S).
Qed.
Print Assumptions C101_untyped.
(** The Buffer with byte 0 and the string "0x00" look the same. *)
Theorem C101_alike_refuted : forall J (stringify : J -> option (list N)) V vnull vstr serde, exists v w p q, v <> w /\
  any J stringify v = Some p /\ any J stringify w = Some q /\ payload_to_json V vnull vstr serde p = payload_to_json V vnull vstr serde q.
Proof.
  intros J stringify V vnull vstr serde. exists (VBuf [0]), (VStr [48; 120; 48; 48]), [0; 0], [1; 48; 120; 48; 48]. split; [discriminate|]. split; [reflexivity|]. split; reflexivity.
Qed.
Print Assumptions C101_alike_refuted.
Inductive xv := XNull | XStr (l : list N) | XNum (n : N).
Example C101_example : let sh := payload_to_json xv XNull XStr (fun b => match b with [d] => if (48 <=? d) && (d <=? 57) then Some (XNum (d - 48)) else None | _ => None end) in
  (forall a b, XStr a = XStr b -> a = b) /\ sh [0; 10; 255] = XStr [48; 120; 48; 97; 102; 102] /\ sh [1; 195; 169] = XStr [233] /\ sh [2; 55] = XNum 7 /\ sh [2; 55; 55] = XStr [55; 55] /\ sh [55] = XNum 7 /\ sh [] = XNull.
Proof. cbv zeta. split; [congruence|]. vm_compute. auto 10. Qed.
