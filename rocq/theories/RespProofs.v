(** Lemmas about response encodings and SDK helpers. *)
From Verif Require Import LibBase WireModel WireProofs CmdModel CmdProofs RespModel.

Lemma sdk_clip_app : forall x rest, sdk_clip (lenN x) (x ++ rest) = Some (x, rest).
Proof. intros; unfold sdk_clip. rewrite takeN_app_exact, dropN_app_exact; reflexivity. Qed.
Lemma sdk_clip_app' : forall n x rest, lenN x = n -> sdk_clip n (x ++ rest) = Some (x, rest).
Proof. intros; subst; apply sdk_clip_app. Qed.
Lemma sdk_u32_app : forall n rest, n < 2 ^ 32 -> sdk_u32 (be 4 n ++ rest) = Some (n, rest).
Proof. intros; apply (read_u32_app n rest); assumption. Qed.
Lemma sdk_u64_app : forall n rest, n < 2 ^ 64 -> sdk_u64 (be 8 n ++ rest) = Some (n, rest).
Proof. intros; apply (read_u64_app n rest); assumption. Qed.
Lemma sdk_string_app : forall s rest, lenN s < 2 ^ 32 -> sdk_string (be 4 (lenN s) ++ s ++ rest) = Some (s, rest).
Proof.
  intros; unfold sdk_string. erewrite bind_some; [|apply sdk_u32_app; assumption]. apply sdk_clip_app.
Qed.
Lemma sdk_uuid_app : forall i rest, lenN i = 16 -> sdk_uuid (i ++ rest) = Some (to_hex i, rest).
Proof.
  intros; unfold sdk_uuid. erewrite bind_some; [|apply sdk_clip_app'; assumption]. reflexivity.
Qed.
Lemma any_of_cons : forall t d rest, any_of (t :: d) rest = Some ((t, d), rest).
Proof. reflexivity. Qed.

Lemma repeat_rd_app : forall A B (r : rdr B) (enc : A -> bytes) (res : A -> B) l rest,
  (forall a rest, In a l -> r (enc a ++ rest) = Some (res a, rest)) ->
  repeat_rd (length l) r (concat (map enc l) ++ rest) = Some (map res l, rest).
Proof.
  intros A B r enc res l rest; induction l as [|a l IH]; intro H; [reflexivity|].
  cbn [length repeat_rd map concat]. rewrite <- app_assoc.
  erewrite bind_some; [|apply H; left; reflexivity].
  erewrite bind_some; [|apply IH; intros; apply H; right; assumption]. reflexivity.
Qed.

(** typed view of a payload, as an independent specification: first byte is the
    data type, the rest the data *)
Definition typed (p : bytes) : N * bytes := (hd 0 p, tl p).
Definition cmsg_ok (m : cmsg) : Prop := lenN (fst m) = 16 /\ lenN (snd m) < 2 ^ 32 /\ snd m <> [].

Lemma consume_roundtrip : forall ms rest, lenN ms < 2 ^ 32 -> Forall cmsg_ok ms ->
  sdk_consume (consume_wire ms ++ rest) = Some (map (fun m => (to_hex (fst m), typed (snd m))) ms, rest).
Proof.
  intros ms rest Hl Hok. unfold sdk_consume, consume_wire. rewrite <- app_assoc.
  erewrite bind_some; [|apply sdk_u32_app; assumption].
  unfold lenN at 1. rewrite Nat2N.id. apply repeat_rd_app.
  intros [i p] r Hin. rewrite Forall_forall in Hok. apply Hok in Hin. destruct Hin as (H1 & H2 & H3).
  cbn [fst snd] in *. unfold sdk_consume_one. rewrite <- !app_assoc.
  erewrite bind_some; [|apply sdk_uuid_app; assumption].
  erewrite bind_some; [|apply sdk_u32_app; assumption].
  erewrite bind_some; [|apply sdk_clip_app].
  destruct p as [|t d]; [contradiction|]. reflexivity.
Qed.

Definition dmsg_ok (m : dmsg) : Prop :=
  let '(id, p, att, reason) := m in
  lenN id = 16 /\ lenN p < 2 ^ 32 /\ p <> [] /\ att < 2 ^ 32 /\ lenN reason < 2 ^ 32.
Lemma peek_roundtrip : forall total ms rest, total < 2 ^ 32 -> lenN ms < 2 ^ 32 -> Forall dmsg_ok ms ->
  sdk_peek (peek_wire total ms ++ rest) =
    Some ((total, map (fun m => let '(id, p, att, reason) := m in (to_hex id, typed p, att, reason)) ms), rest).
Proof.
  intros total ms rest Ht Hl Hok. unfold sdk_peek, peek_wire. rewrite <- !app_assoc.
  erewrite bind_some; [|apply sdk_u32_app; assumption].
  erewrite bind_some; [|apply sdk_u32_app; assumption].
  unfold lenN at 1. rewrite Nat2N.id. erewrite bind_some.
  2:{ apply repeat_rd_app with (res := fun m : dmsg => let '(id, p, att, reason) := m in (to_hex id, typed p, att, reason)).
      intros [[[i p] att] reason] r Hin. rewrite Forall_forall in Hok. apply Hok in Hin.
      destruct Hin as (H1 & H2 & H3 & H4 & H5). unfold sdk_peek_one. rewrite <- !app_assoc.
      erewrite bind_some; [|apply sdk_uuid_app; assumption].
      erewrite bind_some; [|apply sdk_u32_app; assumption].
      erewrite bind_some; [|apply sdk_clip_app].
      destruct p as [|t d]; [contradiction|].
      erewrite bind_some; [|reflexivity].
      erewrite bind_some; [|apply sdk_u32_app; assumption].
      erewrite bind_some; [|apply sdk_string_app; assumption]. reflexivity. }
  reflexivity.
Qed.

Definition smsg_ok (m : smsg) : Prop :=
  let '(seq, ts, p) := m in seq < 2 ^ 64 /\ ts < 2 ^ 64 /\ lenN p < 2 ^ 32 /\ p <> [].
Lemma fetch_roundtrip : forall ms rest, lenN ms < 2 ^ 32 -> Forall smsg_ok ms ->
  sdk_fetch (fetch_wire ms ++ rest) = Some (map (fun m => let '(seq, ts, p) := m in (seq, typed p)) ms, rest).
Proof.
  intros ms rest Hl Hok. unfold sdk_fetch, fetch_wire. rewrite <- app_assoc.
  erewrite bind_some; [|apply sdk_u32_app; assumption].
  unfold lenN at 1. rewrite Nat2N.id. apply repeat_rd_app with (res := fun m : smsg => let '(seq, ts, p) := m in (seq, typed p)).
  intros [[s t] p] r Hin. rewrite Forall_forall in Hok. apply Hok in Hin. destruct Hin as (H1 & H2 & H3 & H4).
  unfold sdk_fetch_one. rewrite <- !app_assoc.
  erewrite bind_some; [|apply sdk_u64_app; assumption].
  erewrite bind_some; [|apply sdk_u64_app; assumption].
  erewrite bind_some; [|apply sdk_u32_app; assumption].
  erewrite bind_some; [|apply sdk_clip_app].
  destruct p as [|ty d]; [contradiction|]. reflexivity.
Qed.

Lemma join_roundtrip : forall floor gen cid rest, floor < 2 ^ 64 -> gen < 2 ^ 64 -> lenN cid < 2 ^ 32 ->
  sdk_join (join_wire floor gen cid ++ rest) = Some ((floor, gen, cid), rest).
Proof.
  intros; unfold sdk_join, join_wire. rewrite <- !app_assoc.
  erewrite bind_some; [|apply sdk_u64_app; assumption].
  erewrite bind_some; [|apply sdk_u64_app; assumption].
  erewrite bind_some; [|apply sdk_string_app; assumption]. reflexivity.
Qed.
Lemma publish_roundtrip : forall seq rest, seq < 2 ^ 64 -> sdk_u64 (publish_wire seq ++ rest) = Some (seq, rest).
Proof. intros; apply sdk_u64_app; assumption. Qed.
Lemma count_roundtrip : forall n rest, n < 2 ^ 32 -> sdk_u32 (count_wire n ++ rest) = Some (n, rest).
Proof. intros; apply sdk_u32_app; assumption. Qed.
Lemma bool_roundtrip : forall b rest, sdk_bool (bool_wire b ++ rest) = Some (b, rest).
Proof.
  intros b rest; unfold sdk_bool, bool_wire.
  assert (E : sdk_u8 ([if b then 1 else 0] ++ rest) = Some (if b then 1 else 0, rest)).
  { destruct b; [apply (read_u8_app 1)|apply (read_u8_app 0)]; unfold u8_ok; lia. }
  erewrite bind_some; [|exact E]. destruct b; reflexivity.
Qed.
Lemma push_roundtrip : forall topic p, lenN topic < 2 ^ 32 -> p <> [] ->
  sdk_push (push_wire topic p) = Some (topic, typed p).
Proof.
  intros topic p H Hp. unfold sdk_push, push_wire.
  rewrite (sdk_string_app topic p H). destruct p; [contradiction|reflexivity].
Qed.
(** an empty payload anywhere makes the SDK reject the whole response *)
Lemma repeat_rd_fail : forall A B (r : rdr B) (enc : A -> bytes) (res : A -> B) l1 a l2 rest,
  (forall x rest, In x l1 -> r (enc x ++ rest) = Some (res x, rest)) ->
  (forall rest, r (enc a ++ rest) = None) ->
  repeat_rd (length (l1 ++ a :: l2)) r (concat (map enc (l1 ++ a :: l2)) ++ rest) = None.
Proof.
  intros A B r enc res l1 a l2 rest; induction l1 as [|x l1 IH]; intros H1 H2.
  - cbn [app length repeat_rd map concat]. rewrite <- app_assoc. unfold bind. rewrite H2; reflexivity.
  - cbn [app length repeat_rd map concat]. rewrite <- app_assoc.
    erewrite bind_some; [|apply H1; left; reflexivity].
    unfold bind. rewrite IH; auto. intros; apply H1; right; assumption.
Qed.
Lemma consume_poison : forall ms1 id ms2 rest,
  lenN (ms1 ++ (id, []) :: ms2) < 2 ^ 32 -> Forall cmsg_ok ms1 -> lenN id = 16 ->
  sdk_consume (consume_wire (ms1 ++ (id, []) :: ms2) ++ rest) = None.
Proof.
  intros ms1 id ms2 rest Hl Hok Hid. unfold sdk_consume, consume_wire. rewrite <- app_assoc.
  erewrite bind_some; [|apply sdk_u32_app; assumption].
  unfold lenN at 1. rewrite Nat2N.id.
  apply repeat_rd_fail with (res := fun m => (to_hex (fst m), typed (snd m))).
  - intros [i p] r Hin. rewrite Forall_forall in Hok. apply Hok in Hin. destruct Hin as (H1 & H2 & H3).
    cbn [fst snd] in *. unfold sdk_consume_one. rewrite <- !app_assoc.
    erewrite bind_some; [|apply sdk_uuid_app; assumption].
    erewrite bind_some; [|apply sdk_u32_app; assumption].
    erewrite bind_some; [|apply sdk_clip_app].
    destruct p as [|t d]; [contradiction|]. reflexivity.
  - intros r. cbn [fst snd]. unfold sdk_consume_one. rewrite <- !app_assoc.
    erewrite bind_some; [|apply sdk_uuid_app; assumption].
    erewrite bind_some; [|apply (sdk_u32_app (lenN (@nil N))); rewrite lenN_nil; lia].
    erewrite bind_some; [|apply sdk_clip_app]. reflexivity.
Qed.

(** hexadecimal ids *)
Lemma nibble_hexd : forall n, n < 16 -> nibble (hexd n) = Some n.
Proof.
  intros n H. unfold hexd, nibble, inr.
  destruct (N.ltb_spec n 10).
  - destruct (N.leb_spec 48 (48 + n)); [|lia]. destruct (N.leb_spec (48 + n) 57); [|lia]. simpl. f_equal; lia.
  - destruct (N.leb_spec 48 (87 + n)); [|lia]. destruct (N.leb_spec (87 + n) 57); [lia|].
    destruct (N.leb_spec 97 (87 + n)); [|lia]. destruct (N.leb_spec (87 + n) 102); [|lia]. simpl. f_equal; lia.
Qed.
Lemma hexd_not_dash : forall n, n < 16 -> hexd n =? 45 = false.
Proof. intros n H. unfold hexd. destruct (N.ltb_spec n 10); apply N.eqb_neq; lia. Qed.
Lemma to_hex_length : forall b, lenN (to_hex b) = 2 * lenN b.
Proof.
  induction b as [|x b IH]; [reflexivity|]. unfold to_hex in *. cbn [map concat].
  rewrite lenN_app, IH, lenN_cons, 2!lenN_cons, lenN_nil. lia.
Qed.
Lemma uuid_roundtrip : forall id, bytes_ok id -> uuid_write None (to_hex id) = Some id.
Proof.
  induction id as [|x id IH]; intro H; [reflexivity|]. inv H. unfold byte_ok in *.
  unfold to_hex. cbn [map concat app]. cbn [uuid_write].
  rewrite hexd_not_dash, nibble_hexd by lia.
  rewrite hexd_not_dash, nibble_hexd by lia.
  fold (to_hex id). rewrite IH by assumption. do 2 f_equal. lia.
Qed.
Lemma uuid_dash : forall s hi, uuid_write hi s = uuid_write hi (filter (fun c => negb (c =? 45)) s).
Proof.
  induction s as [|c s IH]; intro hi; [reflexivity|]. cbn [uuid_write filter].
  destruct (c =? 45) eqn:E; cbn [negb]; [apply IH|]. cbn [uuid_write]. rewrite E.
  destruct (nibble c); auto. destruct hi; rewrite IH; reflexivity.
Qed.
Lemma uuid_bad : forall s hi c, In c s -> c <> 45 -> nibble c = None -> uuid_write hi s = None.
Proof.
  induction s as [|d s IH]; intros hi c Hin Hc Hn; [contradiction|]. cbn [uuid_write].
  destruct Hin as [->|Hin].
  - destruct (N.eqb_spec c 45); [contradiction|]. rewrite Hn; reflexivity.
  - destruct (d =? 45); [eapply IH; eauto|]. destruct (nibble d); auto.
    destruct hi; [rewrite (IH None c); auto|eapply IH; eauto].
Qed.
Lemma to_hex_inj : forall a b, bytes_ok a -> bytes_ok b -> to_hex a = to_hex b -> a = b.
Proof.
  intros a b Ha Hb H. apply uuid_roundtrip in Ha. apply uuid_roundtrip in Hb.
  rewrite H in Ha. congruence.
Qed.
(** upper-case spelling of the same id *)
Definition upper (c : N) : N := if (97 <=? c) && (c <=? 102) then c - 32 else c.
Lemma nibble_upper : forall c n, nibble c = Some n -> nibble (upper c) = Some n.
Proof.
  intros c n. unfold nibble, upper, inr.
  destruct (N.leb_spec 97 c), (N.leb_spec c 102); cbn [andb]; try lia;
  repeat match goal with |- context [?x <=? ?y] => destruct (N.leb_spec x y); cbn [andb]; try lia end;
    intro H'; try discriminate; try (exfalso; lia); inversion H'; f_equal; lia.
Qed.
Lemma upper_dash : forall c, (upper c =? 45) = (c =? 45).
Proof.
  intro c. unfold upper. destruct (N.leb_spec 97 c); destruct (N.leb_spec c 102); cbn [andb]; try reflexivity.
  destruct (N.eqb_spec (c - 32) 45), (N.eqb_spec c 45); lia.
Qed.
Lemma uuid_upper : forall s hi r, uuid_write hi s = Some r -> uuid_write hi (map upper s) = Some r.
Proof.
  induction s as [|c s IH]; intros hi r H; [exact H|]. cbn [map uuid_write] in *.
  rewrite upper_dash. destruct (c =? 45); auto.
  destruct (nibble c) as [n|] eqn:E; [|discriminate]. rewrite (nibble_upper _ _ E).
  destruct hi; auto. destruct (uuid_write None s) as [r'|] eqn:E2; [|discriminate].
  rewrite (IH _ _ E2). exact H.
Qed.

(** correlation ids *)
Local Open Scope Z_scope.
Definition period : Z := 2 ^ 32 - 1.
(** closed form of the id of request number k *)
Definition id_formula (k : Z) : Z :=
  let r := k mod period in if r <? 2 ^ 31 - 1 then r + 1 else r + 1 - 2 ^ 32.
Lemma to_int32_range : forall z, - 2 ^ 31 <= to_int32 z < 2 ^ 31.
Proof.
  intro z; unfold to_int32. pose proof (Z.mod_pos_bound z (2 ^ 32) eq_refl) as B.
  destruct (Z.ltb_spec (z mod 2 ^ 32) (2 ^ 31)); lia.
Qed.
Lemma to_int32_small : forall z, - 2 ^ 31 <= z < 2 ^ 31 -> to_int32 z = z.
Proof.
  intros z H; unfold to_int32. destruct (Z.ltb_spec (z mod 2 ^ 32) (2 ^ 31)); lia.
Qed.
Lemma next_formula : forall k, 0 <= k -> next_id (id_formula k) = id_formula (k + 1).
Proof.
  intros k Hk. unfold next_id, id_formula, period.
  pose proof (Z.mod_pos_bound k (2 ^ 32 - 1) eq_refl) as B.
  assert (E : (k + 1) mod (2 ^ 32 - 1) = if k mod (2 ^ 32 - 1) =? 2 ^ 32 - 2 then 0 else k mod (2 ^ 32 - 1) + 1).
  { destruct (Z.eqb_spec (k mod (2 ^ 32 - 1)) (2 ^ 32 - 2)); lia. }
  rewrite E. clear E. set (r := k mod (2 ^ 32 - 1)) in *. clearbody r.
  destruct (Z.eqb_spec r (2 ^ 32 - 2)) as [->|Hr].
  - reflexivity.
  - destruct (Z.ltb_spec r (2 ^ 31 - 1)) as [H1|H1].
    + destruct (Z.ltb_spec (r + 1) (2 ^ 31 - 1)) as [H2|H2].
      * rewrite to_int32_small by lia. destruct (Z.eqb_spec (r + 1 + 1) 0); lia.
      * assert (r = 2 ^ 31 - 2) by lia. subst r. reflexivity.
    + destruct (Z.ltb_spec (r + 1) (2 ^ 31 - 1)) as [H2|H2]; [lia|].
      rewrite to_int32_small by lia. destruct (Z.eqb_spec (r + 1 - 2 ^ 32 + 1) 0); lia.
Qed.
Lemma request_id_formula : forall k, request_id k = id_formula (Z.of_nat k).
Proof.
  induction k as [|k IH]; [reflexivity|]. cbn [request_id]. rewrite IH, next_formula by lia.
  f_equal; lia.
Qed.
Lemma id_formula_inj : forall a b, 0 <= a -> 0 <= b -> Z.abs (a - b) < period -> id_formula a = id_formula b -> a = b.
Proof.
  intros a b Ha Hb Hd. unfold id_formula, period in *.
  pose proof (Z.mod_pos_bound a (2 ^ 32 - 1) eq_refl). pose proof (Z.mod_pos_bound b (2 ^ 32 - 1) eq_refl).
  intro E. assert (Em : a mod (2 ^ 32 - 1) = b mod (2 ^ 32 - 1)).
  { destruct (Z.ltb_spec (a mod (2 ^ 32 - 1)) (2 ^ 31 - 1)); destruct (Z.ltb_spec (b mod (2 ^ 32 - 1)) (2 ^ 31 - 1)); lia. }
  clear E. lia.
Qed.
Lemma request_id_unique : forall j k, Z.abs (Z.of_nat j - Z.of_nat k) < 2 ^ 32 - 1 ->
  request_id j = request_id k -> j = k.
Proof.
  intros j k Hd H. rewrite !request_id_formula in H. apply id_formula_inj in H; unfold period; lia.
Qed.
Lemma request_id_writable_iff : forall k,
  writable_u32 (request_id k) = true <-> Z.of_nat k mod (2 ^ 32 - 1) < 2 ^ 31 - 1.
Proof.
  intro k. rewrite request_id_formula. unfold id_formula, period, writable_u32.
  pose proof (Z.mod_pos_bound (Z.of_nat k) (2 ^ 32 - 1) eq_refl).
  set (r := Z.of_nat k mod (2 ^ 32 - 1)) in *. clearbody r.
  rewrite andb_true_iff, Z.leb_le, Z.ltb_lt. destruct (Z.ltb_spec r (2 ^ 31 - 1)); lia.
Qed.
Lemma request_id_first : forall k, Z.of_nat k < 2 ^ 31 - 1 -> request_id k = Z.of_nat k + 1.
Proof.
  intros k H. rewrite request_id_formula. unfold id_formula, period.
  rewrite Z.mod_small by lia. destruct (Z.ltb_spec (Z.of_nat k) (2 ^ 31 - 1)); lia.
Qed.
Lemma request_id_unwritable : exists k, Z.of_nat k = 2 ^ 31 - 1 /\ writable_u32 (request_id k) = false.
Proof.
  assert (Hk : exists k, Z.of_nat k = 2 ^ 31 - 1).
  { eexists. apply Z2Nat.id. lia. }
  destruct Hk as [k Hk]. exists k. split; [exact Hk|].
  destruct (writable_u32 (request_id k)) eqn:E; [|reflexivity].
  apply request_id_writable_iff in E. rewrite Hk in E. vm_compute in E. discriminate.
Qed.
Lemma request_id_usable : forall k, Z.of_nat k < 2 ^ 31 - 1 ->
  request_id k = Z.of_nat k + 1 /\ writable_u32 (request_id k) = true.
Proof.
  intros k H. split; [apply request_id_first; exact H|].
  rewrite request_id_first by exact H. unfold writable_u32.
  rewrite andb_true_iff, Z.leb_le, Z.ltb_lt. lia.
Qed.
Local Close Scope Z_scope.
Lemma uuid_non_hex : forall s hi c, In c s -> c <> 45 ->
  ~ (48 <= c <= 57) -> ~ (97 <= c <= 102) -> ~ (65 <= c <= 70) -> uuid_write hi s = None.
Proof.
  intros s hi c Hin Hd H1 H2 H3. apply uuid_bad with c; auto. unfold nibble, inr.
  destruct (N.leb_spec 48 c), (N.leb_spec c 57), (N.leb_spec 97 c), (N.leb_spec c 102),
    (N.leb_spec 65 c), (N.leb_spec c 70); cbn [andb]; try reflexivity; lia.
Qed.
Lemma uuid_length_unchecked : exists s r, uuid_write None s = Some r /\ lenN r <> 16.
Proof. exists [48; 49; 50], [1]. split; [reflexivity|discriminate]. Qed.
(** SDK calls, framed, chunked, decoded and dispatched *)
Lemma end_to_end : forall json_ok maxp calls chunks,
  Forall (fun c => fst c < 2 ^ 32 /\ cmd_ok json_ok (snd c) /\
                   lenN (sdk_args (snd c)) < 2 ^ 32 /\ lenN (sdk_args (snd c)) <= maxp) calls ->
  concat chunks = concat (map (fun c => encode_request (fst c) (sdk_opcode (snd c)) (sdk_args (snd c))) calls) ->
  map (fun f => (in_id f, dispatch json_ok (in_meta f) (in_payload f))) (r_frames (feed_all (decode maxp) chunks))
  = map (fun c => (fst c, DCmd (snd c))) calls.
Proof.
  intros json_ok maxp calls chunks Hok Hc.
  rewrite (server_session maxp (map (fun c => (fst c, sdk_opcode (snd c), sdk_args (snd c))) calls) chunks []).
  - cbn [r_frames]. rewrite !map_map. apply map_ext_in. intros [id c] Hin. cbn [fst snd req_frame in_id in_meta in_payload].
    rewrite Forall_forall in Hok. apply Hok in Hin. cbn [fst snd] in Hin. rewrite dispatch_sdk by tauto. reflexivity.
  - rewrite Forall_map. eapply Forall_impl; [|exact Hok]. intros [id c]. cbn. tauto.
  - reflexivity.
  - rewrite app_nil_r, map_map. exact Hc.
Qed.
Lemma consume_empty_refuted : exists ms : list cmsg,
  Forall (fun m => lenN (fst m) = 16 /\ lenN (snd m) < 2 ^ 32) ms /\ sdk_consume (consume_wire ms) = None.
Proof.
  exists [(be 16 7, [1; 2]); (be 16 8, [])].
  split; [repeat constructor; vm_compute; reflexivity|vm_compute; reflexivity].
Qed.
