(** Records, segment files and the group file: reading back what was written. *)
From Verif Require Import LibBase LibMap StreamTopicModel StreamStoreModel.

Section Codec.
  Variable crc : bytes -> N.
  Hypothesis crc32 : forall b, crc b < 2 ^ 32.

  (** What fits the record fields. *)
  Definition msg_ok (m : msg) : Prop := m_seq m < 2 ^ 64 /\ m_ts m < 2 ^ 64 /\ lenN (m_pay m) < 2 ^ 32 - 16.

  Lemma pow4 : 256 ^ N.of_nat 4 = 2 ^ 32. Proof. reflexivity. Qed.
  Lemma pow8 : 256 ^ N.of_nat 8 = 2 ^ 64. Proof. reflexivity. Qed.
  Lemma pow2 : 256 ^ N.of_nat 2 = 65536. Proof. reflexivity. Qed.

  Lemma takeN_takeN A i j (l : list A) : takeN i (takeN j l) = takeN (N.min i j) l.
  Proof. unfold takeN. rewrite firstn_firstn. f_equal. lia. Qed.
  Lemma take_be : forall k n b, takeN (N.of_nat k) (be k n ++ b) = be k n.
  Proof. intros k n b. rewrite <- (be_lenN k n). apply takeN_app_exact. Qed.
  Lemma drop_be : forall k n b, dropN (N.of_nat k) (be k n ++ b) = b.
  Proof. intros k n b. rewrite <- (be_lenN k n). apply dropN_app_exact. Qed.
  Lemma take4 n b : takeN 4 (be 4 n ++ b) = be 4 n. Proof. exact (take_be 4 n b). Qed.
  Lemma drop4 n b : dropN 4 (be 4 n ++ b) = b. Proof. exact (drop_be 4 n b). Qed.
  Lemma take8 n b : takeN 8 (be 8 n ++ b) = be 8 n. Proof. exact (take_be 8 n b). Qed.
  Lemma drop8 n b : dropN 8 (be 8 n ++ b) = b. Proof. exact (drop_be 8 n b). Qed.
  Lemma take2 n b : takeN 2 (be 2 n ++ b) = be 2 n. Proof. exact (take_be 2 n b). Qed.
  Lemma drop2 n b : dropN 2 (be 2 n ++ b) = b. Proof. exact (drop_be 2 n b). Qed.

  (** A framed record followed by anything. *)
  Lemma next_framed len c body rest : len < 2 ^ 32 -> c < 2 ^ 32 -> lenN body = len ->
    next_record (be 4 len ++ be 4 c ++ body ++ rest) = Some (c, body, rest).
  Proof.
    intros L C E. unfold next_record. rewrite take4, drop4, take4, drop4.
    rewrite !lenN_app, !be_lenN.
    destruct (N.ltb_spec (N.of_nat 4 + (N.of_nat 4 + (lenN body + lenN rest))) 4); [lia|].
    destruct (N.ltb_spec (N.of_nat 4 + (lenN body + lenN rest)) 4); [lia|].
    rewrite unbe_be_small by (rewrite pow4; exact L). rewrite unbe_be_small by (rewrite pow4; exact C).
    destruct (N.ltb_spec (lenN body + lenN rest) len); [lia|].
    rewrite <- E, takeN_app_exact, dropN_app_exact. reflexivity.
  Qed.
  (** A framed record cut short. *)
  Lemma next_cut len c body rest k : len < 2 ^ 32 -> lenN body = len -> k < 8 + len ->
    next_record (takeN k (be 4 len ++ be 4 c ++ body ++ rest)) = None.
  Proof.
    intros L E K. unfold next_record. set (b := be 4 len ++ be 4 c ++ body ++ rest).
    assert (LB : lenN b = 8 + len + lenN rest) by (unfold b; rewrite !lenN_app, !be_lenN; lia).
    rewrite !lenN_dropN, lenN_takeN.
    destruct (N.ltb_spec (N.min k (lenN b)) 4) as [|A]; [reflexivity|].
    assert (T : takeN 4 (takeN k b) = be 4 len).
    { rewrite takeN_takeN. replace (N.min 4 k) with 4 by lia. apply take4. }
    rewrite T, unbe_be_small by (rewrite pow4; exact L).
    destruct (N.ltb_spec (N.min k (lenN b) - 4) 4) as [|B]; [reflexivity|].
    destruct (N.ltb_spec (N.min k (lenN b) - 4 - 4) len) as [|D]; [reflexivity|]. lia.
  Qed.

  Lemma rec_body_len m : lenN (rec_body m) = 16 + lenN (m_pay m).
  Proof. unfold rec_body. rewrite !lenN_app, !be_lenN. lia. Qed.
  Lemma enc_len m : lenN (enc_msg crc m) = 24 + lenN (m_pay m).
  Proof. unfold enc_msg. rewrite !lenN_app, !be_lenN, rec_body_len. lia. Qed.
  Lemma next_enc m rest : msg_ok m -> next_record (enc_msg crc m ++ rest) = Some (crc (rec_body m), rec_body m, rest).
  Proof.
    intros (_ & _ & P). unfold enc_msg. rewrite <- !app_assoc. apply next_framed; auto; [lia|apply rec_body_len].
  Qed.
  Lemma next_enc_cut m rest k : msg_ok m -> k < lenN (enc_msg crc m) -> next_record (takeN k (enc_msg crc m ++ rest)) = None.
  Proof.
    intros (_ & _ & P) K. rewrite enc_len in K. unfold enc_msg. rewrite <- !app_assoc.
    apply (next_cut (16 + lenN (m_pay m)) _ (rec_body m) rest k); [lia|apply rec_body_len|lia].
  Qed.
  Lemma dec_enc m : msg_ok m -> dec_body (rec_body m) = m.
  Proof.
    intros (A & B & _). unfold dec_body, rec_body. rewrite take8, drop8, take8.
    change 16 with (8 + 8). rewrite <- dropN_dropN, drop8, drop8, !unbe_be_small by (rewrite pow8; assumption).
    destruct m; reflexivity.
  Qed.

  (** Every record read uses up bytes, so the fuel is enough. *)
  Lemma next_shorter b s c r : next_record b = Some (s, c, r) -> (length r < length b)%nat.
  Proof.
    unfold next_record. destruct (N.ltb_spec (lenN b) 4); [discriminate|].
    destruct (N.ltb_spec (lenN (dropN 4 b)) 4) as [|A]; [discriminate|].
    destruct (N.ltb_spec (lenN (dropN 4 (dropN 4 b))) (unbe (takeN 4 b))) as [|B]; [discriminate|].
    intro E. inversion E; subst. unfold dropN, lenN in *. rewrite !skipn_length in *. lia.
  Qed.
  Lemma load_fuel : forall f b, (length b < f)%nat -> load_loop crc f b = load_segment crc b.
  Proof.
    assert (G : forall f f' b, (length b < f)%nat -> (length b < f')%nat -> load_loop crc f b = load_loop crc f' b).
    { induction f as [|f IH]; intros [|f'] b L L'; try lia. simpl. destruct (next_record b) as [[[s c] r]|] eqn:E; auto.
      apply next_shorter in E. rewrite (IH f' r) by lia. reflexivity. }
    intros f b L. apply G; auto.
  Qed.
  Lemma read_fuel : forall f b s l, (length b < f)%nat -> read_loop crc f b s l = read_segment crc b s l.
  Proof.
    assert (G : forall f f' b s l, (length b < f)%nat -> (length b < f')%nat -> read_loop crc f b s l = read_loop crc f' b s l).
    { induction f as [|f IH]; intros [|f'] b s l L L'; try lia. simpl. destruct (next_record b) as [[[x c] r]|] eqn:E; auto.
      apply next_shorter in E. rewrite !(IH f' r) by lia. reflexivity. }
    intros f b s l L. apply G; auto.
  Qed.
  Lemma load_eq b : load_segment crc b =
    match next_record b with
    | None => []
    | Some (stored, c, rest) => if negb (crc c =? stored) then [] else if lenN c <? 16 then [] else dec_body c :: load_segment crc rest
    end.
  Proof.
    unfold load_segment at 1. cbn [load_loop]. destruct (next_record b) as [[[s c] r]|] eqn:E; auto.
    rewrite load_fuel by (apply next_shorter in E; lia). reflexivity.
  Qed.
  Lemma read_eq b start limit : read_segment crc b start limit =
    match next_record b with
    | None => []
    | Some (stored, c, rest) =>
      if negb (crc c =? stored) then read_segment crc rest start limit
      else if lenN c <? 16 then read_segment crc rest start limit
      else if start <=? m_seq (dec_body c) then dec_body c :: (if limit <=? 1 then [] else read_segment crc rest start (limit - 1))
      else read_segment crc rest start limit
    end.
  Proof.
    unfold read_segment at 1. cbn [read_loop]. destruct (next_record b) as [[[s c] r]|] eqn:E; auto.
    rewrite !read_fuel by (apply next_shorter in E; lia). reflexivity.
  Qed.

  Lemma load_cons m rest : msg_ok m -> load_segment crc (enc_msg crc m ++ rest) = m :: load_segment crc rest.
  Proof.
    intro M. rewrite load_eq, next_enc by auto. rewrite N.eqb_refl. simpl. rewrite rec_body_len.
    destruct (N.ltb_spec (16 + lenN (m_pay m)) 16); [lia|]. rewrite dec_enc by auto. reflexivity.
  Qed.
  Lemma read_cons m rest start limit : msg_ok m -> read_segment crc (enc_msg crc m ++ rest) start limit =
    if start <=? m_seq m then m :: (if limit <=? 1 then [] else read_segment crc rest start (limit - 1))
    else read_segment crc rest start limit.
  Proof.
    intro M. rewrite read_eq, next_enc by auto. rewrite dec_enc by auto. rewrite N.eqb_refl, rec_body_len.
    destruct (N.ltb_spec (16 + lenN (m_pay m)) 16); [lia|]. reflexivity.
  Qed.

  Lemma enc_msgs_cons m ms : enc_msgs crc (m :: ms) = enc_msg crc m ++ enc_msgs crc ms.
  Proof. reflexivity. Qed.
  Lemma load_prefix ms rest : Forall msg_ok ms -> load_segment crc (enc_msgs crc ms ++ rest) = ms ++ load_segment crc rest.
  Proof.
    induction 1 as [|m ms M _ IH]; [reflexivity|]. rewrite enc_msgs_cons, <- app_assoc, load_cons by auto. rewrite IH. reflexivity.
  Qed.
  Lemma load_nil : load_segment crc [] = []. Proof. reflexivity. Qed.
  Theorem load_all ms : Forall msg_ok ms -> load_segment crc (enc_msgs crc ms) = ms.
  Proof. intro F. rewrite <- (app_nil_r (enc_msgs crc ms)), load_prefix by auto. rewrite load_nil. apply app_nil_r. Qed.

  (** How many records are complete in the first [k] bytes. *)
  Fixpoint complete (k : N) (ms : list msg) : list msg :=
    match ms with
    | [] => []
    | m :: r => if 24 + lenN (m_pay m) <=? k then m :: complete (k - (24 + lenN (m_pay m))) r else []
    end.
  Lemma complete_prefix : forall ms k, exists post, ms = complete k ms ++ post.
  Proof.
    induction ms as [|m ms IH]; intros k; simpl; [exists []; auto|].
    destruct (24 + lenN (m_pay m) <=? k); [|exists (m :: ms); auto].
    destruct (IH (k - (24 + lenN (m_pay m)))) as (post & E). exists post. simpl. congruence.
  Qed.
  Lemma takeN_app_ge A k (a b : list A) : lenN a <= k -> takeN k (a ++ b) = a ++ takeN (k - lenN a) b.
  Proof.
    intro L. unfold takeN, lenN in *. rewrite firstn_app, firstn_all2 by lia. f_equal. f_equal. lia.
  Qed.
  Theorem load_cut : forall ms k, Forall msg_ok ms -> load_segment crc (takeN k (enc_msgs crc ms)) = complete k ms.
  Proof.
    intros ms k F. revert k. induction F as [|m ms M _ IH]; intro k; cbn [enc_msgs flat_map complete].
    - rewrite takeN_nil. reflexivity.
    - change (flat_map (enc_msg crc) ms) with (enc_msgs crc ms). destruct (N.leb_spec (24 + lenN (m_pay m)) k) as [L|L].
      + rewrite takeN_app_ge by (rewrite enc_len; lia). rewrite load_cons, IH by auto. rewrite enc_len. reflexivity.
      + rewrite load_eq, next_enc_cut; auto. rewrite enc_len. lia.
  Qed.
  (** The exact answer of a segment read. *)
  Lemma read_takes : forall ms k start limit, Forall msg_ok ms -> 1 <= limit ->
    read_segment crc (takeN k (enc_msgs crc ms)) start limit = takeN limit (filter (fun m => start <=? m_seq m) (complete k ms)).
  Proof.
    intros ms k start limit F. revert k limit. induction F as [|m ms M _ IH]; intros k limit L; cbn [enc_msgs flat_map complete].
    - rewrite !takeN_nil. reflexivity.
    - change (flat_map (enc_msg crc) ms) with (enc_msgs crc ms). destruct (N.leb_spec (24 + lenN (m_pay m)) k) as [X|X].
      + rewrite takeN_app_ge by (rewrite enc_len; lia). rewrite read_cons by auto. rewrite enc_len. cbn [filter].
        destruct (start <=? m_seq m).
        * rewrite takeN_cons by lia. f_equal. destruct (N.leb_spec limit 1) as [Y|Y]; [|apply IH; lia].
          replace (limit - 1) with 0 by lia. reflexivity.
        * apply IH; auto.
      + rewrite read_eq, next_enc_cut; auto; [|rewrite enc_len; lia]. simpl. rewrite takeN_nil. reflexivity.
  Qed.
  Lemma complete_all ms k : lenN (enc_msgs crc ms) <= k -> complete k ms = ms.
  Proof.
    revert k. induction ms as [|m ms IH]; intros k L; simpl; auto. cbn [enc_msgs flat_map] in L. rewrite lenN_app, enc_len in L.
    destruct (N.leb_spec (24 + lenN (m_pay m)) k); [|lia]. f_equal. apply IH. change (flat_map (enc_msg crc) ms) with (enc_msgs crc ms) in L. lia.
  Qed.
  Lemma enc_msgs_app a b : enc_msgs crc (a ++ b) = enc_msgs crc a ++ enc_msgs crc b.
  Proof. unfold enc_msgs. apply flat_map_app. Qed.
  Lemma complete_app a b k : lenN (enc_msgs crc a) <= k -> complete k (a ++ b) = a ++ complete (k - lenN (enc_msgs crc a)) b.
  Proof.
    revert k. induction a as [|m a IH]; intros k L.
    - simpl. rewrite N.sub_0_r. reflexivity.
    - rewrite enc_msgs_cons, lenN_app, enc_len in *. cbn [app complete].
      destruct (N.leb_spec (24 + lenN (m_pay m)) k); [|lia]. rewrite IH by lia. f_equal. f_equal. f_equal. lia.
  Qed.

  (** A changed record body (same length, other checksum) is never returned: loading
      stops before it, reading skips it. *)
  Theorem load_changed ms m body rest : Forall msg_ok ms -> msg_ok m -> lenN body = lenN (rec_body m) -> crc body <> crc (rec_body m) ->
    load_segment crc (enc_msgs crc ms ++ (be 4 (16 + lenN (m_pay m)) ++ be 4 (crc (rec_body m)) ++ body) ++ rest) = ms.
  Proof.
    intros F (M1 & M2 & M3) L D. rewrite load_prefix by auto. rewrite load_eq. rewrite <- !app_assoc.
    rewrite next_framed; auto; [|lia|rewrite L; apply rec_body_len].
    destruct (N.eqb_spec (crc body) (crc (rec_body m))); [congruence|]. simpl. apply app_nil_r.
  Qed.
  Theorem read_changed ms m body ms' start : Forall msg_ok ms -> Forall msg_ok ms' -> msg_ok m -> lenN body = lenN (rec_body m) -> crc body <> crc (rec_body m) ->
    forall limit, 1 <= limit ->
    read_segment crc (enc_msgs crc ms ++ (be 4 (16 + lenN (m_pay m)) ++ be 4 (crc (rec_body m)) ++ body) ++ enc_msgs crc ms') start limit
    = takeN limit (filter (fun m => start <=? m_seq m) (ms ++ ms')).
  Proof.
    intros F F' (M1 & M2 & M3) L D. induction F as [|x ms X _ IH]; intros limit LL; cbn [enc_msgs flat_map app].
    - rewrite read_eq. rewrite <- !app_assoc. rewrite next_framed; auto; [|lia|rewrite L; apply rec_body_len].
      destruct (N.eqb_spec (crc body) (crc (rec_body m))); [congruence|]. simpl.
      rewrite <- (takeN_all _ (lenN (enc_msgs crc ms')) (enc_msgs crc ms')) by lia. rewrite read_takes by auto. rewrite complete_all by lia. reflexivity.
    - change (flat_map (enc_msg crc) ms) with (enc_msgs crc ms). rewrite <- app_assoc, read_cons by auto. cbn [filter].
      destruct (start <=? m_seq x); [|apply IH; auto]. rewrite takeN_cons by lia. f_equal.
      destruct (N.leb_spec limit 1) as [Y|Y]; [replace (limit - 1) with 0 by lia; reflexivity|apply IH; lia].
  Qed.
  (** Whatever the file holds, a record returned carries a matching checksum. *)
  Lemma next_parts b stored c rest : next_record b = Some (stored, c, rest) ->
    exists h k, b = h ++ k ++ c ++ rest /\ lenN h = 4 /\ lenN k = 4 /\ unbe h = lenN c /\ unbe k = stored.
  Proof.
    unfold next_record. destruct (N.ltb_spec (lenN b) 4); [discriminate|].
    destruct (N.ltb_spec (lenN (dropN 4 b)) 4) as [|A]; [discriminate|].
    destruct (N.ltb_spec (lenN (dropN 4 (dropN 4 b))) (unbe (takeN 4 b))) as [|B]; [discriminate|].
    intro E. inversion E; subst. exists (takeN 4 b), (takeN 4 (dropN 4 b)).
    rewrite !takeN_dropN, !lenN_takeN. repeat split; lia.
  Qed.
  Theorem load_checked : forall b m, In m (load_segment crc b) ->
    exists pre h k body post, b = pre ++ h ++ k ++ body ++ post /\ lenN h = 4 /\ lenN k = 4 /\
      unbe h = lenN body /\ unbe k = crc body /\ m = dec_body body.
  Proof.
    intro b. remember (length b) as n eqn:EN. revert b EN. induction n as [n IH] using lt_wf_ind. intros b EN m.
    rewrite load_eq. destruct (next_record b) as [[[s c] r]|] eqn:E; [|contradiction].
    pose proof (next_shorter _ _ _ _ E) as SH. destruct (next_parts _ _ _ _ E) as (h & k & EB & H4 & K4 & HL & HK).
    destruct (N.eqb_spec (crc c) s) as [C|C]; [|contradiction]. simpl. destruct (lenN c <? 16); [contradiction|].
    intros [X|X].
    - exists [], h, k, c, r. simpl. subst s. repeat split; auto.
    - destruct (IH (length r) ltac:(lia) r eq_refl m X) as (pre & h2 & k2 & body & post & E2 & R).
      exists (h ++ k ++ c ++ pre), h2, k2, body, post. split; [|exact R]. rewrite EB, E2, <- !app_assoc. reflexivity.
  Qed.

  (** ** The group file *)
  Definition gid_ok (e : bytes * N) : Prop := lenN (fst e) < 65536 /\ snd e < 2 ^ 64.
  Lemma groups_fuel : forall f b acc, (length b < f)%nat -> load_groups_loop crc f b acc = load_groups_loop crc (S (length b)) b acc.
  Proof.
    assert (G : forall f f' b acc, (length b < f)%nat -> (length b < f')%nat -> load_groups_loop crc f b acc = load_groups_loop crc f' b acc).
    { induction f as [|f IH]; intros [|f'] b acc L L'; try lia. simpl. destruct (next_record b) as [[[s c] r]|] eqn:E; auto.
      apply next_shorter in E. rewrite !(fun a => IH f' r a) by lia. reflexivity. }
    intros f b acc L. apply G; auto.
  Qed.
  Lemma group_body_len floor id : lenN (group_body floor id) = 10 + lenN id.
  Proof. unfold group_body. rewrite !lenN_app, !be_lenN. lia. Qed.
  Lemma groups_cons e rest acc f : gid_ok e -> (length (enc_group crc e ++ rest) < f)%nat ->
    load_groups_loop crc f (enc_group crc e ++ rest) acc = load_groups_loop crc (S (length rest)) rest (aset beqb (fst e) (snd e) acc).
  Proof.
    destruct e as [id floor]. intros (A & B) L. simpl fst in *. simpl snd in *. destruct f as [|f]; [lia|]. cbn [load_groups_loop].
    assert (E : next_record (enc_group crc (id, floor) ++ rest) = Some (crc (group_body floor id), group_body floor id, rest)).
    { unfold enc_group. rewrite N.mod_small by auto. rewrite <- !app_assoc. apply next_framed; auto; [lia|apply group_body_len]. }
    rewrite E. rewrite N.eqb_refl. simpl negb. cbv iota. rewrite group_body_len. destruct (N.ltb_spec (10 + lenN id) 10); [lia|].
    assert (G1 : takeN 8 (group_body floor id) = be 8 floor) by apply take8.
    assert (G2 : takeN 2 (dropN 8 (group_body floor id)) = be 2 (lenN id)) by (unfold group_body; rewrite drop8; apply take2).
    assert (G3 : dropN 10 (group_body floor id) = id).
    { change 10 with (2 + 8). rewrite <- dropN_dropN. unfold group_body. rewrite drop8, drop2. reflexivity. }
    rewrite G1, G2, G3, !unbe_be_small by (rewrite ?pow8, ?pow2; auto).
    destruct (N.ltb_spec (lenN id) (lenN id)); [lia|]. rewrite takeN_all by lia.
    apply groups_fuel. apply next_shorter in E. lia.
  Qed.
  Theorem groups_round_trip gs : Forall gid_ok gs -> NoDup (map fst gs) -> load_groups crc (enc_groups crc gs) = gs.
  Proof.
    intros F ND. unfold load_groups.
    assert (G : forall gs acc, Forall gid_ok gs -> NoDup (map fst (acc ++ gs)) ->
      load_groups_loop crc (S (length (enc_groups crc gs))) (enc_groups crc gs) acc = acc ++ gs).
    { clear gs F ND. induction gs as [|e gs IH]; intros acc F ND.
      - simpl. rewrite app_nil_r. reflexivity.
      - inversion F; subst. cbn [enc_groups flat_map]. rewrite groups_cons by (auto; simpl; lia).
        change (flat_map (enc_group crc) gs) with (enc_groups crc gs).
        assert (aset beqb (fst e) (snd e) acc = acc ++ [e]) as ->.
        { destruct e as [k v]. simpl. apply (aset_absent beqb beqb_eq). rewrite map_app in ND. simpl map in ND. pose proof (NoDup_remove_2 _ _ _ ND) as N2. intro X. apply N2. apply in_or_app. left. exact X. }
        rewrite IH; [rewrite <- app_assoc; reflexivity|auto|rewrite <- app_assoc; exact ND]. }
    apply (G gs []); auto.
  Qed.
End Codec.
