(** Lemmas about the framing model. *)
From Verif Require Import LibBase WireModel.

(** Plain specification of a frame on the wire: type, meta, 4-byte id, 4-byte
    length, payload. *)
Definition wire (t m id : N) (p : bytes) : bytes := [t; m] ++ be 4 id ++ be 4 (lenN p) ++ p.

Lemma be4_cases : forall n, exists a b c d, be 4 n = [a; b; c; d].
Proof.
  intro n. pose proof (be_length 4 n) as H.
  destruct (be 4 n) as [|a [|b [|c [|d [|e l]]]]]; simpl in H; try discriminate; try lia.
  exists a, b, c, d; reflexivity.
Qed.

Lemma u32_pow : 256 ^ N.of_nat 4 = 2 ^ 32.
Proof. reflexivity. Qed.
Lemma u64_pow : 256 ^ N.of_nat 8 = 2 ^ 64.
Proof. reflexivity. Qed.

Lemma decode_wire_app : forall maxp t m id p rest,
  id < 2 ^ 32 -> lenN p < 2 ^ 32 -> lenN p <= maxp ->
  decode maxp (wire t m id p ++ rest) = DFrame (mkIn t m id p) rest.
Proof.
  intros maxp t m id p rest Hid Hp Hmax. unfold wire.
  destruct (be4_cases id) as (a & b & c & d & E1).
  destruct (be4_cases (lenN p)) as (a' & b' & c' & d' & E2).
  assert (U1 : unbe [a; b; c; d] = id) by (rewrite <- E1; apply unbe_be_small; rewrite u32_pow; exact Hid).
  assert (U2 : unbe [a'; b'; c'; d'] = lenN p) by (rewrite <- E2; apply unbe_be_small; rewrite u32_pow; exact Hp).
  rewrite E1, E2. cbn [app decode]. rewrite U1, U2.
  destruct (N.ltb_spec maxp (lenN p)); [lia|].
  destruct (N.ltb_spec (lenN (p ++ rest)) (lenN p)); [rewrite lenN_app in *; lia|].
  rewrite takeN_app_exact, dropN_app_exact. reflexivity.
Qed.

Lemma sdk_split_wire_app : forall t m id p rest,
  id < 2 ^ 32 -> lenN p < 2 ^ 32 ->
  sdk_split (wire t m id p ++ rest) = DFrame (mkIn t m id p) rest.
Proof.
  intros t m id p rest Hid Hp.
  pose proof (decode_wire_app (lenN p) t m id p rest Hid Hp (N.le_refl _)) as H.
  destruct (be4_cases id) as (a & b & c & d & E1).
  destruct (be4_cases (lenN p)) as (a' & b' & c' & d' & E2).
  unfold wire in *. rewrite E1, E2 in *. cbn [app decode sdk_split] in *.
  destruct (lenN p <? unbe [a'; b'; c'; d']); [discriminate|]. exact H.
Qed.

Lemma encode_request_wire : forall id op args, encode_request id op args = wire TYPE_REQUEST op id args.
Proof. reflexivity. Qed.

Lemma request_roundtrip : forall maxp id op args rest,
  id < 2 ^ 32 -> lenN args < 2 ^ 32 -> lenN args <= maxp ->
  decode maxp (encode_request id op args ++ rest) = DFrame (mkIn TYPE_REQUEST op id args) rest.
Proof. intros; rewrite encode_request_wire; apply decode_wire_app; assumption. Qed.

(** shape lemma: how decode looks at a buffer *)
Lemma decode_cases : forall maxp src,
  (lenN src < 10 /\ decode maxp src = DNone) \/
  (exists hd l3 l2 l1 l0 body t m i3 i2 i1 i0,
     hd = [t; m; i3; i2; i1; i0] /\ src = hd ++ [l3; l2; l1; l0] ++ body).
Proof.
  intros maxp src.
  destruct src as [|t [|m [|i3 [|i2 [|i1 [|i0 [|l3 [|l2 [|l1 [|l0 body]]]]]]]]]];
    try (left; split; [unfold lenN; simpl length; lia|reflexivity]).
  right. exists [t; m; i3; i2; i1; i0], l3, l2, l1, l0, body, t, m, i3, i2, i1, i0. auto.
Qed.

Lemma decode_mono_frame : forall maxp src f rest x,
  decode maxp src = DFrame f rest -> decode maxp (src ++ x) = DFrame f (rest ++ x).
Proof.
  intros maxp src f rest x.
  destruct src as [|t [|m [|i3 [|i2 [|i1 [|i0 [|l3 [|l2 [|l1 [|l0 body]]]]]]]]]];
    cbn [decode app]; try discriminate.
  destruct (maxp <? _); [discriminate|].
  destruct (N.ltb_spec (lenN body) (unbe [l3; l2; l1; l0])) as [H|H]; [discriminate|].
  intro E; inv E.
  destruct (N.ltb_spec (lenN (body ++ x)) (unbe [l3; l2; l1; l0])) as [H2|H2];
    [rewrite lenN_app in H2; lia|].
  rewrite takeN_app_le, dropN_app_le by lia. reflexivity.
Qed.
Lemma decode_mono_err : forall maxp src x, decode maxp src = DErr -> decode maxp (src ++ x) = DErr.
Proof.
  intros maxp src x.
  destruct src as [|t [|m [|i3 [|i2 [|i1 [|i0 [|l3 [|l2 [|l1 [|l0 body]]]]]]]]]];
    cbn [decode app]; try discriminate.
  destruct (maxp <? _); [reflexivity|]. destruct (lenN body <? _); discriminate.
Qed.
Lemma decode_progress : forall maxp src f rest, decode maxp src = DFrame f rest -> (length rest < length src)%nat.
Proof.
  intros maxp src f rest.
  destruct src as [|t [|m [|i3 [|i2 [|i1 [|i0 [|l3 [|l2 [|l1 [|l0 body]]]]]]]]]];
    cbn [decode app]; try discriminate.
  destruct (maxp <? _); [discriminate|]. destruct (lenN body <? _); [discriminate|].
  intro E; inv E. unfold dropN. rewrite skipn_length. simpl; lia.
Qed.

Lemma sdk_split_as_decode : forall src, bytes_ok src -> sdk_split src = decode (2 ^ 32) src.
Proof.
  intros src Hok.
  destruct src as [|t [|m [|i3 [|i2 [|i1 [|i0 [|l3 [|l2 [|l1 [|l0 body]]]]]]]]]];
    cbn [decode sdk_split]; try reflexivity.
  assert (unbe [l3; l2; l1; l0] < 2 ^ 32).
  { replace (2 ^ 32) with (256 ^ lenN [l3; l2; l1; l0]) by reflexivity. apply unbe_bound.
    unfold bytes_ok in Hok. repeat match goal with H : Forall byte_ok (_ :: _) |- _ => inv H end.
    repeat constructor; assumption. }
  destruct (N.ltb_spec (2 ^ 32) (unbe [l3; l2; l1; l0])); [lia|reflexivity].
Qed.
Lemma sdk_mono_frame : forall src f rest x,
  sdk_split src = DFrame f rest -> sdk_split (src ++ x) = DFrame f (rest ++ x).
Proof.
  intros src f rest x.
  destruct src as [|t [|m [|i3 [|i2 [|i1 [|i0 [|l3 [|l2 [|l1 [|l0 body]]]]]]]]]];
    cbn [sdk_split app]; try discriminate.
  destruct (N.ltb_spec (lenN body) (unbe [l3; l2; l1; l0])) as [H|H]; [discriminate|].
  intro E; inv E.
  destruct (N.ltb_spec (lenN (body ++ x)) (unbe [l3; l2; l1; l0])) as [H2|H2];
    [rewrite lenN_app in H2; lia|].
  rewrite takeN_app_le, dropN_app_le by lia. reflexivity.
Qed.
Lemma sdk_noerr : forall src, sdk_split src <> DErr.
Proof.
  intros src.
  destruct src as [|t [|m [|i3 [|i2 [|i1 [|i0 [|l3 [|l2 [|l1 [|l0 body]]]]]]]]]];
    cbn [sdk_split]; try discriminate. destruct (lenN body <? _); discriminate.
Qed.
Lemma sdk_progress : forall src f rest, sdk_split src = DFrame f rest -> (length rest < length src)%nat.
Proof.
  intros src f rest.
  destruct src as [|t [|m [|i3 [|i2 [|i1 [|i0 [|l3 [|l2 [|l1 [|l0 body]]]]]]]]]];
    cbn [sdk_split]; try discriminate.
  destruct (lenN body <? _); [discriminate|].
  intro E; inv E. unfold dropN. rewrite skipn_length. simpl; lia.
Qed.

(** Chunking, for any decoder that is monotone and makes progress. *)
Section Chunking.
  Variable dec : bytes -> decres.
  Hypothesis mono_frame : forall src f rest x, dec src = DFrame f rest -> dec (src ++ x) = DFrame f (rest ++ x).
  Hypothesis mono_err : forall src x, dec src = DErr -> dec (src ++ x) = DErr.
  Hypothesis progress : forall src f rest, dec src = DFrame f rest -> (length rest < length src)%nat.

  Lemma drain_fuel_ok : forall fuel buf, (length buf < fuel)%nat -> exists r, drain dec fuel buf = Some r.
  Proof.
    induction fuel as [|fuel IH]; intros buf H; [lia|]. cbn [drain].
    destruct (dec buf) as [| |f rest] eqn:E; eauto.
    apply progress in E. destruct (IH rest) as [[[fs e] b] Hr]; [lia|]. rewrite Hr; eauto.
  Qed.
  Lemma drain_fuel_mono : forall fuel fuel' buf r, drain dec fuel buf = Some r -> (fuel <= fuel')%nat ->
    drain dec fuel' buf = Some r.
  Proof.
    induction fuel as [|fuel IH]; intros fuel' buf r H Hle; [discriminate|].
    destruct fuel' as [|fuel']; [lia|]. cbn [drain] in *.
    destruct (dec buf) as [| |f rest]; auto.
    destruct (drain dec fuel rest) as [[[fs e] b]|] eqn:E; [|discriminate].
    rewrite (IH fuel' rest _ E) by lia. exact H.
  Qed.
  Lemma drain_app : forall fuel buf x fs b, drain dec fuel buf = Some (fs, false, b) ->
    forall fuel2 r, drain dec fuel2 (b ++ x) = Some r ->
    exists fuel3, drain dec fuel3 (buf ++ x) =
      Some (fs ++ fst (fst r), snd (fst r), snd r).
  Proof.
    induction fuel as [|fuel IH]; intros buf x fs b H fuel2 r Hr; [discriminate|].
    cbn [drain] in H. destruct (dec buf) as [| |f rest] eqn:E.
    - inv H. exists fuel2. rewrite Hr. destruct r as [[? ?] ?]; reflexivity.
    - discriminate.
    - destruct (drain dec fuel rest) as [[[fs1 e1] b1]|] eqn:E1; [|discriminate]. inv H.
      destruct (IH _ x _ _ E1 _ _ Hr) as [fuel3 H3].
      exists (S fuel3). cbn [drain]. rewrite (mono_frame _ _ _ x E), H3. reflexivity.
  Qed.
  Lemma drain_err_app : forall fuel buf x fs b, drain dec fuel buf = Some (fs, true, b) ->
    drain dec fuel (buf ++ x) = Some (fs, true, b ++ x).
  Proof.
    induction fuel as [|fuel IH]; intros buf x fs b H; [discriminate|].
    cbn [drain] in *. destruct (dec buf) as [| |f rest] eqn:E.
    - discriminate.
    - inv H. rewrite (mono_err _ x E). reflexivity.
    - destruct (drain dec fuel rest) as [[[fs1 e1] b1]|] eqn:E1; [|discriminate]. inv H.
      rewrite (mono_frame _ _ _ x E), (IH _ x _ _ E1). reflexivity.
  Qed.

  (** one-shot run over a whole byte string *)
  Definition run_all (s : bytes) : list inframe * bool * bytes :=
    match drain dec (S (length s)) s with Some r => r | None => ([], false, s) end.

  Lemma run_all_drain : forall s fuel r, drain dec fuel s = Some r -> run_all s = r.
  Proof.
    intros s fuel r H. unfold run_all.
    destruct (drain_fuel_ok (S (length s)) s) as [r' Hr']; [lia|]. rewrite Hr'.
    pose proof (drain_fuel_mono _ (Nat.max fuel (S (length s))) _ _ H ltac:(lia)) as A.
    pose proof (drain_fuel_mono _ (Nat.max fuel (S (length s))) _ _ Hr' ltac:(lia)) as B.
    congruence.
  Qed.

  (** invariant tying the incremental reader to the one-shot run *)
  Definition agrees (s : bytes) (r : reader) : Prop :=
    let '(fs, e, b) := run_all s in
    r_frames r = fs /\ r_err r = e /\ (e = false -> r_buf r = b) /\ exists x, b = r_buf r ++ x.

  Lemma agrees_feed : forall s r chunk, agrees s r -> agrees (s ++ chunk) (feed dec r chunk).
  Proof.
    intros s r chunk H. unfold agrees in *.
    destruct (run_all s) as [[fs e] b] eqn:E. destruct H as (Hf & He & Hb & x & Hx).
    unfold run_all in E.
    destruct (drain_fuel_ok (S (length s)) s) as [r0 Hr0]; [lia|]. rewrite Hr0 in E. subst r0.
    unfold feed. rewrite He. destruct e.
    - pose proof (drain_err_app _ _ chunk _ _ Hr0) as D. rewrite (run_all_drain _ _ _ D).
      repeat split; auto. discriminate. exists (x ++ chunk). rewrite Hx, app_assoc. reflexivity.
    - specialize (Hb eq_refl). clear x Hx. rewrite Hb.
      destruct (drain_fuel_ok (S (length (b ++ chunk))) (b ++ chunk)) as [[[fs2 e2] b2] H2]; [lia|].
      rewrite H2. cbn [r_frames r_err r_buf].
      destruct (drain_app _ _ chunk _ _ Hr0 _ _ H2) as [fuel3 H3].
      rewrite (run_all_drain _ _ _ H3). cbn [fst snd]. repeat split; auto. congruence.
      exists []. rewrite app_nil_r; reflexivity.
  Qed.


  Hypothesis dec_nil : dec [] = DNone.
  Lemma agrees_0 : agrees [] reader0.
  Proof.
    unfold agrees, run_all. cbn [drain length]. rewrite dec_nil.
    repeat split; auto. exists []; reflexivity.
  Qed.
  Lemma agrees_all : forall chunks, agrees (concat chunks) (feed_all dec chunks).
  Proof.
    intros chunks. unfold feed_all.
    assert (G : forall cs s r, agrees s r -> agrees (s ++ concat cs) (fold_left (feed dec) cs r)).
    { induction cs as [|c cs IH]; intros s r H; simpl.
      - rewrite app_nil_r; exact H.
      - rewrite app_assoc. apply IH. apply agrees_feed; exact H. }
    apply (G chunks [] reader0). exact agrees_0.
  Qed.
  Lemma chunking : forall chunks1 chunks2, concat chunks1 = concat chunks2 ->
    r_frames (feed_all dec chunks1) = r_frames (feed_all dec chunks2) /\
    r_err (feed_all dec chunks1) = r_err (feed_all dec chunks2) /\
    (r_err (feed_all dec chunks1) = false -> r_buf (feed_all dec chunks1) = r_buf (feed_all dec chunks2)).
  Proof.
    intros c1 c2 H. pose proof (agrees_all c1) as A1. pose proof (agrees_all c2) as A2.
    rewrite H in A1. unfold agrees in *. destruct (run_all (concat c2)) as [[fs e] b].
    destruct A1 as (? & ? & H3 & _), A2 as (? & ? & H6 & _).
    repeat split; try congruence. intro. rewrite H3, H6 by congruence. reflexivity.
  Qed.
  (** frames come in the order they were written, whatever the chunking *)
  Lemma frames_in_order : forall (A : Type) (enc : A -> bytes) (frm : A -> inframe) (l : list A) chunks tail,
    (forall a rest, In a l -> dec (enc a ++ rest) = DFrame (frm a) rest) ->
    dec tail = DNone ->
    concat chunks = concat (map enc l) ++ tail ->
    feed_all dec chunks = mkReader tail (map frm l) false.
  Proof.
    intros A enc frm l chunks tail Henc Htail Hc.
    pose proof (agrees_all chunks) as Ag. unfold agrees in Ag. rewrite Hc in Ag.
    assert (D : exists fuel, drain dec fuel (concat (map enc l) ++ tail) = Some (map frm l, false, tail)).
    { clear Hc Ag. induction l as [|a l IH]; simpl.
      - exists 1%nat. cbn [drain]. rewrite Htail. reflexivity.
      - destruct IH as [fuel Hf]. { intros; apply Henc; right; assumption. }
        exists (S fuel). cbn [drain]. rewrite <- app_assoc, Henc by (left; reflexivity).
        rewrite Hf. reflexivity. }
    destruct D as [fuel D]. rewrite (run_all_drain _ _ _ D) in Ag.
    destruct Ag as (H1 & H2 & H3 & _). specialize (H3 eq_refl).
    destruct (feed_all dec chunks) as [b fs e]; simpl in *; subst; reflexivity.
  Qed.
  (** an erroneous frame latches: nothing after it is ever delivered *)
  Lemma error_in_order : forall (A : Type) (enc : A -> bytes) (frm : A -> inframe) (l : list A) chunks bad x,
    (forall a rest, In a l -> dec (enc a ++ rest) = DFrame (frm a) rest) ->
    dec bad = DErr ->
    concat chunks = concat (map enc l) ++ bad ++ x ->
    r_frames (feed_all dec chunks) = map frm l /\ r_err (feed_all dec chunks) = true.
  Proof.
    intros A enc frm l chunks bad x Henc Hbad Hc.
    pose proof (agrees_all chunks) as Ag. unfold agrees in Ag. rewrite Hc in Ag.
    assert (D : exists fuel, drain dec fuel (concat (map enc l) ++ bad ++ x) = Some (map frm l, true, bad ++ x)).
    { clear Hc Ag. induction l as [|a l IH]; simpl.
      - exists 1%nat. cbn [drain]. rewrite (mono_err _ x Hbad). reflexivity.
      - destruct IH as [fuel Hf]. { intros; apply Henc; right; assumption. }
        exists (S fuel). cbn [drain]. rewrite <- app_assoc, Henc by (left; reflexivity).
        rewrite Hf. reflexivity. }
    destruct D as [fuel D]. rewrite (run_all_drain _ _ _ D) in Ag. tauto.
  Qed.
End Chunking.

Lemma server_chunking : forall maxp chunks1 chunks2, concat chunks1 = concat chunks2 ->
  r_frames (feed_all (decode maxp) chunks1) = r_frames (feed_all (decode maxp) chunks2) /\
  r_err (feed_all (decode maxp) chunks1) = r_err (feed_all (decode maxp) chunks2) /\
  (r_err (feed_all (decode maxp) chunks1) = false ->
   r_buf (feed_all (decode maxp) chunks1) = r_buf (feed_all (decode maxp) chunks2)).
Proof.
  intros maxp. apply chunking.
  - apply decode_mono_frame.
  - apply decode_mono_err.
  - apply decode_progress.
  - reflexivity.
Qed.

(** requests of a whole session *)
Definition req := (N * N * bytes)%type.   (* id, opcode, arguments *)
Definition req_ok (maxp : N) (r : req) : Prop :=
  let '(id, op, args) := r in id < 2 ^ 32 /\ lenN args < 2 ^ 32 /\ lenN args <= maxp.
Definition req_wire (r : req) : bytes := let '(id, op, args) := r in encode_request id op args.
Definition req_frame (r : req) : inframe := let '(id, op, args) := r in mkIn TYPE_REQUEST op id args.

Lemma server_session : forall maxp reqs chunks tail,
  Forall (req_ok maxp) reqs -> decode maxp tail = DNone ->
  concat chunks = concat (map req_wire reqs) ++ tail ->
  feed_all (decode maxp) chunks = mkReader tail (map req_frame reqs) false.
Proof.
  intros maxp reqs chunks tail Hok Ht Hc.
  apply frames_in_order with (enc := req_wire).
  - apply decode_mono_frame.
  - apply decode_mono_err.
  - apply decode_progress.
  - reflexivity.
  - intros [[id op] args] rest Hin. rewrite Forall_forall in Hok. apply Hok in Hin.
    destruct Hin as (A & B & C). apply request_roundtrip; assumption.
  - exact Ht.
  - exact Hc.
Qed.

(** C03 *)
Definition declared_len (h : bytes) : N := unbe (takeN 4 (dropN 6 h)).
Lemma decode_err_iff : forall maxp src,
  decode maxp src = DErr <-> 10 <= lenN src /\ maxp < declared_len src.
Proof.
  intros maxp src.
  destruct src as [|t [|m [|i3 [|i2 [|i1 [|i0 [|l3 [|l2 [|l1 [|l0 body]]]]]]]]]];
    cbn [decode]; try (split; [discriminate | intros [H _]; unfold lenN in H; simpl length in H; lia]).
  assert (E : declared_len (t :: m :: i3 :: i2 :: i1 :: i0 :: l3 :: l2 :: l1 :: l0 :: body)
              = unbe [l3; l2; l1; l0]) by reflexivity.
  rewrite E. destruct (N.ltb_spec maxp (unbe [l3; l2; l1; l0])) as [H|H].
  - split; auto. intros _. split; auto. unfold lenN; simpl length; lia.
  - split; [|lia]. destruct (lenN body <? _); discriminate.
Qed.
Lemma oversize_latches : forall maxp reqs chunks hdr x,
  Forall (req_ok maxp) reqs -> lenN hdr = 10 -> maxp < declared_len hdr ->
  concat chunks = concat (map req_wire reqs) ++ hdr ++ x ->
  r_frames (feed_all (decode maxp) chunks) = map req_frame reqs /\
  r_err (feed_all (decode maxp) chunks) = true.
Proof.
  intros maxp reqs chunks hdr x Hok Hlen Hbig Hc.
  apply error_in_order with (enc := req_wire) (bad := hdr) (x := x).
  - apply decode_mono_frame.
  - apply decode_mono_err.
  - apply decode_progress.
  - reflexivity.
  - intros [[id op] args] rest Hin. rewrite Forall_forall in Hok. apply Hok in Hin.
    destruct Hin as (A & B & C). apply request_roundtrip; assumption.
  - apply decode_err_iff. split; [lia|exact Hbig].
  - exact Hc.
Qed.

(** C04 *)
Lemma decode_prefix_none : forall maxp id op args p s,
  id < 2 ^ 32 -> lenN args < 2 ^ 32 -> lenN args <= maxp ->
  p ++ s = encode_request id op args -> s <> [] ->
  decode maxp p = DNone.
Proof.
  intros maxp id op args p s Hid Hlen Hmax E Hs.
  pose proof (request_roundtrip maxp id op args [] Hid Hlen Hmax) as R. rewrite app_nil_r in R.
  destruct (decode maxp p) as [| |f rest] eqn:D; auto.
  - apply (decode_mono_err _ _ s) in D. rewrite E in D. congruence.
  - apply (decode_mono_frame _ _ _ _ s) in D. rewrite E, R in D. inv D.
    destruct rest; destruct s; simpl in *; congruence.
Qed.

(** C05 *)
Definition out_ok (o : outframe) : Prop :=
  match o with
  | OResponse id r => id < 2 ^ 32 /\ lenN (snd (response_parts r)) < 2 ^ 32
  | OPush id p => id < 2 ^ 32 /\ lenN p < 2 ^ 32
  end.
(** what the client should see for each thing the server sends *)
Definition out_event (o : outframe) : sdk_event :=
  match o with
  | OResponse id ROk => EvResponse id 0 []
  | OResponse id RNull => EvResponse id 2 []
  | OResponse id (RData d) => EvResponse id 3 d
  | OResponse id (RError m) => EvResponse id 1 (be 4 (lenN m) ++ m)
  | OPush _ p => EvPush p
  end.
Definition out_frame (o : outframe) : inframe :=
  match o with
  | OResponse id r => mkIn 2 (fst (response_parts r)) id (snd (response_parts r))
  | OPush id p => mkIn 3 0 id p
  end.
Lemma sdk_split_encode : forall o rest, out_ok o -> sdk_split (encode o ++ rest) = DFrame (out_frame o) rest.
Proof.
  intros [id r|id p] rest [H1 H2].
  - unfold encode, out_frame. destruct (response_parts r) as [st pl] eqn:E. cbn [fst snd] in *.
    apply (sdk_split_wire_app 2 st id pl rest); assumption.
  - apply (sdk_split_wire_app 3 0 id p rest); assumption.
Qed.
Lemma sdk_handle_out : forall o, sdk_handle (out_frame o) = out_event o.
Proof. intros [id [ | | | ]|id p]; reflexivity. Qed.
Lemma sdk_session : forall outs chunks tail,
  Forall out_ok outs -> sdk_split tail = DNone ->
  concat chunks = concat (map encode outs) ++ tail ->
  map sdk_handle (r_frames (feed_all sdk_split chunks)) = map out_event outs /\
  r_err (feed_all sdk_split chunks) = false /\ r_buf (feed_all sdk_split chunks) = tail.
Proof.
  intros outs chunks tail Hok Ht Hc.
  rewrite (frames_in_order sdk_split sdk_mono_frame) with (enc := encode) (frm := out_frame) (l := outs) (tail := tail);
    auto.
  - simpl. split; auto. rewrite map_map. apply map_ext. apply sdk_handle_out.
  - intros src x H. exfalso; eapply sdk_noerr; eauto.
  - apply sdk_progress.
  - intros a rest Hin. apply sdk_split_encode. rewrite Forall_forall in Hok; auto.
Qed.
(** a strict prefix of a server frame produces nothing on the client *)
Lemma sdk_prefix_none : forall o p s, out_ok o -> p ++ s = encode o -> s <> [] -> sdk_split p = DNone.
Proof.
  intros o p s Hok E Hs.
  pose proof (sdk_split_encode o [] Hok) as R. rewrite app_nil_r in R.
  destruct (sdk_split p) as [| |f rest] eqn:D; auto.
  - exfalso; eapply sdk_noerr; eauto.
  - apply (sdk_mono_frame _ _ _ s) in D. rewrite E, R in D. inv D.
    destruct rest; destruct s; simpl in *; congruence.
Qed.
(** the outgoing byte stream is unambiguous: equal bytes mean equal visible events *)
Lemma wire_unambiguous : forall outs1 outs2,
  Forall out_ok outs1 -> Forall out_ok outs2 ->
  concat (map encode outs1) = concat (map encode outs2) ->
  map out_event outs1 = map out_event outs2.
Proof.
  intros o1 o2 H1 H2 E.
  destruct (sdk_session o1 [concat (map encode o1)] [] H1) as [A _]; [reflexivity| |].
  { cbn [concat]. rewrite !app_nil_r; reflexivity. }
  destruct (sdk_session o2 [concat (map encode o1)] [] H2) as [B _]; [reflexivity| |].
  { cbn [concat]. rewrite !app_nil_r; exact E. }
  congruence.
Qed.
