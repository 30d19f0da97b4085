(** Properties C01-C11: framing, command parsing, responses, SDK ids.
    Each theorem is closed by [exact]; proofs live in *Proofs.v. *)
From Verif Require Import LibBase WireModel WireProofs CmdModel CmdProofs RespModel RespProofs Utf8.

(** C01: a request frame followed by anything decodes to that request and
    leaves exactly the rest. *)
Theorem C01_request_roundtrip : forall maxp id op args rest,
  id < 2 ^ 32 -> lenN args < 2 ^ 32 -> lenN args <= maxp ->
  decode maxp (encode_request id op args ++ rest)
    = DFrame {| in_type := 1; in_meta := op; in_id := id; in_payload := args |} rest.
Proof. exact request_roundtrip. Qed.
Print Assumptions C01_request_roundtrip.
Example C01_example :
  decode 1000 (encode_request 258 17 [7; 8; 9] ++ [1; 2]) = DFrame (mkIn 1 17 258 [7; 8; 9]) [1; 2].
Proof. vm_compute; reflexivity. Qed.

(** C02: frames seen, error flag and leftover do not depend on the chunking. *)
Theorem C02_chunking_invariance : forall maxp chunks1 chunks2, concat chunks1 = concat chunks2 ->
  r_frames (feed_all (decode maxp) chunks1) = r_frames (feed_all (decode maxp) chunks2) /\
  r_err (feed_all (decode maxp) chunks1) = r_err (feed_all (decode maxp) chunks2) /\
  (r_err (feed_all (decode maxp) chunks1) = false ->
   r_buf (feed_all (decode maxp) chunks1) = r_buf (feed_all (decode maxp) chunks2)).
Proof. exact server_chunking. Qed.
Print Assumptions C02_chunking_invariance.
(** C02 (functional form): a session of requests, chunked anyhow, is received
    exactly, with an incomplete tail kept unread. *)
Theorem C02_session : forall maxp reqs chunks tail,
  Forall (req_ok maxp) reqs -> decode maxp tail = DNone ->
  concat chunks = concat (map req_wire reqs) ++ tail ->
  feed_all (decode maxp) chunks = mkReader tail (map req_frame reqs) false.
Proof. exact server_session. Qed.
Print Assumptions C02_session.
Example C02_example :
  let w := encode_request 1 3 [5] ++ encode_request 2 4 [] ++ [1; 0] in
  let r := feed_all (decode 100) [firstn 4 w; []; firstn 15 (skipn 4 w); skipn 19 w] in
  r = mkReader [1; 0] [mkIn 1 3 1 [5]; mkIn 1 4 2 []] false.
Proof. vm_compute; reflexivity. Qed.

(** C03: rejection happens exactly when ten header bytes declare too much; and
    after such a header nothing more is delivered, everything before it is. *)
Theorem C03_oversize_iff : forall maxp src,
  decode maxp src = DErr <-> 10 <= lenN src /\ maxp < unbe (takeN 4 (dropN 6 src)).
Proof. exact decode_err_iff. Qed.
Print Assumptions C03_oversize_iff.
Theorem C03_oversize_stops : forall maxp reqs chunks hdr x,
  Forall (req_ok maxp) reqs -> lenN hdr = 10 -> maxp < unbe (takeN 4 (dropN 6 hdr)) ->
  concat chunks = concat (map req_wire reqs) ++ hdr ++ x ->
  r_frames (feed_all (decode maxp) chunks) = map req_frame reqs /\
  r_err (feed_all (decode maxp) chunks) = true.
Proof. exact oversize_latches. Qed.
Print Assumptions C03_oversize_stops.
Example C03_example :
  feed_all (decode 2) [encode_request 1 3 [5; 6]; encode_request 2 3 [5; 6; 7]; encode_request 3 3 []]
  = mkReader (encode_request 2 3 [5; 6; 7]) [mkIn 1 3 1 [5; 6]] true.
Proof. vm_compute; reflexivity. Qed.

(** C04: a strict prefix of a frame yields nothing. *)
Theorem C04_truncated : forall maxp id op args p s,
  id < 2 ^ 32 -> lenN args < 2 ^ 32 -> lenN args <= maxp ->
  p ++ s = encode_request id op args -> s <> [] -> decode maxp p = DNone.
Proof. exact decode_prefix_none. Qed.
Print Assumptions C04_truncated.
Example C04_example : exists p s, p ++ s = encode_request 1 3 [5; 6] /\ s <> [] /\ lenN p = 11 /\ decode 10 p = DNone.
Proof. exists (firstn 11 (encode_request 1 3 [5; 6])), [6]. vm_compute. repeat split; discriminate. Qed.

(** C05: what the server writes is what the SDK sees. *)
Theorem C05_sdk_session : forall outs chunks tail,
  Forall out_ok outs -> sdk_split tail = DNone ->
  concat chunks = concat (map encode outs) ++ tail ->
  map sdk_handle (r_frames (feed_all sdk_split chunks)) = map out_event outs /\
  r_err (feed_all sdk_split chunks) = false /\ r_buf (feed_all sdk_split chunks) = tail.
Proof. exact sdk_session. Qed.
Print Assumptions C05_sdk_session.
Theorem C05_sdk_prefix : forall o p s, out_ok o -> p ++ s = encode o -> s <> [] -> sdk_split p = DNone.
Proof. exact sdk_prefix_none. Qed.
Print Assumptions C05_sdk_prefix.
Theorem C05_unambiguous : forall outs1 outs2,
  Forall out_ok outs1 -> Forall out_ok outs2 ->
  concat (map encode outs1) = concat (map encode outs2) -> map out_event outs1 = map out_event outs2.
Proof. exact wire_unambiguous. Qed.
Print Assumptions C05_unambiguous.
Example C05_example :
  let outs := [OResponse 7 (RData [1; 2]); OPush 0 [9]; OResponse 8 (RError [65]); OResponse 9 RNull] in
  Forall out_ok outs /\
  map sdk_handle (r_frames (feed_all sdk_split [firstn 13 (concat (map encode outs)); skipn 13 (concat (map encode outs))]))
   = [EvResponse 7 3 [1; 2]; EvPush [9]; EvResponse 8 1 [0; 0; 0; 1; 65]; EvResponse 9 2 []].
Proof. split; [repeat constructor; vm_compute; reflexivity|vm_compute; reflexivity]. Qed.

(** C06: every command's arguments survive. [cmd_ok] only bounds field sizes and
    asks for valid UTF-8 / JSON accepted by the oracle. *)
Theorem C06_args_survive : forall json_ok c, cmd_ok json_ok c ->
  dispatch json_ok (sdk_opcode c) (sdk_args c) = DCmd c.
Proof. exact dispatch_sdk. Qed.
Print Assumptions C06_args_survive.
(** C06 end to end: SDK frames, any chunking, server decoder, dispatcher. *)
Theorem C06_end_to_end : forall json_ok maxp calls chunks,
  Forall (fun c => fst c < 2 ^ 32 /\ cmd_ok json_ok (snd c) /\
                   lenN (sdk_args (snd c)) < 2 ^ 32 /\ lenN (sdk_args (snd c)) <= maxp) calls ->
  concat chunks = concat (map (fun c => encode_request (fst c) (sdk_opcode (snd c)) (sdk_args (snd c))) calls) ->
  map (fun f => (in_id f, dispatch json_ok (in_meta f) (in_payload f))) (r_frames (feed_all (decode maxp) chunks))
  = map (fun c => (fst c, DCmd (snd c))) calls.
Proof. exact end_to_end. Qed.
Print Assumptions C06_end_to_end.
Example C06_example :
  cmd_ok (fun _ j => beqb j [123; 125]) (QPush [113] [123; 125] [0; 1; 2]) /\
  dispatch (fun _ j => beqb j [123; 125]) 17 (sdk_args (QPush [113] [123; 125] [0; 1; 2]))
   = DCmd (QPush [113] [123; 125] [0; 1; 2]).
Proof. split; [repeat split; vm_compute; reflexivity|vm_compute; reflexivity]. Qed.

(** C07: whatever is accepted was really there; cutting the fixed part is an error. *)
Theorem C07_no_misparse : forall json_ok op payload c, bytes_ok payload -> op <> 0 ->
  dispatch json_ok op payload = DCmd c ->
  exists rest, payload = sdk_args c ++ rest /\ cmd_ok json_ok c /\ sdk_opcode c = op.
Proof. exact dispatch_sound. Qed.
Print Assumptions C07_no_misparse.
Theorem C07_truncated : forall json_ok c p s, cmd_ok json_ok c -> bytes_ok p ->
  p ++ s = sdk_head c -> s <> [] -> exists b, dispatch json_ok (sdk_opcode c) p = DParseError b.
Proof. exact truncated_dispatch. Qed.
Print Assumptions C07_truncated.
(** A text argument is accepted exactly if its bytes encode a sequence of Unicode scalar
    values ([utf8_enc] is the encoding of one, [scalar] excludes surrogates). [cmd_ok]
    above asks just this of every text argument ([str_ok]). *)
Theorem C07_text : forall s rest, lenN s < 2 ^ 32 ->
  (exists ns, Forall scalar ns /\ s = concat (map utf8_enc ns)) /\ str_ok s /\ read_string (w_string s ++ rest) = Some (s, rest) \/
  ~ (exists ns, Forall scalar ns /\ s = concat (map utf8_enc ns)) /\ ~ str_ok s /\ read_string (w_string s ++ rest) = None.
Proof.
  intros s rest L. destruct (utf8 s) eqn:U.
  - left. split; [apply utf8_exact; exact U|]. split; [split; assumption|]. apply read_string_app. split; assumption.
  - right. split; [rewrite <- utf8_exact; congruence|]. split; [unfold str_ok; intros (_ & X); congruence|].
    unfold read_string, w_string. rewrite <- app_assoc. erewrite bind_some; [|apply (read_u32_app (lenN s)); exact L].
    erewrite bind_some; [|apply read_n_app]. rewrite U. reflexivity.
Qed.
Print Assumptions C07_text.
(** "aé€😀" is text; a surrogate, an overlong form and a lone continuation byte are not. *)
Example C07_text_example :
  concat (map utf8_enc [97; 233; 8364; 128512]) = [97; 195; 169; 226; 130; 172; 240; 159; 152; 128] /\
  map utf8 [[97; 195; 169; 226; 130; 172; 240; 159; 152; 128]; [237; 160; 128]; [192; 175]; [128]] = [true; false; false; false].
Proof. vm_compute; auto. Qed.
Example C07_example :
  dispatch (fun _ _ => true) 56 (w_string [116] ++ w_string [103] ++ [1; 77]) = DCmd (TSeek [116] [103] 1) /\
  dispatch (fun _ _ => true) 56 (w_string [116] ++ w_string [103] ++ [2]) = DParseError BStream /\
  dispatch (fun _ _ => true) 56 (w_string [116] ++ w_string [195]) = DParseError BStream.
Proof. vm_compute; auto. Qed.

(** C08: one owner per opcode. *)
Theorem C08_disjoint : forall op b1 b2, owns op b1 -> owns op b2 -> b1 = b2.
Proof. exact ranges_disjoint. Qed.
Print Assumptions C08_disjoint.
Theorem C08_owner_runs : forall json_ok op payload b, owns op b ->
  dispatch json_ok op payload = match parse_of json_ok b op payload with
                                | Some (c, _) => DCmd c | None => DParseError b end.
Proof. exact dispatch_owner. Qed.
Print Assumptions C08_owner_runs.
Theorem C08_unknown : forall json_ok op payload, op <> 0 -> (forall b, ~ owns op b) ->
  dispatch json_ok op payload = DUnknown.
Proof. exact dispatch_none. Qed.
Print Assumptions C08_unknown.
Theorem C08_sdk_opcodes : forall c b, broker_of c = Some b -> owns (sdk_opcode c) b.
Proof. exact sdk_opcode_owner. Qed.
Print Assumptions C08_sdk_opcodes.
Example C08_example : owns 18 BQueue /\ dispatch (fun _ _ => true) 32 [] = DUnknown /\
  dispatch (fun _ _ => true) 64 [1] = DUnknown /\ dispatch (fun _ _ => true) 0 [1] = DCmd (CEcho [1]).
Proof. unfold owns; cbn; repeat split; try reflexivity; lia. Qed.

(** C09: structured responses. [typed p] = first byte (data type) and the rest. *)
Theorem C09_consume : forall ms rest, lenN ms < 2 ^ 32 -> Forall cmsg_ok ms ->
  sdk_consume (consume_wire ms ++ rest) = Some (map (fun m => (to_hex (fst m), typed (snd m))) ms, rest).
Proof. exact consume_roundtrip. Qed.
Print Assumptions C09_consume.
Theorem C09_peek : forall total ms rest, total < 2 ^ 32 -> lenN ms < 2 ^ 32 -> Forall dmsg_ok ms ->
  sdk_peek (peek_wire total ms ++ rest) =
    Some ((total, map (fun m => let '(id, p, att, reason) := m in (to_hex id, typed p, att, reason)) ms), rest).
Proof. exact peek_roundtrip. Qed.
Print Assumptions C09_peek.
Theorem C09_fetch : forall ms rest, lenN ms < 2 ^ 32 -> Forall smsg_ok ms ->
  sdk_fetch (fetch_wire ms ++ rest) = Some (map (fun m => let '(seq, ts, p) := m in (seq, typed p)) ms, rest).
Proof. exact fetch_roundtrip. Qed.
Print Assumptions C09_fetch.
Theorem C09_join : forall floor gen cid rest, floor < 2 ^ 64 -> gen < 2 ^ 64 -> lenN cid < 2 ^ 32 ->
  sdk_join (join_wire floor gen cid ++ rest) = Some ((floor, gen, cid), rest).
Proof. exact join_roundtrip. Qed.
Print Assumptions C09_join.
Theorem C09_publish : forall seq rest, seq < 2 ^ 64 -> sdk_u64 (publish_wire seq ++ rest) = Some (seq, rest).
Proof. exact publish_roundtrip. Qed.
Print Assumptions C09_publish.
Theorem C09_count : forall n rest, n < 2 ^ 32 -> sdk_u32 (count_wire n ++ rest) = Some (n, rest).
Proof. exact count_roundtrip. Qed.
Print Assumptions C09_count.
Theorem C09_bool : forall b rest, sdk_bool (bool_wire b ++ rest) = Some (b, rest).
Proof. exact bool_roundtrip. Qed.
Print Assumptions C09_bool.
Theorem C09_push : forall topic p, lenN topic < 2 ^ 32 -> p <> [] ->
  sdk_push (push_wire topic p) = Some (topic, typed p).
Proof. exact push_roundtrip. Qed.
Print Assumptions C09_push.
(** C09 fails for empty payloads: the server accepts and delivers a message with
    an empty payload (sent by a non-SDK client), the SDK's decoder throws on it
    and the whole batch, including every well-formed message, is lost to the
    caller. *)
Theorem C09_empty_payload_poisons : forall ms1 id ms2 rest,
  lenN (ms1 ++ (id, []) :: ms2) < 2 ^ 32 -> Forall cmsg_ok ms1 -> lenN id = 16 ->
  sdk_consume (consume_wire (ms1 ++ (id, []) :: ms2) ++ rest) = None.
Proof. exact consume_poison. Qed.
Print Assumptions C09_empty_payload_poisons.
Theorem C09_empty_payload_refuted : exists ms,
  Forall (fun m => lenN (fst m) = 16 /\ lenN (snd m) < 2 ^ 32) ms /\ sdk_consume (consume_wire ms) = None.
Proof. exact consume_empty_refuted. Qed.
Print Assumptions C09_empty_payload_refuted.
Example C09_example :
  let i := [0;1;2;3;4;5;6;7;8;9;10;11;12;13;14;255] in
  Forall cmsg_ok [(i, [2; 7]); (i, [0])] /\
  option_map snd (sdk_consume (consume_wire [(i, [2; 7]); (i, [0])] ++ [99])) = Some [99].
Proof. split; [repeat constructor; vm_compute; congruence|vm_compute; reflexivity]. Qed.

(** C10: ids as hexadecimal text. *)
Theorem C10_id_roundtrip : forall id, bytes_ok id -> uuid_write None (to_hex id) = Some id.
Proof. exact uuid_roundtrip. Qed.
Print Assumptions C10_id_roundtrip.
Theorem C10_distinct : forall a b, bytes_ok a -> bytes_ok b -> to_hex a = to_hex b -> a = b.
Proof. exact to_hex_inj. Qed.
Print Assumptions C10_distinct.
(** dashes anywhere (character 45) are ignored *)
Theorem C10_dashes : forall s hi, uuid_write hi s = uuid_write hi (filter (fun c => negb (c =? 45)) s).
Proof. exact uuid_dash. Qed.
Print Assumptions C10_dashes.
Theorem C10_upper_case : forall s hi r, uuid_write hi s = Some r -> uuid_write hi (map upper s) = Some r.
Proof. exact uuid_upper. Qed.
Print Assumptions C10_upper_case.
(** any character that is neither a dash nor 0-9 a-f A-F is refused *)
Theorem C10_non_hex : forall s hi c, In c s -> c <> 45 ->
  ~ (48 <= c <= 57) -> ~ (97 <= c <= 102) -> ~ (65 <= c <= 70) -> uuid_write hi s = None.
Proof. exact uuid_non_hex. Qed.
Print Assumptions C10_non_hex.
(** the writer does not check the length: text of other than 32 digits is not
    refused and produces other than 16 bytes, shifting the fields after it *)
Theorem C10_length_refuted : exists s r, uuid_write None s = Some r /\ lenN r <> 16.
Proof. exact uuid_length_unchecked. Qed.
Print Assumptions C10_length_refuted.
Example C10_example : uuid_write None (to_hex [0; 171; 255]) = Some [0; 171; 255] /\
  to_hex [0; 171; 255] = [48; 48; 97; 98; 102; 102].
Proof. vm_compute; auto. Qed.

(** C11: ids of consecutive requests differ; they fit the field for the first
    2^31 - 1 requests, after which the next 2^31 requests all throw. *)
Theorem C11_unique : forall j k, (Z.abs (Z.of_nat j - Z.of_nat k) < 2 ^ 32 - 1)%Z ->
  request_id j = request_id k -> j = k.
Proof. exact request_id_unique. Qed.
Print Assumptions C11_unique.
Theorem C11_usable_partial : forall k, (Z.of_nat k < 2 ^ 31 - 1)%Z ->
  request_id k = (Z.of_nat k + 1)%Z /\ writable_u32 (request_id k) = true.
Proof. exact request_id_usable. Qed.
Print Assumptions C11_usable_partial.
Theorem C11_usable_iff : forall k,
  writable_u32 (request_id k) = true <-> (Z.of_nat k mod (2 ^ 32 - 1) < 2 ^ 31 - 1)%Z.
Proof. exact request_id_writable_iff. Qed.
Print Assumptions C11_usable_iff.
Theorem C11_usable_refuted : exists k, Z.of_nat k = (2 ^ 31 - 1)%Z /\ writable_u32 (request_id k) = false.
Proof. exact request_id_unwritable. Qed.
Print Assumptions C11_usable_refuted.
Example C11_example : map request_id [0; 1; 2; 41]%nat = [1; 2; 3; 42]%Z /\
  next_id (2 ^ 31 - 1) = (- 2 ^ 31)%Z /\ next_id (-1) = 1%Z.
Proof. vm_compute; auto. Qed.
