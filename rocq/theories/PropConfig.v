(** Properties C103 (settings of queues and streams over restarts) and C104 (environment). *)
From Coq Require Import String.
From Verif Require Import LibBase CmdModel Utf8 ValueModel ValueProofs JsonModel JsonProofs OptionsModel OptionsProofs JsonCutProofs PropValue PropJson PropOptions.
Open Scope N_scope.

(** * C103 *)
Lemma need_num max n : n <= max -> as_uint max (num n) = Some n.
Proof. intro L. unfold num. rewrite (as_uint_dec max n (dec n) (dec_ok n)), (proj2 (N.leb_le n max)) by auto. reflexivity. Qed.
Lemma opt_num_back max o : (forall n, o = Some n -> n <= max) -> opt (as_uint max) (opt_num o) = Some o.
Proof. intro B. destruct o as [n|]; [|reflexivity]. unfold opt_num, opt. rewrite need_num by auto. reflexivity. Qed.
Lemma key_ok s : scalars (w s).
Proof. apply low_scalars, w_low. Qed.
Lemma num_wf n : wfP scalars (num n).
Proof. unfold num. cbn [wfP]. apply (decimal_number n), dec_ok. Qed.
Lemma opt_num_wf o : wfP scalars (opt_num o).
Proof. destruct o; [apply num_wf|exact I]. Qed.
Lemma opt_num_def o : defined (opt_num o).
Proof. destruct o; exact I. Qed.
Lemma queue_back sys v r : v <= u64 -> r <= u32 -> queue_load sys (Some (queue_file (v, r))) = (v, r).
Proof.
  intros V R. unfold queue_load, queue_file. cbn [fst snd]. rewrite file_back.
  - match goal with |- context [struct ?ks false (JObj ?l)] => change (struct ks false (JObj l)) with (Some l) end. cbv iota.
    match goal with |- context [need (w "visibility_timeout_ms") ?f ?l] => change (need (w "visibility_timeout_ms") f l) with (f (num v)) end. match goal with |- context [need (w "max_retries") ?f ?l] => change (need (w "max_retries") f l) with (f (num r)) end.
    rewrite !need_num by auto. reflexivity.
  - cbn [wfP fold_right fst snd]. pose proof key_ok. pose proof num_wf. auto 10.
  - cbn [defined fold_right snd]. repeat split.
Qed.
Lemma field_max max k l n : field k (as_uint max) l = Some (Some n) -> n <= max.
Proof.
  unfold field. destruct (named k l) as [|v [|]]; try discriminate. unfold opt. destruct v; try discriminate; cbn [as_uint]; try discriminate.
  destruct (N.leb_spec (dec_val t) max); [|rewrite andb_false_r; discriminate]. destruct (forallb digit t && true); [|discriminate]. congruence.
Qed.
(** The settings a queue was created with are those it has after a restart, whatever the
    defaults of the server are by then. *)
Theorem C103_queue_kept : forall sys sys' j v r, c_vis sys <= u64 -> c_retries sys <= u32 -> setting_of sys 16 j = Some (SQueue v r) ->
  queue_load sys' (Some (queue_file (v, r))) = (v, r).
Proof.
  intros sys sys' j v r S1 S2 E. unfold setting_of in E. destruct (server_json j) as [x|]; [|discriminate]. change (16 =? 2) with false in E. change (16 =? 16) with true in E. cbv iota in E.
  unfold queue_create in E. destruct (struct _ _ x) as [l|]; [|discriminate]. destruct (field (w "visibilityTimeoutMs") (as_uint u64_max) l) as [a|] eqn:F1; [|discriminate]. destruct (field (w "maxRetries") (as_uint u32_max) l) as [b|] eqn:F2; [|discriminate].
  cbn [both option_map q_settings fst snd] in E. injection E as <- <-. apply queue_back.
  - destruct a; cbn [or_else]; auto. apply field_max in F1. exact F1.
  - destruct b; cbn [or_else]; auto. apply field_max in F2. exact F2.
Qed.
Print Assumptions C103_queue_kept.
(** settings that fit their types *)
Definition fits (c : tconf) : Prop := scalars (tc_path c) /\ tc_seg c <= u64 /\ tc_check c <= u64 /\ tc_flush c <= u64 /\ tc_soft c <= u64 /\ tc_hard c <= u64 /\ tc_evict c <= u64 /\ tc_pending c <= u64 /\ tc_wait c <= u64 /\ tc_deliv c <= u32 /\
  (forall n, fst (tc_ret c) = Some n \/ snd (tc_ret c) = Some n -> n <= u64).
Lemma topic_back c : fits c -> match server_json (topic_file c) with Some v => topic_of v | None => None end = Some c.
Proof.
  intros (P & B1 & B2 & B3 & B4 & B5 & B6 & B7 & B8 & B9 & R). destruct c as [path seg ret chk fl soft hard ev pend wait dl]. cbn [tc_path tc_seg tc_ret tc_check tc_flush tc_soft tc_hard tc_evict tc_pending tc_wait tc_deliv] in *. unfold topic_file. rewrite file_back.
  - unfold topic_of. unfold topic_json. cbn [tc_path tc_seg tc_ret tc_check tc_flush tc_soft tc_hard tc_evict tc_pending tc_wait tc_deliv].
    match goal with |- context [struct topic_keys false (JObj ?l)] => change (struct topic_keys false (JObj l)) with (Some l) end. cbv iota.
    change (need (w "persistence_path") as_str _) with (Some path).
    match goal with |- context [need (w "max_segment_size") ?f ?l] => change (need (w "max_segment_size") f l) with (f (num seg)) end.
    match goal with |- context [need (w "retention") ?f ?l] => change (need (w "retention") f l) with (f (JObj [(w "maxAgeMs", opt_num (fst ret)); (w "maxBytes", opt_num (snd ret))])) end.
    match goal with |- context [need (w "retention_check_ms") ?f ?l] => change (need (w "retention_check_ms") f l) with (f (num chk)) end.
    match goal with |- context [need (w "default_flush_ms") ?f ?l] => change (need (w "default_flush_ms") f l) with (f (num fl)) end.
    match goal with |- context [need (w "ram_soft_limit") ?f ?l] => change (need (w "ram_soft_limit") f l) with (f (num soft)) end.
    match goal with |- context [need (w "ram_hard_limit") ?f ?l] => change (need (w "ram_hard_limit") f l) with (f (num hard)) end.
    match goal with |- context [need (w "eviction_interval_ms") ?f ?l] => change (need (w "eviction_interval_ms") f l) with (f (num ev)) end.
    match goal with |- context [need (w "max_ack_pending") ?f ?l] => change (need (w "max_ack_pending") f l) with (f (num pend)) end.
    match goal with |- context [need (w "ack_wait_ms") ?f ?l] => change (need (w "ack_wait_ms") f l) with (f (num wait)) end.
    match goal with |- context [need (w "max_deliveries") ?f ?l] => change (need (w "max_deliveries") f l) with (f (num dl)) end.
    rewrite !need_num by auto. unfold retention at 1. match goal with |- context [struct ?ks false (JObj ?l)] => change (struct ks false (JObj l)) with (Some l) end. cbv iota.
    match goal with |- context [field (w "maxAgeMs") ?f ?l] => change (field (w "maxAgeMs") f l) with (opt f (opt_num (fst ret))) end. match goal with |- context [field (w "maxBytes") ?f ?l] => change (field (w "maxBytes") f l) with (opt f (opt_num (snd ret))) end.
    rewrite !opt_num_back by (intros n E; apply R; auto). destruct ret; reflexivity.
  - pose proof key_ok. pose proof num_wf. pose proof opt_num_wf. cbn [topic_json topic_keys combine wfP fold_right fst snd tc_path tc_seg tc_ret tc_check tc_flush tc_soft tc_hard tc_evict tc_pending tc_wait tc_deliv]. repeat split; auto.
  - pose proof opt_num_def. cbn [topic_json topic_keys combine defined fold_right fst snd tc_path tc_seg tc_ret tc_check tc_flush tc_soft tc_hard tc_evict tc_pending tc_wait tc_deliv]. repeat split; auto.
Qed.
(** So are those of a stream, retention and limits included, also if it is created again
    with other options. *)
Theorem C103_stream_kept : forall sys env o sys' env' o', fits (topic_new sys env o) ->
  topic_load sys' env' o' (Some (topic_file (topic_new sys env o))) = topic_new sys env o.
Proof. intros sys env o sys' env' o' F. unfold topic_load. rewrite (topic_back _ F). reflexivity. Qed.
Print Assumptions C103_stream_kept.
(** Files of different settings differ. *)
Theorem C103_distinct : forall c d, fits c -> fits d -> topic_file c = topic_file d -> c = d.
Proof. intros c d F G E. pose proof (topic_back c F) as X. pose proof (topic_back d G) as Y. rewrite E in X. congruence. Qed.
Print Assumptions C103_distinct.
(** Never are the settings a mixture: a file of which some part is missing is not read as
    any settings, and the queue gets the defaults of the server that starts, both of them. *)
Theorem C103_queue_torn : forall sys' v r f rest, v <= u64 -> r <= u32 -> f ++ rest = queue_file (v, r) ->
  (rest = [] -> queue_load sys' (Some f) = (v, r)) /\ (rest <> [] -> queue_load sys' (Some f) = (c_vis sys', c_retries sys')).
Proof.
  intros sys' v r f rest V R E. split; intro H.
  - subst rest. rewrite app_nil_r in E. subst f. apply queue_back; auto.
  - unfold queue_load. rewrite (file_cut [(w "visibility_timeout_ms", num v); (w "max_retries", num r)] f rest); auto.
    + cbn [wfP fold_right fst snd]. pose proof key_ok. pose proof num_wf. auto 10.
    + cbn [defined fold_right snd]. repeat split.
Qed.
Print Assumptions C103_queue_torn.
(** The same for a stream, at any byte, also within a character of its directory. *)
Theorem C103_stream_torn : forall c sys' env' o' f rest, fits c -> f ++ rest = topic_file c ->
  (rest = [] -> topic_load sys' env' o' (Some f) = c) /\ (rest <> [] -> topic_load sys' env' o' (Some f) = topic_load sys' env' o' None).
Proof.
  intros c sys' env' o' f rest F E. split; intro H.
  - subst rest. rewrite app_nil_r in E. subst f. unfold topic_load. rewrite (topic_back _ F). reflexivity.
  - unfold topic_load. unfold topic_file, topic_json in E. destruct F as (P & _). rewrite (file_cut _ f rest) with (3 := E); auto.
    + pose proof key_ok. pose proof num_wf. pose proof opt_num_wf. cbn [topic_keys combine wfP fold_right fst snd]. repeat split; auto.
    + pose proof opt_num_def. cbn [topic_keys combine defined fold_right fst snd]. repeat split; auto.
Qed.
Print Assumptions C103_stream_torn.
(** A file written in part (a crash while the queue is created) is replaced by defaults
    without a word: the queue has other settings than it was created with. *)
Theorem C103_torn_refuted : exists f rest v r, f ++ rest = queue_file (v, r) /\ queue_load sys_default (Some f) <> (v, r).
Proof. exists [], (queue_file (7, 1)), 7, 1. split; [reflexivity|]. vm_compute. discriminate. Qed.
Print Assumptions C103_torn_refuted.
(** The directory of a stream is among its stored settings. If the data is moved and the
    server told so, it writes to the new place but reads from the old one. *)
Theorem C103_moved_refuted : exists sys env env', fits (topic_new sys env None) /\
  let c := topic_load sys env' None (Some (topic_file (topic_new sys env None))) in reads_from c <> writes_to env' /\ reads_from c = tc_path env.
Proof.
  exists sys_default, (mkTC (w "./data/streams") 104857600 (None, None) 600000 50 1000 20000 500 10000 30000 5), (mkTC (w "/mnt/streams") 104857600 (None, None) 600000 50 1000 20000 500 10000 30000 5). split.
  - unfold fits. cbn [topic_new tc_path tc_seg tc_ret tc_check tc_flush tc_soft tc_hard tc_evict tc_pending tc_wait tc_deliv]. split; [apply key_ok|]. repeat (split; [vm_compute; discriminate|]). intros n [E|E]; injection E as <-; vm_compute; discriminate.
  - cbv zeta. split; [vm_compute; discriminate|vm_compute; reflexivity].
Qed.
Print Assumptions C103_moved_refuted.
Example C103_example : setting_of sys_default 16 (sdk_opts (JObj [(w "maxRetries", JNum (w "3"))])) = Some (SQueue 30000 3) /\
  queue_load (mkC 1 1 1 1 1 1 1 1) (Some (queue_file (30000, 3))) = (30000, 3) /\ queue_load (mkC 1 1 1 1 1 1 1 1) None = (1, 1) /\
  queue_file (30000, 3) = w "{" ++ [10] ++ w "  ""visibility_timeout_ms"": 30000," ++ [10] ++ w "  ""max_retries"": 3" ++ [10] ++ w "}".
Proof. split; [vm_compute; reflexivity|]. split; [vm_compute; reflexivity|]. split; vm_compute; reflexivity. Qed.

(** The file of a queue without its last byte, and that of a stream cut within the `é` of
    its directory. *)
Example C103_torn_example : queue_load (mkC 1 2 3 4 5 6 7 8) (Some (removelast (queue_file (30000, 3)))) = (c_vis (mkC 1 2 3 4 5 6 7 8), c_retries (mkC 1 2 3 4 5 6 7 8)) /\ removelast (queue_file (30000, 3)) ++ [125] = queue_file (30000, 3) /\
  let c := mkTC [233] 1 (None, Some 7) 2 3 4 5 6 7 8 9 in fits c /\ firstn 26 (topic_file c) = w "{" ++ [10] ++ w "  ""persistence_path"": """ ++ [195] /\ topic_load sys_default c None (Some (firstn 26 (topic_file c))) = topic_new sys_default c None.
Proof.
  split; [vm_compute; reflexivity|]. split; [vm_compute; reflexivity|]. cbv zeta. split; [|split; vm_compute; reflexivity].
  unfold fits. cbn [tc_path tc_seg tc_ret tc_check tc_flush tc_soft tc_hard tc_evict tc_pending tc_wait tc_deliv]. split; [repeat constructor; vm_compute; auto|]. repeat (split; [vm_compute; discriminate|]). intros n [E|E]; [discriminate|injection E as <-; vm_compute; discriminate].
Qed.

(** * C104 *)
(** [amounts d n]: the digits [d] have the value [n]; leading zeros are allowed *)
Inductive amounts : txt -> N -> Prop :=
| am_nil : amounts [] 0
| am_more : forall d n k, amounts d n -> k < 10 -> amounts (d ++ [48 + k]) (10 * n + k).
Definition numeral (t : txt) (n : N) : Prop := exists s d, t = s ++ d /\ (s = [] \/ s = [43]) /\ d <> [] /\ amounts d n.
Lemma amounts_val d n : amounts d n <-> Forall isdigit d /\ dec_val d = n.
Proof.
  split.
  - induction 1 as [|d n k A (F & V) K]; [split; [constructor|reflexivity]|]. split; [apply Forall_app; split; auto; constructor; [unfold isdigit; lia|constructor]|]. rewrite dec_val_snoc, V. lia.
  - intros (F & <-). revert F. induction d as [|c d IH] using rev_ind; intro F; [constructor|]. apply Forall_app in F. destruct F as (F1 & F2). inversion F2 as [|? ? (A & B) _]; subst. rewrite dec_val_snoc. replace [c] with [48 + (c - 48)] by (f_equal; lia). rewrite (N.mul_comm (dec_val d)). constructor; auto. lia.
Qed.
Lemma parse_numeral max t n : parse_uint max t = Some n <-> numeral t n /\ n <= max.
Proof.
  assert (X : forall d, match d with [] => None | _ => if forallb digit d && (dec_val d <=? max) then Some (dec_val d) else None end = Some n <-> d <> [] /\ amounts d n /\ n <= max).
  { intro d. destruct d as [|c d]; [split; [discriminate|intros ([] & _); auto]|]. rewrite amounts_val. remember (c :: d) as e eqn:E. assert (NE : e <> []) by (subst; discriminate). clear E c d. split.
    - destruct (forallb digit e) eqn:D; [|discriminate]. destruct (N.leb_spec (dec_val e) max); [|discriminate]. intro Y. injection Y as <-. apply digits_in in D. auto.
    - intros (_ & (F & <-) & L). rewrite (proj2 (digits_in e) F), (proj2 (N.leb_le (dec_val e) max)) by auto. reflexivity. }
  assert (NOP : forall d m, amounts d m -> forall r, d <> 43 :: r). { intros d m A r ->. apply amounts_val in A. destruct A as (F & _). inversion F as [|? ? (A & _) _]; subst. lia. }
  unfold parse_uint. split.
  - intro H. destruct t as [|c t].
    + discriminate.
    + destruct (N.eq_dec c 43) as [->|NC].
      * apply X in H. destruct H as (NE & A & L). split; auto. exists [43], t. auto.
      * assert (E : match c :: t with 43 :: r => r | _ => c :: t end = c :: t). { destruct c as [|p]; auto. repeat (destruct p as [p|p|]; auto; try congruence). }
        rewrite E in H. apply (X (c :: t)) in H. destruct H as (NE & A & L). split; auto. exists [], (c :: t). auto.
  - intros ((s & d & -> & S & NE & A) & L). destruct S as [->| ->]; [|apply X; auto]. cbn [app]. destruct d as [|c d]; [congruence|].
    assert (E : match c :: d with 43 :: r => r | _ => c :: d end = c :: d). { assert (c <> 43) by (intros ->; eapply NOP; eauto). destruct c as [|p]; auto. repeat (destruct p as [p|p|]; auto; try congruence). }
    rewrite E. apply (X (c :: d)). auto.
Qed.
(** A variable that is set to a number in range is the setting; one that is not set leaves
    the default. *)
Theorem C104_taken : forall max d, env_uint max d None = d /\ env_strict max d None = Some d /\
  forall t n, numeral t n -> n <= max -> env_uint max d (Some t) = n /\ env_strict max d (Some t) = Some n.
Proof.
  intros max d. split; [reflexivity|]. split; [reflexivity|]. intros t n H L. unfold env_uint, env_strict. rewrite (proj2 (parse_numeral max t n)) by auto. auto.
Qed.
Print Assumptions C104_taken.
(** The server's own settings (ports, sizes): anything else stops the server. *)
Theorem C104_server_strict : forall max d t, (forall n, numeral t n -> max < n) -> env_strict max d (Some t) = None.
Proof.
  intros max d t H. unfold env_strict. destruct (parse_uint max t) as [n|] eqn:E; auto. apply parse_numeral in E. destruct E as (E & L). specialize (H n E). lia.
Qed.
Print Assumptions C104_server_strict.
(** The brokers' settings: anything else is the default, without a word (`10s`). *)
Theorem C104_brokers_silent_refuted : exists max d t, (forall n, ~ numeral t n) /\ env_uint max d (Some t) = d /\ t <> [].
Proof.
  exists u64, 30000, (w "10s"). split; [|split; [vm_compute; reflexivity|discriminate]]. intros n H. assert (E : parse_uint n (w "10s") = Some n) by (apply parse_numeral; split; auto; lia). assert (F : forall m, parse_uint m (w "10s") = None) by (intro m; reflexivity). rewrite F in E. discriminate.
Qed.
Print Assumptions C104_brokers_silent_refuted.
Example C104_example : numeral (w "007") 7 /\ map (fun t => env_strict 65535 7654 (Some (w t))) ["8080"%string; "+80"%string; "65536"%string; ""%string; " 80"%string; "-1"%string] = [Some 8080; Some 80; None; None; None; None].
Proof.
  split; [|vm_compute; reflexivity]. exists [], (w "007"). split; [reflexivity|]. split; [auto|]. split; [discriminate|]. apply amounts_val. split; [|reflexivity]. apply digits_in. reflexivity.
Qed.
