(** C50, C51 (disk part), C61-C70: stream topics on disk, reads, retention, restarts. *)
From Verif Require Import LibBase LibMap Crc32 StreamTopicModel StreamGroupModel StreamStoreModel StreamStoreCodec StreamStoreProofs StreamStoreFacts StreamGroupSpec StreamGroupProofs StreamGroupFetch StreamGroupHist StreamGroupFacts StreamTopicProofs StreamSysModel StreamSysProofs StreamSysHist StreamSysFacts StreamSysBoot StreamSysLife StreamSaved PropStreamGroup.

(** ** Concrete runs, with the real CRC-32 and files of at most 60 bytes *)
Definition xstep := sstep crc32 xcfg 60.
Definition xsrun := StreamSysHist.run crc32 xcfg 60.
Fixpoint easy (s : sys) (ops : list sop) : bool :=
  match ops with
  | [] => true
  | o :: r =>
    (match o with
     | SPub ts pay => (t_next (s_top s) <? 2 ^ 64) && (ts <? 2 ^ 64) && (lenN pay <? 2 ^ 32 - 16)
     | SSend i => Nat.eqb i 0
     | SColdRun _ _ | SRetain _ (Some _) _ => false
     | SRetain vis None _ => forallb (fun x => f_sure (snd x) <=? vis (fst x)) (d_segs (s_store s))
     | _ => true
     end) && easy (fst (xstep s o)) r
  end.
Lemma vis_check vis st : forallb (fun x => f_sure (snd x) <=? vis (fst x)) (d_segs st) = true -> vis_ok vis st.
Proof. intros H n f HI. rewrite forallb_forall in H. specialize (H _ HI). simpl in H. lia. Qed.
Lemma flushed_check s : forallb (fun x => f_sure (snd x) =? lenN (f_bytes (snd x))) (d_segs (s_store s)) = true -> flushed s.
Proof. intros H. apply Forall_forall. intros x HI. rewrite forallb_forall in H. specialize (H _ HI). lia. Qed.
Lemma easy_ok : forall ops s, easy s ops = true -> runs_ok crc32 xcfg 60 s ops.
Proof.
  induction ops as [|o ops IH]; intros s H; [exact Logic.I|]. cbn [easy] in H. apply andb_prop in H. destruct H as (H1 & H2).
  cbn [runs_ok]. split; [|split; [|apply IH; exact H2]].
  - destruct o; try exact Logic.I; try discriminate.
    + apply andb_prop in H1. destruct H1 as (H1 & H3). apply andb_prop in H1. destruct H1 as (H1 & H4). simpl. lia.
    + destruct age; [discriminate|]. split; [apply vis_check; exact H1|discriminate].
  - destruct o; try exact Logic.I. simpl. apply Nat.eqb_eq. exact H1.
Qed.
Lemma xlife ops : easy (sys_new 1) ops = true -> life crc32 xcfg 60 (log_of 1 ops) (xsrun (sys_new 1) ops).
Proof. intro H. exact (life_run crc32 crc32_bound xcfg 60 ops [] (sys_new 1) (life_new _ _ _ 1) (easy_ok _ _ H)). Qed.
Definition xpay (n : N) : bytes := [n; n; n; n; n; n; n; n; n; n; n; n; n; n; n; n; n; n; n; n].
Definition all : N -> N := fun _ => 1000.

(** * C50 *)
(** What is in memory is answered exactly. [op_read vis n limit s] is the answer of a
    read from [n]; [life A s]: [A] is what was published (and not lost by a crash). *)
Theorem C50_memory_exact_partial : forall crc cfg smax A s vis n limit, (forall b, crc b < 2 ^ 32) -> life crc cfg smax A s ->
  t_ram (s_top s) <= N.max n (t_head (s_top s)) ->
  op_read crc vis n limit s = takeN limit (from (N.max n (t_head (s_top s))) A).
Proof. intros crc cfg smax A s vis n limit C L H. exact (read_memory crc A s vis n limit (life_ok crc C cfg smax A s L) H). Qed.
(** Once the writers are flushed and no retention run is half done, every read is exact. *)
Theorem C50_settled_exact_partial : forall crc cfg smax A s vis n limit, (forall b, crc b < 2 ^ 32) -> life crc cfg smax A s ->
  vis_ok vis (s_store s) -> s_box s = [] -> flushed s -> s_ret s = None ->
  op_read crc vis n limit s = takeN limit (from (N.max n (t_head (s_top s))) A).
Proof. intros crc cfg smax A s vis n limit C L V B F R. exact (read_settled crc C A s vis n limit (life_ok crc C cfg smax A s L) V B F R). Qed.
(** In every state the answer is a gapless run of what was published, with the right
    payloads, starting where asked (or at the first file left). *)
Theorem C50_gapless_partial : forall crc cfg smax A s vis n limit, (forall b, crc b < 2 ^ 32) -> life crc cfg smax A s -> vis_ok vis (s_store s) ->
  exists k j, op_read crc vis n limit s = takeN j (dropN k A) /\ j <= limit /\
    (op_read crc vis n limit s <> [] -> 1 + k = N.max n (t_head (s_top s)) \/ (1 + k = first_file s /\ n < first_file s)).
Proof. intros crc cfg smax A s vis n limit C L V. exact (read_row crc C A s vis n limit (life_ok crc C cfg smax A s L) V). Qed.
(** Not in general: a read that starts on disk does not go on in memory. *)
Definition tail_ops : list sop := [SPub 5 (xpay 1); SSend 0; SPub 6 (xpay 2); SSend 0; SFlush; SLoad; SEvict; SPub 7 (xpay 3)].
Theorem C50_exact_refuted : exists A s, life crc32 xcfg 60 A s /\ vis_ok all (s_store s) /\ s_ret s = None /\
  In (mkMsg 3 7 (xpay 3)) (t_log (s_top s)) /\ from 1 A = A /\ lenN A = 3 /\
  op_read crc32 all 1 10 s = [mkMsg 1 5 (xpay 1); mkMsg 2 6 (xpay 2)].
Proof.
  exists (log_of 1 tail_ops), (xsrun (sys_new 1) tail_ops). split; [apply xlife; vm_compute; reflexivity|]. split; [apply vis_check; vm_compute; reflexivity|].
  vm_compute. auto 10.
Qed.
Example C50_example : exists A s, life crc32 xcfg 60 A s /\ s_box s = [] /\ flushed s /\ s_ret s = None /\ t_ram (s_top s) = 3 /\
  op_read crc32 all 2 2 s = [mkMsg 2 6 (xpay 2); mkMsg 3 7 (xpay 3)].
Proof.
  exists (log_of 1 (tail_ops ++ [SSend 0; SFlush; SLoad; SEvict])), (xsrun (sys_new 1) (tail_ops ++ [SSend 0; SFlush; SLoad; SEvict])). split; [apply xlife; vm_compute; reflexivity|].
  split; [reflexivity|]. split; [apply flushed_check; vm_compute; reflexivity|]. vm_compute. auto.
Qed.

(** * C51 (the disk side) *)
Theorem C51_evicted_on_disk : forall crc cfg smax A s vis, (forall b, crc b < 2 ^ 32) -> life crc cfg smax A s -> vis_ok vis (s_store s) ->
  let s' := fst (sstep crc cfg smax s SEvict) in
  exists pre, t_log (s_top s) = pre ++ t_log (s_top s') /\
    Forall (fun m => In m (on_disk crc vis s') \/ m_seq m < first_file s') pre /\
    (pre = [] \/ t_soft (s_top s) <= lenN (t_log (s_top s'))).
Proof. intros crc cfg smax A s vis C L V. exact (evicted_on_disk crc C cfg smax 1 A s vis (life_ok crc C cfg smax A s L) V). Qed.
Theorem C51_nowhere_lost : forall crc cfg smax A s vis m, (forall b, crc b < 2 ^ 32) -> life crc cfg smax A s -> vis_ok vis (s_store s) ->
  In m A -> first_file s <= m_seq m -> In m (t_log (s_top s)) \/ In m (on_disk crc vis s).
Proof. intros crc cfg smax A s vis m C L V. exact (nowhere_lost crc C 1 A s vis m (life_ok crc C cfg smax A s L) V). Qed.
Example C51_disk_example : let s := xsrun (sys_new 1) (firstn 6 tail_ops) in
  map m_seq (t_log (s_top s)) = [1; 2] /\ map m_seq (t_log (s_top (fst (xstep s SEvict)))) = [2] /\ map m_seq (on_disk crc32 all s) = [1; 2].
Proof. vm_compute. auto. Qed.

(** * C61 *)
Theorem C61_other_groups_untouched : forall crc cfg smax gid s o, about o <> None -> about o <> Some gid ->
  gget gid (fst (sstep crc cfg smax s o)) = gget gid s.
Proof. exact group_apart. Qed.
Theorem C61_log_untouched : forall crc cfg smax s o, about o <> None ->
  s_top (fst (sstep crc cfg smax s o)) = s_top s /\ s_store (fst (sstep crc cfg smax s o)) = s_store s /\ s_box (fst (sstep crc cfg smax s o)) = s_box s.
Proof. exact group_log_apart. Qed.
(** So a group's history is made of its own operations (and topic-wide ones) alone:
    along every run it is the one [events] computes, and every theorem on histories
    (C52-C60) applies to it. *)
Theorem C61_own_history : forall crc cfg smax soft ops gid g, gget gid (run crc cfg smax (sys_new soft) ops) = Some g ->
  exists st h, events crc cfg smax gid (sys_new soft) ops None = Some (st, h) /\ hist cfg st h g.
Proof. exact run_hist. Qed.
Definition two_groups : list sop := [SPub 5 (xpay 1); SJoin [97] 10 1; SJoin [98] 20 1; STry [97] 10 1 5 100 0; SAck [97] 10 1 1].
Example C61_example : let s := xsrun (sys_new 1) two_groups in
  option_map g_floor (gget [97] s) = Some 1 /\ option_map g_floor (gget [98] s) = Some 0 /\
  snd (xstep s (STry [98] 20 1 5 100 0)) = RMsgs [mkMsg 1 5 (xpay 1)].
Proof. vm_compute. auto. Qed.

(** * C62 *)
Theorem C62_round_trip : forall crc ms, (forall b, crc b < 2 ^ 32) -> Forall msg_ok ms -> load_segment crc (enc_msgs crc ms) = ms.
Proof. intros crc ms C. exact (load_all crc C ms). Qed.
(** [complete k ms]: the records that end within the first [k] bytes. *)
Theorem C62_torn_tail : forall crc ms k, (forall b, crc b < 2 ^ 32) -> Forall msg_ok ms -> load_segment crc (takeN k (enc_msgs crc ms)) = complete k ms.
Proof. intros crc ms k C. exact (load_cut crc C ms k). Qed.
Theorem C62_changed_not_returned : forall crc ms m body rest, (forall b, crc b < 2 ^ 32) -> Forall msg_ok ms -> msg_ok m ->
  lenN body = lenN (rec_body m) -> crc body <> crc (rec_body m) ->
  load_segment crc (enc_msgs crc ms ++ (be 4 (16 + lenN (m_pay m)) ++ be 4 (crc (rec_body m)) ++ body) ++ rest) = ms.
Proof. intros crc ms m body rest C. exact (load_changed crc C ms m body rest). Qed.
(** A disk read skips the changed record and goes on behind it. *)
Theorem C62_changed_skipped_by_read : forall crc ms m body ms' start limit, (forall b, crc b < 2 ^ 32) -> Forall msg_ok ms -> Forall msg_ok ms' -> msg_ok m ->
  lenN body = lenN (rec_body m) -> crc body <> crc (rec_body m) -> 1 <= limit ->
  read_segment crc (enc_msgs crc ms ++ (be 4 (16 + lenN (m_pay m)) ++ be 4 (crc (rec_body m)) ++ body) ++ enc_msgs crc ms') start limit
  = takeN limit (filter (fun m => start <=? m_seq m) (ms ++ ms')).
Proof. intros crc ms m body ms' start limit C A B D E F. exact (read_changed crc C ms m body ms' start A B D E F limit). Qed.
(** Whatever the bytes, every recovered record matches the checksum before it. *)
Theorem C62_always_checked : forall crc b m, (forall b, crc b < 2 ^ 32) -> In m (load_segment crc b) ->
  exists pre h k body post, b = pre ++ h ++ k ++ body ++ post /\ lenN h = 4 /\ lenN k = 4 /\
    unbe h = lenN body /\ unbe k = crc body /\ m = dec_body body.
Proof. intros crc b m C. exact (load_checked crc C b m). Qed.
Example C62_example : let ms := [mkMsg 1 5 [1; 2]; mkMsg 2 6 []; mkMsg 3 7 [9]] in let b := enc_msgs crc32 ms in
  Forall msg_ok ms /\ lenN b = 75 /\ load_segment crc32 b = ms /\ map (fun k => lenN (load_segment crc32 (takeN k b))) [0; 25; 26; 49; 50; 74; 75] = [0; 0; 1; 1; 2; 2; 3] /\
  load_segment crc32 (takeN 45 b ++ [7] ++ dropN 46 b) = [mkMsg 1 5 [1; 2]].
Proof. split; [|vm_compute; auto]. repeat (apply Forall_cons; [vm_compute; auto|]). apply Forall_nil. Qed.

(** * C63 *)
Theorem C63_round_trip_partial : forall crc gs, (forall b, crc b < 2 ^ 32) -> Forall gid_ok gs -> NoDup (map fst gs) ->
  load_groups crc (enc_groups crc gs) = gs.
Proof. intros crc gs C. exact (groups_round_trip crc C gs). Qed.
(** Not for ids of 65536 bytes or more: their length field wraps, and they take the
    groups behind them along. *)
Theorem C63_long_id_refuted : exists gs, NoDup (map fst gs) /\ lenN gs = 2 /\ In ([98], 7) gs /\ load_groups crc32 (enc_groups crc32 gs) = [].
Proof.
  exists [(repeat 97 (N.to_nat 65536), 3); ([98], 7)]. split; [|split; [reflexivity|split; [right; left; reflexivity|vm_compute; reflexivity]]].
  constructor; [|constructor; [intros []|constructor]]. intros [X|[]]. apply (f_equal (fun l => nth 1 l 0)) in X. vm_compute in X. discriminate.
Qed.
Example C63_example : let gs := [([97; 98], 3); ([], 0); ([120], 2 ^ 64 - 1)] in
  Forall gid_ok gs /\ NoDup (map fst gs) /\ load_groups crc32 (enc_groups crc32 gs) = gs.
Proof.
  split; [repeat (apply Forall_cons; [vm_compute; auto|]); apply Forall_nil|]. split; [|vm_compute; reflexivity].
  simpl. constructor; [intros [X|[X|[]]]; discriminate|]. constructor; [intros [X|[]]; discriminate|]. constructor; [intros []|constructor].
Qed.

(** * C64 *)
(** The files in name order are the records handed over, cut into non-empty parts;
    each file is named after its first record. [s_box s]: messages published but not
    yet handed to storage. *)
Theorem C64_partition : forall crc cfg smax A s, (forall b, crc b < 2 ^ 32) -> life crc cfg smax A s -> exists parts,
  map (fun x => (fst x, f_bytes (snd x))) (d_segs (s_store s)) = map (fun p => (match p with m :: _ => m_seq m | [] => 0 end, enc_msgs crc p)) parts /\
  Forall (fun p => p <> []) parts /\ concat parts ++ s_box s = from (first_file s) A.
Proof. intros crc cfg smax A s C L. exact (segments crc 1 A s (life_ok crc C cfg smax A s L)). Qed.
Definition seg_ops : list sop := [SPub 5 [1]; SSend 0; SPub 6 [2]; SSend 0; SPub 7 [3]; SPub 8 (xpay 4); SSend 0; SSend 0].
Example C64_example : let s := xsrun (sys_new 1) seg_ops in easy (sys_new 1) seg_ops = true /\
  map (fun x => (fst x, map m_seq (load_segment crc32 (f_bytes (snd x))))) (d_segs (s_store s)) = [(1, [1; 2]); (3, [3]); (4, [4])].
Proof. vm_compute. auto. Qed.

(** * C65 *)
Theorem C65_removes_prefix : forall crc cfg smax A s vis age maxb, (forall b, crc b < 2 ^ 32) -> life crc cfg smax A s -> op_ok s (SRetain vis age maxb) ->
  let s' := fst (sstep crc cfg smax s (SRetain vis age maxb)) in
  exists k, d_segs (s_store s') = skipn k (d_segs (s_store s)) /\ (d_segs (s_store s) <> [] -> d_segs (s_store s') <> []) /\
    s_ret s' = Some (first_file s') /\ from (first_file s') A = concat (map (fun x => load_segment crc (f_bytes (snd x))) (d_segs (s_store s'))) ++ s_box s.
Proof.
  intros crc cfg smax A s vis age maxb C L O. destruct (retention crc C cfg smax 1 A s vis age maxb (life_ok crc C cfg smax A s L) O) as (k & H1 & H2 & _ & H4 & H5).
  exists k. auto.
Qed.
Lemma skipn_eq {T} (l : list T) a b : (a < length l \/ a = 0)%nat -> (b < length l \/ b = 0)%nat -> skipn a l = skipn b l -> a = b.
Proof. intros A B E. apply (f_equal (@length T)) in E. rewrite !skipn_length in E. lia. Qed.
(** The bytes in a list of files. *)
Fixpoint size_of (segs : list (N * bytes)) : N := match segs with [] => 0 | x :: r => lenN (snd x) + size_of r end.
Lemma total_size_of l : total_size l = size_of l.
Proof.
  assert (F : forall l a, fold_left (fun a (x : N * bytes) => a + lenN (snd x)) l a = a + size_of l).
  { clear. induction l as [|x l IH]; intro a; cbn [fold_left size_of]; [rewrite N.add_0_r; reflexivity|]. rewrite IH, N.add_assoc. reflexivity. }
  unfold total_size. rewrite F. reflexivity.
Qed.
(** Size retention: the shortest prefix that brings the topic under the limit. *)
Theorem C65_size_shortest : forall crc cfg smax A s vis max, (forall b, crc b < 2 ^ 32) -> life crc cfg smax A s -> vis_ok vis (s_store s) ->
  let s' := fst (sstep crc cfg smax s (SRetain vis None (Some max))) in
  exists k, d_segs (s_store s') = skipn k (d_segs (s_store s)) /\ (k = 0 \/ k < length (d_segs (s_store s)))%nat /\
    (size_of (skipn k (seen vis (s_store s))) <= max \/ (length (d_segs (s_store s)) <= S k)%nat) /\
    (forall j, (j < k)%nat -> max < size_of (skipn j (seen vis (s_store s)))).
Proof.
  intros crc cfg smax A s vis max C L V s'.
  destruct (retention crc C cfg smax 1 A s vis None (Some max) (life_ok crc C cfg smax A s L)) as (k & H1 & H2 & H3 & _); [split; [exact V|discriminate]|].
  assert (LS : length (seen vis (s_store s)) = length (d_segs (s_store s))) by (unfold seen; apply map_length).
  destruct (retain_size_exact max (seen vis (s_store s))) as (k' & K1 & K2 & K3 & K4).
  assert (RE : retain None (Some max) (seen vis (s_store s)) = skipn k' (seen vis (s_store s))).
  { rewrite <- K1. unfold retain. destruct (seen vis (s_store s)) as [|x [|y l]]; reflexivity. }
  exists k'. rewrite <- LS. split; [|split; [exact K2|split]].
  - destruct (d_segs (s_store s)) as [|x l] eqn:ED.
    + rewrite skipn_nil. unfold s'. rewrite H1. apply skipn_nil.
    + unfold s'. rewrite H1. rewrite RE in H3. f_equal. apply (skipn_eq (seen vis (s_store s))).
      * left. rewrite LS. destruct (le_lt_dec (length (x :: l)) k) as [X|X]; auto. exfalso. apply (H2 ltac:(discriminate)). rewrite H1. apply skipn_all2. exact X.
      * tauto.
      * auto.
  - rewrite <- total_size_of. exact K3.
  - intros j J. rewrite <- total_size_of. apply K4. exact J.
Qed.
(** The head users see is the first number left. *)
Theorem C65_head : forall crc cfg smax A s, (forall b, crc b < 2 ^ 32) -> life crc cfg smax A s -> s_ret s = None -> t_head (s_top s) = first_file s.
Proof.
  intros crc cfg smax A s C L R. destruct (life_ok crc C cfg smax A s L) as (W & dh & bl & H). rewrite (first_eq crc 1 A W dh bl s H). exact (proj2 (i_pos _ _ _ _ _ _ _ H) R).
Qed.
Example C65_example : let s := xsrun (sys_new 1) (seg_ops ++ [SFlush; SRetain all None (Some 70); SHead]) in
  easy (sys_new 1) (seg_ops ++ [SFlush; SRetain all None (Some 70); SHead]) = true /\
  map (fun x => (fst x, lenN (f_bytes (snd x)))) (d_segs (s_store (xsrun (sys_new 1) seg_ops))) = [(1, 50); (3, 25); (4, 44)] /\
  map (fun x => (fst x, lenN (f_bytes (snd x)))) (d_segs (s_store s)) = [(3, 25); (4, 44)] /\ t_head (s_top s) = 3.
Proof. vm_compute. auto. Qed.

(** * C66 *)
Theorem C66_cold_read_exact : forall crc cfg smax A s vis n limit, (forall b, crc b < 2 ^ 32) -> life crc cfg smax A s -> vis_ok vis (s_store s) ->
  cold_read crc (seen vis (s_store s)) n limit = takeN limit (from n (on_disk crc vis s)).
Proof. intros crc cfg smax A s vis n limit C L V. exact (cold_read_exact crc C 1 A s vis n limit (life_ok crc C cfg smax A s L) V). Qed.
Example C66_example : let s := xsrun (sys_new 1) (seg_ops ++ [SFlush]) in
  map m_seq (cold_read crc32 (seen all (s_store s)) 2 2) = [2; 3] /\ map m_seq (cold_read crc32 (seen all (s_store s)) 0 9) = [1; 2; 3; 4] /\ cold_read crc32 (seen all (s_store s)) 5 9 = [].
Proof. vm_compute. auto. Qed.

(** * C67 *)
(** Everything handed over and flushed: after the restart the same messages are
    there, and the next number is the same. *)
Theorem C67_log_continues : forall crc cfg smax A s soft vis, (forall b, crc b < 2 ^ 32) -> life crc cfg smax A s ->
  vis_ok vis (s_store s) -> s_box s = [] -> flushed s ->
  let s2 := boot crc soft (crash vis (s_store s)) in
  t_next (s_top s2) = t_next (s_top s) /\ t_head (s_top s2) = first_file s /\ life crc cfg smax A s2 /\
  (forall vis2, vis_ok vis2 (s_store s2) -> on_disk crc vis2 s2 = from (first_file s) A) /\
  (forall vis2 n limit, vis_ok vis2 (s_store s2) -> op_read crc vis2 n limit s2 = takeN limit (from (N.max n (first_file s)) A)).
Proof.
  intros crc cfg smax A s soft vis C L V B F s2. pose proof (life_ok crc C cfg smax A s L) as SO.
  destruct (restart_settled crc C soft 1 A s vis SO ltac:(lia) V B F) as (R1 & R2 & R3). fold s2 in R1, R2, R3.
  pose proof (flushed_whole crc C 1 A s vis SO V F) as W. pose proof (settled_disk crc C 1 A s vis SO V B F) as DE.
  destruct (restart_whole crc C soft 1 A s vis SO ltac:(lia) V W) as (N1 & _ & _ & OD). fold s2 in N1, OD.
  assert (FL : flushed s2).
  { unfold s2, boot. unfold recover_topic. unfold flushed. cbn [s_store]. unfold store_open. cbn [d_segs]. apply Forall_map. apply Forall_forall. intros x _. reflexivity. }
  assert (BX : s_box s2 = [] /\ s_ret s2 = None) by (split; reflexivity).
  split; [exact R1|]. split; [exact R2|]. split; [|split].
  - pose proof (life_restart crc cfg smax A s soft vis L V W) as L2. fold s2 in L2.
    replace (takeN (first_file s - 1 + lenN (on_disk crc vis s)) A) with A in L2; [exact L2|].
    symmetry. apply takeN_all. pose proof (next_of crc 1 A s SO). assert (1 <= first_file s) by (destruct SO as (W1 & dh & bl & H1); rewrite (first_eq crc 1 A W1 dh bl s H1); apply (i_dh _ _ _ _ _ _ _ H1)). lia.
  - intros vis2 V2. rewrite (OD vis2 V2). exact DE.
  - intros vis2 n limit V2. rewrite <- R2. exact (read_settled crc C A s2 vis2 n limit R3 V2 (proj1 BX) FL (proj2 BX)).
Qed.
(** One round of the save task (whether or not it finds something to save), then a
    restart: the same groups are back, with no member; every message a group had not
    settled (delivered or not) is to be delivered; if all messages up to some number
    were settled, none of them is delivered again. *)
Theorem C67_groups_resume : forall crc cfg smax A s soft vis gid, (forall b, crc b < 2 ^ 32) -> 1 <= max_del cfg -> calm crc cfg smax A s ->
  s_box s = [] -> flushed s -> let s1 := run crc cfg smax s [SCollect; SSave] in vis_ok vis (s_store s1) ->
  let s2 := boot crc soft (crash vis (s_store s1)) in
  match gget gid s with
  | None => gget gid s2 = None
  | Some g =>
    exists st2 g2, gget gid s2 = Some g2 /\ hist cfg st2 [] g2 /\ st2 <= t_next (s_top s2) /\
    forall st h n, hist cfg st h g -> first_file s <= n ->
      (status_of cfg st h n <> Done -> status_of cfg st h n <> Parked -> status_of cfg st2 [] n = Fresh) /\
      ((forall m, m <= n -> status_of cfg st h m = Done \/ status_of cfg st h m = Parked) -> status_of cfg st2 [] n = Done)
  end.
Proof.
  intros crc cfg smax A s soft vis gid C MD L B F s1 V s2.
  pose proof (saved_back crc C cfg MD smax A s soft vis gid L B F V) as SR. fold s1 s2 in SR.
  destruct (gget gid s) as [g|] eqn:HG; cbn [option_map] in SR; [|exact SR].
  assert (L1 : calm crc cfg smax A s1).
  { pose proof (calm_step crc cfg smax A s SCollect L Logic.I Logic.I Logic.I) as X1. pose proof (calm_step crc cfg smax _ _ SSave X1 Logic.I Logic.I Logic.I) as X2. simpl in X2. rewrite !app_nil_r in X2. exact X2. }
  assert (SS : d_segs (s_store s1) = d_segs (s_store s)) by (unfold s1; simpl; unfold op_save, op_collect; destruct (s_dirty s); [reflexivity|destruct (s_save s); reflexivity]).
  assert (B1 : s_box s1 = []) by (unfold s1; simpl; unfold op_save, op_collect; destruct (s_dirty s); [exact B|destruct (s_save s); exact B]).
  assert (F1 : flushed s1) by (unfold flushed; rewrite SS; exact F).
  exists (N.max (N.max (g_floor g) (t_head (s_top s2) - 1) + 1) (N.max (t_head (s_top s2)) 1)), (group_restore (g_floor g) (t_head (s_top s2))).
  split; [exact SR|]. split; [apply hist_restore; reflexivity|]. split.
  - pose proof (calm_ok_boot crc C cfg MD A s1 soft vis (calm_sys crc C cfg smax A s1 L1) V B1 F1 (calm_all crc C cfg smax MD A s1 L1)) as CB. fold s2 in CB.
    exact (proj1 (c_below _ _ _ CB) gid _ SR).
  - intros st h n HH LN. destruct (restart_settled crc C soft 1 A s1 vis (calm_sys crc C cfg smax A s1 L1) ltac:(lia) V B1 F1) as (_ & R2 & _). fold s2 in R2.
    assert (FF : first_file s1 = first_file s) by (unfold first_file; rewrite SS; reflexivity).
    assert (1 <= first_file s1) by (destruct (calm_sys crc C cfg smax A s1 L1) as (W1 & dh & bl & H1); rewrite (first_eq crc 1 A W1 dh bl s1 H1); apply (i_dh _ _ _ _ _ _ _ H1)).
    clearbody s2. cbn [status_of]. split.
    + intros N1 N2. assert (g_floor g < n).
      { destruct (N.le_gt_cases n (g_floor g)) as [X|X]; [|exact X]. destruct (floor_settled cfg MD st h g n HH X); congruence. }
      replace (n <? _) with false; [reflexivity|]. symmetry. apply N.ltb_ge. lia.
    + intro CL. assert (n <= g_floor g).
      { apply (floor_of cfg MD); [exists st, h; exact HH|]. intros m LM. rewrite <- (a_st _ _ _ _ (hist_agrees cfg MD _ _ _ HH)). apply CL. exact LM. }
      replace (n <? _) with true; [reflexivity|]. symmetry. apply N.ltb_lt. lia.
Qed.
Definition group_ops : list sop := [SPub 5 [1]; SPub 6 [2]; SPub 7 [3]; SJoin [97] 10 1; STry [97] 10 1 2 100 0; SAck [97] 10 1 1; SSend 0; SSend 0; SSend 0; SFlush].
Lemma xcalm : forall ops A s, calm crc32 xcfg 60 A s -> easy s ops = true -> Forall short ops -> calm crc32 xcfg 60 (A ++ log_of (t_next (s_top s)) ops) (xsrun s ops).
Proof.
  induction ops as [|o ops IH]; intros A s L E S; simpl; [rewrite app_nil_r; exact L|]. inversion S; subst.
  destruct (easy_ok (o :: ops) s E) as (R1 & R2 & R3). cbn [easy] in E. apply andb_prop in E. destruct E as (E1 & E2).
  pose proof (calm_step _ _ _ _ _ _ L R1 R2 H1) as L1. specialize (IH _ _ L1 E2 H2).
  pose proof (next_of crc32 1 A s (calm_sys crc32 crc32_bound xcfg 60 A s L)) as NX. unfold xstep in *.
  pose proof (next_of crc32 1 _ _ (calm_sys crc32 crc32_bound xcfg 60 _ _ L1)) as NX1. rewrite NX1, <- app_assoc, lenN_app in IH. rewrite NX.
  destruct o; cbn [adds app] in IH; rewrite ?lenN_nil, ?N.add_0_r in IH; try exact IH.
  rewrite lenN_cons, lenN_nil in IH. cbn [log_of]. rewrite NX in IH. replace (1 + (lenN A + (1 + 0))) with (1 + lenN A + 1) in IH by lia. exact IH.
Qed.
Example C67_example : exists A s, calm crc32 xcfg 60 A s /\ s_dirty s = true /\ s_box s = [] /\ flushed s /\
  let s1 := xsrun s [SCollect; SSave] in vis_ok all (s_store s1) /\
  let s2 := boot crc32 1 (crash all (s_store s1)) in t_next (s_top s2) = 4 /\ option_map g_floor (gget [97] s2) = Some 1 /\
  snd (xstep (xsrun s2 [SJoin [97] 11 1]) (STry [97] 11 1 9 200 0)) = RCold 2.
Proof.
  exists ([] ++ log_of 1 group_ops), (xsrun (sys_new 1) group_ops). split.
  { apply (xcalm group_ops [] (sys_new 1)); [apply calm_new|vm_compute; reflexivity|].
    unfold group_ops. repeat (apply Forall_cons; [vm_compute; auto|]). apply Forall_nil. }
  split; [reflexivity|]. split; [reflexivity|]. split; [apply flushed_check; vm_compute; reflexivity|]. split; [apply vis_check; vm_compute; reflexivity|].
  vm_compute. auto.
Qed.

(** * C68 *)
(** A message the group still owes: not settled, deliveries left. *)
Definition owed (cfg : gcfg) (st : N) (h : list gev) (n : N) : Prop :=
  settled_by h n = false -> handed h n < max_del cfg ->
  status_of cfg st h n = Fresh \/ (exists c t k, status_of cfg st h n = Held c t k) \/ (exists k, status_of cfg st h n = Waiting k).
Lemma owed_after crc cfg smax gid s2 g st : 1 <= max_del cfg -> mem_ok s2 -> gget gid s2 = Some g -> hist cfg st [] g -> st <= t_next (s_top s2) ->
  forall ops g', gget gid (run crc cfg smax s2 ops) = Some g' ->
  exists h, events crc cfg smax gid s2 ops (Some (st, [])) = Some (st, h) /\ hist cfg st h g' /\ forall n, t_next (s_top s2) <= n -> owed cfg st h n.
Proof.
  intros MD M HG HH LE ops g' HG'.
  assert (T : tracked cfg gid s2 (Some (st, []))) by (unfold tracked; rewrite HG; eauto).
  pose proof (proj2 (run_tracked crc cfg smax gid ops s2 (Some (st, [])) M T)) as T2. unfold tracked in T2. rewrite HG' in T2. destruct T2 as (st' & h & E & H').
  assert (ST : st' = st).
  { clear -E HG. revert E HG. generalize (@nil gev) as h0. revert s2 g. induction ops as [|o ops IH]; intros s2 g h0 E HG; simpl in E; [congruence|].
    unfold ev_step in E at 1. rewrite HG in E. pose proof (step_group crc cfg smax gid s2 o) as SG. rewrite HG in SG. eapply IH; [exact E|exact SG]. }
  subst st'. exists h. split; [exact E|]. split; [exact H'|]. intros n LN A B. apply (never_lost cfg MD st h g' n H'); auto. right. lia.
Qed.
(** If everything was on disk at the moment of the crash: whatever happens after the
    restart, no group skips a message published then. *)
Theorem C68_settled_partial : forall crc cfg smax A s soft vis gid g, (forall b, crc b < 2 ^ 32) -> 1 <= max_del cfg -> calm crc cfg smax A s ->
  vis_ok vis (s_store s) -> s_box s = [] -> flushed s ->
  let s2 := boot crc soft (crash vis (s_store s)) in gget gid s2 = Some g ->
  exists st, hist cfg st [] g /\ forall ops g', gget gid (run crc cfg smax s2 ops) = Some g' ->
    exists h, events crc cfg smax gid s2 ops (Some (st, [])) = Some (st, h) /\ hist cfg st h g' /\ forall n, t_next (s_top s2) <= n -> owed cfg st h n.
Proof.
  intros crc cfg smax A s soft vis gid g C MD L V B F s2 HG.
  destruct (restart_no_skip crc C cfg smax MD A s soft vis gid g L V B F HG) as (st & HH & LE). exists st. split; [exact HH|].
  pose proof (calm_ok_boot crc C cfg MD A s soft vis (calm_sys crc C cfg smax A s L) V B F (calm_all crc C cfg smax MD A s L)) as CB.
  exact (owed_after crc cfg smax gid s2 g st MD (c_mem _ _ _ CB) HG HH LE).
Qed.
(** A crash that loses messages skips none as long as the saved floors are within
    what is left. *)
Theorem C68_floors_within_partial : forall crc cfg smax A s soft vis gid g gs, (forall b, crc b < 2 ^ 32) -> 1 <= max_del cfg -> life crc cfg smax A s ->
  vis_ok vis (s_store s) -> whole crc vis s -> d_groups (s_store s) = Some (enc_groups crc gs) -> Forall gid_ok gs -> NoDup (map fst gs) ->
  Forall (fun e => snd e < first_file s + lenN (on_disk crc vis s)) gs ->
  let s2 := boot crc soft (crash vis (s_store s)) in gget gid s2 = Some g ->
  exists st, hist cfg st [] g /\ st <= t_next (s_top s2).
Proof.
  intros crc cfg smax A s soft vis gid g gs C MD L V W G1 G2 G3 G4 s2 HG. pose proof (life_ok crc C cfg smax A s L) as SO.
  destruct (restart_whole crc C soft 1 A s vis SO ltac:(lia) V W) as (N1 & N2 & N3 & _). fold s2 in N1, N2, N3.
  assert (X := boot_groups crc C soft (crash vis (s_store s)) gs gid G1 G2 G3). fold s2 in X. rewrite HG in X.
  destruct (aget beqb gid gs) as [fl|] eqn:EA; [|discriminate]. cbn [option_map] in X. clearbody s2. assert (X1 : g = group_restore fl (t_head (s_top s2))) by congruence. clear X. subst g.
  eexists. split; [apply hist_restore; reflexivity|]. apply (aget_In beqb beqb_eq) in EA. rewrite Forall_forall in G4. specialize (G4 _ EA). simpl in G4.
  destruct N3 as (W3 & dh & bl & H3). pose proof (i_pos _ _ _ _ _ _ _ H3) as (P & _). pose proof (proj2 (proj2 (i_topic _ _ _ _ _ _ _ H3))). lia.
Qed.
(** Not in general: floors are saved although the messages they cover are still in a
    write buffer. After the crash numbers start again below the floor, and what is
    published then is never delivered. *)
Definition lost_ops : list sop := [SPub 5 [1]; SPub 6 [2]; SJoin [97] 10 1; STry [97] 10 1 2 100 0; SAck [97] 10 1 1; SAck [97] 10 1 2; SSend 0; SSend 0; SCollect; SSave].
Theorem C68_skip_refuted : exists A s vis, life crc32 xcfg 60 A s /\ vis_ok vis (s_store s) /\
  let s2 := xsrun (boot crc32 1 (crash vis (s_store s))) [SPub 9 [7]; SJoin [97] 11 1] in
  t_log (s_top s2) = [mkMsg 1 9 [7]] /\ t_next (s_top s2) = 2 /\
  snd (xstep s2 (STry [97] 11 1 5 200 0)) = RWait /\
  snd (xstep (xsrun s2 [SPub 9 [8]; SPub 9 [9]]) (STry [97] 11 1 5 200 0)) = RMsgs [mkMsg 3 9 [9]].
Proof.
  exists (log_of 1 lost_ops), (xsrun (sys_new 1) lost_ops), (fun _ => 0). split; [apply xlife; vm_compute; reflexivity|].
  split; [apply vis_check; vm_compute; reflexivity|]. vm_compute. auto.
Qed.

(** * C69 *)
(** A crash between two records: the topic goes on right behind what is on disk. *)
Theorem C69_whole_records_partial : forall crc cfg smax A s soft vis, (forall b, crc b < 2 ^ 32) -> life crc cfg smax A s ->
  vis_ok vis (s_store s) -> whole crc vis s ->
  let s2 := boot crc soft (crash vis (s_store s)) in
  t_next (s_top s2) = first_file s + lenN (on_disk crc vis s) /\
  (forall m, In m (on_disk crc vis s) -> m_seq m < t_next (s_top s2)) /\
  (forall vis2, vis_ok vis2 (s_store s2) -> on_disk crc vis2 s2 = on_disk crc vis s) /\
  life crc cfg smax (takeN (first_file s - 1 + lenN (on_disk crc vis s)) A) s2.
Proof.
  intros crc cfg smax A s soft vis C L V W s2. pose proof (life_ok crc C cfg smax A s L) as SO.
  destruct (restart_whole crc C soft 1 A s vis SO ltac:(lia) V W) as (N1 & N2 & N3 & N4). fold s2 in N1, N2, N3, N4.
  split; [exact N1|]. split; [|split; [exact N4|exact (life_restart crc cfg smax A s soft vis L V W)]].
  intros m HM. rewrite N1. destruct SO as (W1 & dh & bl & H). rewrite (first_eq crc 1 A W1 dh bl s H).
  rewrite (on_disk_eq crc C 1 A W1 dh bl s vis H) in *.
  destruct (disk_piece crc C 1 A s vis (ex_intro _ W1 (ex_intro _ dh (ex_intro _ bl H))) V) as (k & E & _).
  rewrite (on_disk_eq crc C 1 A W1 dh bl s vis H), (first_eq crc 1 A W1 dh bl s H) in E.
  pose proof (k_all _ _ _ (proj1 (i_topic _ _ _ _ _ _ _ H))) as LA.
  pose proof (log_lt (vmsgs vis bl) dh m) as LT. apply LT in HM; [lia|]. rewrite E, (from_drop A 1 dh LA (i_dh _ _ _ _ _ _ _ H)).
  apply log_ok_takeN. pose proof (i_dh _ _ _ _ _ _ _ H). replace dh with (1 + (dh - 1)) at 2 by lia. apply log_ok_dropN. exact LA.
Qed.
(** And after any number of such crashes, what is published and flushed survives the
    next restart. *)
Theorem C69_survives_partial : forall crc cfg smax A s soft vis, (forall b, crc b < 2 ^ 32) -> life crc cfg smax A s ->
  vis_ok vis (s_store s) -> s_box s = [] -> flushed s ->
  let s2 := boot crc soft (crash vis (s_store s)) in
  t_next (s_top s2) = t_next (s_top s) /\ (forall vis2 m, vis_ok vis2 (s_store s2) -> In m A -> first_file s <= m_seq m -> In m (on_disk crc vis2 s2)).
Proof.
  intros crc cfg smax A s soft vis C L V B F s2. destruct (C67_log_continues crc cfg smax A s soft vis C L V B F) as (N1 & _ & _ & N4 & _). fold s2 in N1, N4.
  split; [exact N1|]. intros vis2 m V2 HM LM. rewrite (N4 vis2 V2). unfold from. apply filter_In. split; [exact HM|]. lia.
Qed.
(** A crash in the middle of a record: no number still readable is used again, if
    the newest file holds at least one record. *)
Theorem C69_no_reuse_partial : forall crc cfg smax A s soft vis l, (forall b, crc b < 2 ^ 32) -> life crc cfg smax A s -> vis_ok vis (s_store s) ->
  last_seg (seen vis (s_store s)) = Some l -> load_segment crc (snd l) <> [] ->
  forall m, In m (on_disk crc vis s) -> m_seq m < t_next (s_top (boot crc soft (crash vis (s_store s)))).
Proof. intros crc cfg smax A s soft vis l C L V. exact (no_reuse crc C soft 1 A s vis l (life_ok crc C cfg smax A s L) V). Qed.
(** Otherwise the numbers start again at the head: number 1 is on disk and is given
    out again. *)
Definition rot_ops : list sop := [SPub 5 (xpay 1); SSend 0; SPub 6 (xpay 2); SSend 0].
Theorem C69_reuse_refuted : exists A s vis, life crc32 xcfg 60 A s /\ vis_ok vis (s_store s) /\
  on_disk crc32 vis s = [mkMsg 1 5 (xpay 1)] /\ snd (xstep (boot crc32 1 (crash vis (s_store s))) (SPub 9 [9])) = RSeq 1.
Proof.
  exists (log_of 1 rot_ops), (xsrun (sys_new 1) rot_ops), (fun n => if n =? 1 then 44 else 0). split; [apply xlife; vm_compute; reflexivity|].
  split; [apply vis_check; vm_compute; reflexivity|]. vm_compute. auto.
Qed.
(** And a torn record is not cut off: what is written behind it is not found again. *)
Definition torn_ops : list sop := [SPub 5 [1]; SSend 0; SFlush; SPub 6 [2]; SSend 0].
Theorem C69_lost_after_torn_refuted : exists A s vis, life crc32 xcfg 60 A s /\ vis_ok vis (s_store s) /\
  let s2 := xsrun (boot crc32 1 (crash vis (s_store s))) [SPub 9 [9]; SSend 0; SFlush] in
  map m_seq (t_log (s_top s2)) = [1; 2] /\ s_box s2 = [] /\ flushed s2 /\
  on_disk crc32 all s2 = [mkMsg 1 5 [1]] /\ snd (xstep (boot crc32 1 (crash all (s_store s2))) (SPub 10 [10])) = RSeq 2.
Proof.
  exists (log_of 1 torn_ops), (xsrun (sys_new 1) torn_ops), (fun n => 30). split; [apply xlife; vm_compute; reflexivity|].
  split; [apply vis_check; vm_compute; reflexivity|]. split; [vm_compute; reflexivity|]. split; [vm_compute; reflexivity|]. split; [apply flushed_check; vm_compute; reflexivity|].
  vm_compute. auto.
Qed.
Example C69_example : let s := xsrun (sys_new 1) torn_ops in let v := fun _ : N => 49 in
  map m_seq (on_disk crc32 v s) = [1] /\ map m_seq (on_disk crc32 all s) = [1; 2] /\ t_next (s_top (boot crc32 1 (crash v (s_store s)))) = 2.
Proof. vm_compute. auto. Qed.

(** * C70 *)
(** If publishers hand over in the order of their numbers, the files always hold a
    run of what was published, in order, and everything up to the persisted mark (and
    everything evicted) from the first file on. *)
Theorem C70_ordered_partial : forall crc cfg smax A s vis, (forall b, crc b < 2 ^ 32) -> life crc cfg smax A s -> vis_ok vis (s_store s) ->
  exists n, on_disk crc vis s = takeN n (from (first_file s) A) /\
    (forall m, In m A -> first_file s <= m_seq m -> m_seq m < t_ram (s_top s) \/ m_seq m <= d_pers (s_store s) -> In m (on_disk crc vis s)).
Proof.
  intros crc cfg smax A s vis C L V. destruct (disk_piece crc C 1 A s vis (life_ok crc C cfg smax A s L) V) as (n & E & P). exists n. split; [exact E|].
  intros m HM LM [X|X]; apply P; auto.
Qed.
(** But the hand-over happens after the topic lock is released: two publishers may
    swap. Then the log is out of order, ... *)
Definition swap_ops : list sop := [SPub 5 [1]; SPub 6 [2]; SSend 1; SFlush].
Theorem C70_order_refuted : exists ops, map m_seq (on_disk crc32 all (xsrun (sys_new 1) ops)) = [2; 1] /\
  map m_seq (log_of 1 ops) = [1; 2].
Proof. exists (swap_ops ++ [SSend 0; SFlush]). vm_compute. auto. Qed.
(** ... and in between the persisted mark covers a message not on disk, so eviction
    takes it from memory too: it is nowhere but in flight, and a crash loses it. *)
Theorem C70_mark_refuted : exists ops, let s := xsrun (sys_new 1) ops in
  d_pers (s_store s) = 2 /\ map m_seq (on_disk crc32 all s) = [2] /\ map m_seq (t_log (s_top s)) = [2] /\
  map m_seq (op_read crc32 all 1 5 (boot crc32 1 (crash all (s_store s)))) = [2].
Proof. exists (swap_ops ++ [SLoad; SEvict]). vm_compute. auto. Qed.
Example C70_example : let s := xsrun (sys_new 1) (torn_ops ++ [SFlush; SPub 8 [3]; SSend 0]) in
  easy (sys_new 1) (torn_ops ++ [SFlush; SPub 8 [3]; SSend 0]) = true /\
  d_pers (s_store s) = 2 /\ map m_seq (on_disk crc32 (fun n => if n =? 1 then 50 else 0) s) = [1; 2] /\ map m_seq (on_disk crc32 all s) = [1; 2; 3].
Proof. vm_compute. auto. Qed.
Print Assumptions C50_memory_exact_partial.
Print Assumptions C50_settled_exact_partial.
Print Assumptions C50_gapless_partial.
Print Assumptions C50_exact_refuted.
Print Assumptions C51_evicted_on_disk.
Print Assumptions C51_nowhere_lost.
Print Assumptions C61_other_groups_untouched.
Print Assumptions C61_log_untouched.
Print Assumptions C61_own_history.
Print Assumptions C62_round_trip.
Print Assumptions C62_torn_tail.
Print Assumptions C62_changed_not_returned.
Print Assumptions C62_changed_skipped_by_read.
Print Assumptions C62_always_checked.
Print Assumptions C63_round_trip_partial.
Print Assumptions C63_long_id_refuted.
Print Assumptions C64_partition.
Print Assumptions C65_removes_prefix.
Print Assumptions C65_size_shortest.
Print Assumptions C65_head.
Print Assumptions C66_cold_read_exact.
Print Assumptions C67_log_continues.
Print Assumptions C67_groups_resume.
Print Assumptions C68_settled_partial.
Print Assumptions C68_floors_within_partial.
Print Assumptions C68_skip_refuted.
Print Assumptions C69_whole_records_partial.
Print Assumptions C69_survives_partial.
Print Assumptions C69_no_reuse_partial.
Print Assumptions C69_reuse_refuted.
Print Assumptions C69_lost_after_torn_refuted.
Print Assumptions C70_ordered_partial.
Print Assumptions C70_order_refuted.
Print Assumptions C70_mark_refuted.
