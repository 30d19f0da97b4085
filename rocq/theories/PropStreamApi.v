(** C49, C51, C57, C58, C60, C69, C81: what the requests on a stream topic answer. *)
From Verif Require Import LibBase LibMap Crc32 StreamTopicModel StreamGroupModel StreamStoreModel StreamStoreCodec StreamStoreProofs StreamStoreFacts StreamGroupSpec StreamGroupProofs StreamGroupFetch StreamGroupHist StreamGroupFacts StreamTopicProofs StreamSysModel StreamSysProofs StreamSysHist StreamSysFacts StreamSysBoot StreamSysLife StreamSaved StreamApi StreamFiles PropStreamGroup PropStreamStorage.

(** * C49 *)
(** A publish answers the next number, and that number names exactly this message. *)
Theorem C49_publish_answers : forall crc cfg smax A s ts pay, (forall b, crc b < 2 ^ 32) -> life crc cfg smax A s -> op_ok s (SPub ts pay) ->
  snd (sstep crc cfg smax s (SPub ts pay)) = RSeq (lenN A + 1) /\ life crc cfg smax (A ++ [mkMsg (lenN A + 1) ts pay]) (fst (sstep crc cfg smax s (SPub ts pay))).
Proof. intros crc cfg smax A s ts pay C. exact (publish_answers crc C cfg smax A s ts pay). Qed.
Example C49_answers_example : exists A s, life crc32 xcfg 60 A s /\ lenN A = 2 /\ op_ok s (SPub 7 (xpay 3)) /\ snd (xstep s (SPub 7 (xpay 3))) = RSeq 3.
Proof.
  exists (log_of 1 rot_ops), (xsrun (sys_new 1) rot_ops). split; [apply xlife; vm_compute; reflexivity|]. split; [reflexivity|]. split; [|vm_compute; reflexivity].
  assert (E : easy (xsrun (sys_new 1) rot_ops) [SPub 7 (xpay 3)] = true) by (vm_compute; reflexivity). apply (easy_ok _ _ E).
Qed.

(** * C51 *)
(** Once the publishers have handed everything over, one flush and one eviction round
    bring the topic's memory down to the configured number of messages. *)
Theorem C51_memory_bounded : forall crc cfg smax A s, (forall b, crc b < 2 ^ 32) -> life crc cfg smax A s -> s_box s = [] ->
  lenN (t_log (s_top (run crc cfg smax s [SFlush; SLoad; SEvict]))) <= t_soft (s_top s).
Proof. intros crc cfg smax A s C. exact (memory_bounded crc C cfg smax A s). Qed.
Example C51_bounded_example : exists A s, life crc32 xcfg 60 A s /\ s_box s = [] /\ lenN (t_log (s_top s)) = 2 /\ t_soft (s_top s) = 1 /\
  lenN (t_log (s_top (xsrun s [SFlush; SLoad; SEvict]))) = 1.
Proof.
  exists (log_of 1 rot_ops), (xsrun (sys_new 1) rot_ops). split; [apply xlife; vm_compute; reflexivity|]. split; [reflexivity|]. vm_compute. auto.
Qed.

(** * C57 *)
(** [gen_of h], [member_of h c], [status_of cfg st h n]: generation, membership and
    what became of message [n], told by the history [h] of the group. *)
Theorem C57_ack_request : forall crc cfg smax A s gid g st h c gen seq, (forall b, crc b < 2 ^ 32) -> 1 <= max_del cfg -> calm crc cfg smax A s ->
  gget gid s = Some g -> hist cfg st h g ->
  let r := sstep crc cfg smax s (SAck gid c gen seq) in
  (snd r = RUnit <-> refused h c gen = None /\ exists t n, status_of cfg st h seq = Held c t n) /\
  (forall e, refused h c gen = Some e -> snd r = RErr (Group e)) /\
  exists g' h', gget gid (fst r) = Some g' /\ hist cfg st h' g' /\ gen_of h' = gen_of h /\ (forall c', member_of h' c' = member_of h c') /\
    forall n, status_of cfg st h' n = if n =? seq then (match snd r with RUnit => Done | _ => status_of cfg st h n end) else status_of cfg st h n.
Proof. intros crc cfg smax A s gid g st h c gen seq C MD. exact (ack_api crc C cfg MD smax A s gid g st h c gen seq). Qed.
Lemma group_calm : calm crc32 xcfg 60 ([] ++ log_of 1 group_ops) (xsrun (sys_new 1) group_ops).
Proof.
  apply (xcalm group_ops [] (sys_new 1)); [apply calm_new|vm_compute; reflexivity|].
  unfold group_ops. repeat (apply Forall_cons; [vm_compute; auto|]). apply Forall_nil.
Qed.
Lemma group_hist : exists g st h, gget [97] (xsrun (sys_new 1) group_ops) = Some g /\ hist xcfg st h g /\
  (gen_of h = 1 /\ member_of h 10 = true /\ member_of h 11 = false) /\ status_of xcfg st h 1 = Done /\ status_of xcfg st h 2 = Held 10 100 1 /\ status_of xcfg st h 3 = Fresh.
Proof.
  destruct (gget [97] (xsrun (sys_new 1) group_ops)) as [g|] eqn:HG; [|vm_compute in HG; discriminate].
  destruct (run_hist crc32 xcfg 60 1 group_ops [97] g HG) as (st & h & E & H). exists g, st, h. split; [reflexivity|]. split; [exact H|].
  vm_compute in E. inversion E; subst. vm_compute. auto.
Qed.
Example C57_request_example : exists A s g st h, calm crc32 xcfg 60 A s /\ gget [97] s = Some g /\ hist xcfg st h g /\
  status_of xcfg st h 2 = Held 10 100 1 /\ refused h 10 1 = None /\ snd (xstep s (SAck [97] 10 1 2)) = RUnit /\
  refused h 10 2 = Some Fenced /\ snd (xstep s (SAck [97] 10 2 2)) = RErr (Group Fenced) /\
  refused h 11 1 = Some NotMember /\ snd (xstep s (SAck [97] 11 1 2)) = RErr (Group NotMember) /\ snd (xstep s (SAck [97] 10 1 1)) <> RUnit.
Proof.
  destruct group_hist as (g & st & h & HG & H & (G1 & M1 & M2) & S1 & S2 & S3). exists ([] ++ log_of 1 group_ops), (xsrun (sys_new 1) group_ops), g, st, h.
  split; [exact group_calm|]. split; [exact HG|]. split; [exact H|]. split; [exact S2|]. unfold refused. rewrite G1, M1, M2.
  vm_compute. repeat split; auto. discriminate.
Qed.

(** * C58 *)
(** A leave answered with success releases exactly what the consumer held. *)
Theorem C58_leave_request : forall crc cfg smax s gid g st h ord c gen, 1 <= max_del cfg -> gget gid s = Some g -> hist cfg st h g -> refused h c gen = None ->
  let r := sstep crc cfg smax s (SLeave ord gid c gen) in snd r = RUnit /\
  exists g' h', gget gid (fst r) = Some g' /\ hist cfg st h' g' /\ gen_of h' = gen_of h /\
    (forall c', member_of h' c' = negb (c' =? c) && member_of h c') /\
    forall n, status_of cfg st h' n = match status_of cfg st h n with
      | Held c' t k => if c' =? c then (if max_del cfg <=? k then Parked else Waiting k) else Held c' t k
      | x => x end.
Proof.
  intros crc cfg smax s gid g st h ord c gen MD HG H R. pose proof (leave_api crc cfg MD smax s gid g st h ord c gen HG H) as X. rewrite R in X. exact X.
Qed.
Example C58_request_example : exists s g st h, gget [97] s = Some g /\ hist xcfg st h g /\ refused h 10 1 = None /\ status_of xcfg st h 2 = Held 10 100 1 /\
  exists g', gget [97] (fst (xstep s (SLeave [2] [97] 10 1))) = Some g' /\ g_red g' = [2] /\ g_mem g' = [].
Proof.
  destruct group_hist as (g & st & h & HG & H & (G1 & M1 & M2) & S1 & S2 & S3). exists (xsrun (sys_new 1) group_ops), g, st, h.
  split; [exact HG|]. split; [exact H|]. unfold refused. rewrite G1, M1. split; [reflexivity|]. split; [exact S2|]. eexists. split; [vm_compute; reflexivity|]. vm_compute. auto.
Qed.

(** * C60 *)
(** Who is not a member under the current generation is refused and changes nothing. *)
Theorem C60_leave_refused : forall crc cfg smax s gid g st h ord c gen e, 1 <= max_del cfg -> gget gid s = Some g -> hist cfg st h g -> refused h c gen = Some e ->
  sstep crc cfg smax s (SLeave ord gid c gen) = (s, RErr (Group e)).
Proof.
  intros crc cfg smax s gid g st h ord c gen e MD HG H R. pose proof (leave_api crc cfg MD smax s gid g st h ord c gen HG H) as X. rewrite R in X. exact X.
Qed.
(** An attempt of a fetch ends in the error (or, in a group that holds its maximum, with
    no messages), and nobody's messages change. A fetch that may not wait is answered
    with it; one that may wait reports NOT_MEMBER as "no messages" (manager.rs:235-237,
    [s_said] in StreamWake). *)
Theorem C60_fetch_refused : forall crc cfg smax A s gid g st h c gen limit now tok e, (forall b, crc b < 2 ^ 32) -> 1 <= max_del cfg -> calm crc cfg smax A s ->
  gget gid s = Some g -> hist cfg st h g -> refused h c gen = Some e ->
  let r := sstep crc cfg smax s (STry gid c gen limit now tok) in
  (snd r = RErr (Group e) \/ snd r = RMsgs [] /\ max_pend cfg <= lenN (g_pend g)) /\
  exists g' h', gget gid (fst r) = Some g' /\ hist cfg st h' g' /\ gen_of h' = gen_of h /\ (forall c', member_of h' c' = member_of h c') /\
    forall n, status_of cfg st h' n = status_of cfg st h n.
Proof. intros crc cfg smax A s gid g st h c gen limit now tok e C MD. exact (try_refused crc C cfg MD smax A s gid g st h c gen limit now tok e). Qed.
Theorem C60_no_group : forall crc cfg smax s gid, gget gid s = None ->
  (forall c gen seq, sstep crc cfg smax s (SAck gid c gen seq) = (s, RErr NoGroup)) /\
  (forall ord c gen, sstep crc cfg smax s (SLeave ord gid c gen) = (s, RErr NoGroup)) /\
  (forall c gen limit now tok, sstep crc cfg smax s (STry gid c gen limit now tok) = (s, RErr NoGroup)).
Proof. intros crc cfg smax. exact (no_group crc cfg smax). Qed.
(** After a seek: a consumer that joins is told where the group stands and its new
    generation; its first fetch, after any further publishes, answers the messages from
    there on ([RCold]: goes on with a disk read from there; [RWait]: waits). *)
Theorem C60_seek_request : forall crc cfg smax A s b gid c conn ps limit now tok, (forall x, crc x < 2 ^ 32) -> 1 <= max_del cfg ->
  life crc cfg smax A s -> 1 <= max_pend cfg -> 1 <= limit ->
  let start := if b : bool then N.max (t_head (s_top s)) 1 else lenN A + 1 in
  let s1 := fst (sstep crc cfg smax s (SSeek b gid)) in
  let s2 := fst (sstep crc cfg smax s1 (SJoin gid c conn)) in
  runs_ok crc cfg smax s2 (map pub ps) ->
  let s3 := run crc cfg smax s2 (map pub ps) in
  let A3 := A ++ log_of (lenN A + 1) (map pub ps) in
  exists gen, snd (sstep crc cfg smax s1 (SJoin gid c conn)) = RJoin (start - 1) gen /\ (forall g, gget gid s = Some g -> gen = g_gen g + 1) /\
    snd (sstep crc cfg smax s3 (STry gid c gen limit now tok)) =
      if start <? t_ram (s_top s3) then RCold start
      else match takeN (N.min limit (max_pend cfg)) (from start A3) with [] => RWait | ms => RMsgs ms end.
Proof. intros crc cfg smax A s b gid c conn ps limit now tok C MD. exact (seek_api crc C cfg MD smax A s b gid c conn ps limit now tok). Qed.
Example C60_request_example : exists A s, life crc32 xcfg 60 A s /\
  let s2 b := xsrun s [SSeek b [97]; SJoin [97] 12 3] in
  easy (s2 true) [SPub 8 [4]] = true /\ snd (xstep (xsrun s [SSeek true [97]]) (SJoin [97] 12 3)) = RJoin 0 2 /\
  snd (xstep (xsrun (s2 true) [SPub 8 [4]]) (STry [97] 12 2 2 200 0)) = RMsgs [mkMsg 1 5 [1]; mkMsg 2 6 [2]] /\
  snd (xstep (xsrun s [SSeek false [97]]) (SJoin [97] 12 3)) = RJoin 3 2 /\
  snd (xstep (xsrun (s2 false) [SPub 8 [4]]) (STry [97] 12 2 2 200 0)) = RMsgs [mkMsg 4 8 [4]] /\
  snd (xstep (s2 false) (STry [97] 12 2 2 200 0)) = RWait /\
  snd (xstep (s2 true) (STry [97] 10 1 2 200 0)) = RErr (Group Fenced) /\
  xstep (s2 true) (SLeave [] [97] 10 1) = (s2 true, RErr (Group Fenced)).
Proof.
  exists (log_of 1 group_ops), (xsrun (sys_new 1) group_ops). split; [apply xlife; vm_compute; reflexivity|]. vm_compute. auto 10.
Qed.

(** * C69 *)
(** After any crash, in the middle of a record or not, the next message is numbered at
    or above the first file. *)
Theorem C69_never_below_head : forall crc cfg smax A s soft vis ts pay, (forall b, crc b < 2 ^ 32) -> life crc cfg smax A s -> vis_ok vis (s_store s) ->
  exists n, snd (sstep crc cfg smax (boot crc soft (crash vis (s_store s))) (SPub ts pay)) = RSeq n /\ 1 <= n /\ first_file s <= n.
Proof. intros crc cfg smax A s soft vis ts pay C. exact (never_below crc C cfg smax A s soft vis ts pay). Qed.
Definition gone_ops : list sop := rot_ops ++ [SFlush; SRetain all None (Some 50); SHead; SPub 7 (xpay 3); SSend 0].
Example C69_head_example : exists A s, life crc32 xcfg 60 A s /\ first_file s = 2 /\ let vis := fun n => if n =? 2 then 44 else 20 in
  vis_ok vis (s_store s) /\ map m_seq (on_disk crc32 vis s) = [2] /\ snd (xstep (boot crc32 1 (crash vis (s_store s))) (SPub 9 [9])) = RSeq 2.
Proof.
  exists (log_of 1 gone_ops), (xsrun (sys_new 1) gone_ops). split; [apply xlife; vm_compute; reflexivity|]. split; [vm_compute; reflexivity|].
  cbv zeta. split; [apply vis_check; vm_compute; reflexivity|]. vm_compute. auto.
Qed.

(** * C81 *)
(** No segment file is larger than the limit, except one that holds a single record. *)
Theorem C81_file_size_partial : forall crc cfg smax A s n f, (forall b, crc b < 2 ^ 32) -> life crc cfg smax A s -> In (n, f) (d_segs (s_store s)) ->
  lenN (f_bytes f) <= smax \/ exists m, msg_ok m /\ f_bytes f = enc_msgs crc [m].
Proof. intros crc cfg smax A s n f C L. exact (life_smalls crc C cfg smax A s L n f). Qed.
(** And a file is only begun when the one before it had no room for the record it
    begins with. *)
Theorem C81_files_full_partial : forall crc cfg smax A s pre a b post, (forall x, crc x < 2 ^ 32) -> life crc cfg smax A s ->
  map (fun x => f_bytes (snd x)) (d_segs (s_store s)) = pre ++ a :: b :: post ->
  exists m rest, msg_ok m /\ b = enc_msgs crc [m] ++ rest /\ smax < lenN a + lenN (enc_msgs crc [m]).
Proof. intros crc cfg smax A s pre a b post C L. exact (life_packed crc C cfg smax A s L pre a b post). Qed.
(** Not after a crash in the middle of a record: the file begun next may have the name
    of one that is there, which then grows beyond the limit. *)
Theorem C81_torn_refuted : exists A s vis f, life crc32 xcfg 60 A s /\ vis_ok vis (s_store s) /\
  In (1, f) (d_segs (s_store (xsrun (boot crc32 1 (crash vis (s_store s))) [SPub 9 (xpay 9); SSend 0]))) /\
  60 < lenN (f_bytes f) /\ load_segment crc32 (f_bytes f) = [mkMsg 1 5 (xpay 1); mkMsg 1 9 (xpay 9)].
Proof.
  exists (log_of 1 rot_ops), (xsrun (sys_new 1) rot_ops), (fun n => if n =? 1 then 44 else 30).
  eexists. split; [apply xlife; vm_compute; reflexivity|]. split; [apply vis_check; vm_compute; reflexivity|]. split; [vm_compute; left; reflexivity|]. vm_compute. auto.
Qed.
Example C81_example : exists A s, life crc32 xcfg 60 A s /\ map (fun x => (fst x, lenN (f_bytes (snd x)))) (d_segs (s_store s)) = [(1, 50); (3, 44)].
Proof.
  exists (log_of 1 [SPub 5 [1]; SSend 0; SPub 6 [2]; SSend 0; SPub 7 (xpay 3); SSend 0]), (xsrun (sys_new 1) [SPub 5 [1]; SSend 0; SPub 6 [2]; SSend 0; SPub 7 (xpay 3); SSend 0]).
  split; [apply xlife; vm_compute; reflexivity|vm_compute; reflexivity].
Qed.

Print Assumptions C49_publish_answers.
Print Assumptions C51_memory_bounded.
Print Assumptions C57_ack_request.
Print Assumptions C58_leave_request.
Print Assumptions C60_leave_refused.
Print Assumptions C60_fetch_refused.
Print Assumptions C60_no_group.
Print Assumptions C60_seek_request.
Print Assumptions C69_never_below_head.
Print Assumptions C81_file_size_partial.
Print Assumptions C81_files_full_partial.
Print Assumptions C81_torn_refuted.
