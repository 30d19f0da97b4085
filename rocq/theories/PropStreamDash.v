(** Property of the stream pages of the dashboard (C99). *)
From Verif Require Import LibBase LibMap Crc32 StreamTopicModel StreamGroupModel StreamStoreModel StreamStoreCodec StreamStoreProofs StreamStoreFacts StreamGroupSpec StreamGroupProofs StreamGroupFetch StreamGroupHist StreamGroupFacts StreamTopicProofs StreamSysModel StreamSysProofs StreamSysHist StreamSysFacts StreamSysBoot StreamSysLife StreamSaved PropStreamGroup PropStreamStorage StreamDashModel StreamDashProofs.

(** [n] of the numbers satisfy [P] *)
Definition counts (n : N) (P : N -> Prop) : Prop := exists l, NoDup l /\ (forall q, In q l <-> P q) /\ lenN l = n.
(** rows of a page: 50 unless told otherwise, at most 500 *)
Definition rows (limit : option N) : N := N.min (match limit with Some l => l | None => 50 end) 500.
Definition page_now (crc : bytes -> N) (vis : N -> N) (from limit : option N) (s : sys) : mpage := messages_page crc vis from limit s s.

(** The last number is that of the newest record; it stays right however many records
    follow before the messages are read. *)
Theorem C99_last : forall crc cfg smax A s1 s2 vis from limit, (forall b, crc b < 2 ^ 32) -> life crc cfg smax A s1 ->
  su_last (topic_summary s1) = lenN A /\ pg_last (messages_page crc vis from limit s1 s2) = lenN A.
Proof. intros crc cfg smax A s1 s2 vis from limit C L. pose proof (last_eq crc C cfg smax A s1 L) as E. split; exact E. Qed.
Print Assumptions C99_last.

(** Since its creation the topic was not restarted, and the page is not larger than the
    number of records that memory keeps: the page is the newest records that retention has
    left, newest first, in every state. *)
Theorem C99_newest_partial : forall crc cfg smax soft ops vis limit, (forall b, crc b < 2 ^ 32) ->
  runs_ok crc cfg smax (sys_new soft) ops -> rows limit <= soft ->
  let s := run crc cfg smax (sys_new soft) ops in vis_ok vis (s_store s) ->
  pg_msgs (page_now crc vis None limit s) = takeN (rows limit) (rev (from (t_head (s_top s)) (log_of 1 ops))).
Proof.
  change rows with page_limit.
  intros crc cfg smax soft ops vis limit C RO LE s V. set (l := page_limit limit) in *.
  pose proof (life_run crc C cfg smax ops [] (sys_new soft) (life_new _ _ _ soft) RO) as L. cbn [app] in L. change (t_next (s_top (sys_new soft))) with 1 in L. fold s in L.
  pose proof (recent_run crc C cfg smax ops [] (sys_new soft) (life_new _ _ _ soft) RO) as R. fold s in R. destruct R as [R SF]; [left; cbn; lia|]. cbn [sys_new s_top topic_new t_soft] in SF.
  unfold page_now, messages_page. cbn [pg_msgs]. fold l. rewrite (last_eq crc C cfg smax _ s L).
  pose proof (newest_gen crc C cfg smax _ s l L) as G. pose proof (life_ok crc C _ _ _ _ L) as S1. pose proof S1 as (W & dh & bl & H). pose proof (i_topic _ _ _ _ _ _ _ H) as I.
  destruct (N.eq_dec l 0) as [->|NZ].
  { rewrite takeN_0. destruct (read_row crc C _ s vis (page_from (lenN (log_of 1 ops)) 0 None) 0 S1 V) as (k & j & -> & J & _). replace j with 0 by lia. rewrite takeN_0. reflexivity. }
  rewrite (read_memory crc _ s vis _ l S1).
  - rewrite G. apply rev_involutive.
  - destruct R as [R|R]; [lia|]. rewrite SF in R. assert (NE : t_log (s_top s) <> []) by (intro E; rewrite E, lenN_nil in R; lia). pose proof (ram_len _ _ I NE) as RL.
    rewrite (k_next _ _ _ (proj1 I)) in RL. unfold page_from. lia.
Qed.
Print Assumptions C99_newest_partial.
(** So also after any restarts, once everything is written. *)
Theorem C99_settled_partial : forall crc cfg smax A s vis limit, (forall b, crc b < 2 ^ 32) -> life crc cfg smax A s ->
  vis_ok vis (s_store s) -> s_box s = [] -> flushed s -> s_ret s = None ->
  pg_msgs (page_now crc vis None limit s) = takeN (rows limit) (rev (from (t_head (s_top s)) A)) /\
  forall n, pg_msgs (page_now crc vis (Some n) limit s) = rev (takeN (rows limit) (from (N.max n (t_head (s_top s))) A)).
Proof.
  change rows with page_limit.
  intros crc cfg smax A s vis limit C L V B F R. pose proof (life_ok crc C _ _ _ _ L) as S1. unfold page_now, messages_page. cbn [pg_msgs]. rewrite (last_eq crc C cfg smax _ s L). split.
  - rewrite (read_settled crc C A s vis _ _ S1 V B F R), (newest_gen crc C cfg smax A s _ L). apply rev_involutive.
  - intro n. cbn [page_from]. rewrite (read_settled crc C A s vis _ _ S1 V B F R). reflexivity.
Qed.
Print Assumptions C99_settled_partial.
(** In every state, whatever happens between the two looks at the topic, the page is a
    gapless run of published records, newest first, not longer than the limit. *)
Theorem C99_genuine : forall crc cfg smax A s1 ops vis from limit, (forall b, crc b < 2 ^ 32) -> life crc cfg smax A s1 -> runs_ok crc cfg smax s1 ops ->
  let s2 := run crc cfg smax s1 ops in let A2 := A ++ log_of (lenN A + 1) ops in vis_ok vis (s_store s2) ->
  let pg := messages_page crc vis from limit s1 s2 in
  exists k, rev (pg_msgs pg) = takeN (lenN (pg_msgs pg)) (dropN k A2) /\ lenN (pg_msgs pg) <= rows limit /\ pg_limit pg = rows limit /\
    (pg_msgs pg <> [] -> 1 + k = N.max (pg_from pg) (t_head (s_top s2)) \/ 1 + k = first_file s2 /\ pg_from pg < first_file s2) /\
    pg_from pg = match from with Some f => f | None => N.max (lenN A - (rows limit - 1)) 1 end.
Proof.
  change rows with page_limit.
  intros crc cfg smax A s1 ops vis from limit C L RO s2 A2 V pg. pose proof (life_run crc C cfg smax ops A s1 L RO) as L2. rewrite (next_of crc _ _ _ (life_ok crc C _ _ _ _ L)) in L2.
  replace (1 + lenN A) with (lenN A + 1) in L2 by lia. fold s2 A2 in L2.
  destruct (read_row crc C A2 s2 vis (pg_from pg) (page_limit limit) (life_ok crc C _ _ _ _ L2) V) as (k & j & E & J & P). change (pg_msgs pg) with (rev (op_read crc vis (pg_from pg) (page_limit limit) s2)).
  exists k. rewrite rev_involutive. replace (lenN (rev (op_read crc vis (pg_from pg) (page_limit limit) s2))) with (lenN (op_read crc vis (pg_from pg) (page_limit limit) s2)) by (unfold lenN; rewrite rev_length; reflexivity).
  split; [|split; [|split; [reflexivity|split]]].
  - rewrite E at 2. rewrite E. rewrite lenN_takeN. destruct (N.le_ge_cases j (lenN (dropN k A2))); [rewrite N.min_l by auto; auto|]. rewrite N.min_r by auto. rewrite !takeN_all; auto; lia.
  - rewrite E, lenN_takeN. lia.
  - intro NE. apply P. intro X. apply NE. rewrite X. reflexivity.
  - unfold pg, messages_page. cbn [pg_from]. rewrite (last_eq crc C cfg smax _ s1 L). destruct from; reflexivity.
Qed.
Print Assumptions C99_genuine.

(** The groups of the topic, each once; the number of records given out and not yet
    acknowledged; the floor: all up to it settled, the next one not. *)
Theorem C99_groups : forall crc cfg smax A s, (forall b, crc b < 2 ^ 32) -> 1 <= max_del cfg -> calm crc cfg smax A s ->
  NoDup (map fst (su_groups (topic_summary s))) /\
  (forall gid, In gid (map fst (su_groups (topic_summary s))) <-> exists g, gget gid s = Some g) /\
  forall gid floor n, In (gid, (floor, n)) (su_groups (topic_summary s)) -> exists g, gget gid s = Some g /\ (exists st h, hist cfg st h g) /\
    forall st h, hist cfg st h g ->
      counts n (fun q => exists c t k, status_of cfg st h q = Held c t k) /\
      (forall q, q <= floor -> status_of cfg st h q = Done \/ status_of cfg st h q = Parked) /\
      status_of cfg st h (floor + 1) <> Done /\ status_of cfg st h (floor + 1) <> Parked.
Proof.
  intros crc cfg smax A s C MD L. pose proof (calm_all crc C cfg smax MD A s L) as K.
  assert (EK : map fst (su_groups (topic_summary s)) = akeys (s_groups s)) by (unfold topic_summary, akeys; cbn [su_groups]; rewrite map_map; reflexivity).
  rewrite EK. split; [apply (c_nodup _ _ _ K)|]. split.
  - intro gid. unfold gget. symmetry. apply (aget_Some_in beqb beqb_eq).
  - intros gid floor n H. unfold topic_summary in H. cbn [su_groups] in H. apply in_map_iff in H. destruct H as ([gid' g] & E & H). cbn [fst snd] in E. injection E as -> <- <-.
    assert (G : gget gid s = Some g) by (apply (In_aget beqb beqb_eq); auto; apply (c_nodup _ _ _ K)).
    exists g. split; auto. split; [apply (c_hist _ _ _ K gid g G)|]. intros st h HH. split; [|split].
    + destruct (hist_agrees cfg MD _ _ _ HH) as [I S _ _]. exists (akeys (g_pend g)). split; [apply (i_pnd _ _ (proj1 I))|]. split; [|unfold lenN, akeys; rewrite map_length; reflexivity].
      intro q. rewrite S. unfold abs. destruct (pget q (g_pend g)) as [p|] eqn:EP.
      * split; [intros _; eauto|]. intros _. apply (aget_Some_in N.eqb N.eqb_eq). exists p. exact EP.
      * split.
        -- intro X. apply (aget_Some_in N.eqb N.eqb_eq) in X. destruct X as [v X]. unfold pget in EP. congruence.
        -- intros (c & t & k & X). destruct (nmem q (g_red g)); [discriminate|]. destruct (nmem q (g_park g)); [discriminate|]. destruct (q <? g_next g); discriminate.
    + intros q Q. exact (floor_settled cfg MD st h g q HH Q).
    + pose proof (floor_maximal cfg MD st h g HH) as X. cbv zeta in X. destruct X as [X|[(c & t & k & X)|(k & X)]]; rewrite X; split; discriminate.
Qed.
Print Assumptions C99_groups.

(** Non-vacuity. Five records of which memory keeps three, nothing flushed behind the
    first two; then retention removes the first file. *)
Definition dash_ops : list sop :=
  [SPub 5 (xpay 1); SSend 0; SPub 6 (xpay 2); SSend 0; SFlush; SPub 7 (xpay 3); SPub 8 (xpay 4); SPub 9 (xpay 5); SLoad; SEvict; SRetain all None (Some 0); SHead].
Example C99_example : runs_ok crc32 xcfg 60 (sys_new 3) dash_ops /\
  let s := xsrun (sys_new 3) dash_ops in
  t_ram (s_top s) = 3 /\ t_head (s_top s) = 2 /\ su_last (topic_summary s) = 5 /\
  pg_msgs (page_now crc32 all None (Some 3) s) = [mkMsg 5 9 (xpay 5); mkMsg 4 8 (xpay 4); mkMsg 3 7 (xpay 3)] /\
  pg_msgs (page_now crc32 all None (Some 2) s) = [mkMsg 5 9 (xpay 5); mkMsg 4 8 (xpay 4)] /\ vis_ok all (s_store s).
Proof.
  split; [apply easy_ok; vm_compute; reflexivity|]. cbv zeta.
  split; [vm_compute; reflexivity|]. split; [vm_compute; reflexivity|]. split; [vm_compute; reflexivity|]. split; [vm_compute; reflexivity|]. split; [vm_compute; reflexivity|]. apply vis_check; vm_compute; reflexivity.
Qed.
Example C99_groups_example : calm crc32 xcfg 60 ([] ++ log_of 1 group_ops) (xsrun (sys_new 1) group_ops) /\
  topic_summary (xsrun (sys_new 1) group_ops) = mkSum 3 [([97], (1, 1))].
Proof.
  split; [|vm_compute; reflexivity]. apply (xcalm group_ops [] (sys_new 1)); [apply calm_new|vm_compute; reflexivity|].
  unfold group_ops. repeat (apply Forall_cons; [vm_compute; auto|]). apply Forall_nil.
Qed.
Notation rebooted := (boot crc32 1000 (crash all (s_store (xsrun (sys_new 1) (rot_ops ++ [SFlush]))))).
(** After a restart memory holds only the last file: with a soft limit of 1000 and the
    standard page of 50, the record published last is not on the page, though the page
    gives its number. *)
Theorem C99_newest_refuted : exists A s, life crc32 xcfg 60 A s /\ vis_ok all (s_store s) /\ t_soft (s_top s) = 1000 /\ s_ret s = None /\
  In (mkMsg 3 7 (xpay 3)) (t_log (s_top s)) /\
  page_now crc32 all None None s = mkPage [mkMsg 2 6 (xpay 2); mkMsg 1 5 (xpay 1)] 1 50 3.
Proof.
  pose proof (xlife (rot_ops ++ [SFlush]) ltac:(vm_compute; reflexivity)) as L1.
  assert (V1 : vis_ok all (s_store (xsrun (sys_new 1) (rot_ops ++ [SFlush])))) by (apply vis_check; vm_compute; reflexivity).
  assert (W1 : whole crc32 all (xsrun (sys_new 1) (rot_ops ++ [SFlush]))).
  { unfold whole. apply Forall_forall. intros x H. vm_compute in H. repeat (destruct H as [<-|H]; [vm_compute; repeat split; discriminate|]). destruct H. }
  pose proof (life_restart crc32 xcfg 60 _ _ 1000 all L1 V1 W1) as L2.
  assert (E3 : easy rebooted [SPub 7 (xpay 3)] = true) by (vm_compute; reflexivity).
  pose proof (life_run crc32 crc32_bound xcfg 60 [SPub 7 (xpay 3)] _ _ L2 (easy_ok _ _ E3)) as L3.
  eexists. exists (xsrun rebooted [SPub 7 (xpay 3)]). split; [exact L3|]. split; [apply vis_check; vm_compute; reflexivity|]. split; [vm_compute; reflexivity|]. split; [vm_compute; reflexivity|]. split; [vm_compute; auto|]. vm_compute; reflexivity.
Qed.
Print Assumptions C99_newest_refuted.
(** Between the two looks three records are published and the first is written and
    evicted; the page of two then has only that one. *)
Theorem C99_between_refuted : exists A s1 ops, life crc32 xcfg 60 A s1 /\ runs_ok crc32 xcfg 60 s1 ops /\ vis_ok all (s_store (xsrun s1 ops)) /\
  lenN (pg_msgs (messages_page crc32 all None (Some 2) s1 (xsrun s1 ops))) < 2 /\ lenN (from (t_head (s_top (xsrun s1 ops))) (A ++ log_of (lenN A + 1) ops)) = 3.
Proof.
  exists [], (sys_new 2), [SPub 5 (xpay 1); SSend 0; SFlush; SPub 6 (xpay 2); SPub 7 (xpay 3); SLoad; SEvict].
  split; [apply life_new|]. split; [apply easy_ok; vm_compute; reflexivity|]. split; [apply vis_check; vm_compute; reflexivity|]. split; vm_compute; reflexivity.
Qed.
Print Assumptions C99_between_refuted.
