(** C72: a consumer group with room and something left to deliver makes progress. *)
From Verif Require Import LibBase LibMap Crc32 StreamTopicModel StreamGroupModel StreamStoreModel StreamStoreCodec StreamStoreProofs StreamStoreFacts StreamGroupSpec StreamGroupProofs StreamGroupFetch StreamGroupHist StreamGroupFacts StreamTopicProofs StreamSysModel StreamSysProofs StreamSysHist StreamSysFacts StreamSysBoot StreamSysLife StreamProgress PropStreamGroup PropStreamStorage.

(** * C72 *)
(** [status_of … h n]: what the history says of message [n]. [uncut_life]: no
    connection was cut off while a fetch of it was reading the disk, since the last
    restart. [serves … s]: some sequence of fetches of consumer [c], of disk reads
    already under way, and of the end of a retention run hands out a message.
    Retained: numbers from the first file on. Room: fewer than [max_pend] held. *)
Theorem C72_progress_partial : forall crc cfg smax A s gid g st h c q limit now vis, (forall b, crc b < 2 ^ 32) -> 1 <= max_del cfg ->
  uncut_life crc cfg smax A s -> gget gid s = Some g -> hist cfg st h g -> member_of h c = true ->
  (forall l, NoDup l -> (forall n, In n l -> exists c t k, status_of cfg st h n = Held c t k) -> lenN l < max_pend cfg) ->
  first_file s <= q -> q < t_next (s_top s) -> status_of cfg st h q = Fresh \/ (exists k, status_of cfg st h q = Waiting k) ->
  vis_ok vis (s_store s) -> 1 <= limit ->
  serves crc cfg smax gid c (gen_of h) limit now vis s.
Proof.
  intros crc cfg smax A s gid g st h c q limit now vis C MD U G H M ROOM LO HI ST V L.
  pose proof (hist_agrees cfg MD st h g H) as [I S GN MB].
  apply (progress crc C cfg smax MD A gid c (gen_of h) vis q s g limit now); auto; [|apply (uncut_reading crc C cfg smax MD gid A s U)].
  constructor; auto.
  - apply uncut_calm. exact U.
  - unfold ensure_active. rewrite GN, N.eqb_refl. cbn [negb]. rewrite <- MB, M. reflexivity.
  - assert (X : lenN (akeys (g_pend g)) < max_pend cfg); [|unfold lenN, akeys in *; rewrite map_length in X; exact X].
    apply ROOM; [apply (i_pnd _ _ (proj1 I))|]. intros n HN. rewrite S. unfold abs. apply in_map_iff in HN. destruct HN as ([k p] & <- & HP).
    cbn [fst]. destruct (pget k (g_pend g)) eqn:E; [eauto|]. pose proof (In_aget N.eqb N.eqb_eq k p (g_pend g) (i_pnd _ _ (proj1 I)) HP) as X. unfold pget, agetN in E. congruence.
  - unfold open_at. rewrite <- S. exact ST.
Qed.

Lemma xuncut : forall ops A s, uncut_life crc32 xcfg 60 A s -> easy s ops = true -> Forall short ops -> Forall uncut ops -> exists A', uncut_life crc32 xcfg 60 A' (xsrun s ops).
Proof.
  induction ops as [|o ops IH]; intros A s L E S U; [exists A; exact L|]. inversion S; subst. inversion U; subst.
  destruct (easy_ok (o :: ops) s E) as (R1 & R2 & R3). cbn [easy] in E. apply andb_prop in E. destruct E as (E1 & E2).
  apply (IH _ _ (uc_step _ _ _ _ _ _ L R1 R2 H1 H3) E2 H2 H4).
Qed.
(** What the history of a group without held messages says is read off its state. *)
Lemma idle_group ops gid g : gget gid (xsrun (sys_new 1) ops) = Some g -> g_pend g = [] ->
  exists st h, hist xcfg st h g /\ gen_of h = g_gen g /\ (forall c, member_of h c = isSome (agetN c (g_mem g))) /\
    (forall l, NoDup l -> (forall n, In n l -> exists c t k, status_of xcfg st h n = Held c t k) -> lenN l < max_pend xcfg) /\
    (forall n, status_of xcfg st h n = abs g n).
Proof.
  intros G P. destruct (run_hist crc32 xcfg 60 1 ops gid g G) as (st & h & _ & H). exists st, h. split; [exact H|].
  destruct (hist_agrees xcfg ltac:(vm_compute; discriminate) st h g H) as [I S GN MB]. split; [auto|]. split; [exact MB|]. split; [|exact S].
  intros l _ HL. destruct l as [|n l]; [reflexivity|]. exfalso. destruct (HL n (or_introl eq_refl)) as (c & t & k & E). rewrite S in E. unfold abs in E. rewrite P in E. cbn [pget aget] in E.
  destruct (nmem n (g_red g)); [discriminate|]. destruct (nmem n (g_park g)); [discriminate|]. destruct (_ <? _); discriminate.
Qed.
(** Message 1 is on disk only; the fetch starts a disk read. *)
Definition cold_ops : list sop := [SPub 5 (xpay 1); SSend 0; SPub 6 (xpay 2); SSend 0; SFlush; SLoad; SEvict; SJoin [97] 10 1; STry [97] 10 1 5 100 0].
Example C72_example : exists A s g st h, uncut_life crc32 xcfg 60 A s /\ gget [97] s = Some g /\ hist xcfg st h g /\ member_of h 10 = true /\
  (forall l, NoDup l -> (forall n, In n l -> exists c t k, status_of xcfg st h n = Held c t k) -> lenN l < max_pend xcfg) /\
  first_file s <= 1 /\ 1 < t_next (s_top s) /\ status_of xcfg st h 1 = Fresh /\ vis_ok all (s_store s) /\
  g_cold g = true /\ snd (xstep s (STry [97] 10 1 5 100 0)) = RMsgs [].
Proof.
  destruct (xuncut cold_ops [] (sys_new 1) (uc_new _ _ _ 1)) as (A & U); [vm_compute; reflexivity| | |].
  { unfold cold_ops. repeat (apply Forall_cons; [vm_compute; auto|]). apply Forall_nil. }
  { unfold cold_ops. repeat (apply Forall_cons; [vm_compute; auto|]). apply Forall_nil. }
  exists A, (xsrun (sys_new 1) cold_ops). destruct (gget [97] (xsrun (sys_new 1) cold_ops)) as [g|] eqn:G; [|vm_compute in G; discriminate].
  destruct (idle_group cold_ops [97] g G) as (st & h & H & _ & MB & ROOM & S); [vm_compute in G; inversion G; subst; reflexivity|].
  exists g, st, h. split; [exact U|]. split; [reflexivity|]. split; [exact H|]. rewrite MB, S. split; [vm_compute in G; inversion G; subst; reflexivity|]. split; [exact ROOM|].
  split; [vm_compute; discriminate|]. split; [vm_compute; reflexivity|]. split; [vm_compute in G; inversion G; subst; reflexivity|].
  split; [apply vis_check; vm_compute; reflexivity|]. split; [vm_compute in G; inversion G; subst; reflexivity|]. vm_compute. reflexivity.
Qed.
(** Not in general: when the connection is cut off during the disk read, the flag
    stays set for good, and no fetch of any member hands out the message. *)
Theorem C72_cut_off_refuted : exists A s g st h q, calm crc32 xcfg 60 A s /\ gget [97] s = Some g /\ hist xcfg st h g /\ member_of h 10 = true /\
  (forall l, NoDup l -> (forall n, In n l -> exists c t k, status_of xcfg st h n = Held c t k) -> lenN l < max_pend xcfg) /\
  first_file s <= q /\ q < t_next (s_top s) /\ status_of xcfg st h q = Fresh /\ flushed s /\
  forall c gen limit now vis, ~ serves crc32 xcfg 60 [97] c gen limit now vis s.
Proof.
  pose (ops := cold_ops ++ [SColdAbort 0]).
  assert (CA : calm crc32 xcfg 60 ([] ++ log_of 1 ops) (xsrun (sys_new 1) ops)).
  { apply (xcalm ops [] (sys_new 1)); [apply calm_new|vm_compute; reflexivity|]. unfold ops, cold_ops. simpl app. repeat (apply Forall_cons; [vm_compute; auto|]). apply Forall_nil. }
  exists ([] ++ log_of 1 ops), (xsrun (sys_new 1) ops). destruct (gget [97] (xsrun (sys_new 1) ops)) as [g|] eqn:G; [|vm_compute in G; discriminate].
  destruct (idle_group ops [97] g G) as (st & h & H & _ & MB & ROOM & S); [vm_compute in G; inversion G; subst; reflexivity|].
  exists g, st, h, 1. split; [exact CA|]. split; [reflexivity|]. split; [exact H|]. rewrite MB, S. split; [vm_compute in G; inversion G; subst; reflexivity|]. split; [exact ROOM|].
  split; [vm_compute; discriminate|]. split; [vm_compute; reflexivity|]. split; [vm_compute in G; inversion G; subst; reflexivity|].
  split; [apply flushed_check; vm_compute; reflexivity|].
  apply (stuck crc32 crc32_bound xcfg 60 ltac:(vm_compute; discriminate) [97] g (xsrun (sys_new 1) ops) G); vm_compute in G; inversion G; subst; try (vm_compute; reflexivity). vm_compute. discriminate.
Qed.
Print Assumptions C72_progress_partial.
Print Assumptions C72_cut_off_refuted.
