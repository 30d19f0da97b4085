(** What a user of a topic sees, for runs in which publishers hand over in order. *)
From Verif Require Import LibBase LibMap StreamTopicModel StreamGroupModel StreamStoreModel StreamStoreCodec StreamStoreProofs StreamStoreFacts StreamGroupSpec StreamGroupFetch StreamTopicProofs StreamSysModel StreamSysProofs StreamSysHist.

Section Sys.
  Variable crc : bytes -> N.
  Hypothesis crc32 : forall b, crc b < 2 ^ 32.
  Variable cfg : gcfg.
  Variable smax : N.
  Notation sstep := (sstep crc cfg smax).
  Notation run := (run crc cfg smax).

  (** The environment's guarantees hold at every operation, publishers in order. *)
  Fixpoint runs_ok (s : sys) (ops : list sop) : Prop :=
    match ops with [] => True | o :: r => op_ok s o /\ orderly o /\ runs_ok (fst (sstep s o)) r end.
  (** What was published, numbered from [n]. *)
  Fixpoint log_of (n : N) (ops : list sop) : list msg :=
    match ops with
    | [] => []
    | SPub ts pay :: r => mkMsg n ts pay :: log_of (n + 1) r
    | _ :: r => log_of n r
    end.
  (** The messages readable from the files; the start number of the first file. *)
  Definition on_disk (vis : N -> N) (s : sys) : list msg := flat_map (fun x => load_segment crc (snd x)) (seen vis (s_store s)).
  Definition first_file (s : sys) : N := head_of (d_segs (s_store s)).
  (** All bytes have reached the operating system. *)
  Definition flushed (s : sys) : Prop := Forall (fun x => f_sure (snd x) = lenN (f_bytes (snd x))) (d_segs (s_store s)).
  Definition from (n : N) (l : list msg) : list msg := filter (fun m => n <=? m_seq m) l.

  Lemma next_of f A s : sys_ok crc f A s -> t_next (s_top s) = f + lenN A.
  Proof. intros (W & dh & bl & H). apply (k_next _ _ _ (proj1 (i_topic _ _ _ _ _ _ _ H))). Qed.
  Theorem run_ok : forall ops f A s, sys_ok crc f A s -> runs_ok s ops -> sys_ok crc f (A ++ log_of (t_next (s_top s)) ops) (run s ops).
  Proof.
    induction ops as [|o ops IH]; intros f A s H R; simpl; [rewrite app_nil_r; auto|]. destruct R as (R1 & R2 & R3).
    pose proof (step_ok crc crc32 cfg smax f A s o H R1 R2) as H1. specialize (IH f _ _ H1 R3).
    rewrite (next_of _ _ _ H1), lenN_app in IH. rewrite (next_of _ _ _ H). rewrite <- app_assoc in IH.
    destruct o; cbn [adds app] in IH; rewrite ?lenN_nil, ?N.add_0_r in IH; try exact IH.
    rewrite lenN_cons, lenN_nil in IH. cbn [log_of]. rewrite (next_of _ _ _ H) in IH. replace (f + (lenN A + (1 + 0))) with (f + lenN A + 1) in IH by lia. exact IH.
  Qed.
  Theorem run_new soft ops : runs_ok (sys_new soft) ops -> sys_ok crc 1 (log_of 1 ops) (run (sys_new soft) ops).
  Proof. intro R. exact (run_ok ops 1 [] (sys_new soft) (new_sys_ok crc soft) R). Qed.

  Lemma on_disk_eq f A W dh bl s vis : inv_at crc f A W dh bl s -> on_disk vis s = vmsgs vis bl.
  Proof.
    intro H. pose proof (i_store _ _ _ _ _ _ _ H) as SO. unfold on_disk. rewrite (seen_blk crc vis bl _ dh SO). pose proof (so_chain _ _ _ _ SO) as CH.
    clear H SO. revert dh CH. induction bl as [|b bl IH]; intros dh CH; simpl; auto. destruct CH as (_ & _ & _ & D & _ & _ & G).
    rewrite (load_cut crc crc32) by auto. f_equal. eapply IH; eauto.
  Qed.
  Lemma first_eq f A W dh bl s : inv_at crc f A W dh bl s -> first_file s = dh.
  Proof.
    intro H. pose proof (i_store _ _ _ _ _ _ _ H) as SO. unfold first_file. rewrite (so_segs _ _ _ _ SO).
    destruct bl as [|b bl]; simpl; [symmetry; apply (so_first _ _ _ _ SO); auto|]. destruct (so_chain _ _ _ _ SO); auto.
  Qed.
  Lemma from_drop l n s : log_ok l n -> n <= s -> from s l = dropN (s - n) l.
  Proof. apply filter_ge_drop. Qed.
  Lemma in_takeN l n k m : log_ok l n -> In m l -> m_seq m < n + k -> In m (takeN k l).
  Proof.
    intros LO HI L. apply In_nth_error in HI. destruct HI as (i & E). pose proof (LO _ _ E). unfold takeN.
    assert (X : nth_error (firstn (N.to_nat k) l) i = Some m).
    { rewrite <- (firstn_skipn (N.to_nat k) l) in E. rewrite nth_error_app1 in E; auto.
      assert (i < length l)%nat by (apply nth_error_Some; rewrite (firstn_skipn (N.to_nat k) l) in E; congruence). rewrite firstn_length. lia. }
    eapply nth_error_In; eauto.
  Qed.
  Lemma from_app f A W dh bl s : inv_at crc f A W dh bl s -> from dh A = msgs_of bl ++ s_box s.
  Proof.
    intros [A1 A2 A3 A4 A5 A6 A7 A8 A9 A10 A11 A12 A13]. rewrite (from_drop A f dh) by (auto; apply (k_all _ _ _ (proj1 A1))).
    rewrite A2, dropN_app_le, A4; auto. rewrite A4, lenN_dropN in A6. lia.
  Qed.

  (** ** What the files hold *)
  Theorem disk_piece f A s vis : sys_ok crc f A s -> vis_ok vis (s_store s) ->
    exists n, on_disk vis s = takeN n (from (first_file s) A) /\
      (forall m, In m A -> first_file s <= m_seq m -> m_seq m < t_ram (s_top s) \/ m_seq m <= d_pers (s_store s) \/ m_seq m <= s_evp s -> In m (on_disk vis s)).
  Proof.
    intros (W & dh & bl & H) V. rewrite (on_disk_eq _ _ _ _ _ _ vis H), (first_eq _ _ _ _ _ _ H).
    pose proof (i_store _ _ _ _ _ _ _ H) as SO. pose proof (vis_visible crc vis dh bl _ SO V) as VI.
    destruct (vmsgs_prefix crc vis bl dh (so_chain _ _ _ _ SO) VI) as (post & EP). pose proof (vmsgs_sure vis bl VI) as VS.
    pose proof (from_app _ _ _ _ _ _ H) as FA. exists (lenN (vmsgs vis bl)).
    assert (E : vmsgs vis bl = takeN (lenN (vmsgs vis bl)) (from dh A)).
    { rewrite FA, EP, <- app_assoc, takeN_app_exact. reflexivity. }
    split; auto. intros m HI HF HB. rewrite E. apply (in_takeN _ dh).
    - rewrite (from_drop A f dh); [|apply (k_all _ _ _ (proj1 (i_topic _ _ _ _ _ _ _ H)))|apply (i_dh _ _ _ _ _ _ _ H)].
      pose proof (log_ok_dropN A f (dh - f) (k_all _ _ _ (proj1 (i_topic _ _ _ _ _ _ _ H)))) as X.
      replace (f + (dh - f)) with dh in X by (pose proof (i_dh _ _ _ _ _ _ _ H); lia). exact X.
    - unfold from. apply filter_In. split; auto. apply N.leb_le; auto.
    - pose proof (i_ram _ _ _ _ _ _ _ H). pose proof (so_pers _ _ _ _ SO). pose proof (i_evp _ _ _ _ _ _ _ H). lia.
  Qed.
  Theorem settled_disk f A s vis : sys_ok crc f A s -> vis_ok vis (s_store s) -> s_box s = [] -> flushed s ->
    on_disk vis s = from (first_file s) A.
  Proof.
    intros (W & dh & bl & H) V B F. rewrite (on_disk_eq _ _ _ _ _ _ vis H), (first_eq _ _ _ _ _ _ H), (from_app _ _ _ _ _ _ H), B, app_nil_r.
    pose proof (i_store _ _ _ _ _ _ _ H) as SO. apply (vmsgs_full crc); [apply (vis_visible crc vis dh bl _ SO V)|].
    unfold flushed in F. rewrite (so_segs _ _ _ _ SO) in F. rewrite Forall_map in F. exact F.
  Qed.
  Lemma flushed_flush s : flushed (fst (sstep s SFlush)).
  Proof.
    unfold flushed. cbn [StreamSysModel.sstep fst set_store s_store].
    assert (E : d_segs (flush_all (s_store s)) = map (fun nf => (fst nf, sync (snd nf))) (d_segs (s_store s))).
    { unfold flush_all. destruct (d_dirty (s_store s)), (d_ctx (s_store s)) as [c|]; try reflexivity. destruct (0 <? c_high c); reflexivity. }
    rewrite E, Forall_map. apply Forall_forall. intros x _. reflexivity.
  Qed.

  (** ** Reads (C50, C66) *)
  Theorem cold_read_exact f A s vis n limit : sys_ok crc f A s -> vis_ok vis (s_store s) ->
    cold_read crc (seen vis (s_store s)) n limit = takeN limit (from n (on_disk vis s)).
  Proof.
    intros (W & dh & bl & H) V. rewrite (on_disk_eq _ _ _ _ _ _ vis H). apply (cold_exact crc crc32 vis dh); auto. apply (i_store _ _ _ _ _ _ _ H).
  Qed.
  Theorem read_memory A s vis n limit : sys_ok crc 1 A s -> t_ram (s_top s) <= N.max n (t_head (s_top s)) ->
    op_read crc vis n limit s = takeN limit (from (N.max n (t_head (s_top s))) A).
  Proof.
    intros (W & dh & bl & H) L. destruct (i_pos _ _ _ _ _ _ _ H) as (P & _). unfold op_read.
    pose proof (read_exact 1 A (s_top s) (N.max n (t_head (s_top s))) limit (i_topic _ _ _ _ _ _ _ H)) as R.
    replace (N.max (N.max (N.max n (t_head (s_top s))) (t_head (s_top s))) 1) with (N.max n (t_head (s_top s))) in R by lia.
    rewrite R by lia. unfold from. destruct (takeN limit _); auto. destruct (N.ltb_spec (N.max n (t_head (s_top s))) (t_ram (s_top s))); [lia|reflexivity].
  Qed.
  Theorem read_disk f A s vis n limit : sys_ok crc f A s -> vis_ok vis (s_store s) -> N.max n (t_head (s_top s)) < t_ram (s_top s) ->
    op_read crc vis n limit s = takeN limit (from (N.max n (t_head (s_top s))) (on_disk vis s)).
  Proof.
    intros HS V L. pose proof HS as (W & dh & bl & H). destruct (i_pos _ _ _ _ _ _ _ H) as (P & _). unfold op_read.
    rewrite read_below by lia. pose proof (i_ram2 _ _ _ _ _ _ _ H).
    destruct (N.ltb_spec (N.max n (t_head (s_top s))) (t_ram (s_top s))); [|lia]. destruct (N.ltb_spec (N.max n (t_head (s_top s))) (t_next (s_top s))); [|lia].
    simpl. eapply cold_read_exact; eauto.
  Qed.
  Lemma from_from a b l : from a (from b l) = from (N.max a b) l.
  Proof.
    unfold from. induction l as [|m l IH]; simpl; auto. destruct (N.leb_spec b (m_seq m)); simpl.
    - destruct (N.leb_spec a (m_seq m)); destruct (N.leb_spec (N.max a b) (m_seq m)); try lia; rewrite IH; reflexivity.
    - destruct (N.leb_spec (N.max a b) (m_seq m)); [lia|auto].
  Qed.
  Theorem read_settled A s vis n limit : sys_ok crc 1 A s -> vis_ok vis (s_store s) -> s_box s = [] -> flushed s -> s_ret s = None ->
    op_read crc vis n limit s = takeN limit (from (N.max n (t_head (s_top s))) A).
  Proof.
    intros HS V B F R. destruct (N.le_gt_cases (t_ram (s_top s)) (N.max n (t_head (s_top s)))) as [L|L]; [apply read_memory; auto|].
    rewrite (read_disk 1 A) by auto. rewrite (settled_disk 1 A) by auto. rewrite from_from. f_equal. f_equal.
    pose proof HS as (W & dh & bl & H). rewrite (first_eq _ _ _ _ _ _ H). destruct (i_pos _ _ _ _ _ _ _ H) as (_ & P). specialize (P R). lia.
  Qed.
  (** In every state a read gives the published messages in a row. *)
  Lemma log_row A f k m l : log_ok A f -> dropN k A = m :: l -> m_seq m = f + k.
  Proof. intros LO E. pose proof (log_ok_dropN A f k LO) as X. rewrite E in X. apply log_ok_cons in X. tauto. Qed.
  Theorem read_row A s vis n limit : sys_ok crc 1 A s -> vis_ok vis (s_store s) ->
    exists k j, op_read crc vis n limit s = takeN j (dropN k A) /\ j <= limit /\
      (op_read crc vis n limit s <> [] -> 1 + k = N.max n (t_head (s_top s)) \/ (1 + k = first_file s /\ n < first_file s)).
  Proof.
    intros HS V. pose proof HS as (W & dh & bl & H). pose proof (k_all _ _ _ (proj1 (i_topic _ _ _ _ _ _ _ H))) as LO. destruct (i_pos _ _ _ _ _ _ _ H) as (P & _).
    destruct (N.le_gt_cases (t_ram (s_top s)) (N.max n (t_head (s_top s)))) as [L|L].
    - rewrite (read_memory A) by auto. rewrite (from_drop A 1) by (auto; lia). exists (N.max n (t_head (s_top s)) - 1), limit. split; auto. split; [lia|]. intros _. left. lia.
    - rewrite (read_disk 1 A) by auto. destruct (disk_piece 1 A s vis HS V) as (c & E & _). rewrite E.
      pose proof (i_dh _ _ _ _ _ _ _ H) as DH. rewrite (first_eq _ _ _ _ _ _ H) in *. rewrite (from_drop A 1 dh) by auto.
      set (hd := N.max n (t_head (s_top s))) in *.
      assert (LT : log_ok (takeN c (dropN (dh - 1) A)) dh).
      { pose proof (log_ok_dropN A 1 (dh - 1) LO) as X. replace (1 + (dh - 1)) with dh in X by lia. intros i m E1. apply X. unfold takeN in E1.
        rewrite <- (firstn_skipn (N.to_nat c) (dropN (dh - 1) A)). rewrite nth_error_app1; auto. apply nth_error_Some. congruence. }
      destruct (N.le_ge_cases dh hd) as [C|C].
      + rewrite (from_drop _ dh) by auto.
        assert (X : dropN (hd - dh) (takeN c (dropN (dh - 1) A)) = takeN (c - (hd - dh)) (dropN (hd - 1) A)).
        { replace (hd - 1) with ((hd - dh) + (dh - 1)) by lia. rewrite <- dropN_dropN. unfold dropN, takeN. rewrite skipn_firstn_comm. f_equal. lia. }
        rewrite X, takeN_takeN. exists (hd - 1), (N.min limit (c - (hd - dh))). split; auto. split; [lia|]. intros _. left. lia.
      + unfold from. rewrite (filter_all _ dh) by (auto; lia). rewrite takeN_takeN. exists (dh - 1), (N.min limit c). split; auto. split; [lia|].
        intros _. destruct (N.eq_dec hd dh); [left; lia|]. right. lia.
  Qed.

  (** ** Eviction (C51) *)
  Theorem evicted_on_disk f A s vis : sys_ok crc f A s -> vis_ok vis (s_store s) ->
    let s' := fst (sstep s SEvict) in
    exists pre, t_log (s_top s) = pre ++ t_log (s_top s') /\
      Forall (fun m => In m (on_disk vis s') \/ m_seq m < first_file s') pre /\
      (pre = [] \/ t_soft (s_top s) <= lenN (t_log (s_top s'))).
  Proof.
    intros HS V. pose proof HS as (W & dh & bl & H). cbv zeta. cbn [StreamSysModel.sstep fst op_evict set_top s_top]. unfold op_evict. cbn [set_top s_top].
    destruct (evict_exact f A (s_top s) (s_evp s) (i_topic _ _ _ _ _ _ _ H)) as (pre & E & F & G & _). exists pre. split; auto. split; auto.
    destruct (disk_piece f A s vis HS V) as (n & _ & D). rewrite Forall_forall in *. intros m HM. specialize (F m HM). simpl in F.
    destruct (N.lt_ge_cases (m_seq m) (first_file s)) as [L|L]; [right; exact L|]. left. apply D; auto.
    destruct (k_log _ _ _ (proj1 (i_topic _ _ _ _ _ _ _ H))) as (k & EK & _). rewrite <- (takeN_dropN _ k A). apply in_or_app. right. rewrite <- EK, E. apply in_or_app. auto.
  Qed.
  (** Nothing is missing from both memory and disk. *)
  Theorem nowhere_lost f A s vis m : sys_ok crc f A s -> vis_ok vis (s_store s) -> In m A -> first_file s <= m_seq m ->
    In m (t_log (s_top s)) \/ In m (on_disk vis s).
  Proof.
    intros HS V HM HF. destruct (disk_piece f A s vis HS V) as (n & _ & D). destruct (N.lt_ge_cases (m_seq m) (t_ram (s_top s))) as [L|L]; [right; apply D; auto|left].
    pose proof HS as (W & dh & bl & H). destruct (i_topic _ _ _ _ _ _ _ H) as (K & _). destruct (k_log _ _ _ K) as (k & EK & F).
    pose proof (k_all _ _ _ K) as LO. destruct (t_log (s_top s)) as [|x l] eqn:EL.
    - pose proof (k_ram _ _ _ K EL). apply (log_lt _ _ _ LO) in HM. rewrite (k_next _ _ _ K) in *. lia.
    - destruct F as (F & _); [discriminate|]. rewrite EK. apply In_nth_error in HM. destruct HM as (i & E). pose proof (LO _ _ E).
      unfold dropN. rewrite <- (firstn_skipn (N.to_nat k) A) in E. rewrite nth_error_app2 in E; [|rewrite firstn_length; lia]. eapply nth_error_In; eauto.
  Qed.

  (** ** Segment files (C64) *)
  Theorem segments f A s : sys_ok crc f A s -> exists parts,
    map (fun x => (fst x, f_bytes (snd x))) (d_segs (s_store s)) = map (fun p => (match p with m :: _ => m_seq m | [] => 0 end, enc_msgs crc p)) parts /\
    Forall (fun p => p <> []) parts /\ concat parts ++ s_box s = from (first_file s) A.
  Proof.
    intros (W & dh & bl & H). rewrite (first_eq _ _ _ _ _ _ H), (from_app _ _ _ _ _ _ H). pose proof (i_store _ _ _ _ _ _ _ H) as SO.
    rewrite (so_segs _ _ _ _ SO). pose proof (so_chain _ _ _ _ SO) as CH. exists (map b_ms bl). clear - CH.
    assert (G : forall dh, chain crc dh bl -> map (fun x => (fst x, f_bytes (snd x))) (map (file_of crc) bl) = map (fun p => (match p with m :: _ => m_seq m | [] => 0 end, enc_msgs crc p)) (map b_ms bl) /\ Forall (fun p => p <> []) (map b_ms bl)).
    { clear. induction bl as [|b bl IH]; intros dh CH; simpl; [split; constructor|]. destruct CH as (A & B & C & _ & _ & _ & G). destruct (IH _ G) as (P & Q).
      split; [|constructor; auto]. f_equal; auto. f_equal. destruct (b_ms b) as [|m r]; [congruence|]. apply log_ok_cons in C. destruct C. lia. }
    destruct (G dh CH) as (P & Q). split; auto. split; auto. unfold msgs_of. rewrite flat_map_concat_map. reflexivity.
  Qed.

  (** ** Retention (C65) *)
  Theorem retention f A s vis age maxb : sys_ok crc f A s -> op_ok s (SRetain vis age maxb) ->
    let s' := fst (sstep s (SRetain vis age maxb)) in
    exists k, d_segs (s_store s') = skipn k (d_segs (s_store s)) /\ (d_segs (s_store s) <> [] -> d_segs (s_store s') <> []) /\
      retain age maxb (seen vis (s_store s)) = skipn k (seen vis (s_store s)) /\
      s_ret s' = Some (first_file s') /\ from (first_file s') A = concat (map (fun x => load_segment crc (f_bytes (snd x))) (d_segs (s_store s'))) ++ s_box s.
  Proof.
    intros HS OK. pose proof (step_ok crc crc32 cfg smax f A s (SRetain vis age maxb) HS OK Logic.I) as HS'. cbn [adds] in HS'. rewrite app_nil_r in HS'.
    pose proof HS as (W & dh & bl & H). pose proof (i_store _ _ _ _ _ _ _ H) as SO. destruct OK as (V & MO). rewrite (so_segs _ _ _ _ SO), akeys_blk in MO.
    destruct (retention_store crc crc32 vis age maxb dh bl (s_store s) SO V MO) as (k & dh' & R). cbv zeta in R. destruct R as (R1 & R2 & R3 & R4 & R5 & R6 & R7 & R8).
    cbv zeta. cbn [StreamSysModel.sstep fst] in *. unfold op_retain in *. destruct (apply_retention vis age maxb (s_store s)) as [st h] eqn:ER. simpl in R1, R2.
    exists k. cbn [set_ret set_store s_store s_ret] in *. rewrite (so_segs _ _ _ _ R1), (so_segs _ _ _ _ SO), skipn_map.
    split; auto. split; [intros NE X; apply map_eq_nil in X; apply R5 in X; auto; intro Y; apply NE; rewrite Y; reflexivity|]. split; auto.
    assert (FF : first_file (set_ret (Some h) (set_store st s)) = dh').
    { unfold first_file. simpl. rewrite (so_segs _ _ _ _ R1). destruct (skipn k bl) eqn:EK; simpl; [symmetry; apply (so_first _ _ _ _ R1); auto|]. pose proof (so_chain _ _ _ _ R1) as [X _]. auto. }
    rewrite FF. split; [congruence|]. destruct HS' as (W' & dh2 & bl2 & H'). pose proof (first_eq _ _ _ _ _ _ H') as FE. rewrite FF in FE. subst dh2.
    rewrite (from_app _ _ _ _ _ _ H'). simpl. f_equal. pose proof (i_store _ _ _ _ _ _ _ H') as SO'. simpl in SO'.
    rewrite <- (so_segs _ _ _ _ R1), (so_segs _ _ _ _ SO'). pose proof (so_chain _ _ _ _ SO') as CH. clear - CH crc32.
    revert dh' CH. induction bl2 as [|b bl2 IH]; intros dh' CH; simpl; auto. destruct CH as (_ & _ & _ & D & _ & _ & G). rewrite (load_all crc crc32) by auto. f_equal. eapply IH; eauto.
  Qed.
End Sys.
