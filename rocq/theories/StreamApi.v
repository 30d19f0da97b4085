(** Facts about whole runs of a topic seen through its requests. *)
From Verif Require Import LibBase LibMap StreamTopicModel StreamGroupModel StreamStoreModel StreamStoreCodec StreamStoreProofs StreamStoreFacts StreamGroupSpec StreamGroupProofs StreamGroupFetch StreamGroupHist StreamGroupFacts StreamTopicProofs StreamSysModel StreamSysProofs StreamSysHist StreamSysFacts StreamSysBoot StreamSysLife StreamSaved StreamProgress.

Section Sys.
  Variable crc : bytes -> N.
  Hypothesis crc32 : forall b, crc b < 2 ^ 32.
  Variable cfg : gcfg.
  Variable smax : N.
  Notation sstep := (sstep crc cfg smax).
  Notation run := (run crc cfg smax).
  Notation life := (life crc cfg smax).

  (** ** Publishing (C49) *)
  Theorem publish_answers A s ts pay : life A s -> op_ok s (SPub ts pay) ->
    snd (sstep s (SPub ts pay)) = RSeq (lenN A + 1) /\ life (A ++ [mkMsg (lenN A + 1) ts pay]) (fst (sstep s (SPub ts pay))).
  Proof.
    intros L OK. pose proof (next_of crc _ _ _ (life_ok crc crc32 cfg smax A s L)) as N0. pose proof (life_step crc cfg smax A s (SPub ts pay) L OK Logic.I) as L1.
    cbn [adds] in L1. rewrite N0 in L1. split.
    - simpl. unfold op_publish, append. simpl. f_equal. lia.
    - replace (lenN A + 1) with (1 + lenN A) by lia. exact L1.
  Qed.

  (** ** Memory is given back once everything is written (C51) *)
  Definition waiting (s : sys) (n : N) : Prop :=
    n <= d_pers (s_store s) \/ (d_dirty (s_store s) = true /\ exists c, d_ctx (s_store s) = Some c /\ n <= c_high c).
  Definition caught (s : sys) : Prop := forall n, n + lenN (s_box s) < t_next (s_top s) -> waiting s n.
  Lemma store_step s o : consumer_op o = true \/ o = SLoad \/ o = SEvict \/ o = SHead ->
    s_store (fst (sstep s o)) = s_store s /\ s_box (fst (sstep s o)) = s_box s /\ t_next (s_top (fst (sstep s o))) = t_next (s_top s).
  Proof.
    assert (MK : forall b x, s_store (mark b x) = s_store x /\ s_box (mark b x) = s_box x /\ s_top (mark b x) = s_top x) by (intros [|] x; auto).
    intros [E|[->|[->| ->]]].
    - pose proof (consumer_core crc cfg smax s o E) as X. unfold core in X. inversion X as [[X1 X2 X3 X4 X5]]. rewrite X1. auto.
    - simpl. auto.
    - simpl. destruct (evict_fields (s_evp s) (s_top s)) as (-> & _). auto.
    - simpl. unfold op_head. destruct (s_ret s) as [h|]; auto. destruct (h =? _); auto. cbn [fst]. match goal with |- context [mark ?b ?x] => destruct (MK b x) as (-> & -> & ->) end. auto.
  Qed.
  Lemma caught_step A s o : sys_ok crc 1 A s -> orderly o -> caught s -> caught (fst (sstep s o)).
  Proof.
    intros HS OR C. destruct (consumer_op o) eqn:EC.
    - destruct (store_step s o (or_introl EC)) as (E1 & E2 & E3). intros n L. rewrite E2, E3 in L. unfold waiting. rewrite E1. apply C; auto.
    - destruct o; try discriminate EC.
      + intros n L. simpl in L. rewrite lenN_app, lenN_cons, lenN_nil in L. apply C. lia.
      + simpl in OR. subst i. cbn [StreamSysModel.sstep fst]. unfold op_send. destruct HS as (W & dh & bl & H). pose proof (i_topic _ _ _ _ _ _ _ H) as (K & _). pose proof (k_all _ _ _ K) as LO.
        pose proof (i_all _ _ _ _ _ _ _ H) as EA. destruct (s_box s) as [|m box] eqn:EB; [exact C|]. simpl.
        intros n L. cbn [set_box set_store s_box s_top s_store] in *. right. cbn [set_box set_store s_box s_top s_store].
        unfold handle_append. cbn [last_msg]. unfold write_batch. cbn [d_dirty d_ctx]. split; [reflexivity|]. eexists; split; [reflexivity|]. cbn [c_high].
        rewrite EA in LO. apply log_ok_app in LO. destruct LO as (_ & LO). apply log_ok_cons in LO. destruct LO as (LO & _).
        pose proof (k_next _ _ _ K) as KN. rewrite EA, lenN_app, lenN_cons in KN.
        simpl. lia.
      + destruct (store_step s SLoad) as (E1 & E2 & E3); [tauto|]. intros n L. rewrite E2, E3 in L. unfold waiting. rewrite E1. apply C; auto.
      + destruct (store_step s SEvict) as (E1 & E2 & E3); [tauto|]. intros n L. rewrite E2, E3 in L. unfold waiting. rewrite E1. apply C; auto.
      + simpl. unfold op_save. destruct (s_save s); exact C.
      + simpl. unfold op_retain. destruct (apply_retention vis age maxb (s_store s)) as [st h] eqn:ER. unfold apply_retention in ER. inversion ER; subst. exact C.
      + destruct (store_step s SHead) as (E1 & E2 & E3); [tauto|]. intros n L. rewrite E2, E3 in L. unfold waiting. rewrite E1. apply C; auto.
      + intros n L. simpl in L. specialize (C n L). unfold waiting in *. simpl. left. unfold flush_all. destruct C as [C|(D & c & E & LE)].
        * destruct (d_dirty (s_store s)), (d_ctx (s_store s)) as [c|] eqn:EX; simpl; auto. destruct (N.ltb_spec 0 (c_high c)) as [CP|CP]; simpl; auto.
          destruct HS as (W & dh & bl & H). pose proof (so_ctx _ _ _ _ (i_store _ _ _ _ _ _ _ H) c EX) as (i & nn & ms & ss & EBL & _ & _ & [Z|Z]); [lia|].
          pose proof (so_pers _ _ _ _ (i_store _ _ _ _ _ _ _ H)). pose proof (sure_le bl). lia.
        * rewrite D, E. destruct (N.ltb_spec 0 (c_high c)); simpl; lia.
      + exact C.
  Qed.
  Lemma caught_boot soft d : caught (boot crc soft d).
  Proof.
    intros n L. left. unfold boot in *. destruct (recover_topic crc d) as [[head ms] gs]. cbn [s_top s_store s_box store_open d_pers] in *. rewrite lenN_nil in L. lia.
  Qed.
  Theorem life_caught A s : life A s -> caught s.
  Proof.
    induction 1 as [soft|A s o L IH OK OR|A s soft vis L IH V W].
    - intros n L. left. simpl in *. unfold lenN in L; simpl in L. lia.
    - apply (caught_step A); auto. apply (life_ok crc crc32 cfg smax A s L).
    - apply caught_boot.
  Qed.
  Theorem memory_bounded A s : life A s -> s_box s = [] ->
    lenN (t_log (s_top (run s [SFlush; SLoad; SEvict]))) <= t_soft (s_top s).
  Proof.
    intros L B. set (s1 := fst (sstep s SFlush)). pose proof (life_step crc cfg smax A s SFlush L Logic.I Logic.I) as L1. fold s1 in L1. cbn [adds] in L1. rewrite app_nil_r in L1.
    assert (P : forall n, n < t_next (s_top s) -> n <= d_pers (s_store s1)).
    { intros n LN. destruct (life_caught A s1 L1 n) as [X|(X & _)]; auto.
      - unfold s1. simpl. rewrite B. unfold lenN. simpl. lia.
      - exfalso. revert X. unfold s1. simpl. unfold flush_all. destruct (d_dirty (s_store s)), (d_ctx (s_store s)) as [c|]; try discriminate. destruct (0 <? c_high c); discriminate. }
    assert (E : s_top (run s [SFlush; SLoad; SEvict]) = evict (d_pers (s_store s1)) (s_top s)) by reflexivity. rewrite E.
    destruct (life_ok crc crc32 cfg smax A s L) as (W & dh & bl & H). pose proof (i_topic _ _ _ _ _ _ _ H) as I.
    destruct (evict_exact 1 A (s_top s) (d_pers (s_store s1)) I) as (pre & _ & _ & _ & [X|X]); auto.
    pose proof (init_evict 1 A (s_top s) (d_pers (s_store s1)) I) as (K & _). destruct (evict_fields (d_pers (s_store s1)) (s_top s)) as (N1 & _).
    destruct (t_log (evict (d_pers (s_store s1)) (s_top s))) as [|m l] eqn:EL; [contradiction|].
    assert (LT : m_seq m < t_next (s_top s)).
    { rewrite <- N1. destruct (k_log _ _ _ K) as (k & E1 & _). rewrite EL in E1. rewrite (k_next _ _ _ K).
      assert (IN : In m A) by (assert (X1 : In m (dropN k A)) by (rewrite <- E1; left; auto); unfold dropN in X1; rewrite <- (firstn_skipn (N.to_nat k) A); apply in_or_app; auto).
      apply (log_lt A 1 m (k_all _ _ _ K) IN). }
    specialize (P _ LT). lia.
  Qed.

  (** ** The size of segment files *)
  Definition small (f : file) : Prop := lenN (f_bytes f) <= smax \/ exists m, msg_ok m /\ f_bytes f = enc_msgs crc [m].
  Definition smalls (s : sys) : Prop := forall n f, In (n, f) (d_segs (s_store s)) -> small f.
  Lemma smalls_step A s o : sys_ok crc 1 A s -> orderly o -> smalls s -> smalls (fst (sstep s o)).
  Proof.
    intros HS OR C. destruct (consumer_op o) eqn:EC.
    - destruct (store_step s o (or_introl EC)) as (E1 & _). unfold smalls. rewrite E1. exact C.
    - destruct o; try discriminate EC.
      + exact C.
      + simpl in OR. subst i. cbn [StreamSysModel.sstep fst]. unfold op_send. destruct HS as (W & dh & bl & H). pose proof (i_store _ _ _ _ _ _ _ H) as SO.
        destruct (s_box s) as [|m box] eqn:EB; [exact C|]. cbn [nth_error firstn skipn app fst]. unfold smalls. cbn [set_box set_store s_store].
        assert (MO : msg_ok m) by (pose proof (i_box _ _ _ _ _ _ _ H) as FB; rewrite EB in FB; inversion FB; auto).
        assert (SQ : m_seq m = dh + lenN (msgs_of bl)).
        { pose proof (k_all _ _ _ (proj1 (i_topic _ _ _ _ _ _ _ H))) as LO. rewrite (i_all _ _ _ _ _ _ _ H), EB in LO. apply log_ok_app in LO. destruct LO as (_ & LO). apply log_ok_cons in LO. destruct LO as (LO & _).
          pose proof (i_tot _ _ _ _ _ _ _ H). lia. }
        unfold handle_append, write_batch. cbn [last_msg d_segs].
        assert (BP : forall k v (l : list (N * file)) n f, In (n, f) (bput k v l) -> In (n, f) l \/ (n = k /\ f = v)).
        { clear. induction l as [|[a b] l IH]; simpl; intros n f HI; [destruct HI as [E|[]]; inversion E; auto|].
          destruct (k =? a); [destruct HI as [E|HI]; [inversion E; auto|auto]|]. destruct (k <? a); [destruct HI as [E|HI]; [inversion E; auto|auto]|].
          destruct HI as [E|HI]; [auto|]. apply IH in HI. tauto. }
        set (rot := (smax <? c_size (open_ctx (s_store s)) + lenN (enc_msgs crc [m])) && (0 <? c_size (open_ctx (s_store s)))).
        set (segs := if rot then sync_file (c_active (open_ctx (s_store s))) (d_segs (s_store s)) else d_segs (s_store s)).
        assert (CS : forall n f, In (n, f) segs -> small f).
        { unfold segs. destruct rot; [|exact C]. unfold sync_file. destruct (aget N.eqb _ _) as [f0|] eqn:EA; [|exact C]. intros n f HI. apply BP in HI. destruct HI as [HI|(-> & ->)]; [eapply C; eauto|].
          apply (aget_In N.eqb N.eqb_eq) in EA. apply C in EA. exact EA. }
        intros n f HI. unfold append_file in HI. destruct (aget N.eqb (if rot then m_seq m else c_active (open_ctx (s_store s))) segs) as [f0|] eqn:EA; apply BP in HI; destruct HI as [HI|(-> & ->)]; try (eapply CS; eauto; fail); unfold small; cbn [f_bytes].
        * (* appended to an existing file *)
          assert (R : rot = false).
          { destruct rot eqn:ER; auto. exfalso. apply (aget_In N.eqb N.eqb_eq) in EA. unfold segs in EA.
            assert (NM : forall k w, In (k, w) (d_segs (s_store s)) -> k < m_seq m).
            { rewrite (so_segs _ _ _ _ SO). apply (names_lt_all crc bl dh (m_seq m)); [apply (so_chain _ _ _ _ SO)|lia]. }
            unfold sync_file in EA. destruct (aget N.eqb (c_active _) _) as [f1|] eqn:EA1.
            - apply BP in EA. destruct EA as [EA|(E1 & _)]; [apply NM in EA; lia|]. apply (aget_In N.eqb N.eqb_eq) in EA1. apply NM in EA1. lia.
            - apply NM in EA. lia. }
          unfold segs in EA. rewrite R in EA. unfold rot in R.
          assert (SZ : lenN (f_bytes f0) = c_size (open_ctx (s_store s))).
          { revert EA. rewrite (so_segs _ _ _ _ SO). unfold open_ctx. destruct (d_ctx (s_store s)) as [c|] eqn:EX.
            - destruct (so_ctx _ _ _ _ SO c EX) as (i & nn & ms & ss & EBL & CA & CZ & _). rewrite CA, CZ. pose proof (so_chain _ _ _ _ SO) as CH. rewrite EBL in CH |- *. rewrite map_app. simpl map.
              unfold file_of at 2. cbn [b_name b_ms b_sure]. rewrite aget_last by exact (names_lt crc _ _ _ CH). intro X. inversion X. reflexivity.
            - rewrite (so_segs _ _ _ _ SO). destruct bl as [|b0 bl0] eqn:EBL; [discriminate|]. rewrite <- EBL in *. assert (NB : bl <> []) by (rewrite EBL; discriminate).
              destruct (exists_last NB) as (i & lb & EBL2). pose proof (so_chain _ _ _ _ SO) as CH. rewrite EBL2 in CH |- *. rewrite map_app. simpl map. rewrite last_seg_snoc. unfold file_of at 2 3 4.
              cbn [c_active c_size f_bytes]. rewrite aget_last by exact (names_lt crc _ _ _ CH). intro X. inversion X. reflexivity. }
          rewrite <- SZ in R. rewrite lenN_app. apply andb_false_iff in R. destruct R as [R|R]; [left; apply N.ltb_ge in R; exact R|].
          apply N.ltb_ge in R. right. exists m. split; [exact MO|]. destruct (f_bytes f0); [reflexivity|rewrite lenN_cons in R; lia].
        * right. exists m. split; [exact MO|reflexivity].
      + exact C.
      + destruct (store_step s SEvict) as (E1 & _); [tauto|]. unfold smalls. rewrite E1. exact C.
      + simpl. unfold op_save. destruct (s_save s); exact C.
      + simpl. unfold op_retain. destruct (apply_retention vis age maxb (s_store s)) as [st h] eqn:ER. unfold apply_retention in ER. inversion ER; subst. simpl.
        intros n f HI. apply filter_In in HI. eapply C. apply HI.
      + destruct (store_step s SHead) as (E1 & _); [tauto|]. unfold smalls. rewrite E1. exact C.
      + unfold smalls. simpl. intros n f HI. assert (EQ : d_segs (flush_all (s_store s)) = map (fun nf => (fst nf, sync (snd nf))) (d_segs (s_store s))).
        { unfold flush_all. destruct (d_dirty (s_store s)), (d_ctx (s_store s)) as [c|]; try reflexivity. destruct (0 <? c_high c); reflexivity. }
        rewrite EQ in HI. apply in_map_iff in HI. destruct HI as ([k g] & E & HI). inversion E; subst. apply C in HI. exact HI.
      + unfold smalls. simpl. intros n f HI. apply in_map_iff in HI. destruct HI as ([k g] & E & HI). inversion E; subst. apply C in HI. exact HI.
  Qed.
  Lemma smalls_boot s soft vis : whole crc vis s -> smalls s -> smalls (boot crc soft (crash vis (s_store s))).
  Proof.
    intros W C n f HI. unfold boot in HI. destruct (recover_topic _ _) as [[head ms] gs]. cbn [s_store store_open d_segs] in HI. unfold crash in HI. cbn [k_segs] in HI.
    apply in_map_iff in HI. destruct HI as ([k b] & E & HI). inversion E; subst. unfold whole in W. rewrite Forall_forall in W. specialize (W _ HI). cbn [snd] in W.
    unfold seen in HI. apply in_map_iff in HI. destruct HI as ([k' f'] & E' & HI). inversion E'; subst. cbn [fst snd] in *. apply C in HI. unfold small in *. cbn [f_bytes].
    assert (LE : lenN (takeN (vis n) (f_bytes f')) <= lenN (f_bytes f')) by (rewrite lenN_takeN; lia).
    destruct HI as [HI|(m & MO & EM)]; [left; lia|]. right. exists m. split; auto. rewrite EM in *. destruct W as (W1 & W2).
    rewrite (load_cut crc crc32) in W1, W2 by (repeat constructor; apply MO). rewrite W2. destruct (complete_prefix [m] (vis n)) as (post & EP).
    destruct (complete (vis n) [m]) as [|x r]; [congruence|]. simpl in EP. inversion EP as [[E1 E2]]. destruct r; [reflexivity|discriminate].
  Qed.
  Theorem life_smalls A s : life A s -> smalls s.
  Proof.
    induction 1 as [soft|A s o L IH OK OR|A s soft vis L IH V W].
    - intros n f [].
    - apply (smalls_step A); auto. apply (life_ok crc crc32 cfg smax A s L).
    - apply smalls_boot; auto.
  Qed.
End Sys.

Section Groups.
  Variable crc : bytes -> N.
  Hypothesis crc32 : forall b, crc b < 2 ^ 32.
  Variable cfg : gcfg.
  Hypothesis MD : 1 <= max_del cfg.
  Variable smax : N.
  Notation sstep := (sstep crc cfg smax).
  Notation run := (run crc cfg smax).
  Notation life := (life crc cfg smax).
  Notation calm := (calm crc cfg smax).

  (** ** Requests refused (C57, C60) *)
  Definition refused (h : list gev) (c gen : N) : option gerr :=
    if gen =? gen_of h then (if member_of h c then None else Some NotMember) else Some Fenced.
  Lemma refused_ensure st h g c gen : hist cfg st h g -> refused h c gen = ensure_active c gen g.
  Proof.
    intro H. destruct (hist_agrees cfg MD _ _ _ H) as [I S G M]. unfold refused, ensure_active. rewrite G, M. destruct (gen =? gen_of h); simpl; auto.
  Qed.
  (** The clamp of a request changes nothing a consumer can see. *)
  Lemma clamp_quiet A s gid g st h : calm A s -> gget gid s = Some g -> hist cfg st h g ->
    let g1 := fst (clamp_head (t_head (s_top s)) g) in let h1 := (GClamp (t_head (s_top s)), OUnit) :: h in
    hist cfg st h1 g1 /\ forall n, status_of cfg st h1 n = status_of cfg st h n.
  Proof.
    intros L HG H. cbv zeta. split; [eapply hist_step; [exact H|exact Logic.I|reflexivity]|]. intro n. cbn [status_of]. unfold StreamGroupSpec.below.
    destruct (N.ltb_spec n (t_head (s_top s))) as [X|X]; auto. rewrite (a_st _ _ _ _ (hist_agrees cfg MD _ _ _ H)). symmetry. eapply (calm_pasts crc crc32 cfg MD smax A s L gid g HG). exact X.
  Qed.
  Theorem ack_api A s gid g st h c gen seq : calm A s -> gget gid s = Some g -> hist cfg st h g ->
    let r := sstep s (SAck gid c gen seq) in
    (snd r = RUnit <-> refused h c gen = None /\ exists t n, status_of cfg st h seq = Held c t n) /\
    (forall e, refused h c gen = Some e -> snd r = RErr (Group e)) /\
    exists g' h', gget gid (fst r) = Some g' /\ hist cfg st h' g' /\ gen_of h' = gen_of h /\ (forall c', member_of h' c' = member_of h c') /\
      forall n, status_of cfg st h' n = if n =? seq then (match snd r with RUnit => Done | _ => status_of cfg st h n end) else status_of cfg st h n.
  Proof.
    intros L HG H. cbv zeta. destruct (clamp_quiet A s gid g st h L HG H) as (H1 & Q). set (g1 := fst (clamp_head (t_head (s_top s)) g)) in *.
    pose proof (ack_iff cfg MD st _ g1 c gen seq H1) as (AI & AE). rewrite (Q seq) in AI. cbn [gen_of is_seek member_of] in AI.
    pose proof (refused_ensure st _ g1 c gen H1) as RE. unfold refused in RE. cbn [gen_of is_seek member_of] in RE. fold (refused h c gen) in RE.
    assert (RN : refused h c gen = None <-> gen = gen_of h /\ member_of h c = true).
    { unfold refused. destruct (N.eqb_spec gen (gen_of h)); [|split; [discriminate|tauto]]. destruct (member_of h c); split; try tauto; try discriminate. intros (_ & X); discriminate. }
    assert (H2 : hist cfg st ((GAck c gen seq, snd (gstep cfg g1 (GAck c gen seq))) :: (GClamp (t_head (s_top s)), OUnit) :: h) (fst (gstep cfg g1 (GAck c gen seq)))).
    { eapply hist_step; [exact H1|exact Logic.I|apply surjective_pairing]. }
    cbn [StreamSysModel.sstep]. unfold op_ack. rewrite HG. fold g1.
    cbn [gstep] in *. destruct (ack c gen seq g1) as [g' [e|]] eqn:EA; cbn [fst snd] in *.
    - split; [|split].
      + split; [discriminate|]. intros (A1 & A2). apply RN in A1. assert (X : OErr e = OUnit) by (apply AI; tauto). discriminate.
      + intros e0 E0. rewrite E0 in RE. unfold ack in EA. rewrite <- RE in EA. inversion EA; subst. reflexivity.
      + exists g'. eexists. split; [apply gget_gput_same|]. split; [exact H2|]. cbn [gen_of is_seek member_of]. split; auto. split; auto. intro n. destruct (n =? seq); [exact (Q n)|exact (Q n)].
    - split; [|split].
      + split; auto. intros _. destruct AI as (AI & _). destruct (AI eq_refl) as (A1 & A2 & A3). split; auto. apply RN. auto.
      + intros e0 E0. exfalso. destruct AI as (AI & _). destruct (AI eq_refl) as (A1 & A2 & A3). assert (refused h c gen = None) by (apply RN; auto). congruence.
      + exists g'. eexists. split; [change (gget gid (set_dirty true ?y)) with (gget gid y); apply gget_gput_same|]. split; [exact H2|]. cbn [gen_of is_seek member_of]. split; auto. split; auto.
        intro n. cbn [status_of]. destruct (n =? seq); auto. exact (Q n).
  Qed.
  Theorem leave_api s gid g st h ord c gen : gget gid s = Some g -> hist cfg st h g ->
    match refused h c gen with
    | Some e => sstep s (SLeave ord gid c gen) = (s, RErr (Group e))
    | None => snd (sstep s (SLeave ord gid c gen)) = RUnit /\
        exists g' h', gget gid (fst (sstep s (SLeave ord gid c gen))) = Some g' /\ hist cfg st h' g' /\ gen_of h' = gen_of h /\
          (forall c', member_of h' c' = negb (c' =? c) && member_of h c') /\
          forall n, status_of cfg st h' n = match status_of cfg st h n with Held c' t k => if c' =? c then released cfg k else Held c' t k | x => x end
    end.
  Proof.
    intros HG H. rewrite (refused_ensure st h g c gen H). cbn [StreamSysModel.sstep]. unfold op_leave. rewrite HG. unfold ensure_active. rewrite N.eqb_sym.
    destruct (N.eqb_spec (g_gen g) gen) as [E|E]; cbn [negb]; [|reflexivity].
    assert (H2 : hist cfg st ((GLeave ord c, OUnit) :: h) (fst (remove_member cfg ord c g))) by (eapply hist_step; [exact H|exact Logic.I|reflexivity]).
    unfold remove_member in *. destruct (agetN c (g_mem g)) as [conn|]; cbn [isSome fst] in *; [|reflexivity].
    split; [reflexivity|]. eexists; eexists. split; [change (gget gid (set_dirty true (set_clients ?x ?y))) with (gget gid y); apply gget_gput_same|]. split; [exact H2|]. split; [reflexivity|].
    split; [intro; reflexivity|]. intro n. cbn [status_of]. destruct (status_of cfg st h n); reflexivity.
  Qed.
  Theorem try_refused A s gid g st h c gen limit now tok e : calm A s -> gget gid s = Some g -> hist cfg st h g -> refused h c gen = Some e ->
    let r := sstep s (STry gid c gen limit now tok) in
    (snd r = RErr (Group e) \/ snd r = RMsgs [] /\ max_pend cfg <= lenN (g_pend g)) /\
    exists g' h', gget gid (fst r) = Some g' /\ hist cfg st h' g' /\ gen_of h' = gen_of h /\ (forall c', member_of h' c' = member_of h c') /\
      forall n, status_of cfg st h' n = status_of cfg st h n.
  Proof.
    intros L HG H RF. cbv zeta. destruct (clamp_quiet A s gid g st h L HG H) as (H1 & Q).
    pose proof (refused_ensure st _ _ c gen H1) as RE. unfold refused in RE. cbn [gen_of is_seek member_of] in RE. fold (refused h c gen) in RE. rewrite RF in RE.
    cbn [StreamSysModel.sstep]. unfold op_try. rewrite HG.
    assert (EP : lenN (g_pend (fst (clamp_head (t_head (s_top s)) g))) <= lenN (g_pend g)).
    { unfold clamp_head. cbv zeta. match goal with |- context [if ?x then (_, true) else _] => destruct x end; simpl; unfold lenN; (assert (X : forall (f : N * pmsg -> bool) l, (length (filter f l) <= length l)%nat) by (intros f l; induction l as [|x l IH]; simpl; [lia|]; destruct (f x); simpl; lia)); specialize (X (fun kv => N.max (t_head (s_top s)) 1 <=? fst kv) (g_pend g)); lia. }
    destruct (clamp_head (t_head (s_top s)) g) as [g1 cl]. cbn [fst] in *. unfold is_backpressured. destruct (N.leb_spec (max_pend cfg) (lenN (g_pend g1))) as [BP|BP].
    - split; [right; split; [reflexivity|lia]|]. exists g1. eexists. split; [apply gget_gput_same|]. split; [exact H1|]. auto.
    - rewrite (fetch_err cfg c gen limit now _ _ _ g1 e) by congruence. cbn [fst snd]. split; [left; reflexivity|].
      exists g1. eexists. split; [apply gget_gput_same|]. split; [exact H1|]. auto.
  Qed.
  Theorem no_group s gid : gget gid s = None -> (forall c gen seq, sstep s (SAck gid c gen seq) = (s, RErr NoGroup)) /\
    (forall ord c gen, sstep s (SLeave ord gid c gen) = (s, RErr NoGroup)) /\ (forall c gen limit now tok, sstep s (STry gid c gen limit now tok) = (s, RErr NoGroup)).
  Proof.
    intro HG. split; [|split]; intros; cbn [StreamSysModel.sstep]; [unfold op_ack|unfold op_leave|unfold op_try]; rewrite HG; reflexivity.
  Qed.

  (** ** What a consumer gets after a seek (C60) *)
  Definition pub (p : N * bytes) : sop := SPub (fst p) (snd p).
  Lemma pubs_groups gid ps : forall s, gget gid (run s (map pub ps)) = gget gid s /\ t_head (s_top (run s (map pub ps))) = t_head (s_top s).
  Proof.
    induction ps as [|p ps IH]; intro s; [simpl; auto|]. change (run s (map pub (p :: ps))) with (run (fst (sstep s (pub p))) (map pub ps)).
    destruct (IH (fst (sstep s (pub p)))) as (-> & ->). split; reflexivity.
  Qed.
  Lemma from_memory A s start : sys_ok crc 1 A s -> t_ram (s_top s) <= start -> new_part (t_log (s_top s)) (t_ram (s_top s)) start = from start A.
  Proof.
    intros (W & dh & bl & H) L. pose proof (proj1 (i_topic _ _ _ _ _ _ _ H)) as K. pose proof (k_all _ _ _ K) as LO. pose proof (k_pos _ _ _ K) as KP. pose proof (k_next _ _ _ K) as KN. pose proof (i_ram2 _ _ _ _ _ _ _ H) as R2. unfold new_part. destruct (N.leb_spec (t_ram (s_top s)) start); [|lia].
    destruct (t_log (s_top s)) as [|m r] eqn:EL.
    - pose proof (k_ram _ _ _ K EL). rewrite (from_drop A 1 start) by (auto; lia). rewrite dropN_nil. symmetry. apply dropN_all. lia.
    - destruct (k_log _ _ _ K) as (k & E & F). destruct F as (F1 & F2); [rewrite EL; discriminate|]. rewrite EL in E. rewrite E, (from_drop A 1 start) by (auto; lia). rewrite dropN_dropN. f_equal. lia.
  Qed.
  Theorem seek_api A s b gid c conn ps limit now tok : life A s -> 1 <= max_pend cfg -> 1 <= limit ->
    let start := if b : bool then N.max (t_head (s_top s)) 1 else lenN A + 1 in
    let s1 := fst (sstep s (SSeek b gid)) in
    let s2 := fst (sstep s1 (SJoin gid c conn)) in
    runs_ok crc cfg smax s2 (map pub ps) ->
    let s3 := run s2 (map pub ps) in
    let A3 := A ++ log_of (lenN A + 1) (map pub ps) in
    exists gen, snd (sstep s1 (SJoin gid c conn)) = RJoin (start - 1) gen /\ (forall g, gget gid s = Some g -> gen = g_gen g + 1) /\
      snd (sstep s3 (STry gid c gen limit now tok)) =
        if start <? t_ram (s_top s3) then RCold start
        else match takeN (N.min limit (max_pend cfg)) (from start A3) with [] => RWait | ms => RMsgs ms end.
  Proof.
    intros L MP LM. cbv zeta. set (start := if b then _ else _). set (s1 := fst (sstep s (SSeek b gid))). set (s2 := fst (sstep s1 (SJoin gid c conn))). intro RO.
    pose proof (next_of crc _ _ _ (life_ok crc crc32 cfg smax A s L)) as N0.
    assert (L2 : life A s2).
    { pose proof (life_step crc cfg smax A s (SSeek b gid) L Logic.I Logic.I) as X1. simpl adds in X1. rewrite app_nil_r in X1.
      pose proof (life_step crc cfg smax A _ (SJoin gid c conn) X1 Logic.I Logic.I) as X2. simpl adds in X2. rewrite app_nil_r in X2. exact X2. }
    assert (TT : s_top s2 = s_top s). { unfold s2, s1. cbn [StreamSysModel.sstep fst]. unfold op_join. destruct (clamp_head _ _) as [x1 [|]]; destruct (isSome _); reflexivity. }
    pose proof (life_run crc crc32 cfg smax (map pub ps) A s2 L2 RO) as L3. rewrite TT in L3. replace (t_next (s_top s)) with (lenN A + 1) in L3 by lia.
    set (s3 := run s2 (map pub ps)) in *. set (A3 := A ++ log_of (lenN A + 1) (map pub ps)) in *.
    pose proof (pubs_groups gid ps s2) as (G3 & H3). fold s3 in G3, H3. rewrite TT in H3.
    pose proof (life_ok crc crc32 cfg smax _ _ L) as SO. pose proof (life_ok crc crc32 cfg smax _ _ L3) as SO3.
    assert (HD : t_head (s_top s) <= t_next (s_top s)) by (destruct SO as (W & dh & bl & H); destruct (i_topic _ _ _ _ _ _ _ H) as (_ & _ & X); exact X).
    set (g0 := match gget gid s with Some g => g | None => group_new (t_head (s_top s)) end).
    set (gs := if b then seek_beginning (t_head (s_top s)) g0 else seek_end (t_next (s_top s) - 1) g0).
    assert (GS : g_floor gs = start - 1 /\ g_next gs = start /\ g_pend gs = [] /\ g_red gs = [] /\ g_park gs = [] /\ g_att gs = [] /\ g_cold gs = false /\ g_mem gs = [] /\ g_gen gs = g_gen g0 + 1 /\ 1 <= start /\ N.max (t_head (s_top s)) 1 <= start).
    { unfold gs, start. destruct b; simpl; repeat split; try lia. }
    destruct GS as (F1 & F2 & F3 & F4 & F5 & F6 & F7 & F8 & F9 & F10 & F11). assert (E1 : gget gid s1 = Some gs) by apply gget_gput_same.
    assert (T1 : s_top s1 = s_top s) by reflexivity.
    clearbody gs start. set (gm := add_member c conn gs).
    assert (CN : forall g, g_floor g = start - 1 -> g_next g = start -> g_pend g = [] -> g_red g = [] -> g_park g = [] -> g_att g = [] -> fst (clamp_head (t_head (s_top s)) g) = g) by (intros; apply (clamp_noop cfg MD); auto; lia).
    assert (J : snd (sstep s1 (SJoin gid c conn)) = RJoin (start - 1) (g_gen g0 + 1) /\ gget gid s2 = Some gm).
    { unfold s2. cbn [StreamSysModel.sstep]. unfold op_join. rewrite E1, T1. pose proof (CN gs F1 F2 F3 F4 F5 F6) as E2. destruct (clamp_head (t_head (s_top s)) gs) as [g1 cl]. cbn [fst] in E2. subst g1. fold gm. split.
      - cbn [snd]. unfold gm, add_member. simpl. congruence.
      - destruct cl; cbn [fst negb isSome orb mark]; [change (gget gid (set_dirty true (set_clients ?x ?y))) with (gget gid y)|change (gget gid (set_clients ?x ?y)) with (gget gid y)]; apply gget_gput_same. }
    destruct J as (J1 & J2). exists (g_gen g0 + 1). split; [exact J1|]. split; [intros g HG; unfold g0; rewrite HG; reflexivity|].
    rewrite J2 in G3. cbn [StreamSysModel.sstep]. unfold op_try. rewrite G3, H3. pose proof (CN gm F1 F2 F3 F4 F5 F6) as E3. destruct (clamp_head (t_head (s_top s)) gm) as [g1 cl]. cbn [fst] in E3. subst g1.
    unfold is_backpressured. change (g_pend gm) with (g_pend gs). rewrite F3, lenN_nil. destruct (N.leb_spec (max_pend cfg) 0) as [Z0|Z0]; [lia|].
    assert (IM : StreamGroupProofs.inv cfg gm).
    { split; [|left; change (g_floor gs + 1 = g_next gs); lia]. constructor; unfold gm, add_member; simpl; rewrite ?F1, ?F2, ?F3, ?F4, ?F5, ?F6; simpl; try (intros; contradiction || discriminate); try constructor; try lia. unfold lenN; simpl; lia. }
    assert (LO : log_ok (t_log (s_top s3)) (t_ram (s_top s3))) by (destruct SO3 as (W & dh & bl & HH); exact (topic_log_ok _ _ _ (proj1 (i_topic _ _ _ _ _ _ _ HH)))).
    assert (EA : ensure_active c (g_gen g0 + 1) gm = None). { unfold ensure_active. change (g_gen gm) with (g_gen gs). rewrite F9, N.eqb_refl. unfold gm, add_member, agetN. simpl. rewrite (aget_aset_same N.eqb N.eqb_eq). reflexivity. }
    destruct (fetch_exact cfg MD c (g_gen g0 + 1) limit now _ _ (t_head (s_top s)) gm IM LO EA) as (g2 & X2 & _ & DV & RD & NX & _). rewrite (CN gm F1 F2 F3 F4 F5 F6) in *.
    change (g_red gm) with (g_red gs) in *. change (g_pend gm) with (g_pend gs) in *. change (g_next gm) with (g_next gs) in *. rewrite F4, F3, F2 in *. simpl red_part in *. rewrite takeN_nil, lenN_nil, !N.sub_0_r, app_nil_l in *. 
    rewrite X2.
    assert (FC : g_cold g2 = false).
    { destruct (g_cold g2) eqn:X; auto. pose proof (flag_gstep cfg gm (GFetch c (g_gen g0 + 1) limit now (t_log (s_top s3)) (t_ram (s_top s3)) (t_head (s_top s)))) as Y. cbn [gstep] in Y. rewrite X2 in Y. cbn [fst] in Y. change (g_cold gm) with (g_cold gs) in Y. rewrite F7 in Y. symmetry; apply Y; [discriminate|exact X]. }
    rewrite FC. destruct (N.ltb_spec start (t_ram (s_top s3))) as [LT|GE].
    - assert (NP : new_part (t_log (s_top s3)) (t_ram (s_top s3)) start = []) by (unfold new_part; destruct (N.leb_spec (t_ram (s_top s3)) start); [lia|reflexivity]).
      rewrite NP, takeN_nil in *. rewrite lenN_nil in NX. unfold next_fetch_seq. rewrite dropN_nil in RD. rewrite RD, NX. replace (N.max (start + 0) (N.max (t_head (s_top s)) 1)) with start by lia.
      assert (R2 : t_ram (s_top s3) <= t_next (s_top s3)) by (destruct SO3 as (W & dh & bl & HH); exact (i_ram2 _ _ _ _ _ _ _ HH)).
      destruct (N.ltb_spec start (t_next (s_top s3))); [|lia]. destruct (N.ltb_spec start (t_ram (s_top s3))); [|lia]. reflexivity.
    - rewrite (from_memory A3 s3 start SO3 GE) in *. destruct (takeN (N.min limit (max_pend cfg)) (from start A3)) as [|m ms] eqn:ET; [|reflexivity].
      unfold next_fetch_seq. rewrite dropN_nil in RD. rewrite RD, NX, lenN_nil. destruct (N.ltb_spec (N.max (start + 0) (N.max (t_head (s_top s)) 1)) (t_ram (s_top s3))); [lia|]. rewrite andb_false_r. reflexivity.
  Qed.
End Groups.
