(** Restarts of a topic, clean and after a crash. *)
From Verif Require Import LibBase LibMap StreamTopicModel StreamGroupModel StreamStoreModel StreamStoreCodec StreamStoreProofs StreamStoreFacts StreamGroupSpec StreamGroupProofs StreamGroupFetch StreamGroupHist StreamGroupFacts StreamTopicProofs StreamSysModel StreamSysProofs StreamSysHist StreamSysFacts.

Section Sys.
  Variable crc : bytes -> N.
  Hypothesis crc32 : forall b, crc b < 2 ^ 32.
  Variable cfg : gcfg.
  Variable smax : N.
  Notation enc := (enc_msgs crc).
  Notation sstep := (sstep crc cfg smax).
  Notation run := (run crc cfg smax).
  Notation on_disk := (on_disk crc).
  Notation full_blk := (fun b => b_sure b = lenN (enc (b_ms b))).

  (** ** Booting from whole files *)
  Lemma boot_ok soft d f A dh bl : k_segs d = map (fun b => (b_name b, enc (b_ms b))) bl -> chain crc dh bl -> Forall full_blk bl ->
    (bl = [] -> dh = 1) -> log_ok A f -> 1 <= f -> f <= dh -> dropN (dh - f) A = msgs_of bl -> dh + lenN (msgs_of bl) = f + lenN A ->
    inv_at crc f A A dh bl (boot crc soft d).
  Proof.
    intros KS CH FU B1 LO P FD DR TOT.
    assert (DP : 1 <= dh) by lia.
    assert (RT : exists ms, recover_topic crc d = (dh, ms, match k_groups d with Some b => load_groups crc b | None => [] end) /\
              ((bl = [] /\ ms = []) \/ exists i b, bl = i ++ [b] /\ ms = b_ms b)).
    { unfold recover_topic. rewrite KS. destruct bl as [|b0 bl0] eqn:EB.
      - exists []. simpl. rewrite (B1 eq_refl). auto.
      - rewrite <- EB in *. destruct (exists_last (l := bl)) as (i & b & EI); [rewrite EB; discriminate|].
        exists (b_ms b). split; [|right; exists i, b; auto]. 
        assert (LSG : last_seg (map (fun b => (b_name b, enc (b_ms b))) bl) = Some (b_name b, enc (b_ms b))) by (rewrite EI, map_app; apply last_seg_snoc).
        rewrite LSG.
        assert (M : Forall msg_ok (b_ms b)).
        { rewrite EI in CH. apply chain_app in CH. destruct CH as (_ & (_ & _ & _ & M & _) & _). auto. }
        rewrite (load_all crc crc32) by auto. f_equal. f_equal. rewrite EB. simpl. rewrite EB in CH. destruct CH; auto. }
    destruct RT as (ms & RT & MS). unfold boot. rewrite RT.
    assert (TOP : init_ok f A (topic_restore soft (N.max dh 1) ms) /\ t_next (topic_restore soft (N.max dh 1) ms) = f + lenN A /\ t_ram (topic_restore soft (N.max dh 1) ms) <= f + lenN A).
    { replace (N.max dh 1) with dh by lia. destruct MS as [(-> & ->)|(i & b & -> & ->)].
      - specialize (B1 eq_refl). subst dh. simpl in TOT. rewrite lenN_nil in TOT. assert (f = 1) by lia. subst f. assert (lenN A = 0) by lia.
        assert (A = []) as -> by (destruct A; [auto|rewrite lenN_cons in *; lia]). unfold topic_restore. simpl. split; [|rewrite lenN_nil; split; lia].
        split; [|split; simpl; lia]. constructor; simpl; auto; try lia; rewrite ?lenN_nil; try lia. exists 0. split; [reflexivity|congruence].
      - apply chain_app in CH. destruct CH as (C1 & (N1 & NE & LB & MB & _) & _). rewrite msgs_of_app in *. simpl in DR, TOT. rewrite app_nil_r in *.
        assert (DA : b_ms b = dropN (lenN (msgs_of i) + (dh - f)) A) by (rewrite <- dropN_dropN, DR, dropN_app_exact; reflexivity).
        rewrite lenN_app in TOT.
        pose proof (restore_ok soft dh (dh + lenN (msgs_of i)) (b_ms b) LB ltac:(lia) NE ltac:(lia)) as (K & HR & HN).
        pose proof (k_next _ _ _ K) as KN. destruct (k_log _ _ _ K) as (k0 & E0 & F0). change (t_log (topic_restore soft dh (b_ms b))) with (b_ms b) in *.
        assert (k0 = 0).
        { destruct (F0 NE) as (_ & L). assert (X : lenN (b_ms b) = lenN (b_ms b) - k0) by (rewrite E0 at 1; rewrite lenN_dropN; reflexivity). lia. }
        subst k0. destruct (F0 NE) as (RM & LM). rewrite N.add_0_r in RM.
        split; [|split; [lia|rewrite RM; lia]]. split; [|auto]. constructor.
        + exact LO.
        + lia.
        + exists (lenN (msgs_of i) + (dh - f)). split; [exact DA|]. intros _. split; [lia|lia].
        + intro X. change (t_log (topic_restore soft dh (b_ms b))) with (b_ms b) in X. congruence.
        + lia. }
    destruct TOP as (T1 & T2 & T3). set (t := topic_restore soft (N.max dh 1) ms) in *.
    assert (SM : sure_msgs bl = msgs_of bl) by (apply (sure_full crc); auto).
    constructor; cbn [s_top s_box s_store s_ret s_evp]; auto; rewrite ?SM; try lia.
    - rewrite app_nil_r. reflexivity.
    - clearbody t. constructor; cbn [d_segs d_ctx d_pers store_open].
      + rewrite KS, map_map. simpl. apply map_ext_in. intros b HB. unfold file_of. rewrite Forall_forall in FU. rewrite (FU b HB). reflexivity.
      + exact CH.
      + auto.
      + discriminate.
      + auto.
      + exact DP.
      + rewrite SM. lia.
    - change (t_head t) with (N.max dh 1). lia.
    - discriminate.
    - change (t_head t) with (N.max dh 1). lia.
  Qed.

  (** Every file ends with a whole record, and holds one. *)
  Definition whole (vis : N -> N) (s : sys) : Prop :=
    Forall (fun x => load_segment crc (snd x) <> [] /\ snd x = enc (load_segment crc (snd x))) (seen vis (s_store s)).
  Definition cut (vis : N -> N) (b : blk) : blk := mkB (b_name b) (complete (vis (b_name b)) (b_ms b)) (lenN (enc (complete (vis (b_name b)) (b_ms b)))).
  Lemma cut_msgs vis bl : msgs_of (map (cut vis) bl) = vmsgs vis bl.
  Proof. induction bl as [|b bl IH]; simpl; auto. f_equal. exact IH. Qed.
  Lemma complete_incl : forall ms k m, In m (complete k ms) -> In m ms.
  Proof. intros ms k m H. destruct (complete_prefix ms k) as (p & E). rewrite E. apply in_or_app. auto. Qed.
  Lemma cut_chain vis : forall bl n, chain crc n bl -> visible vis bl -> Forall (fun b => complete (vis (b_name b)) (b_ms b) <> []) bl -> chain crc n (map (cut vis) bl).
  Proof.
    induction bl as [|b bl IH]; intros n CH V NE; [exact Logic.I|]. inversion V; inversion NE; subst. destruct CH as (A & B & C & D & E & F & G).
    destruct (complete_prefix (b_ms b) (vis (b_name b))) as (p & EP).
    cbn [map chain cut b_name b_ms b_sure]. split; auto. split; auto.
    split; [rewrite EP in C; apply log_ok_app in C; tauto|].
    split; [rewrite EP in D; apply Forall_app in D; tauto|]. split; [lia|]. split; [auto|].
    destruct bl as [|b2 bl]; [exact Logic.I|]. rewrite (complete_all crc) by (rewrite <- F by discriminate; auto). apply IH; auto.
  Qed.
  (** A crash that leaves whole records: the messages on disk are all there is, and
      the topic goes on after them. *)
  Theorem restart_whole soft f A s vis : sys_ok crc f A s -> 1 <= f -> vis_ok vis (s_store s) -> whole vis s ->
    let s2 := boot crc soft (crash vis (s_store s)) in
    t_next (s_top s2) = first_file s + lenN (on_disk vis s) /\ t_head (s_top s2) = first_file s /\
    sys_ok crc f (takeN (first_file s - f + lenN (on_disk vis s)) A) s2 /\
    (forall vis2, vis_ok vis2 (s_store s2) -> on_disk vis2 s2 = on_disk vis s).
  Proof.
    intros (W & dh & bl & H) P V WH. cbv zeta. rewrite (first_eq crc _ _ _ _ _ _ H), (on_disk_eq crc crc32 _ _ _ _ _ _ vis H).
    pose proof (i_store _ _ _ _ _ _ _ H) as SO. pose proof (so_chain _ _ _ _ SO) as CH. pose proof (vis_visible crc vis dh bl _ SO V) as VI.
    unfold whole in WH. rewrite (seen_blk crc vis bl _ dh SO), Forall_map in WH. cbn [fst snd] in WH.
    assert (MOK : Forall (fun b => Forall msg_ok (b_ms b)) bl).
    { clear - CH. revert dh CH. induction bl as [|b bl IH]; intros dh CH; constructor; destruct CH as (_ & _ & _ & D & _ & _ & G); eauto. }
    assert (W1 : Forall (fun b => complete (vis (b_name b)) (b_ms b) <> [] /\ takeN (vis (b_name b)) (enc (b_ms b)) = enc (complete (vis (b_name b)) (b_ms b))) bl).
    { rewrite Forall_forall in *. intros b HB. specialize (WH b HB). specialize (MOK b HB). rewrite (load_cut crc crc32) in WH by auto. exact WH. }
    assert (SEG : k_segs (crash vis (s_store s)) = map (fun b => (b_name b, enc (b_ms b))) (map (cut vis) bl)).
    { simpl. rewrite (seen_blk crc vis bl _ dh SO), map_map. apply map_ext_in. intros b HB. rewrite Forall_forall in W1. destruct (W1 b HB) as (_ & E). simpl. rewrite E. reflexivity. }
    pose proof (k_all _ _ _ (proj1 (i_topic _ _ _ _ _ _ _ H))) as LO. pose proof (i_dh _ _ _ _ _ _ _ H) as DH.
    destruct (vmsgs_prefix crc vis bl dh CH VI) as (post & EP). pose proof (from_app crc _ _ _ _ _ _ H) as FA. rewrite (from_drop A f dh) in FA by auto.
    assert (LA : dh - f + lenN (vmsgs vis bl) <= lenN A).
    { pose proof (f_equal lenN FA) as X. rewrite lenN_dropN, EP, !lenN_app in X. pose proof (i_tot _ _ _ _ _ _ _ H) as T. rewrite (i_all _ _ _ _ _ _ _ H), lenN_app in *.
      rewrite EP, lenN_app in T. lia. }
    set (A' := takeN (dh - f + lenN (vmsgs vis bl)) A).
    assert (LA' : lenN A' = dh - f + lenN (vmsgs vis bl)) by (unfold A'; rewrite lenN_takeN; lia).
    assert (DA' : dropN (dh - f) A' = vmsgs vis bl).
    { unfold A', dropN, takeN. rewrite skipn_firstn_comm. change (skipn (N.to_nat (dh - f)) A) with (dropN (dh - f) A). rewrite FA, EP, <- app_assoc.
      replace (N.to_nat (dh - f + lenN (vmsgs vis bl)) - N.to_nat (dh - f))%nat with (N.to_nat (lenN (vmsgs vis bl))) by lia. apply takeN_app_exact. }
    assert (B : inv_at crc f A' A' dh (map (cut vis) bl) (boot crc soft (crash vis (s_store s)))).
    { apply boot_ok; auto.
      - apply cut_chain; auto. rewrite Forall_forall in *. intros b HB. apply (W1 b HB).
      - rewrite Forall_map. apply Forall_forall. reflexivity.
      - intro X. apply map_eq_nil in X. apply (so_first _ _ _ _ SO); auto.
      - intros i m E. apply LO. unfold A', takeN in E. rewrite <- (firstn_skipn (N.to_nat (dh - f + lenN (vmsgs vis bl))) A). rewrite nth_error_app1; auto. apply nth_error_Some. congruence.
      - rewrite cut_msgs. exact DA'.
      - rewrite cut_msgs, LA'. lia. }
    split; [rewrite (k_next _ _ _ (proj1 (i_topic _ _ _ _ _ _ _ B))), LA'; lia|].
    split; [apply (proj2 (i_pos _ _ _ _ _ _ _ B)); unfold boot; destruct (recover_topic _ _) as [[? ?] ?]; reflexivity|].
    split; [exists A', dh, (map (cut vis) bl); exact B|].
    intros vis2 V2. rewrite (on_disk_eq crc crc32 _ _ _ _ _ _ vis2 B). rewrite (vmsgs_full crc), cut_msgs; auto.
    - apply (vis_visible crc vis2 dh _ _ (i_store _ _ _ _ _ _ _ B) V2).
    - rewrite Forall_map. apply Forall_forall. reflexivity.
  Qed.

  (** When everything was handed over and flushed, whatever happens then, nothing is
      lost. *)
  Lemma flushed_whole f A s vis : sys_ok crc f A s -> vis_ok vis (s_store s) -> flushed s -> whole vis s.
  Proof.
    intros (W & dh & bl & H) V F. pose proof (i_store _ _ _ _ _ _ _ H) as SO. pose proof (so_chain _ _ _ _ SO) as CH. pose proof (vis_visible crc vis dh bl _ SO V) as VI.
    unfold flushed in F. rewrite (so_segs _ _ _ _ SO), Forall_map in F. simpl in F.
    unfold whole. rewrite (seen_blk crc vis bl _ dh SO), Forall_map. cbn [fst snd]. clear SO V H. revert dh CH. induction bl as [|b bl IH]; intros dh CH; constructor.
    - destruct CH as (_ & B & _ & D & _). inversion F; inversion VI; subst. rewrite (load_cut crc crc32), (complete_all crc) by (auto; lia). split; auto. apply takeN_all. lia.
    - destruct CH as (_ & _ & _ & _ & _ & _ & G). inversion F; inversion VI; subst. eapply IH; eauto.
  Qed.
  Theorem restart_settled soft f A s vis : sys_ok crc f A s -> 1 <= f -> vis_ok vis (s_store s) -> s_box s = [] -> flushed s ->
    let s2 := boot crc soft (crash vis (s_store s)) in
    t_next (s_top s2) = t_next (s_top s) /\ t_head (s_top s2) = first_file s /\ sys_ok crc f A s2.
  Proof.
    intros HS P V B F. cbv zeta. destruct (restart_whole soft f A s vis HS P V (flushed_whole f A s vis HS V F)) as (R1 & R2 & R3 & _).
    rewrite (settled_disk crc crc32 f A s vis HS V B F) in *. pose proof HS as (W & dh & bl & H). pose proof (k_all _ _ _ (proj1 (i_topic _ _ _ _ _ _ _ H))) as LO.
    rewrite (first_eq crc _ _ _ _ _ _ H) in *. pose proof (i_dh _ _ _ _ _ _ _ H) as DH. rewrite (from_drop A f dh) in * by auto. rewrite lenN_dropN in *.
    rewrite (next_of crc _ _ _ HS). pose proof (i_tot _ _ _ _ _ _ _ H) as T. pose proof (i_all _ _ _ _ _ _ _ H) as EA. rewrite B, app_nil_r in EA. subst W.
    split; [lia|]. split; auto. rewrite takeN_all in R3 by lia. exact R3.
  Qed.

  (** ** Numbers never repeat if the last file has a record (C69) *)
  Theorem no_reuse soft f A s vis l : sys_ok crc f A s -> vis_ok vis (s_store s) ->
    last_seg (seen vis (s_store s)) = Some l -> load_segment crc (snd l) <> [] ->
    forall m, In m (on_disk vis s) -> m_seq m < t_next (s_top (boot crc soft (crash vis (s_store s)))).
  Proof.
    intros (W & dh & bl & H) V LS NE m. rewrite (on_disk_eq crc crc32 _ _ _ _ _ _ vis H).
    pose proof (i_store _ _ _ _ _ _ _ H) as SO. pose proof (so_chain _ _ _ _ SO) as CH. pose proof (vis_visible crc vis dh bl _ SO V) as VI.
    pose proof (vmsgs_log crc vis bl dh CH VI) as LV.
    rewrite (seen_blk crc vis bl _ dh SO) in LS. destruct bl as [|b0 bl0] eqn:EB; [discriminate|]. rewrite <- EB in *.
    destruct (exists_last (l := bl)) as (i & b & EI); [rewrite EB; discriminate|]. clear EB b0 bl0. subst bl.
    rewrite map_app in LS. simpl in LS. rewrite last_seg_snoc in LS. inversion LS; subst l; clear LS. cbn [snd] in NE.
    apply chain_app in CH. destruct CH as (C1 & (N1 & N2 & LB & MB & _) & C3). rewrite (load_cut crc crc32) in NE by auto.
    unfold boot, recover_topic. cbn [k_segs crash]. rewrite (seen_blk crc vis (i ++ [b]) _ dh SO).
    assert (LSG : last_seg (map (fun b => (b_name b, takeN (vis (b_name b)) (enc (b_ms b)))) (i ++ [b])) = Some (b_name b, takeN (vis (b_name b)) (enc (b_ms b)))) by (rewrite map_app; apply last_seg_snoc).
    match goal with |- context [@last_seg ?T ?x] => change (@last_seg T x) with (last_seg (map (fun b => (b_name b, takeN (vis (b_name b)) (enc (b_ms b)))) (i ++ [b]))) end.
    rewrite LSG. rewrite (load_cut crc crc32) by auto. simpl s_top. unfold topic_restore. cbn [t_next].
    destruct (last_msg (complete (vis (b_name b)) (b_ms b))) as [x|] eqn:EL; [|destruct (last_msg_some _ NE) as (y & Y); congruence].
    unfold vmsgs in *. rewrite flat_map_app in *. simpl flat_map in *. rewrite app_nil_r in *.
    intro HM. apply (log_lt _ _ _ LV) in HM. apply log_ok_app in LV. destruct LV as (_ & LV). rewrite (last_msg_seq _ _ _ LV EL). rewrite lenN_app in HM.
    assert (0 < lenN (complete (vis (b_name b)) (b_ms b))) by (destruct (complete _ _); [congruence|rewrite lenN_cons; lia]). lia.
  Qed.

  (** ** Groups never run ahead of the topic *)
  Lemma next_floor g : g_next (try_advance_floor g) = g_next g. Proof. reflexivity. Qed.
  Lemma clamp_next h g : g_next (fst (clamp_head h g)) = N.max (g_next g) (N.max h 1).
  Proof.
    unfold clamp_head. match goal with |- context [if ?c then _ else _] => idtac end.
    cbv zeta. set (b := _ || _). destruct b; simpl; destruct (N.ltb_spec (g_next g) (N.max h 1)); lia.
  Qed.
  Lemma issue_next c now m g : g_next (fst (issue_delivery cfg c now m g)) = g_next g.
  Proof. unfold issue_delivery. destruct (max_del cfg <? _); reflexivity. Qed.
  Lemma release_next s n g : g_next (release_seq cfg s n g) = g_next g.
  Proof. unfold release_seq. destruct (_ <=? _); auto. destruct (nmem _ _); auto. Qed.
  Lemma fold_next l : forall g, g_next (fold_left (release_one cfg) l g) = g_next g.
  Proof. induction l as [|x l IH]; intro g; simpl; auto. rewrite IH. unfold release_one. rewrite release_next. reflexivity. Qed.
  Lemma read_lt log ram s m : read_from_log log ram s = Some m -> s < ram + lenN log.
  Proof.
    unfold read_from_log. destruct (N.ltb_spec s ram); [discriminate|]. destruct log; [discriminate|]. simpl orb. cbv iota. intro E.
    assert (N.to_nat (s - ram) < length (m0 :: log))%nat by (apply nth_error_Some; congruence). unfold lenN. lia.
  Qed.
  Lemma fetch_red_next c now log ram head budget : forall red res g, g_next (fst (fetch_red cfg c now log ram head budget red res g)) = g_next g.
  Proof.
    induction red as [|s red IH]; intros res g; simpl; auto. destruct (budget <=? lenN res); auto. destruct (s <? head); [rewrite IH; reflexivity|].
    destruct (read_from_log log ram s) as [m|]; auto. pose proof (issue_next c now m (set_red red g)) as X. destruct (issue_delivery cfg c now m (set_red red g)) as [g1 o]. rewrite IH. exact X.
  Qed.
  Lemma fetch_new_next c now log ram head budget B : ram + lenN log <= B -> head <= B -> forall fuel res g, g_next g <= B -> g_next (fst (fetch_new cfg fuel c now log ram head budget res g)) <= B.
  Proof.
    intros HB HH. induction fuel as [|fuel IH]; intros res g G; simpl; auto. destruct (budget <=? lenN res); auto.
    set (g0 := if g_next g <? head then set_floor (N.max (g_floor g) (head - 1)) (set_next head g) else g).
    assert (G0 : g_next g0 <= B) by (unfold g0; destruct (g_next g <? head); simpl; lia).
    destruct (read_from_log log ram (N.max (g_next g) head)) as [m|] eqn:ER; auto. apply read_lt in ER.
    pose proof (issue_next c now m (set_next (N.max (g_next g) head + 1) g0)) as X. destruct (issue_delivery _ _ _ _ _) as [g1 o]. apply IH. simpl in X. lia.
  Qed.
  Lemma cold_next c now head B : head <= B -> forall ms acc, Forall (fun m => m_seq m < B) ms -> g_next (fst acc) <= B -> g_next (fst (cold_loop cfg c now head ms acc)) <= B.
  Proof.
    intros HH. induction ms as [|m ms IH]; intros [g res] F G; simpl; auto. inversion F; subst. destruct (_ <=? _); auto. apply IH; auto.
    unfold cold_one. destruct (m_seq m <? head); auto. cbv zeta.
    set (g1 := if nmem (m_seq m) (g_red g) then set_red (nrem (m_seq m) (g_red g)) g else g). assert (G1 : g_next g1 <= B) by (unfold g1; destruct (nmem _ _); auto).
    set (g2 := if g_next g1 <? head then set_floor (N.max (g_floor g1) (head - 1)) (set_next head g1) else g1). assert (G2 : g_next g2 <= B) by (unfold g2; destruct (_ <? _); simpl; lia).
    destruct (_ || _); auto. set (g3 := if m_seq m =? N.max (g_next g1) (N.max head 1) then set_next (m_seq m + 1) g2 else g2).
    assert (G3 : g_next g3 <= B) by (unfold g3; destruct (_ =? _); simpl; lia).
    pose proof (issue_next c now m g3) as X. destruct (issue_delivery cfg c now m g3) as [g4 o]. simpl in *. lia.
  Qed.
  Definition gop_below (B : N) (o : gop) : Prop :=
    match o with
    | GFetch _ _ _ _ log ram head => ram + lenN log <= B /\ head <= B
    | GCold _ _ _ ms head => Forall (fun m => m_seq m < B) ms /\ head <= B
    | GSeekB h | GClamp h => h <= B
    | GSeekE l => l + 1 <= B
    | _ => True
    end.
  Lemma gstep_below B g o : 1 <= B -> g_next g <= B -> gop_below B o -> g_next (fst (gstep cfg g o)) <= B.
  Proof.
    intros P G O. destruct o; simpl in *; auto.
    - unfold remove_member. destruct (agetN c (g_mem g)); auto. simpl. rewrite fold_next. exact G.
    - unfold fetch. destruct (ensure_active c gen g); [exact G|]. cbv zeta. destruct O as (O1 & O2). pose proof (clamp_next head g) as C.
      destruct (max_pend cfg <=? _); [simpl; lia|].
      match goal with |- context [fetch_red cfg ?a ?b ?c0 ?d ?e ?f ?h ?i ?j] => pose proof (fetch_red_next a b c0 d e f h i j) as X; destruct (fetch_red cfg a b c0 d e f h i j) as [g1 r1] end.
      simpl fst in X.
      match goal with |- context [fetch_new cfg ?n ?a ?b ?c0 ?d ?e ?f ?h ?i] => pose proof (fetch_new_next a b c0 d e f B O1 O2 n h i) as Y; destruct (fetch_new cfg n a b c0 d e f h i) as [g2 r2] end.
      simpl in *. apply Y. lia.
    - unfold register_cold. destruct (ensure_active c gen g); [exact G|]. destruct O as (O1 & O2). pose proof (clamp_next head g) as C.
      pose proof (cold_next c now head B O2 ms (fst (clamp_head head g), []) O1) as X. destruct (cold_loop cfg c now head ms (fst (clamp_head head g), [])) as [g1 r]. simpl in *. apply X. lia.
    - unfold ack. destruct (ensure_active c gen g); auto. destruct (pget s (g_pend g)) as [p|]; auto. destruct (p_cons p =? c); auto.
    - unfold check_redelivery. destruct (filter _ _); simpl; auto. rewrite fold_next. exact G.
    - lia.
    - rewrite clamp_next. lia.
  Qed.
  Lemma grun_below B : 1 <= B -> forall ops g h, g_next g <= B -> Forall (gop_below B) ops -> g_next (snd (grun cfg g h ops)) <= B.
  Proof.
    intro P. induction ops as [|o ops IH]; intros g h G F; simpl; auto. inversion F; subst. pose proof (gstep_below B g o P G H1) as X.
    destruct (gstep cfg g o) as [g' r]. apply IH; auto.
  Qed.

  Definition below (s : sys) : Prop :=
    (forall gid g, gget gid s = Some g -> g_next g <= t_next (s_top s)) /\
    (forall k ms, In k (s_colds s) -> k_res k = Some ms -> Forall (fun m => m_seq m < t_next (s_top s)) ms).
  Lemma colds_step s o k ms : In k (s_colds (fst (sstep s o))) -> k_res k = Some ms ->
    (exists k', In k' (s_colds s) /\ k_res k' = Some ms) \/ exists i vis k', o = SColdRun i vis /\ nth_error (s_colds s) i = Some k' /\ ms = cold_read crc (seen vis (s_store s)) (k_from k') (k_limit k').
  Proof.
    assert (MK : forall b x, s_colds (mark b x) = s_colds x) by (intros [|] x; reflexivity).
    assert (RM : forall i (l : list cold) x, In x (remove_nth i l) -> In x l).
    { intros i l x H. unfold remove_nth in H. apply in_app_or in H. destruct H as [H|H].
      - rewrite <- (firstn_skipn i l). apply in_or_app; auto.
      - rewrite <- (firstn_skipn (S i) l). apply in_or_app; auto. }
    assert (SAME : s_colds (fst (sstep s o)) = s_colds s -> In k (s_colds (fst (sstep s o))) -> k_res k = Some ms -> exists k', In k' (s_colds s) /\ k_res k' = Some ms) by (intros ->; eauto).
    destruct o; intros HI HR; try (left; apply SAME; auto; reflexivity).
    - left; apply SAME; auto. simpl. unfold op_send. destruct (nth_error _ _); reflexivity.
    - left; apply SAME; auto. cbn [StreamSysModel.sstep]. unfold op_join. destruct (clamp_head _ _). cbn [fst]. rewrite MK. reflexivity.
    - left; apply SAME; auto. cbn [StreamSysModel.sstep]. unfold op_leave. destruct (gget gid s); auto. destruct (negb _); auto. destruct (remove_member _ _ _ _) as [g' [x|]]; reflexivity.
    - left; apply SAME; auto. cbn [StreamSysModel.sstep fst]. unfold op_disconnect. destruct (aget _ _ _) as [l|]; auto.
      assert (F : forall l x, s_colds (fold_left (drop_member cfg ord) l x) = s_colds x).
      { clear. induction l as [|b l IH]; intro x; simpl; auto. rewrite IH. unfold drop_member. destruct (gget _ _); auto. destruct (remove_member _ _ _ _) as [g' [y|]]; reflexivity. }
      rewrite F. reflexivity.
    - left; apply SAME; auto. cbn [StreamSysModel.sstep]. unfold op_ack. destruct (gget gid s); auto. destruct (ack _ _ _ _) as [g' [x|]]; reflexivity.
    - left. cbn [StreamSysModel.sstep] in *. unfold op_try in *. destruct (gget gid s); eauto. destruct (clamp_head _ _) as [g1 cl]. destruct (is_backpressured cfg g1); [eauto|].
      destruct (fetch _ _ _ _ _ _ _ _ _) as [g2 [e|[|m r]]]; cbn [fst] in *; rewrite ?MK in HI; eauto.
      destruct (g_cold g2); cbn [fst] in *; rewrite ?MK in HI; eauto. destruct (_ && _); cbn [fst] in *; rewrite ?MK in HI; eauto.
      simpl in HI. apply in_app_or in HI. destruct HI as [HI|[<-|[]]]; [eauto|discriminate].
    - simpl in HI. unfold op_cold_run in HI. destruct (nth_error (s_colds s) i) as [k0|] eqn:EN; [|eauto]. simpl in HI. apply in_app_or in HI. destruct HI as [HI|[<-|HI]].
      + left. exists k. split; auto. rewrite <- (firstn_skipn i (s_colds s)). apply in_or_app; auto.
      + right. exists i, vis, k0. simpl in HR. inversion HR. auto.
      + left. exists k. split; auto. rewrite <- (firstn_skipn (S i) (s_colds s)). apply in_or_app; auto.
    - left. cbn [StreamSysModel.sstep] in *. unfold op_cold_done in *. destruct (nth_error _ _) as [k0|]; eauto. destruct (k_res k0); eauto.
      destruct (gget _ _); [|simpl in HI; eauto]. destruct (negb _); [simpl in HI; eauto|]. destruct (clamp_head _ _) as [g2 cl].
      destruct (register_cold _ _ _ _ _ _ _) as [g3 [e|r]]; cbn [fst] in HI; rewrite ?MK in HI; simpl in HI; eauto.
    - left. simpl in HI. eauto.
    - left; apply SAME; auto. simpl. unfold op_collect. destruct (s_dirty s); reflexivity.
    - left; apply SAME; auto. simpl. unfold op_save. destruct (s_save s); reflexivity.
    - left; apply SAME; auto. cbn [StreamSysModel.sstep fst]. unfold op_head. destruct (s_ret s) as [h|]; auto. destruct (h =? _); auto. cbn [fst]. rewrite MK. reflexivity.
    - left; apply SAME; auto. cbn [StreamSysModel.sstep fst]. unfold op_tick. cbn [fst]. rewrite MK. reflexivity.
  Qed.
  Lemma below_step f A s o : sys_ok crc f A s -> op_ok s o -> below s -> below (fst (sstep s o)).
  Proof.
    intros HS OK (B1 & B2). pose proof (top_next_le crc cfg smax s o) as NX. pose proof HS as (W & dh & bl & H).
    destruct (i_topic _ _ _ _ _ _ _ H) as (K & HR & HN). pose proof (k_pos _ _ _ K) as P. pose proof (k_all _ _ _ K) as LO.
    assert (RL : t_log (s_top s) <> [] -> t_ram (s_top s) + lenN (t_log (s_top s)) <= t_next (s_top s)).
    { intro NE. destruct (k_log _ _ _ K) as (k & E & F). destruct (F NE) as (F1 & F2). rewrite (k_next _ _ _ K), E, lenN_dropN. lia. }
    split.
    - intros gid g HG. rewrite step_group in HG.
      assert (TB : forall g0, Forall (gop_below (t_next (s_top s))) (gtrace crc cfg smax gid g0 s o)).
      { intro g0. destruct o; cbn [gtrace]; try apply Forall_nil.
        - destruct (beqb gid gid0); repeat constructor. exact HN.
        - destruct (_ && _); repeat constructor.
        - destruct (aget _ _ _); [|constructor]. apply Forall_forall. intros x Hx. apply in_map_iff in Hx. destruct Hx as (y & <- & _). exact Logic.I.
        - destruct (beqb gid gid0); repeat constructor. exact HN.
        - destruct (beqb gid gid0); repeat constructor. destruct beginning; simpl; lia.
        - destruct (beqb gid gid0); [|constructor]. constructor; [exact HN|]. destruct (is_backpressured _ _); constructor.
          + simpl. split; auto. destruct (t_log (s_top s)) eqn:EL; [rewrite lenN_nil; pose proof (i_ram2 _ _ _ _ _ _ _ H); lia|]. apply RL. discriminate.
          + destruct (snd (sstep s (STry gid0 c gen limit now tok))); try apply Forall_nil. apply Forall_cons; [exact Logic.I|apply Forall_nil].
        - destruct (nth_error _ _) as [k|] eqn:EN; [|constructor]. destruct (beqb gid (k_gid k)); [|constructor]. destruct (k_res k) as [ms|] eqn:EK; constructor; [exact Logic.I|].
          destruct (_ =? _); [|constructor]. constructor; [exact HN|]. constructor; [|constructor]. split; [|exact HN]. apply (B2 k); auto. eapply nth_error_In; eauto.
        - destruct (s_ret s) as [h|] eqn:EH; [|constructor]. destruct (_ =? _); repeat constructor. simpl. destruct (i_ret _ _ _ _ _ _ _ H h EH) as (_ & ->).
          rewrite (k_next _ _ _ K), (i_all _ _ _ _ _ _ _ H), lenN_app. pose proof (i_tot _ _ _ _ _ _ _ H). lia.
        - repeat constructor. }
      assert (X : g_next g <= t_next (s_top s)); [|lia].
      destruct (gget gid s) as [g0|] eqn:EG.
      + inversion HG; subst. apply grun_below; auto. apply (B1 gid); auto.
      + destruct (creates gid o); [|discriminate]. inversion HG; subst. apply grun_below; auto. simpl. lia.
    - intros k ms HI HRs. destruct (colds_step s o k ms HI HRs) as [(k' & HK & HE)|(i & vis & k' & -> & HK & ->)].
      + eapply Forall_impl; [|apply (B2 k' ms HK HE)]. simpl. intros; lia.
      + simpl in OK. rewrite (cold_read_exact crc crc32 f A) by auto. apply Forall_forall. intros m HM.
        assert (MA : In m (on_disk vis s)).
        { assert (Z : In m (from (k_from k') (on_disk vis s))) by (rewrite <- (takeN_dropN _ (k_limit k') (from _ _)); apply in_or_app; auto). unfold from in Z. apply filter_In in Z. tauto. }
        destruct (disk_piece crc crc32 f A s vis HS OK) as (n & ED & _). rewrite ED in MA.
        assert (Z : In m (from (first_file s) A)) by (rewrite <- (takeN_dropN _ n (from _ _)); apply in_or_app; auto). unfold from in Z. apply filter_In in Z. destruct Z as (Z & _).
        apply (log_lt _ _ _ LO) in Z. rewrite (k_next _ _ _ K) in NX. lia.
  Qed.
  Theorem run_below : forall ops f A s, sys_ok crc f A s -> runs_ok crc cfg smax s ops -> below s -> below (run s ops).
  Proof.
    induction ops as [|o ops IH]; intros f A s HS R B; simpl; auto. destruct R as (R1 & R2 & R3).
    eapply IH; [apply (step_ok crc crc32 cfg smax f A s o HS R1 R2)|auto|eapply below_step; eauto].
  Qed.
  Lemma below_new soft : below (sys_new soft).
  Proof. split; [intros gid g H; discriminate|intros k ms []]. Qed.

  (** ** Groups after a restart *)
  Theorem boot_groups soft d gs gid : k_groups d = Some (enc_groups crc gs) -> Forall gid_ok gs -> NoDup (map fst gs) ->
    gget gid (boot crc soft d) = option_map (fun fl => group_restore fl (t_head (s_top (boot crc soft d)))) (aget beqb gid gs).
  Proof.
    intros KG F ND. unfold boot. destruct (recover_topic crc d) as [[head ms] gs'] eqn:ER. unfold recover_topic in ER. rewrite KG in ER. inversion ER; subst gs'; clear ER.
    unfold gget. cbn [s_groups s_top]. rewrite (groups_round_trip crc crc32) by auto.
    exact (aget_map_vals (fun _ fl => group_restore fl _) gid gs).
  Qed.
End Sys.
