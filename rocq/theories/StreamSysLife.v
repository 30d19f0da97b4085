(** The life of a topic through operations and restarts. *)
From Verif Require Import LibBase LibMap StreamTopicModel StreamGroupModel StreamStoreModel StreamStoreCodec StreamStoreProofs StreamStoreFacts StreamGroupSpec StreamGroupProofs StreamGroupFetch StreamGroupHist StreamGroupFacts StreamTopicProofs StreamSysModel StreamSysProofs StreamSysHist StreamSysFacts StreamSysBoot.

Section Sys.
  Variable crc : bytes -> N.
  Hypothesis crc32 : forall b, crc b < 2 ^ 32.
  Variable cfg : gcfg.
  Variable smax : N.
  Notation sstep := (sstep crc cfg smax).
  Notation run := (run crc cfg smax).
  Notation on_disk := (on_disk crc).

  (** States reached with operations in order and with restarts, clean or after a
      crash that leaves whole records. The list: the messages published and not lost
      by a crash, from number 1. *)
  Inductive life : list msg -> sys -> Prop :=
  | life_new soft : life [] (sys_new soft)
  | life_step A s o : life A s -> op_ok s o -> orderly o -> life (A ++ adds s o) (fst (sstep s o))
  | life_restart A s soft vis : life A s -> vis_ok vis (s_store s) -> whole crc vis s ->
      life (takeN (first_file s - 1 + lenN (on_disk vis s)) A) (boot crc soft (crash vis (s_store s))).
  Theorem life_ok A s : life A s -> sys_ok crc 1 A s.
  Proof.
    induction 1 as [soft|A s o _ IH OK OR|A s soft vis _ IH V W].
    - apply new_sys_ok.
    - apply step_ok; auto.
    - apply (restart_whole crc crc32 soft 1 A s vis IH ltac:(lia) V W).
  Qed.
  Lemma life_run : forall ops A s, life A s -> runs_ok crc cfg smax s ops -> life (A ++ log_of (t_next (s_top s)) ops) (run s ops).
  Proof.
    induction ops as [|o ops IH]; intros A s L R; simpl; [rewrite app_nil_r; auto|]. destruct R as (R1 & R2 & R3).
    pose proof (life_step A s o L R1 R2) as L1. specialize (IH _ _ L1 R3). rewrite <- app_assoc in IH.
    pose proof (next_of crc _ _ _ (life_ok _ _ L)) as N0. rewrite (next_of crc _ _ _ (life_ok _ _ L1)), lenN_app in IH. rewrite N0.
    destruct o; cbn [adds app] in IH; rewrite ?lenN_nil, ?N.add_0_r in IH; try exact IH.
    rewrite lenN_cons, lenN_nil in IH. cbn [log_of]. rewrite N0 in IH. replace (1 + (lenN A + (1 + 0))) with (1 + lenN A + 1) in IH by lia. exact IH.
  Qed.

  (** ** With restarts only when everything is on disk *)
  Definition short (o : sop) : Prop := match about o with Some gid => lenN gid < 65536 | None => True end.
  Inductive calm : list msg -> sys -> Prop :=
  | calm_new soft : calm [] (sys_new soft)
  | calm_step A s o : calm A s -> op_ok s o -> orderly o -> short o -> calm (A ++ adds s o) (fst (sstep s o))
  | calm_restart A s soft vis : calm A s -> vis_ok vis (s_store s) -> s_box s = [] -> flushed s ->
      calm A (boot crc soft (crash vis (s_store s))).
  Theorem calm_sys A s : calm A s -> sys_ok crc 1 A s.
  Proof.
    induction 1 as [soft|A s o _ IH OK OR SH|A s soft vis _ IH V B F].
    - apply new_sys_ok.
    - apply step_ok; auto.
    - apply (restart_settled crc crc32 soft 1 A s vis IH ltac:(lia) V B F).
  Qed.

  Definition fine (s : sys) (gs : list (bytes * N)) : Prop :=
    NoDup (map fst gs) /\ Forall (fun e => lenN (fst e) < 65536 /\ snd e < t_next (s_top s)) gs.
  Record calm_ok (s : sys) : Prop := {
    c_mem : mem_ok s;
    c_below : below s;
    c_hist : forall gid g, gget gid s = Some g -> exists st h, hist cfg st h g;
    c_nodup : NoDup (akeys (s_groups s));
    c_short : forall gid, In gid (akeys (s_groups s)) -> lenN gid < 65536;
    c_lim : t_next (s_top s) <= 2 ^ 64;
    c_save : forall gs, s_save s = Some gs -> fine s gs;
    c_file : forall b, d_groups (s_store s) = Some b -> exists gs, b = enc_groups crc gs /\ fine s gs
  }.
  Lemma fine_mono s s' gs : t_next (s_top s) <= t_next (s_top s') -> fine s gs -> fine s' gs.
  Proof. intros L (A & B). split; auto. eapply Forall_impl; [|exact B]. simpl. intros x (P & Q). split; auto. lia. Qed.
  Lemma fine_gid s gs : t_next (s_top s) <= 2 ^ 64 -> fine s gs -> Forall gid_ok gs.
  Proof. intros L (_ & B). eapply Forall_impl; [|exact B]. intros [i f] (P & Q). unfold gid_ok. simpl in *. split; auto. lia. Qed.

  Lemma saves_step s o : o <> SCollect -> o <> SSave -> s_save (fst (sstep s o)) = s_save s /\ d_groups (s_store (fst (sstep s o))) = d_groups (s_store s).
  Proof.
    assert (MK : forall b x, s_save (mark b x) = s_save x) by (intros [|] x; reflexivity).
    assert (MS : forall b x, s_store (mark b x) = s_store x) by (intros [|] x; reflexivity).
    destruct o; intros N1 N2; try congruence; cbn [StreamSysModel.sstep fst]; try (split; reflexivity).
    - unfold op_send. destruct (nth_error _ _); split; reflexivity.
    - unfold op_join. destruct (clamp_head _ _). cbn [fst]. rewrite MK, MS. split; reflexivity.
    - unfold op_leave. destruct (gget gid s); auto. destruct (negb _); auto. destruct (remove_member _ _ _ _) as [g' [x|]]; split; reflexivity.
    - unfold op_disconnect. destruct (aget _ _ _) as [l|]; auto.
      assert (F : forall l x, s_save (fold_left (drop_member cfg ord) l x) = s_save x /\ s_store (fold_left (drop_member cfg ord) l x) = s_store x).
      { clear. induction l as [|b l IH]; intro x; simpl; auto. destruct (IH (drop_member cfg ord x b)) as (-> & ->). unfold drop_member. destruct (gget _ _); auto. destruct (remove_member _ _ _ _) as [g' [y|]]; split; reflexivity. }
      destruct (F l (set_clients (adel N.eqb conn (s_clients s)) s)) as (-> & ->). split; reflexivity.
    - unfold op_ack. destruct (gget gid s); auto. destruct (ack _ _ _ _) as [g' [x|]]; split; reflexivity.
    - unfold op_try. destruct (gget gid s); auto. destruct (clamp_head _ _) as [g1 cl]. destruct (is_backpressured cfg g1); [split; reflexivity|].
      destruct (fetch _ _ _ _ _ _ _ _ _) as [g2 [e|[|m r]]]; cbn [fst]; rewrite ?MK, ?MS; try (split; reflexivity).
      destruct (g_cold g2); cbn [fst]; rewrite ?MK, ?MS; [split; reflexivity|]. destruct (_ && _); cbn [fst]; [destruct cl; split; reflexivity|rewrite MK, MS; split; reflexivity].
    - unfold op_cold_run. destruct (nth_error _ _); split; reflexivity.
    - unfold op_cold_done. destruct (nth_error _ _) as [k|]; auto. destruct (k_res k); auto.
      destruct (gget _ _); [|split; reflexivity]. destruct (negb _); [split; reflexivity|]. destruct (clamp_head _ _) as [g2 cl].
      destruct (register_cold _ _ _ _ _ _ _) as [g3 [e|r]]; cbn [fst]; rewrite ?MK, ?MS; split; reflexivity.
    - unfold op_head. destruct (s_ret s) as [h|]; auto. destruct (h =? _); auto. cbn [fst]. rewrite MK, MS. split; reflexivity.
    - unfold op_tick. cbn [fst]. rewrite MK, MS. split; reflexivity.
    - split; auto. simpl. unfold flush_all. destruct (d_dirty (s_store s)), (d_ctx (s_store s)) as [c|]; try reflexivity. destruct (0 <? c_high c); reflexivity.
  Qed.
  Lemma keys_step s o : NoDup (akeys (s_groups s)) -> NoDup (akeys (s_groups (fst (sstep s o)))).
  Proof.
    assert (MK : forall b x, s_groups (mark b x) = s_groups x) by (intros [|] x; reflexivity).
    assert (GP : forall gid g x, NoDup (akeys (s_groups x)) -> NoDup (akeys (s_groups (gput gid g x)))) by (intros; apply (NoDup_aset beqb beqb_eq); auto).
    intro ND. destruct o; cbn [StreamSysModel.sstep fst]; auto.
    - unfold op_send. destruct (nth_error _ _); auto.
    - unfold op_join. destruct (clamp_head _ _). cbn [fst]. rewrite MK. apply (GP gid); auto.
    - unfold op_leave. destruct (gget gid s); auto. destruct (negb _); auto. destruct (remove_member _ _ _ _) as [g' [x|]]; auto. apply (GP gid); auto.
    - unfold op_disconnect. destruct (aget _ _ _) as [l|]; auto.
      assert (F : forall l x, NoDup (akeys (s_groups x)) -> NoDup (akeys (s_groups (fold_left (drop_member cfg ord) l x)))).
      { induction l0 as [|b l0 IH]; intros x Hx; simpl; auto. apply IH. unfold drop_member. destruct (gget _ _); auto. destruct (remove_member _ _ _ _) as [g' [y|]]; auto. apply (GP (fst b)); auto. }
      apply F. auto.
    - unfold op_ack. destruct (gget gid s); auto. destruct (ack _ _ _ _) as [g' [x|]]; apply (GP gid); auto.
    - apply (GP gid); auto.
    - unfold op_try. destruct (gget gid s); auto. destruct (clamp_head _ _) as [g1 cl]. destruct (is_backpressured cfg g1); [apply (GP gid); auto|].
      destruct (fetch _ _ _ _ _ _ _ _ _) as [g2 [e|[|m r]]]; cbn [fst]; rewrite ?MK; try (apply (GP gid); auto).
      destruct (g_cold g2); cbn [fst]; rewrite ?MK; [apply (GP gid); auto|]. destruct (_ && _); cbn [fst set_colds s_groups]; rewrite MK; apply (GP gid); auto.
    - unfold op_cold_run. destruct (nth_error _ _); auto.
    - unfold op_cold_done. destruct (nth_error _ _) as [k|]; auto. destruct (k_res k); auto.
      destruct (gget _ _); auto. destruct (negb _); [apply (GP (k_gid k)); auto|]. destruct (clamp_head _ _) as [g2 cl].
      destruct (register_cold _ _ _ _ _ _ _) as [g3 [e|r]]; cbn [fst]; rewrite ?MK; apply (GP (k_gid k)); auto.
    - unfold op_collect. destruct (s_dirty s); auto.
    - unfold op_save. destruct (s_save s); auto.
    - unfold op_head. destruct (s_ret s) as [h|]; auto. destruct (h =? _); auto. cbn [fst]. rewrite MK. cbn [s_groups set_groups]. unfold akeys in *. rewrite !map_map. simpl. exact ND.
    - unfold op_tick. cbn [fst]. rewrite MK. cbn [s_groups set_groups]. unfold akeys in *. rewrite !map_map. simpl. exact ND.
  Qed.
  Lemma key_gget gid s : In gid (akeys (s_groups s)) <-> gget gid s <> None.
  Proof.
    unfold gget. split; intro H.
    - intro X. apply (aget_None_notin beqb beqb_eq) in X. auto.
    - destruct (aget beqb gid (s_groups s)) eqn:E; [|congruence]. apply (aget_In beqb beqb_eq) in E. unfold akeys. apply in_map_iff. exists (gid, g). auto.
  Qed.

  Lemma calm_ok_new soft : calm_ok (sys_new soft).
  Proof.
    constructor; simpl; try discriminate; try lia.
    - apply mem_new.
    - apply below_new.
    - constructor.
  Qed.
  Hypothesis MD : 1 <= max_del cfg.
  Lemma calm_ok_step A s o : sys_ok crc 1 A s -> op_ok s o -> short o -> calm_ok s -> calm_ok (fst (sstep s o)).
  Proof.
    intros HS OK SH [C1 C2 C3 C4 C5 C6 C7 C8]. pose proof (top_next_le crc cfg smax s o) as NX.
    assert (TH : forall gid g, gget gid (fst (sstep s o)) = Some g -> exists st h, hist cfg st h g).
    { intros gid g HG. destruct (gget gid s) as [g0|] eqn:EG.
      - destruct (C3 gid g0 EG) as (st & h & HH). assert (T : tracked cfg gid s (Some (st, h))) by (unfold tracked; rewrite EG; eauto).
        apply (tracked_step crc cfg smax gid s o) in T; auto. unfold tracked in T. rewrite HG in T. destruct T as (st' & h' & _ & T). eauto.
      - assert (T : tracked cfg gid s None) by (unfold tracked; rewrite EG; reflexivity).
        apply (tracked_step crc cfg smax gid s o) in T; auto. unfold tracked in T. rewrite HG in T. destruct T as (st' & h' & _ & T). eauto. }
    constructor.
    - apply mem_step; auto.
    - apply (below_step crc crc32 cfg smax 1 A); auto.
    - exact TH.
    - apply keys_step; auto.
    - intros gid H. apply key_gget in H. rewrite step_group in H. destruct (gget gid s) eqn:EG; [apply C5; apply key_gget; congruence|].
      destruct (creates gid o) eqn:EC; [|congruence]. unfold short in SH. destruct o; simpl in EC, SH; try discriminate; apply beqb_eq in EC; subst; auto.
    - destruct (top_step crc cfg smax s o) as [E|[(ts & pay & -> & E)|[(_ & E)|(h & _ & _ & E)]]]; rewrite E; auto.
      + simpl in OK |- *. lia.
      + destruct (evict_fields (s_evp s) (s_top s)) as (-> & _). auto.
    - intros gs HG. destruct (match o with SCollect => true | _ => false end) eqn:E1.
      + destruct o; try discriminate. simpl in *. unfold op_collect in *. destruct (s_dirty s); [|auto]. simpl in HG. inversion HG; subst; clear HG. split.
        * rewrite map_map. simpl. exact C4.
        * rewrite Forall_map. simpl. apply Forall_forall. intros [i g] HI. simpl. split; [apply C5; unfold akeys; apply in_map_iff; exists (i, g); auto|].
          assert (EG : gget i s = Some g) by (apply (In_aget beqb beqb_eq); auto). destruct (C3 i g EG) as (st & h & HH). destruct (hist_agrees cfg MD _ _ _ HH) as [(I0 & _) _ _ _].
          pose proof (proj1 C2 i g EG). pose proof (i_fl _ _ I0). lia.
      + destruct (match o with SSave => true | _ => false end) eqn:E2.
        * destruct o; try discriminate. simpl in *. unfold op_save in *. destruct (s_save s) eqn:ES; simpl in HG; [discriminate|congruence].
        * assert (N1 : o <> SCollect) by (intros ->; discriminate). assert (N2 : o <> SSave) by (intros ->; discriminate).
          destruct (saves_step s o N1 N2) as (X & _). rewrite X in HG. eapply fine_mono; eauto.
    - intros b HB. destruct (match o with SCollect => true | _ => false end) eqn:E1.
      + destruct o; try discriminate. simpl in *. unfold op_collect in *. destruct (s_dirty s); auto.
      + destruct (match o with SSave => true | _ => false end) eqn:E2.
        * destruct o; try discriminate. simpl in *. unfold op_save in *. destruct (s_save s) as [gs|] eqn:ES; [|auto]. simpl in HB. inversion HB; subst. exists gs. split; auto. apply (fine_mono s); auto.
        * assert (N1 : o <> SCollect) by (intros ->; discriminate). assert (N2 : o <> SSave) by (intros ->; discriminate).
          destruct (saves_step s o N1 N2) as (_ & X). rewrite X in HB. destruct (C8 b HB) as (gs & -> & F). exists gs. split; auto. eapply fine_mono; eauto.
  Qed.
  Lemma names_next n bl : chain crc n bl -> forall b, In b bl -> b_name b <= n + lenN (msgs_of bl).
  Proof.
    revert n. induction bl as [|x bl IH]; intros n CH b HB; [contradiction|]. destruct CH as (A & _ & _ & _ & _ & _ & G). simpl. rewrite lenN_app.
    destruct HB as [<-|HB]; [lia|]. specialize (IH _ G b HB). lia.
  Qed.
  Lemma calm_ok_boot A s soft vis : sys_ok crc 1 A s -> vis_ok vis (s_store s) -> s_box s = [] -> flushed s -> calm_ok s ->
    calm_ok (boot crc soft (crash vis (s_store s))).
  Proof.
    intros HS V B F [C1 C2 C3 C4 C5 C6 C7 C8]. destruct (restart_settled crc crc32 soft 1 A s vis HS ltac:(lia) V B F) as (R1 & R2 & R3).
    set (s2 := boot crc soft (crash vis (s_store s))) in *.
    assert (EM : s_box s2 = [] /\ s_colds s2 = [] /\ s_ret s2 = None /\ s_save s2 = None /\ d_ctx (s_store s2) = None /\ d_groups (s_store s2) = d_groups (s_store s)).
    { unfold s2, boot. destruct (recover_topic _ _) as [[? ?] ?]. simpl. auto 10. }
    destruct EM as (E1 & E2 & E3 & E4 & E5 & E6).
    assert (GR : s_groups s2 = map (fun e => (fst e, group_restore (snd e) (t_head (s_top s2)))) (match d_groups (s_store s) with Some b => load_groups crc b | None => [] end)).
    { unfold s2, boot. unfold recover_topic. simpl. reflexivity. }
    assert (FN : forall x y, In (x, y) (match d_groups (s_store s) with Some b => load_groups crc b | None => [] end) -> lenN x < 65536 /\ y < t_next (s_top s)).
    { destruct (d_groups (s_store s)) as [b|] eqn:EG; [|simpl; tauto]. destruct (C8 b eq_refl) as (gs & -> & FI). rewrite (groups_round_trip crc crc32); [|eapply fine_gid; eauto|apply FI].
      intros x y H. destruct FI as (_ & FI). rewrite Forall_forall in FI. apply (FI (x, y) H). }
    assert (NDG : NoDup (akeys (s_groups s2))).
    { rewrite GR. unfold akeys. rewrite map_map. simpl. destruct (d_groups (s_store s)) as [b|] eqn:EG; [|constructor]. destruct (C8 b eq_refl) as (gs & -> & FI).
      rewrite (groups_round_trip crc crc32); [apply FI|eapply fine_gid; eauto|apply FI]. }
    pose proof R3 as (W & dh & bl & H). pose proof (i_store _ _ _ _ _ _ _ H) as SO.
    assert (GB : forall gid g, gget gid s2 = Some g -> exists fl, g = group_restore fl (t_head (s_top s2)) /\ lenN gid < 65536 /\ fl < t_next (s_top s)).
    { intros gid g HG. unfold gget in HG. rewrite GR in HG. rewrite (aget_map_vals (fun _ fl => group_restore fl (t_head (s_top s2)))) in HG.
      destruct (aget beqb gid _) as [fl|] eqn:EA in HG; [|discriminate]. simpl in HG. inversion HG; subst. exists fl. apply (aget_In beqb beqb_eq) in EA. split; auto. }
    pose proof (i_topic _ _ _ _ _ _ _ H) as IT.
    constructor.
    - constructor.
      + exists 1, A. auto.
      + intros n HN. rewrite (so_segs _ _ _ _ SO), akeys_blk in HN. apply in_map_iff in HN. destruct HN as (b & <- & HB).
        pose proof (names_next _ _ (so_chain _ _ _ _ SO) b HB). rewrite (k_next _ _ _ (proj1 IT)), (i_all _ _ _ _ _ _ _ H), lenN_app. pose proof (i_tot _ _ _ _ _ _ _ H). lia.
      + rewrite E5. discriminate.
      + rewrite E1. simpl. tauto.
      + rewrite E3. discriminate.
    - split.
      + intros gid g HG. destruct (GB gid g HG) as (fl & -> & _ & L). cbn [group_restore g_next]. destruct IT as (K & _ & HN). pose proof (i_pos _ _ _ _ _ _ _ H). pose proof (k_pos _ _ _ K). lia.
      + rewrite E2. simpl. tauto.
    - intros gid g HG. destruct (GB gid g HG) as (fl & -> & _). eexists; eexists. apply hist_restore. reflexivity.
    - exact NDG.
    - intros gid HI. apply key_gget in HI. destruct (gget gid s2) as [g|] eqn:EG; [|congruence]. destruct (GB gid g EG) as (fl & _ & L & _). auto.
    - lia.
    - rewrite E4. discriminate.
    - rewrite E6. intros b HB. destruct (C8 b HB) as (gs & -> & FI). exists gs. split; auto. eapply fine_mono; [|exact FI]. lia.
  Qed.
  Theorem calm_all A s : calm A s -> calm_ok s.
  Proof.
    induction 1 as [soft|A s o L IH OK OR SH|A s soft vis L IH V B F].
    - apply calm_ok_new.
    - apply (calm_ok_step A); auto. apply calm_sys; auto.
    - apply (calm_ok_boot A); auto. apply calm_sys; auto.
  Qed.

  (** ** Groups after a restart *)
  (** Saving the groups and restarting: every group is back at its floor. *)
  Theorem saved_restart A s soft vis gid : calm A s -> s_dirty s = true -> s_box s = [] -> flushed s ->
    let s1 := run s [SCollect; SSave] in vis_ok vis (s_store s1) ->
    let s2 := boot crc soft (crash vis (s_store s1)) in
    gget gid s2 = option_map (fun g => group_restore (g_floor g) (t_head (s_top s2))) (gget gid s).
  Proof.
    intros L D B F s1 V s2. pose proof (calm_all A s L) as [C1 C2 C3 C4 C5 C6 C7 C8].
    assert (L1 : calm_ok (fst (sstep s SCollect))) by (apply (calm_ok_step A); [apply calm_sys; auto|exact Logic.I|exact Logic.I|constructor; auto]).
    assert (ES : s_save (fst (sstep s SCollect)) = Some (map (fun e => (fst e, g_floor (snd e))) (s_groups s))) by (simpl; unfold op_collect; rewrite D; reflexivity).
    pose proof (c_save _ L1 _ ES) as FI.
    assert (KG : k_groups (crash vis (s_store s1)) = Some (enc_groups crc (map (fun e => (fst e, g_floor (snd e))) (s_groups s)))).
    { unfold s1. simpl. unfold op_save, op_collect. rewrite D. reflexivity. }
    unfold s2. rewrite (boot_groups crc crc32 soft _ _ gid KG); [|apply (fine_gid _ _ (c_lim _ L1) FI)|apply FI].
    rewrite (aget_map_vals (fun _ g => g_floor g)). fold (gget gid s). destruct (gget gid s); reflexivity.
  Qed.
  (** After any restart of a calm topic no group starts beyond the next number. *)
  Theorem restart_no_skip A s soft vis gid g : calm A s -> vis_ok vis (s_store s) -> s_box s = [] -> flushed s ->
    let s2 := boot crc soft (crash vis (s_store s)) in
    gget gid s2 = Some g -> exists st, hist cfg st [] g /\ st <= t_next (s_top s2).
  Proof.
    intros L V B F s2 HG. pose proof (calm_ok_boot A s soft vis (calm_sys A s L) V B F (calm_all A s L)) as C.
    pose proof (proj1 (c_below _ C) gid g HG) as X. pose proof HG as HG0. unfold s2, boot in HG. destruct (recover_topic crc (crash vis (s_store s))) as [[head ms] gs]. unfold gget in HG. cbn [s_groups s_top] in HG.
    rewrite (aget_map_vals (fun _ fl => group_restore fl _)) in HG. destruct (aget beqb gid gs) as [fl|]; [|discriminate]. simpl in HG. inversion HG; subst g.
    eexists. split; [apply hist_restore; reflexivity|]. exact X.
  Qed.
End Sys.
