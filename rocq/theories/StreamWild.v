(** What stays true of a running topic in every interleaving, also when publishers
    hand their messages to storage out of order. *)
From Verif Require Import LibBase LibMap StreamTopicModel StreamGroupModel StreamStoreModel StreamStoreCodec StreamStoreProofs StreamStoreFacts StreamGroupSpec StreamGroupProofs StreamGroupFetch StreamGroupHist StreamGroupFacts StreamTopicProofs StreamSysModel StreamSysProofs StreamSysHist StreamSysFacts StreamSysBoot StreamSysLife.

Section Sys.
  Variable crc : bytes -> N.
  Hypothesis crc32 : forall b, crc b < 2 ^ 32.
  Variable cfg : gcfg.
  Variable smax : N.
  Notation enc := (enc_msgs crc).
  Notation sstep := (sstep crc cfg smax).

  (** The bytes are whole records of messages numbered below [B]. *)
  Definition holds (B : N) (b : bytes) : Prop := exists ms, b = enc ms /\ Forall (fun m => msg_ok m /\ m_seq m < B) ms.
  Definition files_in (B : N) (segs : list (N * file)) : Prop := forall n f, In (n, f) segs -> holds B (f_bytes f).
  Record wild (s : sys) : Prop := {
    x_mem : mem_ok s;
    x_ram : t_ram (s_top s) <= t_next (s_top s);
    x_below : below s;
    x_box : Forall (fun m => msg_ok m /\ m_seq m < t_next (s_top s)) (s_box s);
    x_files : files_in (t_next (s_top s)) (d_segs (s_store s));
    x_hist : forall gid g, gget gid s = Some g -> exists st h, hist cfg st h g
  }.
  (** Numbers and clock fit in 64 bits, payloads in 32 bits. *)
  Definition fits (s : sys) (o : sop) : Prop :=
    match o with SPub ts pay => t_next (s_top s) < 2 ^ 64 /\ ts < 2 ^ 64 /\ lenN pay < 2 ^ 32 - 16 | _ => True end.

  Lemma holds_mono B B' b : B <= B' -> holds B b -> holds B' b.
  Proof. intros L (ms & E & F). exists ms. split; auto. eapply Forall_impl; [|exact F]. simpl. intros m (P & Q). split; auto. lia. Qed.
  Lemma holds_app B a b : holds B a -> holds B b -> holds B (a ++ b).
  Proof. intros (x & -> & F) (y & -> & G). exists (x ++ y). split; [symmetry; apply enc_msgs_app|]. apply Forall_app; auto. Qed.
  Lemma holds_nil B : holds B [].
  Proof. exists []. split; [reflexivity|constructor]. Qed.
  Lemma in_bput {V} n (v : V) : forall l x w, In (x, w) (bput n v l) -> (x = n /\ w = v) \/ In (x, w) l.
  Proof.
    induction l as [|[k u] l IH]; simpl; intros x w H; [destruct H as [H|[]]; inversion H; auto|].
    destruct (n =? k); simpl in H.
    - destruct H as [H|H]; [inversion H; auto|auto].
    - destruct (n <? k); simpl in H.
      + destruct H as [H|[H|H]]; [inversion H; auto|auto|auto].
      + destruct H as [H|H]; [auto|]. apply IH in H. intuition.
  Qed.
  Lemma files_mono B B' l : B <= B' -> files_in B l -> files_in B' l.
  Proof. intros L F n f H. eapply holds_mono; eauto. Qed.
  Lemma files_append B n b l : files_in B l -> holds B b -> files_in B (append_file n b l).
  Proof.
    intros F H x f HI. unfold append_file in HI. destruct (aget N.eqb n l) as [g|] eqn:E.
    - apply in_bput in HI. destruct HI as [(-> & ->)|HI]; [|eapply F; eauto]. simpl. apply holds_app; auto. apply (F n). apply (aget_In N.eqb N_eqb_eq); auto.
    - apply in_bput in HI. destruct HI as [(-> & ->)|HI]; [auto|eapply F; eauto].
  Qed.
  Lemma files_sync B n l : files_in B l -> files_in B (sync_file n l).
  Proof.
    intros F x f HI. unfold sync_file in HI. destruct (aget N.eqb n l) as [g|] eqn:E; [|eapply F; eauto].
    apply in_bput in HI. destruct HI as [(-> & ->)|HI]; [|eapply F; eauto]. simpl. apply (F n). apply (aget_In N.eqb N_eqb_eq); auto.
  Qed.
  Lemma files_handle B m st : files_in B (d_segs st) -> msg_ok m -> m_seq m < B -> files_in B (d_segs (handle_append crc smax [m] st)).
  Proof.
    intros F M L. simpl. unfold write_batch. simpl d_segs. apply files_append.
    - destruct (_ && _); [apply files_sync; auto|auto].
    - exists [m]. split; [reflexivity|]. constructor; auto.
  Qed.

  (** A disk read returns messages that are in the files. *)
  Lemma read_in B k start limit b m : holds B b -> 1 <= limit -> In m (read_segment crc (takeN k b) start limit) -> m_seq m < B.
  Proof.
    intros (ms & -> & F) L H. rewrite (read_takes crc crc32) in H; auto.
    - assert (X : In m (filter (fun m => start <=? m_seq m) (complete k ms))) by (rewrite <- (takeN_dropN _ limit (filter _ _)); apply in_or_app; auto).
      apply filter_In in X. destruct X as (X & _). destruct (complete_prefix ms k) as (post & E). rewrite Forall_forall in F. apply F. rewrite E. apply in_or_app; auto.
    - eapply Forall_impl; [|exact F]. simpl. tauto.
  Qed.
  Lemma cold_segs_in B : forall segs cur limit m, (forall n b, In (n, b) segs -> exists k b', b = takeN k b' /\ holds B b') ->
    In m (cold_segs crc cur limit segs) -> m_seq m < B.
  Proof.
    induction segs as [|[n b] segs IH]; intros cur limit m F H; simpl in H; [contradiction|].
    destruct (N.eqb_spec limit 0); [contradiction|]. destruct (F n b (or_introl eq_refl)) as (k & b' & -> & HB).
    assert (R : In m (read_segment crc (takeN k b') cur limit) -> m_seq m < B) by (apply (read_in B k); auto; lia).
    destruct (last_msg _); [apply in_app_or in H; destruct H as [H|H]; auto|]; eapply IH; eauto; intros j c HJ; apply (F j); right; auto.
  Qed.
  Lemma skip_in cur : forall segs x, In x (skip_to cur segs) -> In x segs.
  Proof.
    induction segs as [|s r IH]; intros x H; simpl in H; [contradiction|]. destruct (existsb _ _); [right; auto|]. destruct (_ <=? _); [auto|contradiction].
  Qed.
  Lemma cold_in B vis st from limit m : files_in B (d_segs st) -> In m (cold_read crc (seen vis st) from limit) -> m_seq m < B.
  Proof.
    intros F H. unfold cold_read in H. destruct (seen vis st) as [|s r] eqn:E; [contradiction|]. rewrite <- E in H.
    eapply cold_segs_in; [|exact H]. intros n b HI. apply skip_in in HI. unfold seen in HI. apply in_map_iff in HI. destruct HI as ([k f] & X & HI).
    inversion X; subst. eexists; eexists. split; [reflexivity|]. eapply F; eauto.
  Qed.

  Lemma store_step s o : wild s -> fits s o -> files_in (t_next (s_top s)) (d_segs (s_store (fst (sstep s o)))) /\
    Forall (fun m => msg_ok m /\ m_seq m < t_next (s_top (fst (sstep s o)))) (s_box (fst (sstep s o))).
  Proof.
    intros [X1 X2 X3 X4 X5 X6] FT. destruct (consumer_op o) eqn:C.
    { pose proof (consumer_core crc cfg smax s o C) as E. unfold core in E. inversion E as [[E1 E2 E3 E4 E5]]. rewrite E1, E2, E3. auto. }
    destruct o; try discriminate C; cbn [StreamSysModel.sstep fst].
    - split; auto. unfold op_publish. simpl. destruct FT as (A & B & D). apply Forall_app. split.
      + eapply Forall_impl; [|exact X4]. simpl. intros m (P & Q). split; auto. lia.
      + constructor; [|constructor]. split; [split; auto|simpl; lia].
    - unfold op_send. destruct (nth_error (s_box s) i) as [m|] eqn:E; [|auto]. simpl. rewrite Forall_forall in X4.
      destruct (X4 m) as (M & L); [eapply nth_error_In; eauto|]. split; [apply files_handle; auto|]. apply Forall_forall. intros x H. apply X4.
      apply in_app_or in H. destruct H as [H|H]; [rewrite <- (firstn_skipn i (s_box s))|rewrite <- (firstn_skipn (S i) (s_box s))]; apply in_or_app; auto.
    - auto.
    - split; auto. simpl. destruct (evict_fields (s_evp s) (s_top s)) as (-> & _). auto.
    - unfold op_save. destruct (s_save s); auto.
    - unfold op_retain, apply_retention. simpl. split; auto. intros n f H. apply filter_In in H. apply (X5 n). tauto.
    - unfold op_head. destruct (s_ret s) as [h|]; [|auto]. destruct (_ =? _); [auto|]. cbn [fst].
      match goal with |- context [mark ?b ?x] => assert (MK : s_store (mark b x) = s_store x /\ s_box (mark b x) = s_box x /\ s_top (mark b x) = s_top x) by (destruct b; auto); destruct MK as (-> & -> & ->) end. simpl. auto.
    - split; auto. simpl. unfold flush_all.
      assert (G : files_in (t_next (s_top s)) (map (fun nf => (fst nf, sync (snd nf))) (d_segs (s_store s)))).
      { intros n f H. apply in_map_iff in H. destruct H as ([k g] & E & H). inversion E; subst. simpl. eapply X5; eauto. }
      destruct (d_dirty _), (d_ctx _) as [c|]; try destruct (0 <? c_high c); exact G.
    - split; auto. simpl. intros n f H. apply in_map_iff in H. destruct H as ([k g] & E & H). inversion E; subst. simpl. eapply X5; eauto.
  Qed.
  Lemma ram_step s o : wild s -> t_ram (s_top (fst (sstep s o))) <= t_next (s_top (fst (sstep s o))).
  Proof.
    intros [X1 X2 X3 X4 X5 X6]. destruct (m_top _ X1) as (f & A & IK).
    destruct (top_step crc cfg smax s o) as [->|[(ts & pay & _ & ->)|[(_ & ->)|(h & _ & HE & ->)]]]; auto.
    - simpl. destruct (t_log (s_top s)); lia.
    - apply (evict_ram_next f A); auto.
    - pose proof (m_ret _ X1 h HE) as L. destruct IK as (K & HR & HN). pose proof (k_pos _ _ _ K). unfold apply_head. simpl.
      destruct (drop_below (N.max h 1) (t_log (s_top s))) as [|m r] eqn:E; [lia|].
      destruct (drop_below_spec (N.max h 1) (t_log (s_top s))) as (pre & E1 & _). rewrite E in E1. destruct (k_log _ _ _ K) as (k & EL & _).
      assert (IA : In m A) by (rewrite <- (takeN_dropN _ k A), <- EL, E1; apply in_or_app; right; apply in_or_app; right; left; auto).
      pose proof (log_lt _ _ _ (k_all _ _ _ K) IA). rewrite (k_next _ _ _ K). lia.
  Qed.
  Lemma trace_below gid g s o : wild s -> Forall (gop_below (t_next (s_top s))) (gtrace crc cfg smax gid g s o).
  Proof.
    intros [X1 X2 (B1 & B2) X4 X5 X6]. destruct (m_top _ X1) as (f & A & K & HR & HN). pose proof (k_pos _ _ _ K) as P.
    assert (RL : t_ram (s_top s) + lenN (t_log (s_top s)) <= t_next (s_top s)).
    { destruct (t_log (s_top s)) as [|m r] eqn:EL; [rewrite lenN_nil; lia|]. destruct (k_log _ _ _ K) as (k & E & F).
      destruct F as (F1 & F2); [rewrite EL; discriminate|]. rewrite (k_next _ _ _ K), <- EL, E, lenN_dropN. lia. }
    destruct o; cbn [gtrace]; try apply Forall_nil.
    - destruct (beqb gid gid0); repeat constructor. exact HN.
    - destruct (_ && _); repeat constructor.
    - destruct (aget _ _ _); [|constructor]. apply Forall_forall. intros x Hx. apply in_map_iff in Hx. destruct Hx as (y & <- & _). exact Logic.I.
    - destruct (beqb gid gid0); repeat constructor. exact HN.
    - destruct (beqb gid gid0); repeat constructor. destruct beginning; simpl; lia.
    - destruct (beqb gid gid0); [|constructor]. constructor; [exact HN|]. destruct (is_backpressured _ _); constructor.
      + simpl. split; auto.
      + destruct (snd (sstep s (STry gid0 c gen limit now tok))); try apply Forall_nil. apply Forall_cons; [exact Logic.I|apply Forall_nil].
    - destruct (nth_error _ _) as [k|] eqn:EN; [|constructor]. destruct (beqb gid (k_gid k)); [|constructor]. destruct (k_res k) as [ms|] eqn:EK; constructor; [exact Logic.I|].
      destruct (_ =? _); [|constructor]. constructor; [exact HN|]. constructor; [|constructor]. split; [|exact HN]. apply (B2 k); auto. eapply nth_error_In; eauto.
    - destruct (s_ret s) as [h|] eqn:EH; [|constructor]. destruct (_ =? _); repeat constructor. simpl. apply (m_ret _ X1 h EH).
    - repeat constructor.
  Qed.
  Theorem wild_step s o : wild s -> fits s o -> wild (fst (sstep s o)).
  Proof.
    intros X FT. pose proof (top_next_le crc cfg smax s o) as NX. destruct (store_step s o X FT) as (S1 & S2).
    pose proof X as [X1 X2 (B1 & B2) X4 X5 X6]. destruct (m_top _ X1) as (f & A & K & HR & HN). pose proof (k_pos _ _ _ K) as P.
    constructor.
    - apply mem_step; auto.
    - apply ram_step; auto.
    - split.
      + intros gid g HG. rewrite step_group in HG. assert (Z : g_next g <= t_next (s_top s)); [|lia].
        destruct (gget gid s) as [g0|] eqn:EG.
        * inversion HG; subst. apply grun_below; auto; [apply (B1 gid); auto|apply trace_below; auto].
        * destruct (creates gid o); [|discriminate]. inversion HG; subst. apply grun_below; auto; [simpl; lia|apply trace_below; auto].
      + intros k ms HI HRs. destruct (colds_step crc cfg smax s o k ms HI HRs) as [(k' & HK & HE)|(i & vis & k' & -> & HK & ->)].
        * eapply Forall_impl; [|apply (B2 k' ms HK HE)]. simpl. intros; lia.
        * apply Forall_forall. intros m HM. apply (cold_in (t_next (s_top s))) in HM; [lia|auto].
    - exact S2.
    - eapply files_mono; eauto.
    - intros gid g HG. destruct (gget gid s) as [g0|] eqn:EG.
      + destruct (X6 gid g0 EG) as (st & h & HH). assert (T : tracked cfg gid s (Some (st, h))) by (unfold tracked; rewrite EG; eauto).
        apply (tracked_step crc cfg smax gid s o) in T; auto. unfold tracked in T. rewrite HG in T. destruct T as (st' & h' & _ & T). eauto.
      + assert (T : tracked cfg gid s None) by (unfold tracked; rewrite EG; auto).
        apply (tracked_step crc cfg smax gid s o) in T; auto. unfold tracked in T. rewrite HG in T. destruct T as (st' & h' & _ & T). eauto.
  Qed.
  Lemma wild_new soft : wild (sys_new soft).
  Proof.
    constructor; simpl; try discriminate.
    - apply mem_new.
    - apply below_new.
    - constructor.
    - intros n f [].
  Qed.
  (** Also from any state reached through restarts with everything on disk. *)
  Theorem wild_calm A s : 1 <= max_del cfg -> calm crc cfg smax A s -> wild s.
  Proof.
    intros MD H. pose proof (calm_all crc crc32 cfg smax MD A s H) as C. pose proof (calm_sys crc crc32 cfg smax A s H) as (W & dh & bl & S).
    pose proof (i_topic _ _ _ _ _ _ _ S) as (K & HR & HN).
    constructor.
    - apply (c_mem _ _ _ C).
    - apply (i_ram2 _ _ _ _ _ _ _ S).
    - apply (c_below _ _ _ C).
    - apply Forall_forall. intros m HM. split; [pose proof (i_box _ _ _ _ _ _ _ S) as F; rewrite Forall_forall in F; auto|].
      assert (IA : In m A) by (rewrite (i_all _ _ _ _ _ _ _ S); apply in_or_app; auto). pose proof (log_lt _ _ _ (k_all _ _ _ K) IA). rewrite (k_next _ _ _ K). lia.
    - intros n f HI. pose proof (i_store _ _ _ _ _ _ _ S) as ST. rewrite (so_segs _ _ _ _ ST) in HI. apply in_map_iff in HI. destruct HI as (b & E & HB). inversion E; subst.
      exists (b_ms b). split; [reflexivity|]. apply Forall_forall. intros m HM.
      assert (MD1 : In m (msgs_of bl)) by (unfold msgs_of; apply in_flat_map; eauto).
      split.
      + destruct (in_split b bl HB) as (x & y & ->). pose proof (so_chain _ _ _ _ ST) as CH. apply chain_app in CH. destruct CH as (_ & (_ & _ & _ & M & _) & _). rewrite Forall_forall in M. auto.
      + assert (IA : In m A).
        { rewrite (i_all _ _ _ _ _ _ _ S). apply in_or_app; left. rewrite (i_disk _ _ _ _ _ _ _ S) in MD1. rewrite <- (takeN_dropN _ (dh - 1) W). apply in_or_app; auto. }
        pose proof (log_lt _ _ _ (k_all _ _ _ K) IA). rewrite (k_next _ _ _ K). lia.
    - apply (c_hist _ _ _ C).
  Qed.
End Sys.
