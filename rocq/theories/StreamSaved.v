(** The flag that says the groups have to be saved is set whenever it must be. *)
From Verif Require Import LibBase LibMap StreamTopicModel StreamGroupModel StreamStoreModel StreamStoreCodec StreamStoreProofs StreamStoreFacts StreamGroupSpec StreamGroupProofs StreamGroupFetch StreamGroupHist StreamGroupFacts StreamTopicProofs StreamSysModel StreamSysProofs StreamSysHist StreamSysFacts StreamSysBoot StreamSysLife.

Section G.
  Variable cfg : gcfg.
  Hypothesis MD : 1 <= max_del cfg.

  Definition closed (x : status) : Prop := x = Done \/ x = Parked.
  (** Everything before [h] is done with. *)
  Definition past (h : N) (g : group) : Prop := forall s, s < h -> abs g s = Done.
  Definition tame (g : group) : Prop := exists st h, hist cfg st h g.

  Lemma tame_new head : tame (group_new head).
  Proof. eexists; eexists. apply hist_new. reflexivity. Qed.
  Lemma tame_restore fl head : tame (group_restore fl head).
  Proof. eexists; eexists. apply hist_restore. reflexivity. Qed.
  Lemma tame_step g op : tame g -> gop_ok op -> tame (fst (gstep cfg g op)).
  Proof. intros (st & h & H) OK. destruct (gstep cfg g op) as [g' o] eqn:E. exists st, ((op, o) :: h). simpl. eapply hist_step; eauto. Qed.

  Lemma floor_closed g s : tame g -> s <= g_floor g -> closed (abs g s).
  Proof. intros (st & h & H) L. pose proof (floor_settled cfg MD st h g s H L) as X. rewrite (a_st _ _ _ _ (hist_agrees cfg MD _ _ _ H)) in X. exact X. Qed.
  Lemma floor_open g : tame g -> ~ closed (abs g (g_floor g + 1)).
  Proof.
    intros (st & h & H). pose proof (floor_maximal cfg MD st h g H) as X. cbv zeta in X. rewrite (a_st _ _ _ _ (hist_agrees cfg MD _ _ _ H)) in X.
    intros [C|C]; rewrite C in X; destruct X as [X|[(? & ? & ? & X)|(? & X)]]; discriminate.
  Qed.
  (** The floor is determined by which messages are settled. *)
  Lemma floor_same g g' : tame g -> tame g' -> (forall s, closed (abs g s) <-> closed (abs g' s)) -> g_floor g' = g_floor g.
  Proof.
    intros T T' E. destruct (N.lt_trichotomy (g_floor g') (g_floor g)) as [L|[L|L]]; auto.
    - exfalso. apply (floor_open g' T'). apply E. apply floor_closed; auto. lia.
    - exfalso. apply (floor_open g T). apply E. apply floor_closed; auto. lia.
  Qed.
  Lemma floor_of g n : tame g -> (forall s, s <= n -> closed (abs g s)) -> n <= g_floor g.
  Proof. intros T H. destruct (N.le_gt_cases n (g_floor g)) as [L|L]; auto. exfalso. apply (floor_open g T). apply H. lia. Qed.
  Lemma past_floor h g : tame g -> past h g -> h <= g_floor g + 1.
  Proof. intros T P. destruct (N.le_gt_cases h (g_floor g + 1)) as [L|L]; auto. exfalso. apply (floor_open g T). left. apply P. auto. Qed.

  Lemma abs_step g op g' o s : tame g -> gop_ok op -> gstep cfg g op = (g', o) ->
    exists st h, hist cfg st h g /\ hist cfg st ((op, o) :: h) g' /\ status_of cfg st h s = abs g s /\ status_of cfg st ((op, o) :: h) s = abs g' s.
  Proof.
    intros (st & h & H) OK X. pose proof (hist_step cfg st h g op g' o H OK X) as H'. exists st, h. split; auto. split; auto.
    split; [apply (a_st _ _ _ _ (hist_agrees cfg MD _ _ _ H))|apply (a_st _ _ _ _ (hist_agrees cfg MD _ _ _ H'))].
  Qed.
  (** Nothing before [head] comes back unless a seek goes before it. *)
  Definition from_head (head : N) (op : gop) : Prop :=
    match op with GSeekB h => head <= N.max h 1 | GSeekE last => head <= last + 1 | _ => True end.
  Lemma past_step head g op : tame g -> gop_ok op -> from_head head op -> past head g -> past head (fst (gstep cfg g op)).
  Proof.
    intros T OK FH P s L. destruct (gstep cfg g op) as [g' o] eqn:X. destruct (abs_step g op g' o s T OK X) as (st & h & H & H' & E & E').
    cbn [fst]. rewrite <- E'. specialize (P s L). rewrite P in E. destruct (is_seek op) eqn:SK.
    - destruct op; simpl in SK; try discriminate; simpl in FH |- *.
      + destruct (N.ltb_spec s (N.max head0 1)); auto. lia.
      + destruct (N.leb_spec s last); auto. lia.
    - destruct (done_step cfg MD st h g' (op, o) s H' (or_introl E) SK) as (_ & [Y|Y]); [exact (eq_trans Y E)|exact Y].
  Qed.
  (** Operations that settle nothing. *)
  Definition idle (head : N) (op : gop) (o : gout) : Prop :=
    match op with
    | GJoin _ _ | GFlag _ => True
    | GFetch _ _ _ _ _ _ h | GCold _ _ _ _ h | GClamp h => h <= head
    | GAck _ _ _ => o <> OUnit
    | _ => False
    end.
  Lemma idle_step head g op : tame g -> gop_ok op -> past head g -> idle head op (snd (gstep cfg g op)) ->
    g_floor (fst (gstep cfg g op)) = g_floor g.
  Proof.
    intros T OK P ID. pose proof (tame_step g op T OK) as T'. destruct (gstep cfg g op) as [g' o] eqn:X. simpl in *. apply floor_same; auto.
    intro s. destruct (abs_step g op g' o s T OK X) as (st & h & H & H' & E & E').
    assert (DM : closed (abs g s) -> delivers_msg (op, o) s = false).
    { intro C. rewrite <- E in C. apply (done_step cfg MD st h g' (op, o) s H' C). destruct op; auto; contradiction. }
    rewrite <- E', <- E. rewrite <- E in DM. specialize (P s).
    assert (B : forall h', h' <= head -> StreamGroupSpec.below h' s (status_of cfg st h s) = status_of cfg st h s).
    { intros h' L. unfold StreamGroupSpec.below. destruct (N.ltb_spec s h'); auto. rewrite E. symmetry. apply P. lia. }
    assert (GV : forall c now ms h', h' <= head -> o = OMsgs ms -> (closed (status_of cfg st h s) <-> closed (given s c now ms (StreamGroupSpec.below h' s (status_of cfg st h s))))).
    { intros c now ms h' L EO. rewrite B by auto. unfold given. destruct (in_out s ms) eqn:EI; [|tauto]. split; intro C; [|destruct C; discriminate].
      specialize (DM C). unfold delivers_msg in DM. simpl in DM. rewrite EO in DM. congruence. }
    clear P E E' H H' X DM. destruct op; simpl in ID |- *; try contradiction; try tauto.
    - destruct o; try tauto. apply GV; auto.
    - destruct o; try tauto. apply GV; auto.
    - destruct o; try tauto.
    - rewrite B by auto. tauto.
  Qed.
  Fixpoint idles (head : N) (g : group) (ops : list gop) : Prop :=
    match ops with [] => True | op :: r => idle head op (snd (gstep cfg g op)) /\ idles head (fst (gstep cfg g op)) r end.
  Lemma grun_cons g op r : snd (grun cfg g [] (op :: r)) = snd (grun cfg (fst (gstep cfg g op)) [] r).
  Proof. simpl. destruct (gstep cfg g op) as [g' o]. simpl. apply grun_state. Qed.
  Lemma idles_run head : forall ops g, tame g -> Forall gop_ok ops -> past head g -> idles head g ops -> g_floor (snd (grun cfg g [] ops)) = g_floor g.
  Proof.
    induction ops as [|op r IH]; intros g T F P ID; [reflexivity|]. inversion F; subst. destruct ID as (I1 & I2). rewrite grun_cons.
    assert (FH : from_head head op) by (destruct op; simpl in *; auto; contradiction).
    rewrite IH; auto; [|apply tame_step; auto|apply past_step; auto]. eapply idle_step; eauto.
  Qed.
  Lemma past_run head : forall ops g, tame g -> Forall gop_ok ops -> Forall (from_head head) ops -> past head g -> past head (snd (grun cfg g [] ops)).
  Proof.
    induction ops as [|op r IH]; intros g T F FH P; [exact P|]. inversion F; inversion FH; subst. rewrite grun_cons. apply IH; auto; [apply tame_step|apply past_step]; auto.
  Qed.
  Lemma past_new head : past head (group_new head).
  Proof. intros s L. unfold abs. cbn [group_new g_pend g_red g_park g_next pget nmem]. simpl. destruct (N.ltb_spec s (N.max head 1)); auto. lia. Qed.
  Lemma past_restore fl head : past head (group_restore fl head).
  Proof. intros s L. unfold abs. simpl. destruct (N.ltb_spec s (N.max (N.max fl (head - 1) + 1) (N.max head 1))); auto. lia. Qed.
  Lemma past_clamp h g : tame g -> past h (fst (clamp_head h g)).
  Proof.
    intros T s L. destruct (abs_step g (GClamp h) (fst (clamp_head h g)) OUnit s T Logic.I eq_refl) as (st & hh & _ & _ & _ & E). rewrite <- E. simpl. unfold StreamGroupSpec.below.
    destruct (N.ltb_spec s h); auto. lia.
  Qed.
  Lemma clamp_false h g : snd (clamp_head h g) = false -> g_floor (fst (clamp_head h g)) = g_floor g.
  Proof.
    unfold clamp_head. cbv zeta. match goal with |- context [if ?x then (_, true) else _] => destruct x eqn:E end; simpl; [discriminate|]. intros _.
    repeat (apply orb_false_iff in E; destruct E as (E & _)). rewrite E. reflexivity.
  Qed.
End G.

Section Sys.
  Variable crc : bytes -> N.
  Hypothesis crc32 : forall b, crc b < 2 ^ 32.
  Variable cfg : gcfg.
  Hypothesis MD : 1 <= max_del cfg.
  Variable smax : N.
  Notation sstep := (sstep crc cfg smax).
  Notation run := (run crc cfg smax).
  Notation calm := (calm crc cfg smax).

  Definition pasts (s : sys) : Prop := forall gid g, gget gid s = Some g -> past (t_head (s_top s)) g.
  Lemma top_mark b s : s_top (mark b s) = s_top s.
  Proof. destruct b; reflexivity. Qed.
  Lemma dirty_mark b s : s_dirty (mark b s) = b || s_dirty s.
  Proof. destruct b; reflexivity. Qed.
  Lemma head_step s o : t_head (s_top (fst (sstep s o))) = t_head (s_top s) \/
    exists h, o = SHead /\ s_ret s = Some h /\ h <> t_head (s_top s) /\ t_head (s_top (fst (sstep s o))) = N.max h 1.
  Proof.
    destruct (match o with SHead => true | _ => false end) eqn:EO.
    - destruct o; try discriminate. simpl. unfold op_head. destruct (s_ret s) as [h|]; auto. destruct (N.eqb_spec h (t_head (s_top s))); auto.
      right. exists h. cbn [fst]. rewrite top_mark. auto.
    - left. destruct (top_step crc cfg smax s o) as [E|[(ts & pay & -> & E)|[(_ & E)|(h & -> & _)]]]; rewrite ?E; auto; [|discriminate].
      destruct (evict_fields (s_evp s) (s_top s)) as (_ & X & _). auto.
  Qed.
  Lemma trace_head A gid g s o : sys_ok crc 1 A s -> Forall (from_head (t_head (s_top s))) (gtrace crc cfg smax gid g s o).
  Proof.
    intros (W & dh & bl & H). pose proof (i_topic _ _ _ _ _ _ _ H) as (K & _ & HN). pose proof (i_pos _ _ _ _ _ _ _ H) as (P & _).
    destruct o; cbn [gtrace]; try apply Forall_nil.
    - destruct (beqb gid gid0); repeat constructor.
    - destruct (_ && _); repeat constructor.
    - destruct (aget _ _ _); [|constructor]. rewrite Forall_map. apply Forall_forall. intros; exact Logic.I.
    - destruct (beqb gid gid0); repeat constructor.
    - destruct (beqb gid gid0); repeat constructor. destruct beginning; simpl; lia.
    - destruct (beqb gid gid0); constructor; [exact Logic.I|]. destruct (is_backpressured _ _); constructor; [exact Logic.I|]. destruct (snd _); repeat constructor.
    - destruct (nth_error _ _) as [k|]; [|constructor]. destruct (beqb _ _); [|constructor]. destruct (k_res k); [|constructor]. constructor; [exact Logic.I|]. destruct (_ =? _); repeat constructor.
    - destruct (s_ret s); [|constructor]. destruct (_ =? _); repeat constructor.
    - repeat constructor.
  Qed.
  Lemma pasts_step A s o : sys_ok crc 1 A s -> calm_ok crc cfg s -> pasts s -> pasts (fst (sstep s o)).
  Proof.
    intros HS C P gid g' HG. pose proof (c_mem _ _ _ C) as M. rewrite step_group in HG.
    destruct (head_step s o) as [EH|(h & -> & ER & NE & EH)]; rewrite EH.
    - destruct (gget gid s) as [g|] eqn:EG.
      + inversion HG; subst. apply (past_run cfg MD); [apply (c_hist _ _ _ C _ _ EG)|apply gtrace_ok; auto|eapply trace_head; eauto|apply (P gid); auto].
      + destruct (creates gid o); [|discriminate]. inversion HG; subst.
        apply (past_run cfg MD); [apply tame_new|apply gtrace_ok; auto|eapply trace_head; eauto|apply (past_new cfg MD)].
    - cbn [gtrace creates] in HG. rewrite ER in HG. destruct (N.eqb_spec h (t_head (s_top s))); [contradiction|]. destruct (gget gid s) as [g|] eqn:EG; [|discriminate].
      inversion HG; subst. pose proof (past_clamp cfg MD h g (c_hist _ _ _ C _ _ EG)) as X. intros x L. apply X.
      destruct HS as (W & dh & bl & H). pose proof (i_ret _ _ _ _ _ _ _ H h ER). pose proof (i_pos _ _ _ _ _ _ _ H). lia.
  Qed.
  Lemma pasts_boot soft d : pasts (boot crc soft d).
  Proof.
    intros gid g HG. unfold boot in *. destruct (recover_topic crc d) as [[head ms] gs]. unfold gget in HG. cbn [s_groups s_top] in *.
    rewrite (aget_map_vals (fun _ fl => group_restore fl _)) in HG. destruct (aget beqb gid gs) as [fl|]; [|discriminate]. inversion HG. apply (past_restore cfg MD).
  Qed.
  Theorem calm_pasts A s : calm A s -> pasts s.
  Proof.
    induction 1 as [soft|A s o L IH OK OR SH|A s soft vis L IH V B F].
    - intros gid g HG. discriminate.
    - apply (pasts_step A); auto; [eapply calm_sys; eauto|eapply calm_all; eauto].
    - apply pasts_boot.
  Qed.

  (** ** What the save task will write, or has written *)
  Definition saved (s : sys) : list (bytes * N) :=
    match s_save s with Some gs => gs | None => match d_groups (s_store s) with Some b => load_groups crc b | None => [] end end.
  Definition floors_of (s : sys) (gid : bytes) : option N := option_map g_floor (gget gid s).

  Lemma trace_floor A s o gid : sys_ok crc 1 A s -> calm_ok crc cfg s -> pasts s ->
    (gget gid s = None -> creates gid o = false) ->
    (forall g, gget gid s = Some g -> idles cfg (t_head (s_top s)) g (gtrace crc cfg smax gid g s o)) ->
    floors_of (fst (sstep s o)) gid = floors_of s gid.
  Proof.
    intros HS C P N1 ID. unfold floors_of. rewrite step_group. destruct (gget gid s) as [g|] eqn:EG; [|rewrite N1; auto].
    simpl. f_equal. apply (idles_run cfg MD (t_head (s_top s))); auto; [apply (c_hist _ _ _ C _ _ EG)|apply gtrace_ok, C|apply (P gid); auto].
  Qed.
  Lemma drop_quiet ord : forall l s, s_dirty (fold_left (drop_member cfg ord) l s) = false -> s_dirty s = false /\ s_groups (fold_left (drop_member cfg ord) l s) = s_groups s.
  Proof.
    induction l as [|b l IH]; intros s D; simpl in *; auto. destruct (IH _ D) as (D1 & ->). unfold drop_member in *.
    destruct (gget (fst b) s); auto. destruct (remove_member cfg (ord (snd b)) (snd b) g) as [g' [c|]]; auto. simpl in D1. discriminate.
  Qed.
  Lemma dirty_step A s o : sys_ok crc 1 A s -> calm_ok crc cfg s -> pasts s -> o <> SCollect -> s_dirty (fst (sstep s o)) = false ->
    s_dirty s = false /\ forall gid, floors_of (fst (sstep s o)) gid = floors_of s gid.
  Proof.
    intros HS C P NC D.
    assert (TF : forall gid, (gget gid s = None -> creates gid o = false) ->
      (forall g, gget gid s = Some g -> idles cfg (t_head (s_top s)) g (gtrace crc cfg smax gid g s o)) ->
      floors_of (fst (sstep s o)) gid = floors_of s gid) by (intro gid; apply (trace_floor A); auto).
    assert (SAME : s_groups (fst (sstep s o)) = s_groups s -> forall gid, floors_of (fst (sstep s o)) gid = floors_of s gid) by (intros E gid; unfold floors_of, gget; rewrite E; reflexivity).
    destruct o; try congruence; try (split; [exact D|apply SAME; reflexivity]).
    - split; [|apply SAME]; simpl in *; unfold op_send in *; destruct (nth_error _ _); auto.
    - (* join *)
      assert (DD : s_dirty s = false /\ gget gid s <> None).
      { revert D. cbn [StreamSysModel.sstep]. unfold op_join. destruct (clamp_head _ _) as [g1 cl]. cbn [fst]. rewrite dirty_mark. cbn [set_clients gput set_groups s_dirty].
        intro D. apply orb_false_iff in D. destruct D as (D1 & D2). apply orb_false_iff in D1. destruct D1 as (D1 & _). split; auto. destruct (gget gid s); [congruence|discriminate]. }
      split; [apply DD|]. intro gid'. apply TF; cbn [creates gtrace]; destruct (beqb gid' gid) eqn:E; auto; intros.
      + apply beqb_eq in E. subst. tauto.
      + cbn [idles idle]. split; [lia|]. auto.
      + exact Logic.I.
    - (* leave *)
      revert D SAME. cbn [StreamSysModel.sstep]. unfold op_leave. destruct (gget gid s); [|auto]. destruct (negb _); [auto|]. destruct (remove_member _ _ _ _) as [g' [x|]]; [discriminate|auto].
    - (* disc *)
      revert D SAME. cbn [StreamSysModel.sstep fst]. unfold op_disconnect. destruct (aget _ _ _) as [l|]; [|auto]. intros D SAME. destruct (drop_quiet _ _ _ D) as (D1 & D2). split; auto.
    - (* ack *)
      assert (DD : s_dirty s = false /\ forall g, gget gid s = Some g -> snd (ack c gen seq (fst (clamp_head (t_head (s_top s)) g))) <> None).
      { revert D. cbn [StreamSysModel.sstep]. unfold op_ack. destruct (gget gid s); [|split; [auto|discriminate]]. destruct (ack _ _ _ _) as [g' [x|]] eqn:EA; [|discriminate].
        simpl. intro D. split; auto. intros g0 E0. inversion E0; subst. rewrite EA. discriminate. }
      split; [apply DD|]. intro gid'. apply TF; cbn [creates gtrace]; auto. destruct (beqb gid' gid) eqn:E; [|intros; exact Logic.I]. apply beqb_eq in E. subst. intros g HG.
      destruct DD as (_ & DD). specialize (DD g HG). cbn [idles idle]. split; [lia|]. split; [|exact Logic.I]. simpl. destruct (ack _ _ _ _) as [g' [x|]]; simpl in *; congruence.
    - (* seek *) discriminate.
    - (* try *)
      assert (DD : s_dirty s = false).
      { revert D. cbn [StreamSysModel.sstep]. unfold op_try. destruct (gget gid s); auto. destruct (clamp_head _ _) as [g1 cl]. destruct (is_backpressured _ _); auto.
        destruct (fetch _ _ _ _ _ _ _ _ _) as [g2 [e|[|m r]]]; cbn [fst]; auto; [|rewrite dirty_mark; intro D; apply orb_false_iff in D; apply D].
        destruct (g_cold g2); [|destruct (_ && _)]; cbn [fst set_colds s_dirty]; rewrite dirty_mark; intro D; apply orb_false_iff in D; apply D. }
      split; auto. intro gid'. apply TF; cbn [creates gtrace]; auto. destruct (beqb gid' gid); [|intros; exact Logic.I]. intros g _. cbn [idles idle]. split; [lia|].
      destruct (is_backpressured _ _); [exact Logic.I|]. cbn [idles idle]. split; [lia|]. destruct (snd (sstep s _)); cbn [idles idle]; auto.
    - split; [|apply SAME]; simpl in *; unfold op_cold_run in *; destruct (nth_error _ _); auto.
    - (* cold done *)
      assert (DD : s_dirty s = false).
      { revert D. cbn [StreamSysModel.sstep]. unfold op_cold_done. destruct (nth_error _ _) as [k|]; auto. destruct (k_res k); auto. destruct (gget _ _); auto. destruct (negb _); auto.
        destruct (clamp_head _ _) as [g2 cl]. destruct (register_cold _ _ _ _ _ _ _) as [g3 [e|r]]; auto. cbn [fst]. rewrite dirty_mark. intro D. apply orb_false_iff in D. apply D. }
      split; auto. intro gid'. apply TF; cbn [creates gtrace]; auto. intros g _. destruct (nth_error _ _) as [k|]; [|exact Logic.I]. destruct (beqb _ _); [|exact Logic.I].
      destruct (k_res k); [|exact Logic.I]. cbn [idles idle]. split; auto. destruct (_ =? _); [|exact Logic.I]. cbn [idles idle]. split; [lia|]. split; [lia|]. exact Logic.I.
    - split; [|apply SAME]; simpl in *; unfold op_save in *; destruct (s_save s); auto.
    - (* head *)
      revert D SAME. cbn [StreamSysModel.sstep fst]. unfold op_head. destruct (s_ret s) as [h|]; [|auto]. destruct (_ =? _); [auto|]. cbn [fst].
      intros D _. rewrite dirty_mark in D. apply orb_false_iff in D. destruct D as (D1 & D2). split; auto. intro gid. unfold floors_of. rewrite gget_mark. unfold gget. cbn [s_groups set_groups].
      rewrite map_map. cbn [fst snd]. rewrite (aget_map_vals (fun _ g => fst (clamp_head h g))). destruct (aget beqb gid (s_groups s)) as [g|] eqn:EG; auto. simpl. f_equal. apply clamp_false.
      apply (aget_In beqb beqb_eq) in EG. destruct (snd (clamp_head h g)) eqn:EC; auto. exfalso. apply Bool.not_true_iff_false in D1. apply D1. apply existsb_exists.
      exists (gid, clamp_head h g). split; auto. apply in_map_iff. exists (gid, g). auto.
    - (* tick *)
      revert D. cbn [StreamSysModel.sstep fst]. unfold op_tick. cbn [fst]. clear SAME.
      intros D. rewrite dirty_mark in D. apply orb_false_iff in D. destruct D as (D1 & D2). split; auto. intro gid. unfold floors_of. rewrite gget_mark. unfold gget. cbn [s_groups set_groups].
      rewrite map_map. cbn [fst snd]. rewrite (aget_map_vals (fun k g => fst (check_redelivery cfg (ord k) now g))). destruct (aget beqb gid (s_groups s)) as [g|] eqn:EG; auto. simpl. f_equal.
      apply (aget_In beqb beqb_eq) in EG. assert (EC : snd (check_redelivery cfg (ord gid) now g) = false).
      { destruct (snd (check_redelivery cfg (ord gid) now g)) eqn:EC; auto. exfalso. apply Bool.not_true_iff_false in D1. apply D1. apply existsb_exists.
        exists (gid, check_redelivery cfg (ord gid) now g). split; auto. apply in_map_iff. exists (gid, g). auto. }
      revert EC. unfold check_redelivery. destruct (filter _ _); simpl; [auto|discriminate].
  Qed.
  Definition noted (s : sys) : Prop := s_dirty s = false ->
    forall gid, floors_of s gid = option_map (fun f => N.max f (t_head (s_top s) - 1)) (aget beqb gid (saved s)).
  Lemma noted_step A s o : sys_ok crc 1 A s -> op_ok s o -> short o -> calm_ok crc cfg s -> pasts s -> noted s -> noted (fst (sstep s o)).
  Proof.
    intros HS OK SH C P NT D gid. pose proof (calm_ok_step crc crc32 cfg smax MD A s o HS OK SH C) as C'. pose proof (pasts_step A s o HS C P) as P'.
    destruct (match o with SCollect => true | _ => false end) eqn:E1.
    - destruct o; try discriminate. simpl in *. unfold op_collect in *. destruct (s_dirty s) eqn:ED; [|apply NT; auto].
      unfold floors_of, saved, gget. cbn [set_save s_save set_dirty s_groups s_top]. rewrite (aget_map_vals (fun _ g => g_floor g)). fold (gget gid s).
      destruct (gget gid s) as [g|] eqn:EG; auto. simpl. f_equal. pose proof (past_floor cfg MD _ g (c_hist _ _ _ C _ _ EG) (P gid g EG)). lia.
    - assert (NC : o <> SCollect) by (intros ->; discriminate). destruct (dirty_step A s o HS C P NC D) as (D0 & FL). specialize (NT D0 gid).
      assert (SV : saved (fst (sstep s o)) = saved s).
      { destruct (match o with SSave => true | _ => false end) eqn:E2.
        - destruct o; try discriminate. simpl. unfold op_save. destruct (s_save s) as [gs|] eqn:ES; auto. unfold saved. cbn [set_save s_save set_store s_store save_groups d_groups]. rewrite ES.
          apply (groups_round_trip crc crc32); [exact (fine_gid crc crc32 _ _ (c_lim _ _ _ C) (c_save _ _ _ C _ ES))|apply (c_save _ _ _ C _ ES)].
        - assert (NS : o <> SSave) by (intros ->; discriminate). destruct (saves_step crc cfg smax s o NC NS) as (X & Y). unfold saved. rewrite X, Y. reflexivity. }
      rewrite SV, FL. destruct (head_step s o) as [->|(h & -> & ER & NE & EH)]; auto.
      specialize (FL gid). unfold floors_of in *. rewrite EH. destruct (gget gid (fst (sstep s SHead))) as [g'|] eqn:EG'.
      + pose proof (past_floor cfg MD _ g' (c_hist _ _ _ C' _ _ EG') (P' gid g' EG')) as L. rewrite EH in L.
        destruct (gget gid s) as [g|]; [|discriminate]. simpl in FL, NT |- *. destruct (aget beqb gid (saved s)) as [f|]; [|discriminate]. simpl in NT |- *.
        inversion FL. inversion NT. f_equal. destruct HS as (W & dh & bl & H). pose proof (i_ret _ _ _ _ _ _ _ H h ER). lia.
      + destruct (gget gid s); [discriminate|]. destruct (aget beqb gid (saved s)); [discriminate|]. reflexivity.
  Qed.
  Lemma noted_boot soft d : noted (boot crc soft d).
  Proof.
    intros _ gid. unfold floors_of, boot, saved. unfold recover_topic. cbn [s_groups s_top s_save s_store store_open d_groups]. unfold gget. cbn [s_groups].
    rewrite (aget_map_vals (fun _ fl => group_restore fl _)). destruct (aget beqb gid _); reflexivity.
  Qed.
  Theorem calm_noted A s : calm A s -> noted s.
  Proof.
    induction 1 as [soft|A s o L IH OK OR SH|A s soft vis L IH V B F].
    - intros _ gid. reflexivity.
    - apply (noted_step A); auto; [apply (calm_sys crc crc32 cfg smax A s L)|apply (calm_all crc crc32 cfg smax MD A s L)|apply (calm_pasts A s L)].
    - apply noted_boot.
  Qed.
  (** Saving the groups and restarting: every group is back at its floor, whether or
      not the flag was set. *)
  Theorem saved_back A s soft vis gid : calm A s -> s_box s = [] -> flushed s ->
    let s1 := run s [SCollect; SSave] in vis_ok vis (s_store s1) ->
    let s2 := boot crc soft (crash vis (s_store s1)) in
    gget gid s2 = option_map (fun g => group_restore (g_floor g) (t_head (s_top s2))) (gget gid s).
  Proof.
    intros L B F s1 V s2. destruct (s_dirty s) eqn:D; [apply (saved_restart crc crc32 cfg smax MD A); auto|].
    pose proof (calm_noted A s L D gid) as NT. pose proof (calm_all crc crc32 cfg smax MD A s L) as C. pose proof (calm_sys crc crc32 cfg smax A s L) as HS.
    assert (E1 : s1 = fst (sstep s SSave)) by (unfold s1; simpl; unfold op_collect; rewrite D; reflexivity).
    assert (SV : match d_groups (s_store s1) with Some b => load_groups crc b | None => [] end = saved s).
    { rewrite E1. simpl. unfold op_save, saved. destruct (s_save s) as [gs|] eqn:ES; auto. cbn [set_save s_store set_store save_groups d_groups].
      apply (groups_round_trip crc crc32); [exact (fine_gid crc crc32 _ _ (c_lim _ _ _ C) (c_save _ _ _ C _ ES))|apply (c_save _ _ _ C _ ES)]. }
    assert (L1 : calm (A ++ adds s SSave) s1) by (rewrite E1; apply calm_step; auto; exact Logic.I). rewrite app_nil_r in L1.
    assert (B1 : s_box s1 = []) by (rewrite E1; simpl; unfold op_save; destruct (s_save s); auto).
    assert (F1 : flushed s1) by (rewrite E1; unfold flushed; simpl; unfold op_save; destruct (s_save s); auto).
    destruct (restart_settled crc crc32 soft 1 A s1 vis (calm_sys crc crc32 cfg smax A s1 L1) ltac:(lia) V B1 F1) as (_ & RH & _). fold s2 in RH.
    assert (HH : t_head (s_top s) <= t_head (s_top s2)).
    { rewrite RH. pose proof (calm_sys crc crc32 cfg smax A s1 L1) as (W & dh & bl & H). rewrite (first_eq crc _ _ _ _ _ _ H). pose proof (i_head _ _ _ _ _ _ _ H) as X.
      rewrite E1 in X. simpl in X. unfold op_save in X. destruct (s_save s); exact X. }
    assert (GR : s_groups s2 = map (fun e => (fst e, group_restore (snd e) (t_head (s_top s2)))) (saved s)).
    { rewrite <- SV. unfold s2, boot, recover_topic. reflexivity. }
    unfold gget at 1. rewrite GR. rewrite (aget_map_vals (fun _ fl => group_restore fl (t_head (s_top s2)))). unfold floors_of in NT.
    clearbody s2. clear RH GR. destruct (gget gid s) as [g|], (aget beqb gid (saved s)) as [f|]; try discriminate; auto. cbn [option_map] in NT |- *. assert (E : g_floor g = N.max f (t_head (s_top s) - 1)) by congruence. rewrite E. f_equal. unfold group_restore.
    replace (N.max (N.max f (t_head (s_top s) - 1)) (t_head (s_top s2) - 1)) with (N.max f (t_head (s_top s2) - 1)) by lia. reflexivity.
  Qed.
  Lemma boot_pos soft d : 1 <= t_head (s_top (boot crc soft d)).
  Proof. unfold boot. destruct (recover_topic crc d) as [[head ms] gs]. cbn [s_top]. unfold topic_restore. simpl. lia. Qed.
  (** What was settled up to some number is not delivered again. *)
  Theorem saved_settled A s soft vis gid g n : calm A s -> s_box s = [] -> flushed s ->
    let s1 := run s [SCollect; SSave] in vis_ok vis (s_store s1) ->
    let s2 := boot crc soft (crash vis (s_store s1)) in
    gget gid s = Some g -> (forall m, m <= n -> closed (abs g m)) ->
    exists g2 st, gget gid s2 = Some g2 /\ hist cfg st [] g2 /\ (forall m, m <= n -> status_of cfg st [] m = Done) /\
      forall m, t_head (s_top s2) <= m -> ~ closed (abs g m) -> status_of cfg st [] m = Fresh.
  Proof.
    intros L B F s1 V s2 HG CL. pose proof (saved_back A s soft vis gid L B F V) as X. fold s1 s2 in X. rewrite HG in X. cbn [option_map] in X. pose proof (calm_all crc crc32 cfg smax MD A s L) as C.
    pose proof (floor_of cfg MD g n (c_hist _ _ _ C _ _ HG) CL) as FL.
    eexists; eexists. split; [exact X|]. split; [apply hist_restore; reflexivity|]. split.
    - intros m LM. clearbody s2. cbn [status_of]. match goal with |- (if m <? ?z then _ else _) = _ => destruct (N.ltb_spec m z) end; auto. lia.
    - intros m LM O. assert (P1 : 1 <= t_head (s_top s2)) by (apply boot_pos). clearbody s2. cbn [status_of]. assert (g_floor g < m) by (destruct (N.lt_ge_cases (g_floor g) m); auto; exfalso; apply O; apply (floor_closed cfg MD); [apply (c_hist _ _ _ C _ _ HG)|auto]).
      match goal with |- (if m <? ?z then _ else _) = _ => destruct (N.ltb_spec m z) end; auto. lia.
  Qed.
End Sys.
