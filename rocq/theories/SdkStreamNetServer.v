(** The server's side of stream consumers end to end: why a group's position moves. *)
From Verif Require Import LibBase LibMap SdkLoopModel SdkStreamModel StreamTopicModel StreamGroupModel StreamStoreModel StreamStoreCodec StreamStoreProofs StreamStoreFacts StreamGroupSpec StreamGroupProofs StreamGroupFetch StreamGroupHist StreamGroupFacts StreamTopicProofs StreamSysModel StreamSysProofs StreamSysHist StreamSysFacts StreamSysBoot StreamSysLife SdkStreamSys SdkStreamNetModel SdkStreamNetSpec.

Section Server.
  Variable crc : bytes -> N.
  Hypothesis crc32 : forall b, crc b < 2 ^ 32.
  Variable cfg : gcfg.
  Variable smax : N.
  Hypothesis MD : 1 <= max_del cfg.
  Notation sstep := (sstep crc cfg smax).
  Notation gtrace := (gtrace crc cfg smax).

  (** the logs the server can produce, with the records published and the state reached *)
  Inductive slog (soft : N) : list nev -> list msg -> sys -> Prop :=
  | sl_new : slog soft [] [] (sys_new soft)
  | sl_step L A s who o : slog soft L A s -> op_ok s o -> orderly o -> short o ->
      slog soft (L ++ [OServer who o (snd (sstep s o))]) (A ++ adds s o) (fst (sstep s o))
  | sl_boot L A s soft' vis : slog soft L A s -> vis_ok vis (s_store s) -> s_box s = [] -> flushed s ->
      slog soft (L ++ [OBoot soft' vis]) A (boot crc soft' (crash vis (s_store s)))
  | sl_client L A s c e : slog soft L A s -> slog soft (L ++ [OClient c e]) A s.
  Lemma slog_calm soft L A s : slog soft L A s -> calm crc cfg smax A s.
  Proof. induction 1; [apply calm_new|apply calm_step; auto|apply calm_restart; auto|auto]. Qed.
  Lemma slog_srv soft L A s : slog soft L A s -> srv crc cfg smax soft L = s.
  Proof. unfold srv. induction 1; [reflexivity| | |]; rewrite fold_left_app; simpl; rewrite IHslog; reflexivity. Qed.
  Lemma published_app a b : published (a ++ b) = published a ++ published b.
  Proof. apply flat_map_app. Qed.
  Lemma slog_pub soft L A s : slog soft L A s -> published L = A.
  Proof.
    induction 1; [reflexivity| | |]; rewrite published_app, IHslog; simpl; rewrite ?app_nil_r; auto.
    f_equal. destruct o; simpl; try reflexivity; destruct (snd _); reflexivity.
  Qed.

  (** why number [q] is done with for the group *)
  Definition reason soft gid q L : Prop :=
    (exists who c gen, In (OServer who (SAck gid c gen q) RUnit) L) \/ given_up crc cfg smax soft gid q L \/ skipped crc cfg smax soft gid q L \/ removed crc cfg smax soft q L.
  Lemma reason_snoc soft gid q L e : reason soft gid q L -> reason soft gid q (L ++ [e]).
  Proof.
    intros [(w & c & gen & H)|[(a & b & E & H)|[(a & w & r & b & E & H)|(a & b & E & H)]]].
    - left. exists w, c, gen. apply in_or_app. auto.
    - right; left. exists a, (b ++ [e]). rewrite app_assoc, <- E. auto.
    - right; right; left. exists a, w, r, (b ++ [e]). split; auto. rewrite E, <- app_assoc. reflexivity.
    - right; right; right. exists a, (b ++ [e]). rewrite app_assoc, <- E. auto.
  Qed.
  Lemma removed_now soft L A s gid q : slog soft L A s -> q < t_head (s_top s) -> reason soft gid q L.
  Proof. intros S H. right; right; right. exists L, []. rewrite app_nil_r. split; auto. rewrite (slog_srv _ _ _ _ S). exact H. Qed.

  (** ** Counting *)
  Lemma counts_fold soft gid q : forall L, fst (fold_left (count_step crc cfg smax gid q) L (sys_new soft, (0, 0))) = srv crc cfg smax soft L.
  Proof.
    intro L. unfold srv. assert (X : forall L s x, fst (fold_left (count_step crc cfg smax gid q) L (s, x)) = fold_left (srv_step crc cfg smax) L s).
    { clear. induction L as [|e L IH]; intros s [a b]; simpl; auto. }
    apply X.
  Qed.
  Lemma late_snoc soft gid q L e : lately crc cfg smax soft gid q (L ++ [e]) =
    if resets gid e then 0 else lately crc cfg smax soft gid q L + (if gives_out gid q (srv crc cfg smax soft L) e then 1 else 0).
  Proof.
    unfold lately, counts. rewrite fold_left_app. simpl. pose proof (counts_fold soft gid q L) as F.
    destruct (fold_left _ L _) as [s [a b]]. simpl in *. rewrite F. reflexivity.
  Qed.
  Lemma given_snoc soft gid q L e : given_out crc cfg smax soft gid q (L ++ [e]) =
    given_out crc cfg smax soft gid q L + (if gives_out gid q (srv crc cfg smax soft L) e then 1 else 0).
  Proof.
    unfold given_out, counts. rewrite fold_left_app. simpl. pose proof (counts_fold soft gid q L) as F.
    destruct (fold_left _ L _) as [s [a b]]. simpl in *. rewrite F. reflexivity.
  Qed.

  (** ** What one operation adds to a group's history *)
  Definition mute (op : gop) : bool := match op with GFetch _ _ _ _ _ _ _ | GCold _ _ _ _ _ | GSeekB _ | GSeekE _ => false | _ => true end.
  Lemma mute_handed q : forall ops g h, forallb mute ops = true -> handed (fst (grun cfg g h ops)) q = handed h q.
  Proof.
    induction ops as [|op ops IH]; intros g h M; simpl in *; auto. apply andb_prop in M. destruct M as (M1 & M2).
    destruct (gstep cfg g op) as [g' o] eqn:E. rewrite IH by auto. simpl.
    destruct op; try discriminate M1; simpl in E; try (inversion E; subst; reflexivity).
    destruct (ack c gen s g) as [g2 [x|]]; inversion E; subst; reflexivity.
  Qed.
  Lemma try_handed gid c gen limit now tok s g h q : gget gid s = Some g ->
    handed (fst (grun cfg g h (gtrace gid g s (STry gid c gen limit now tok)))) q =
    handed h q + (match snd (sstep s (STry gid c gen limit now tok)) with RMsgs ms => if in_out q ms then 1 else 0 | _ => 0 end).
  Proof.
    intro HG. cbn [StreamSysHist.gtrace]. rewrite beqb_refl. cbn [StreamSysModel.sstep]. unfold op_try. rewrite HG. cbv zeta.
    destruct (clamp_head (t_head (s_top s)) g) as [g1 cl] eqn:EC. cbn [fst]. destruct (is_backpressured cfg g1); [simpl; lia|].
    destruct (fetch cfg c gen limit now (t_log (s_top s)) (t_ram (s_top s)) (t_head (s_top s)) g1) as [g2 [e|[|m r]]] eqn:EF.
    - simpl. rewrite EC. simpl. rewrite EF. simpl. lia.
    - destruct (g_cold g2) eqn:EK; [|destruct (_ && _)]; simpl; rewrite EC; simpl; rewrite EF; simpl; lia.
    - simpl. rewrite EC. simpl. rewrite EF. simpl. unfold delivers_msg. simpl. lia.
  Qed.
  Lemma cold_handed i now s k g h q : nth_error (s_colds s) i = Some k -> gget (k_gid k) s = Some g ->
    handed (fst (grun cfg g h (gtrace (k_gid k) g s (SColdDone i now)))) q =
    handed h q + (match snd (sstep s (SColdDone i now)) with RMsgs ms => if in_out q ms then 1 else 0 | _ => 0 end).
  Proof.
    intros HN HG. cbn [StreamSysHist.gtrace]. rewrite HN, beqb_refl. cbn [StreamSysModel.sstep]. unfold op_cold_done. rewrite HN.
    destruct (k_res k) as [res|]; [|simpl; lia]. cbv zeta.
    change (gget (k_gid k) (set_colds (remove_nth i (s_colds s)) s)) with (gget (k_gid k) s). rewrite HG.
    destruct (k_tok k =? g_tok g); cbn [negb]; [|simpl; lia].
    change (t_head (s_top (set_colds (remove_nth i (s_colds s)) s))) with (t_head (s_top s)).
    destruct (clamp_head (t_head (s_top s)) (set_cold false g)) as [g2 cl] eqn:EC.
    destruct (register_cold cfg (k_c k) (k_gen k) now res (t_head (s_top s)) g2) as [g3 [e|r]] eqn:ER; simpl; rewrite EC; simpl; rewrite ER; simpl; unfold delivers_msg; simpl; lia.
  Qed.
  Lemma step_handed gid s g o who h q : gget gid s = Some g ->
    handed (fst (grun cfg g h (gtrace gid g s o))) q =
    if resets gid (OServer who o (snd (sstep s o))) then 0 else handed h q + (if gives_out gid q s (OServer who o (snd (sstep s o))) then 1 else 0).
  Proof.
    intro HG.
    assert (MU : resets gid (OServer who o (snd (sstep s o))) = false -> fetch_of gid s o = false -> forallb mute (gtrace gid g s o) = true ->
      handed (fst (grun cfg g h (gtrace gid g s o))) q = if resets gid (OServer who o (snd (sstep s o))) then 0 else handed h q + (if gives_out gid q s (OServer who o (snd (sstep s o))) then 1 else 0)).
    { intros R F M. rewrite R, mute_handed by auto. unfold gives_out. rewrite F. simpl. destruct (snd _); lia. }
    destruct o; try (apply MU; reflexivity).
    - apply MU; try reflexivity. cbn [StreamSysHist.gtrace]. destruct (beqb gid gid0); reflexivity.
    - apply MU; try reflexivity. cbn [StreamSysHist.gtrace]. destruct (_ && _); reflexivity.
    - apply MU; try reflexivity. cbn [StreamSysHist.gtrace]. destruct (aget _ _ _); [|reflexivity]. apply forallb_forall. intros x H. apply in_map_iff in H. destruct H as (y & <- & _). reflexivity.
    - apply MU; try reflexivity. cbn [StreamSysHist.gtrace]. destruct (beqb gid gid0); reflexivity.
    - simpl resets. cbn [StreamSysHist.gtrace]. destruct (beqb gid gid0) eqn:E; [destruct beginning; reflexivity|]. simpl. lia.
    - destruct (beqb gid gid0) eqn:E.
      + apply beqb_eq in E. subst gid0. rewrite try_handed by auto. simpl resets. unfold gives_out. cbn [fetch_of]. rewrite beqb_refl. destruct (snd _); simpl; lia.
      + apply MU; simpl; rewrite ?E; auto.
    - destruct (nth_error (s_colds s) i) as [k|] eqn:EN.
      + destruct (beqb gid (k_gid k)) eqn:E.
        * apply beqb_eq in E. subst gid. rewrite (cold_handed i now s k) by auto. simpl resets. unfold gives_out. cbn [fetch_of]. rewrite EN, beqb_refl. destruct (snd _); simpl; lia.
        * apply MU; simpl; rewrite ?EN, ?E; auto.
      + apply MU; simpl; rewrite ?EN; auto.
    - apply MU; try reflexivity. cbn [StreamSysHist.gtrace]. destruct (s_ret s); [|reflexivity]. destruct (_ =? _); reflexivity.
  Qed.
  Lemma nogroup_nothing gid q s o who : gget gid s = None -> gives_out gid q s (OServer who o (snd (sstep s o))) = false.
  Proof.
    intro HG. unfold gives_out. destruct (fetch_of gid s o) eqn:F; [|destruct (snd _); reflexivity]. destruct o; try discriminate F; cbn [fetch_of] in F; cbn [StreamSysModel.sstep].
    - apply beqb_eq in F. subst. unfold op_try. rewrite HG. reflexivity.
    - unfold op_cold_done. destruct (nth_error (s_colds s) i) as [k|]; [|reflexivity]. apply beqb_eq in F. subst. destruct (k_res k); [|reflexivity]. cbv zeta.
      change (gget (k_gid k) (set_colds (remove_nth i (s_colds s)) s)) with (gget (k_gid k) s). rewrite HG. reflexivity.
  Qed.
  Lemma grun_settled q : forall ops g h, settled_by (fst (grun cfg g h ops)) q = true -> settled_by h q = true \/ exists op o, In op ops /\ settles (op, o) q = true.
  Proof.
    induction ops as [|op ops IH]; intros g h H; simpl in *; auto. destruct (gstep cfg g op) as [g' o] eqn:E. apply IH in H. destruct H as [H|(op' & o' & H1 & H2)].
    - simpl in H. apply orb_prop in H. destruct H as [H|H]; [right; eauto|]. apply andb_prop in H. tauto.
    - right. exists op', o'. auto.
  Qed.
  Lemma step_settled gid s g o h q : 1 <= t_head (s_top s) -> 1 <= t_next (s_top s) -> (creates gid o = false -> gget gid s = Some g) ->
    settled_by (fst (grun cfg g h (gtrace gid g s o))) q = true ->
    settled_by h q = true \/ q < t_head (s_top s) \/ q < t_head (s_top (fst (sstep s o))) \/
    (exists c gen, o = SAck gid c gen q /\ snd (sstep s o) = RUnit) \/ (o = SSeek false gid /\ q < t_next (s_top s)).
  Proof.
    intros H1 N1 HG H.
    destruct (match o with SAck g' _ _ _ => beqb gid g' | _ => false end) eqn:EA.
    { destruct o; try discriminate. apply beqb_eq in EA. subst gid0. specialize (HG eq_refl). pose proof (ack_answer crc cfg smax gid c gen seq s g 0 h HG) as X. unfold ev_step in X. rewrite HG in X. injection X as X1. unfold StreamSysHist.gtrace in H, X1. rewrite X1 in H. clear X1.
      simpl settled_by in H. cbn [is_seek fst negb andb] in H. apply orb_prop in H. destruct H as [H|H].
      - right; right; right; left. exists c, gen. cbn [StreamSysModel.sstep] in *. unfold op_ack in *. rewrite HG in *. cbv zeta in *.
        destruct (ack c gen seq (fst (clamp_head (t_head (s_top s)) g))) as [g' [er|]]; simpl in H; [discriminate|]. apply N.eqb_eq in H. subst. auto.
      - apply orb_prop in H. destruct H as [H|H]; auto. simpl in H. apply N.ltb_lt in H. auto. }
    apply grun_settled in H. destruct H as [H|(op & r & HI & HS)]; auto. right.
    destruct o; cbn [StreamSysHist.gtrace] in HI; try contradiction.
    - destruct (beqb gid gid0); [|contradiction]. destruct HI as [<-|[<-|[]]]; [left; apply N.ltb_lt; exact HS|discriminate].
    - destruct (_ && _); [|contradiction]. destruct HI as [<-|[]]; discriminate.
    - destruct (aget _ _ _); [|contradiction]. apply in_map_iff in HI. destruct HI as (y & <- & _). discriminate.
    - rewrite EA in HI. contradiction.
    - destruct (beqb gid gid0) eqn:E; [|contradiction]. apply beqb_eq in E. subst gid0. destruct HI as [<-|[]]. destruct beginning; simpl in HS.
      + apply N.ltb_lt in HS. left. lia.
      + apply N.leb_le in HS. right; right; right. split; auto. lia.
    - destruct (beqb gid gid0); [|contradiction]. destruct HI as [<-|HI]; [left; apply N.ltb_lt; exact HS|].
      destruct (is_backpressured _ _); [contradiction|]. destruct HI as [<-|HI]; [left; destruct r; try discriminate; apply N.ltb_lt; exact HS|].
      destruct (snd _) in HI; try contradiction. destruct HI as [<-|[]]; discriminate.
    - destruct (nth_error _ _) as [k|]; [|contradiction]. destruct (beqb gid (k_gid k)); [|contradiction]. destruct (k_res k); [|contradiction].
      destruct HI as [<-|HI]; [discriminate|]. destruct (_ =? _); [|contradiction]. destruct HI as [<-|[<-|[]]]; [left; apply N.ltb_lt; exact HS|left; destruct r; try discriminate; apply N.ltb_lt; exact HS].
    - destruct (s_ret s) as [hd|] eqn:ER; [|contradiction]. destruct (hd =? t_head (s_top s)) eqn:EH; [contradiction|]. destruct HI as [<-|[]]. right; left. simpl in HS. apply N.ltb_lt in HS.
      cbn [StreamSysModel.sstep fst]. unfold op_head. rewrite ER, EH. destruct (existsb _ _); simpl; lia.
    - destruct HI as [<-|[]]; discriminate.
  Qed.

  (** ** Every settled number has its reason *)
  Notation R := reason.
  Notation late := (lately crc cfg smax).
  Record SI (soft : N) (L : list nev) (s : sys) : Prop := {
    si_grp : forall gid g, gget gid s = Some g -> exists st h, hist cfg st h g /\ (forall q, q < st -> R soft gid q L) /\
               (forall q, settled_by h q = true -> R soft gid q L) /\ (forall q, handed h q = late soft gid q L);
    si_none : forall gid q, gget gid s = None -> late soft gid q L = 0;
    si_save : forall gs gid f q, s_save s = Some gs -> In (gid, f) gs -> q <= f -> R soft gid q L;
    si_file : forall b, d_groups (s_store s) = Some b -> exists gs, b = enc_groups crc gs /\ fine s gs /\ forall gid f q, In (gid, f) gs -> q <= f -> R soft gid q L
  }.
  Lemma hist_reason soft L gid st h g q : hist cfg st h g -> (forall q, q < st -> R soft gid q L) -> (forall q, settled_by h q = true -> R soft gid q L) ->
    (forall q, handed h q = late soft gid q L) -> status_of cfg st h q = Done \/ status_of cfg st h q = Parked -> R soft gid q L.
  Proof.
    intros H H1 H2 H3 [D|P].
    - destruct (done_reason cfg st h g q H D) as [X|(_ & X)]; auto.
    - pose proof (handed_count cfg MD st h g q H) as C. rewrite P in C. right; left. exists L, []. rewrite app_nil_r. split; auto. rewrite <- H3. lia.
  Qed.
  Lemma floor_reason soft L s gid g q : SI soft L s -> gget gid s = Some g -> q <= g_floor g -> R soft gid q L.
  Proof.
    intros I HG H. destruct (si_grp _ _ _ I _ _ HG) as (st & h & HH & H1 & H2 & H3). apply (hist_reason soft L gid st h g q HH H1 H2 H3). apply (floor_settled cfg MD st h g q HH H).
  Qed.
  Lemma head_pos A s : calm crc cfg smax A s -> 1 <= t_head (s_top s) /\ 1 <= t_next (s_top s) /\ t_next (s_top s) = 1 + lenN A.
  Proof.
    intro C. destruct (calm_sys crc crc32 cfg smax A s C) as (W & dh & bl & H). split; [apply (i_pos _ _ _ _ _ _ _ H)|].
    destruct (i_topic _ _ _ _ _ _ _ H) as (K & _). split; [apply (k_pos _ _ _ K)|apply (k_next _ _ _ K)].
  Qed.
  Lemma si_step soft L A s who o : slog soft L A s -> op_ok s o -> orderly o -> short o -> SI soft L s -> SI soft (L ++ [OServer who o (snd (sstep s o))]) (fst (sstep s o)).
  Proof.
    intros S OK OR SH I. set (e := OServer who o (snd (sstep s o))). pose proof (slog_calm _ _ _ _ S) as C. destruct (head_pos A s C) as (P1 & P2 & _).
    pose proof (calm_all crc crc32 cfg smax MD A s C) as CO. pose proof (c_mem _ _ _ CO) as MO. pose proof (slog_srv _ _ _ _ S) as ES.
    assert (S' : slog soft (L ++ [e]) (A ++ adds s o) (fst (sstep s o))) by (apply sl_step; auto).
    assert (MV : forall gid q, R soft gid q L -> R soft gid q (L ++ [e])) by (intros; apply reason_snoc; auto).
    assert (ST : forall gid g h q, (creates gid o = false -> gget gid s = Some g) -> (forall q, settled_by h q = true -> R soft gid q (L ++ [e])) ->
      settled_by (fst (grun cfg g h (gtrace gid g s o))) q = true -> R soft gid q (L ++ [e])).
    { intros gid g h q HG H2 H. destruct (step_settled gid s g o h q P1 P2 HG H) as [X|[X|[X|[(c & gen & X & Y)|(X & Y)]]]]; auto.
      - apply MV. apply (removed_now soft L A s); auto.
      - apply (removed_now soft _ _ _ gid q S'); auto.
      - left. exists who, c, gen. apply in_or_app. right. left. unfold e. rewrite Y, X. reflexivity.
      - right; right; left. exists L, who, (snd (sstep s o)), []. split; [unfold e; rewrite X; reflexivity|]. rewrite ES. auto. }
    constructor.
    - intros gid g HG. destruct (gget gid s) as [g0|] eqn:EG.
      + destruct (si_grp _ _ _ I gid g0 EG) as (st & h & HH & H1 & H2 & H3). rewrite step_group, EG in HG. inversion HG; subst g; clear HG.
        exists st, (fst (grun cfg g0 h (gtrace gid g0 s o))). split; [|split; [|split]].
        * rewrite <- (grun_state cfg _ g0 h). apply grun_hist; auto. apply gtrace_ok; auto.
        * intros q Hq. auto.
        * intros q Hq. apply (ST gid g0 h q); auto.
        * intro q. rewrite (step_handed gid s g0 o who h q EG). fold e. rewrite late_snoc, ES, H3. reflexivity.
      + rewrite step_group, EG in HG. destruct (creates gid o) eqn:EC; [|discriminate]. inversion HG; subst g; clear HG.
        set (g0 := group_new (t_head (s_top s))). exists (N.max (t_head (s_top s)) 1), (fst (grun cfg g0 [] (gtrace gid g0 s o))). split; [|split; [|split]].
        * apply grun_hist; [apply hist_new; reflexivity|apply gtrace_ok; auto].
        * intros q Hq. apply MV. apply (removed_now soft L A s); auto. lia.
        * intros q Hq. apply (ST gid g0 [] q); auto; [congruence|discriminate].
        * intro q. rewrite late_snoc, ES. unfold e. rewrite (nogroup_nothing gid q s o who EG), (si_none _ _ _ I gid q EG).
          destruct o; simpl in EC; try discriminate; cbn [StreamSysHist.gtrace resets]; rewrite EC; [simpl; reflexivity|destruct beginning; reflexivity].
    - intros gid q HG. rewrite step_group in HG. destruct (gget gid s) eqn:EG; [discriminate|]. rewrite late_snoc, ES. unfold e. rewrite (nogroup_nothing gid q s o who EG), (si_none _ _ _ I gid q EG). destruct (resets _ _); reflexivity.
    - intros gs gid f q HS HI Hq. destruct (match o with SCollect => true | _ => false end) eqn:E1.
      + destruct o; try discriminate. simpl in HS. unfold op_collect in HS. destruct (s_dirty s); [|apply MV; apply (si_save _ _ _ I gs gid f q); auto].
        simpl in HS. inversion HS; subst gs; clear HS. apply in_map_iff in HI. destruct HI as ([i g] & HE & HI). simpl in HE. injection HE as HE1 HE2. subst i f. apply MV. apply (floor_reason soft L s gid g q); auto.
        apply (In_aget beqb beqb_eq); auto. apply (c_nodup _ _ _ CO).
      + apply MV. destruct (match o with SSave => true | _ => false end) eqn:E2.
        * destruct o; try discriminate. simpl in HS. unfold op_save in HS. destruct (s_save s) eqn:ESV; simpl in HS; [discriminate|congruence].
        * assert (N1 : o <> SCollect) by (intros ->; discriminate). assert (N2 : o <> SSave) by (intros ->; discriminate).
          destruct (saves_step crc cfg smax s o N1 N2) as (X & _). rewrite X in HS. apply (si_save _ _ _ I gs gid f q); auto.
    - pose proof (top_next_le crc cfg smax s o) as NX. assert (OLD : d_groups (s_store (fst (sstep s o))) = d_groups (s_store s) -> forall b, d_groups (s_store (fst (sstep s o))) = Some b ->
        exists gs, b = enc_groups crc gs /\ fine (fst (sstep s o)) gs /\ forall gid f q, In (gid, f) gs -> q <= f -> R soft gid q (L ++ [e])).
      { intros X b HB. rewrite X in HB. destruct (si_file _ _ _ I b HB) as (gs & E & F & Q). exists gs. split; auto. split; [eapply fine_mono; eauto|]. intros gid f q HI Hq. apply MV. eauto. }
      destruct (match o with SCollect => true | _ => false end) eqn:E1.
      { apply OLD. destruct o; try discriminate. simpl. unfold op_collect. destruct (s_dirty s); reflexivity. }
      destruct (match o with SSave => true | _ => false end) eqn:E2.
      + destruct o; try discriminate. destruct (s_save s) as [gs|] eqn:ESV; [|apply OLD; simpl; unfold op_save; rewrite ESV; reflexivity].
        intros b HB. simpl in HB. unfold op_save in HB. rewrite ESV in HB. simpl in HB. inversion HB; subst b. exists gs. split; auto. split; [apply (fine_mono s); auto; apply (c_save _ _ _ CO); auto|].
        intros gid f q HI Hq. apply MV. apply (si_save _ _ _ I gs gid f q); auto.
      + apply OLD. assert (N1 : o <> SCollect) by (intros ->; discriminate). assert (N2 : o <> SSave) by (intros ->; discriminate). apply (saves_step crc cfg smax s o N1 N2).
  Qed.
  Lemma si_boot soft L A s soft' vis : slog soft L A s -> vis_ok vis (s_store s) -> s_box s = [] -> flushed s -> SI soft L s ->
    SI soft (L ++ [OBoot soft' vis]) (boot crc soft' (crash vis (s_store s))).
  Proof.
    intros S V B F I. set (e := OBoot soft' vis). set (s2 := boot crc soft' (crash vis (s_store s))). pose proof (slog_calm _ _ _ _ S) as C.
    assert (S' : slog soft (L ++ [e]) A s2) by (apply sl_boot; auto). pose proof (slog_calm _ _ _ _ S') as C'.
    pose proof (calm_all crc crc32 cfg smax MD A s C) as CO. destruct (head_pos A s C) as (_ & _ & NX). destruct (head_pos A s2 C') as (P1 & _ & NX2).
    assert (MV : forall gid q, R soft gid q L -> R soft gid q (L ++ [e])) by (intros; apply reason_snoc; auto).
    assert (LZ : forall gid q, late soft gid q (L ++ [e]) = 0) by (intros; rewrite late_snoc; reflexivity).
    assert (EM : s_save s2 = None /\ d_groups (s_store s2) = d_groups (s_store s)).
    { unfold s2, boot. destruct (recover_topic _ _) as [[? ?] ?]. simpl. auto. }
    assert (GR : s_groups s2 = map (fun e => (fst e, group_restore (snd e) (t_head (s_top s2)))) (match d_groups (s_store s) with Some b => load_groups crc b | None => [] end)).
    { unfold s2, boot. unfold recover_topic. simpl. reflexivity. }
    constructor.
    - intros gid g HG. unfold gget in HG. rewrite GR in HG. rewrite (aget_map_vals (fun _ fl => group_restore fl (t_head (s_top s2)))) in HG.
      destruct (aget beqb gid _) as [fl|] eqn:EA in HG; [|discriminate]. cbn [option_map] in HG. injection HG as HG. subst g.
      exists (N.max (N.max fl (t_head (s_top s2) - 1) + 1) (N.max (t_head (s_top s2)) 1)), []. split; [apply hist_restore; reflexivity|]. split; [|split].
      + intros q Hq. destruct (N.lt_ge_cases q (t_head (s_top s2))) as [X|X]; [apply (removed_now soft _ _ _ gid q S'); auto|].
        destruct (d_groups (s_store s)) as [b|] eqn:EB; [|discriminate EA]. destruct (si_file _ _ _ I b EB) as (gs & -> & FI & Q).
        rewrite (groups_round_trip crc crc32) in EA; [|exact (fine_gid crc crc32 s gs (c_lim _ _ _ CO) FI)|exact (proj1 FI)]. apply (aget_In beqb beqb_eq) in EA.
        apply MV. apply (Q gid fl q EA). lia.
      + intros q Hq. discriminate.
      + intro q. rewrite LZ. reflexivity.
    - intros. apply LZ.
    - destruct EM as (-> & _). discriminate.
    - destruct EM as (_ & ->). intros b HB. destruct (si_file _ _ _ I b HB) as (gs & E & FI & Q). exists gs. split; auto. split; [eapply fine_mono; [|exact FI]; lia|]. intros gid f q HI Hq. apply MV. eauto.
  Qed.
  Lemma si_client soft L A s c x : slog soft L A s -> SI soft L s -> SI soft (L ++ [OClient c x]) s.
  Proof.
    intros S [I1 I2 I3 I4]. assert (MV : forall gid q, R soft gid q L -> R soft gid q (L ++ [OClient c x])) by (intros; apply reason_snoc; auto).
    assert (LS : forall gid q, late soft gid q (L ++ [OClient c x]) = late soft gid q L) by (intros; rewrite late_snoc; simpl; lia).
    constructor.
    - intros gid g HG. destruct (I1 gid g HG) as (st & h & HH & H1 & H2 & H3). exists st, h. repeat split; auto. intro q. rewrite LS. auto.
    - intros gid q HG. rewrite LS. auto.
    - intros gs gid f q HS HI Hq. apply MV. eauto.
    - intros b HB. destruct (I4 b HB) as (gs & E & FI & Q). exists gs. repeat split; auto; try apply FI. intros. apply MV. eauto.
  Qed.
  Theorem slog_si soft L A s : slog soft L A s -> SI soft L s.
  Proof.
    induction 1.
    - constructor; try discriminate; reflexivity.
    - eapply si_step; eauto.
    - eapply si_boot; eauto.
    - eapply si_client; eauto.
  Qed.

  (** the position a JOIN reports *)
  Theorem join_reason soft L A s gid c conn f gen q : slog soft L A s -> snd (sstep s (SJoin gid c conn)) = RJoin f gen -> q <= f -> R soft gid q L.
  Proof.
    intros S HJ Hq. pose proof (slog_si _ _ _ _ S) as I. pose proof (slog_calm _ _ _ _ S) as C. destruct (head_pos A s C) as (P1 & _).
    assert (X : exists st h g, hist cfg st h g /\ (forall q, q < st -> R soft gid q L) /\ (forall q, settled_by h q = true -> R soft gid q L) /\ (forall q, handed h q = late soft gid q L) /\
      f = g_floor (fst (clamp_head (t_head (s_top s)) g))).
    { cbn [StreamSysModel.sstep] in HJ. unfold op_join in HJ. destruct (gget gid s) as [g|] eqn:EG.
      - destruct (si_grp _ _ _ I gid g EG) as (st & h & HH & H1 & H2 & H3). exists st, h, g. repeat (split; auto). destruct (clamp_head (t_head (s_top s)) g). simpl in HJ. inversion HJ. reflexivity.
      - exists (N.max (t_head (s_top s)) 1), [], (group_new (t_head (s_top s))). split; [apply hist_new; reflexivity|]. split; [intros q0 H0; apply (removed_now soft L A s); auto; lia|].
        split; [discriminate|]. split; [intro q0; rewrite (si_none _ _ _ I gid q0 EG); reflexivity|]. destruct (clamp_head (t_head (s_top s)) (group_new (t_head (s_top s)))). simpl in HJ. inversion HJ. reflexivity. }
    destruct X as (st & h & g & HH & H1 & H2 & H3 & ->).
    set (g1 := fst (clamp_head (t_head (s_top s)) g)) in *.
    assert (HH1 : hist cfg st ((GClamp (t_head (s_top s)), OUnit) :: h) g1) by (eapply hist_step; [exact HH|exact Logic.I|reflexivity]).
    apply (hist_reason soft L gid st _ g1 q HH1 H1).
    - intros q0 H0. simpl in H0. apply orb_prop in H0. destruct H0 as [H0|H0]; auto. apply N.ltb_lt in H0. apply (removed_now soft L A s); auto.
    - intro q0. simpl. apply H3.
    - apply (floor_settled cfg MD st _ g1 q HH1 Hq).
  Qed.
  (** a record with no reason is still owed *)
  Definition owed (s : sys) (gid : bytes) (q : N) : Prop :=
    match gget gid s with Some g => g_next g <= q \/ pget q (g_pend g) <> None \/ In q (g_red g) | None => True end.
  Theorem kept soft L A s gid q : slog soft L A s -> ~ R soft gid q L -> owed s gid q.
  Proof.
    intros S NR. unfold owed. destruct (gget gid s) as [g|] eqn:EG; auto. destruct (si_grp _ _ _ (slog_si _ _ _ _ S) gid g EG) as (st & h & HH & H1 & H2 & H3).
    pose proof (where_it_is cfg MD st h g q HH) as W. destruct (status_of cfg st h q) eqn:E.
    - left. tauto.
    - right; left. destruct W as (-> & _). discriminate.
    - right; right. tauto.
    - exfalso. apply NR. eapply hist_reason; eauto.
    - exfalso. apply NR. eapply hist_reason; eauto.
  Qed.

  (** ** How often a record is given out *)
  Theorem late_max soft L A s gid q : slog soft L A s -> late soft gid q L <= max_del cfg.
  Proof.
    intro S. pose proof (slog_si _ _ _ _ S) as I. destruct (gget gid s) as [g|] eqn:EG; [|rewrite (si_none _ _ _ I gid q EG); lia].
    destruct (si_grp _ _ _ I gid g EG) as (st & h & HH & _ & _ & H3). rewrite <- H3. pose proof (handed_count cfg MD st h g q HH) as C. destruct (status_of cfg st h q); lia.
  Qed.
  Definition nresets (gid : bytes) (L : list nev) : N := lenN (filter (resets gid) L).
  Theorem given_max soft L A s gid q : slog soft L A s -> given_out crc cfg smax soft gid q L <= max_del cfg * (1 + nresets gid L).
  Proof.
    intro S. assert (X : given_out crc cfg smax soft gid q L <= late soft gid q L + max_del cfg * nresets gid L); [|pose proof (late_max _ _ _ _ gid q S); nia].
    induction S; [apply N.le_0_l| | |]; rewrite given_snoc, late_snoc; unfold nresets in *; rewrite filter_app, lenN_app; cbn [filter];
      match goal with |- context [resets gid ?e] => destruct (resets gid e) eqn:RE end; rewrite ?lenN_cons, ?lenN_nil;
      try (match goal with |- context [gives_out gid q ?x ?e] => destruct (gives_out gid q x e) eqn:GE end); try nia;
      try (pose proof (late_max _ _ _ _ gid q S); simpl in *; try discriminate; nia).
    exfalso. destruct o; try discriminate RE. simpl in GE. discriminate.
  Qed.
End Server.
