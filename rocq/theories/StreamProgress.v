(** When a consumer group can always go on. *)
From Verif Require Import LibBase LibMap StreamTopicModel StreamGroupModel StreamStoreModel StreamStoreCodec StreamStoreProofs StreamStoreFacts StreamGroupSpec StreamGroupProofs StreamGroupFetch StreamGroupHist StreamGroupFacts StreamTopicProofs StreamSysModel StreamSysProofs StreamSysHist StreamSysFacts StreamSysBoot StreamSysLife.

(** ** Clamping twice *)
Lemma filter_twice {A} (p : A -> bool) l : filter p (filter p l) = filter p l.
Proof. induction l as [|x l IH]; auto. simpl. destruct (p x) eqn:E; auto. simpl. rewrite E, IH. auto. Qed.
Lemma filter_all {A} (p : A -> bool) l : (forall x, In x l -> p x = true) -> filter p l = l.
Proof. induction l as [|x l IH]; intro H; auto. simpl. rewrite H by (left; auto). rewrite IH; auto. intros y Hy. apply H. right; auto. Qed.
Lemma filter_nothing {A} (p : A -> bool) l : (forall x, In x l -> p x = false) -> filter p l = [].
Proof. induction l as [|x l IH]; intro H; auto. simpl. rewrite H by (left; auto). apply IH. intros y Hy. apply H. right; auto. Qed.
Lemma lenb_refl {A} (l : list A) : lenb l l = true.
Proof. unfold lenb. apply N.eqb_refl. Qed.
Lemma clamp_still head g : N.max head 1 - 1 <= g_floor g -> N.max head 1 <= g_next g ->
  (forall kv, In kv (g_pend g) -> N.max head 1 <= fst kv) -> (forall s, In s (g_red g) -> N.max head 1 <= s) ->
  (forall s, In s (g_park g) -> N.max head 1 <= s) -> (forall kv, In kv (g_att g) -> N.max head 1 <= fst kv) ->
  clamp_head head g = (g, false).
Proof.
  intros F X P R K A. unfold clamp_head.
  assert (E1 : filter (fun kv : N * pmsg => N.max head 1 <=? fst kv) (g_pend g) = g_pend g) by (apply filter_all; intros kv H; apply N.leb_le; auto).
  assert (E2 : filter (fun s => s <? N.max head 1) (akeys (g_pend g)) = []).
  { apply filter_nothing. intros s H. apply in_map_iff in H. destruct H as (kv & <- & H). apply N.ltb_ge. auto. }
  assert (E3 : filter (fun s => N.max head 1 <=? s) (g_red g) = g_red g) by (apply filter_all; intros kv H; apply N.leb_le; auto).
  assert (E4 : filter (fun s => N.max head 1 <=? s) (g_park g) = g_park g) by (apply filter_all; intros kv H; apply N.leb_le; auto).
  rewrite E1, E2, E3, E4.
  assert (E5 : filter (fun kv : N * N => negb (nmem (fst kv) [])) (g_att g) = g_att g) by (apply filter_all; intros kv H; auto).
  rewrite E5.
  assert (E6 : filter (fun kv : N * N => N.max head 1 <=? fst kv) (g_att g) = g_att g) by (apply filter_all; intros kv H; apply N.leb_le; auto).
  rewrite E6, !lenb_refl.
  destruct (N.ltb_spec (g_floor g) (N.max head 1 - 1)); [lia|]. destruct (N.ltb_spec (g_next g) (N.max head 1)); [lia|]. simpl. destruct g; reflexivity.
Qed.
Lemma advance_ge fuel : forall fl nx p r, fl <= advance fuel fl nx p r.
Proof. induction fuel as [|f IH]; intros; simpl; [lia|]. destruct (_ && _); [|lia]. specialize (IH (fl + 1) nx p r). lia. Qed.
Lemma clamp_twice head g : let g1 := fst (clamp_head head g) in clamp_head head g1 = (g1, false).
Proof.
  cbv zeta. destruct (clamp_fields head g) as (A & B & C & D & E & _). set (h := N.max head 1) in *.
  assert (FL : h - 1 <= g_floor (fst (clamp_head head g))).
  { destruct (clamp_head_eq head g) as [X|(X & _)]; rewrite X; fold h.
    - simpl. destruct (N.ltb_spec (g_floor g) (h - 1)); lia.
    - unfold try_advance_floor. cbn [new_token set_floor g_floor]. eapply N.le_trans; [|apply advance_ge]. simpl. destruct (N.ltb_spec (g_floor g) (h - 1)); lia. }
  apply clamp_still; fold h; auto.
  - rewrite A. simpl. destruct (N.ltb_spec (g_next g) h); lia.
  - rewrite B. simpl. intros kv H. apply filter_In in H. destruct H as (_ & H). apply N.leb_le in H. auto.
  - rewrite C. intros s H. apply clamped_red in H. tauto.
  - rewrite D. intros s H. apply clamped_park in H. tauto.
  - rewrite E. simpl. intros kv H. apply filter_In in H. destruct H as (_ & H). apply N.leb_le in H. auto.
Qed.
Lemma clamp_flag head g : g_cold g = false -> g_cold (fst (clamp_head head g)) = false.
Proof. intro H. destruct (clamp_head_eq head g) as [X|(X & _)]; rewrite X; auto. Qed.
Lemma clamp_set_flag b head g : clamp_head head g = (g, false) -> clamp_head head (set_cold b g) = (set_cold b g, false).
Proof.
  unfold clamp_head. simpl.
  match goal with |- context [if ?x then _ else _] => destruct x end; intro E.
  - inversion E.
  - destruct g; simpl in *. injection E; intros. unfold set_cold; simpl. f_equal. f_equal; assumption.
Qed.

Section Sys.
  Variable crc : bytes -> N.
  Hypothesis crc32 : forall b, crc b < 2 ^ 32.
  Variable cfg : gcfg.
  Variable smax : N.
  Hypothesis MD : 1 <= max_del cfg.
  Notation sstep := (sstep crc cfg smax).
  Notation calm := (calm crc cfg smax).

  (** ** What serving a group consists of: finishing a retention run, fetches of one
      member (with the token current at their start), and the disk reads of fetches of
      the group. [serves]: some sequence of these hands out a message. *)
  Section Serve.
    Variable gid : bytes.
    Variables c gen limit now : N.
    Variable vis : N -> N.
    Inductive serving (s : sys) : sop -> Prop :=
    | sv_head : serving s SHead
    | sv_try g : gget gid s = Some g -> serving s (STry gid c gen limit now (g_tok g))
    | sv_run i : serving s (SColdRun i vis)
    | sv_done i k : nth_error (s_colds s) i = Some k -> k_gid k = gid -> serving s (SColdDone i now).
    Inductive serves (s : sys) : Prop :=
    | sv_now o m ms : serving s o -> snd (sstep s o) = RMsgs (m :: ms) -> serves s
    | sv_more o : serving s o -> serves (fst (sstep s o)) -> serves s.
  End Serve.
  (** A disk read of the group is under way whenever its flag says so. *)
  Definition reading (gid : bytes) (s : sys) : Prop :=
    forall g, gget gid s = Some g -> g_cold g = true -> exists k, In k (s_colds s) /\ k_gid k = gid.

  Definition open_at (g : group) (q : N) : Prop := abs g q = Fresh \/ exists n, abs g q = Waiting n.
  Record want (A : list msg) (gid : bytes) (c gen : N) (vis : N -> N) (q : N) (s : sys) (g : group) : Prop := {
    w_calm : calm A s;
    w_get : gget gid s = Some g;
    w_act : ensure_active c gen g = None;
    w_cap : lenN (g_pend g) < max_pend cfg;
    w_lo : first_file s <= q;
    w_hi : q < t_next (s_top s);
    w_open : open_at g q;
    w_vis : vis_ok vis (s_store s)
  }.
  Lemma want_inv A gid c gen vis q s g : want A gid c gen vis q s g -> inv cfg g.
  Proof.
    intro W. destruct (c_hist _ _ _ (calm_all crc crc32 cfg smax MD A s (w_calm _ _ _ _ _ _ _ _ W)) gid g (w_get _ _ _ _ _ _ _ _ W)) as (st & h & H).
    apply (a_inv _ _ _ _ (hist_agrees cfg MD st h g H)).
  Qed.
  Lemma open_in g q : inv cfg g -> open_at g q -> In q (g_red g) \/ g_next g <= q.
  Proof.
    intros I [H|(n & H)].
    - right. apply (abs_fresh cfg MD g q (proj1 I)). exact H.
    - left. unfold abs in H. destruct (pget q (g_pend g)); [discriminate|]. destruct (nmem q (g_red g)) eqn:E; [apply nmem_In; auto|].
      destruct (nmem q (g_park g)); [discriminate|]. destruct (_ <? _); discriminate.
  Qed.
  Lemma open_clamp head g q : inv cfg g -> head <= q -> open_at g q -> open_at (fst (clamp_head head g)) q.
  Proof. intros I L. unfold open_at. rewrite (clamp_abs cfg) by apply I. unfold StreamGroupSpec.below. destruct (N.ltb_spec q head); [lia|]. auto. Qed.
  Lemma open_flag b g q : open_at g q -> open_at (set_cold b g) q.
  Proof. intro H. exact H. Qed.
  Lemma act_clamp head c gen g : ensure_active c gen g = None -> ensure_active c gen (fst (clamp_head head g)) = None.
  Proof. intro H. destruct (clamp_fields head g) as (_ & _ & _ & _ & _ & A & B). unfold ensure_active in *. rewrite A, B. exact H. Qed.
  Lemma cap_clamp head g : lenN (g_pend g) < max_pend cfg -> lenN (g_pend (fst (clamp_head head g))) < max_pend cfg.
  Proof. intro H. destruct (clamp_fields head g) as (_ & -> & _). simpl. pose proof (lenN_filter _ (fun kv : N * pmsg => N.max head 1 <=? fst kv) (g_pend g)). lia. Qed.

  (** ** A fetch of a group already cut to the head *)
  Lemma fetch_or c gen limit now log ram head g : inv cfg g -> log_ok log ram -> clamp_head head g = (g, false) ->
    ensure_active c gen g = None -> lenN (g_pend g) < max_pend cfg -> 1 <= limit ->
    (exists g2 m ms, fetch cfg c gen limit now log ram head g = (g2, inr (m :: ms))) \/
    (fetch cfg c gen limit now log ram head g = (g, inr []) /\ (forall q r, g_red g = q :: r -> read_from_log log ram q = None) /\ read_from_log log ram (g_next g) = None).
  Proof.
    intros I LO CH EA BP L.
    destruct (fetch_exact cfg MD c gen limit now log ram head g I LO EA) as (g2 & EF & _). rewrite CH in EF. cbn [fst] in EF.
    set (bud := N.min limit (max_pend cfg - lenN (g_pend g))) in *. assert (B : 1 <= bud) by (unfold bud; lia).
    set (r1 := takeN bud (red_part log ram (g_red g))) in *. set (r2 := takeN (bud - lenN r1) (new_part log ram (g_next g))) in *.
    destruct (r1 ++ r2) as [|m ms] eqn:ER; [right|left; eauto]. apply app_eq_nil in ER. destruct ER as (E1 & E2).
    assert (TN : forall X n (l : list X), 1 <= n -> takeN n l = [] -> l = []).
    { intros X n [|x l] Hn Ht; auto. rewrite takeN_cons in Ht by lia. discriminate. }
    unfold r2 in E2. rewrite E1, lenN_nil, N.sub_0_r in E2. apply TN in E2; auto. unfold r1 in E1. apply TN in E1; auto.
    assert (RR : forall q r, g_red g = q :: r -> read_from_log log ram q = None).
    { intros q r E. rewrite E in E1. cbn [red_part] in E1. destruct (read_from_log log ram q); auto. discriminate. }
    assert (NN : read_from_log log ram (g_next g) = None).
    { rewrite new_part_step in E2. destruct (read_from_log log ram (g_next g)); auto. discriminate. }
    split; [|split; auto]. unfold fetch. rewrite EA, CH. cbn [fst]. destruct (N.leb_spec (max_pend cfg) (lenN (g_pend g))); [lia|]. fold bud.
    assert (NX : N.max head 1 <= g_next g /\ forall q, In q (g_red g) -> head <= q).
    { destruct (clamp_head_low cfg MD head g (proj1 I)) as (H1 & H2). rewrite CH in *. cbn [fst] in *. pose proof (i_fl _ _ (proj1 I)). split; auto. lia. }
    assert (FR : fetch_red cfg c now log ram head bud (g_red g) [] g = (g, [])).
    { destruct (g_red g) as [|q r] eqn:E; cbn [fetch_red].
      - destruct g; simpl in *. rewrite E. reflexivity.
      - rewrite lenN_nil. destruct (N.leb_spec bud 0); [lia|]. destruct (N.ltb_spec q head) as [X|X]; [exfalso; assert (head <= q) by (apply NX; left; auto); lia|].
        rewrite (RR q r eq_refl). destruct g; simpl in *. rewrite <- E. reflexivity. }
    rewrite FR. cbn [fetch_new]. rewrite lenN_nil. destruct (N.leb_spec bud 0); [lia|]. replace (N.max (g_next g) head) with (g_next g) by lia. rewrite NN.
    destruct (N.ltb_spec (g_next g) head); [lia|]. reflexivity.
  Qed.

  Lemma in_memory A s n : sys_ok crc 1 A s -> t_ram (s_top s) <= n -> n < t_next (s_top s) -> read_from_log (t_log (s_top s)) (t_ram (s_top s)) n <> None.
  Proof.
    intros (W & dh & bl & H) L1 L2. destruct (i_topic _ _ _ _ _ _ _ H) as (K & _).
    unfold read_from_log. destruct (N.ltb_spec n (t_ram (s_top s))); [lia|]. simpl. destruct (t_log (s_top s)) as [|m r] eqn:EL; [pose proof (k_ram _ _ _ K EL); lia|].
    rewrite <- EL. destruct (k_log _ _ _ K) as (k & E & F). destruct F as (F1 & F2); [rewrite EL; discriminate|].
    intro X. apply nth_error_None in X. assert (Y : lenN (t_log (s_top s)) = lenN A - k) by (rewrite E; apply lenN_dropN). rewrite (k_next _ _ _ K) in L2. unfold lenN in *. lia.
  Qed.
  Lemma head_first A s : sys_ok crc 1 A s -> s_ret s = None -> t_head (s_top s) = first_file s /\ 1 <= t_head (s_top s).
  Proof. intros (W & dh & bl & H) R. rewrite (first_eq crc 1 A W dh bl s H). destruct (i_pos _ _ _ _ _ _ _ H). auto. Qed.

  Definition due (g : group) (fr : N) : Prop := In fr (g_red g) \/ fr = g_next g.
  (** A fetch that finds the flag down: messages, or a disk read at a message due. *)
  Lemma try_or A gid c gen vis q s g limit now tok : want A gid c gen vis q s g -> s_ret s = None -> g_cold g = false -> 1 <= limit ->
    (exists m ms, snd (sstep s (STry gid c gen limit now tok)) = RMsgs (m :: ms)) \/
    exists fr, let s' := fst (sstep s (STry gid c gen limit now tok)) in let g1 := fst (clamp_head (t_head (s_top s)) g) in
      gget gid s' = Some (set_cold true g1) /\ s_colds s' = s_colds s ++ [mkCold gid c gen limit fr tok None] /\
      t_head (s_top s) <= fr /\ fr < t_ram (s_top s) /\ due g1 fr.
  Proof.
    intros W R F L. pose proof (want_inv _ _ _ _ _ _ _ _ W) as I. destruct W as [C G EA CAP LO HI OP V].
    pose proof (calm_sys crc crc32 cfg smax A s C) as SO. pose proof (calm_all crc crc32 cfg smax MD A s C) as CO.
    destruct (head_first A s SO R) as (HF & H1). rewrite <- HF in LO.
    cbn [StreamSysModel.sstep]. unfold op_try. rewrite G.
    pose proof (clamp_twice (t_head (s_top s)) g) as CT. pose proof (clamp_inv cfg (t_head (s_top s)) g I) as I1.
    pose proof (clamp_flag (t_head (s_top s)) g F) as F1. pose proof (open_clamp (t_head (s_top s)) g q I LO OP) as O1.
    pose proof (act_clamp (t_head (s_top s)) c gen g EA) as EA1. pose proof (cap_clamp (t_head (s_top s)) g CAP) as CAP1.
    pose proof (proj1 (clamp_fields (t_head (s_top s)) g)) as CN.
    cbv zeta in CT. destruct (clamp_head (t_head (s_top s)) g) as [g1 cl]. cbn [fst] in *.
    unfold is_backpressured. destruct (N.leb_spec (max_pend cfg) (lenN (g_pend g1))); [lia|].
    assert (LOG : log_ok (t_log (s_top s)) (t_ram (s_top s))).
    { destruct SO as (W0 & dh & bl & H0). apply (topic_log_ok _ _ _ (proj1 (i_topic _ _ _ _ _ _ _ H0))). }
    destruct (fetch_or c gen limit now (t_log (s_top s)) (t_ram (s_top s)) (t_head (s_top s)) g1 I1 LOG CT EA1 CAP1 L) as [(g2 & m & ms & E)|(E & ER & EN)]; rewrite E; [left; simpl; eauto|].
    right. rewrite F1. exists (next_fetch_seq (t_head (s_top s)) g1).
    assert (RAM : t_ram (s_top s) <= t_next (s_top s)) by (destruct SO as (W0 & dh & bl & H0); apply (i_ram2 _ _ _ _ _ _ _ H0)).
    destruct (clamp_head_low cfg MD (t_head (s_top s)) g1 (proj1 I1)) as (LW1 & LW2). rewrite CT in LW1, LW2. cbn [fst] in LW1, LW2.
    pose proof (i_fl _ _ (proj1 I1)) as FL.
    assert (NB : g_next g1 <= t_next (s_top s)).
    { pose proof (proj1 (c_below _ _ _ CO) gid g G) as NB. rewrite CN. simpl. destruct SO as (W0 & dh & bl & H0). pose proof (i_topic _ _ _ _ _ _ _ H0) as (_ & _ & X).
      destruct (_ <? _); lia. }
    assert (FR : let fr := next_fetch_seq (t_head (s_top s)) g1 in t_head (s_top s) <= fr /\ fr < t_ram (s_top s) /\ due g1 fr).
    { unfold next_fetch_seq. cbv zeta. destruct (open_in g1 q I1 O1) as [OI|OI].
      - destruct (g_red g1) as [|q0 r] eqn:EQ; [contradiction|].
        assert (IQ : In q0 (g_red g1)) by (rewrite EQ; left; auto). assert (t_head (s_top s) <= q0) by (apply LW2; left; auto).
        replace (N.max q0 (N.max (t_head (s_top s)) 1)) with q0 by lia. split; auto. split; [|left; exact IQ].
        destruct (N.lt_ge_cases q0 (t_ram (s_top s))) as [|GE]; auto. exfalso. apply (in_memory A s q0 SO GE); [|apply (ER q0 r eq_refl)].
        pose proof (i_rrange _ _ (proj1 I1) q0 IQ). lia.
      - destruct (g_red g1) as [|q0 r] eqn:EQ.
        + replace (N.max (g_next g1) (N.max (t_head (s_top s)) 1)) with (g_next g1) by lia. split; auto. split; [|right; auto].
          destruct (N.lt_ge_cases (g_next g1) (t_ram (s_top s))) as [|GE]; auto. exfalso. apply (in_memory A s (g_next g1) SO GE); [lia|exact EN].
        + assert (IQ : In q0 (g_red g1)) by (rewrite EQ; left; auto). assert (t_head (s_top s) <= q0) by (apply LW2; left; auto).
          replace (N.max q0 (N.max (t_head (s_top s)) 1)) with q0 by lia. split; auto. split; [|left; exact IQ].
          destruct (N.lt_ge_cases q0 (t_ram (s_top s))) as [|GE]; auto. exfalso. apply (in_memory A s q0 SO GE); [|apply (ER q0 r eq_refl)].
          pose proof (i_rrange _ _ (proj1 I1) q0 IQ). lia. }
    cbv zeta in FR. destruct FR as (FR1 & FR2 & FR3). destruct (N.ltb_spec (next_fetch_seq (t_head (s_top s)) g1) (t_next (s_top s))); [|lia].
    destruct (N.ltb_spec (next_fetch_seq (t_head (s_top s)) g1) (t_ram (s_top s))); [|lia]. cbn [andb fst].
    split; [|split; [reflexivity|split; auto]]. unfold gget, set_colds. cbn [s_groups]. change (gget gid (mark cl (gput gid (set_cold true g1) s)) = Some (set_cold true g1)).
    rewrite gget_mark. apply gget_gput_same.
  Qed.

  (** The disk read then starts with that message. *)
  Lemma cold_first A s vis fr limit : sys_ok crc 1 A s -> vis_ok vis (s_store s) -> s_ret s = None -> t_head (s_top s) <= fr -> fr < t_ram (s_top s) -> 1 <= limit ->
    exists m ms, cold_read crc (seen vis (s_store s)) fr limit = m :: ms /\ m_seq m = fr.
  Proof.
    intros SO V R L1 L2 L. rewrite (cold_read_exact crc crc32 1 A s vis fr limit SO V).
    destruct (head_first A s SO R) as (HF & H1). destruct (disk_piece crc crc32 1 A s vis SO V) as (n & E & D).
    pose proof SO as (W & dh & bl & H). destruct (i_topic _ _ _ _ _ _ _ H) as (K & _). pose proof (i_ram2 _ _ _ _ _ _ _ H) as R2.
    rewrite (k_next _ _ _ K) in R2. destruct (log_ok_in A 1 fr (k_all _ _ _ K)) as (m & IM & EM); [lia|lia|].
    assert (ID : In m (on_disk crc vis s)) by (apply D; auto; [rewrite <- HF; lia|left; lia]).
    rewrite (from_drop A 1 (first_file s) (k_all _ _ _ K)) in E by lia.
    assert (LO : log_ok (on_disk crc vis s) (first_file s)).
    { rewrite E. apply log_ok_takeN. intros i x Hx. unfold dropN in Hx. rewrite nth_skipn in Hx. apply (k_all _ _ _ K) in Hx. lia. }
    rewrite (from_drop _ (first_file s) fr LO) by lia.
    apply In_nth_error in ID. destruct ID as (i & ID). pose proof (LO _ _ ID) as SEQ.
    rewrite (nth_dropN _ _ (fr - first_file s) m); [|replace (N.to_nat (fr - first_file s)) with i by lia; exact ID].
    rewrite takeN_cons by lia. eauto.
  Qed.
  Lemma cold_gives c gen now m ms head g : inv cfg g -> clamp_head head g = (g, false) -> ensure_active c gen g = None -> lenN (g_pend g) < max_pend cfg ->
    head <= m_seq m -> due g (m_seq m) -> exists g2 m' ms', register_cold cfg c gen now (m :: ms) head g = (g2, inr (m' :: ms')).
  Proof.
    intros I CH EA CAP LH DU. unfold register_cold. rewrite EA, CH. cbn [fst cold_loop]. destruct (N.leb_spec (max_pend cfg) (lenN (g_pend g))); [lia|].
    destruct (clamp_head_low cfg MD head g (proj1 I)) as (L1 & L2). rewrite CH in L1, L2. cbn [fst] in L1, L2.
    assert (AM : agetN c (g_mem g) <> None) by (apply ensure_None in EA; tauto).
    destruct (cold_one_ok cfg MD c now head m g [] I L1 L2 AM CAP) as (g1 & d & X & I1 & _ & D & M1 & _ & N1 & _ & R1). rewrite X. simpl app.
    destruct D as [(-> & _ & [D|(D1 & D2)])|(-> & _)]; [lia|destruct DU; contradiction|].
    destruct (cold_loop_ok cfg MD c now head ms g1 [m] I1 ltac:(lia) (fun s H => L2 s (R1 s H)) ltac:(congruence)) as (g2 & out & Y & _). rewrite Y. simpl. eauto.
  Qed.
  Lemma cold_loop_nil c now head : forall ms g res g1, inv cfg g -> head <= g_next g -> (forall s, In s (g_red g) -> head <= s) ->
    agetN c (g_mem g) <> None -> cold_loop cfg c now head ms (g, res) = (g1, res) -> g1 = g.
  Proof.
    induction ms as [|m ms IH]; intros g res g1 I L1 L2 AM; cbn [cold_loop fst]; [intro E; inversion E; auto|].
    destruct (N.leb_spec (max_pend cfg) (lenN (g_pend g))) as [B|B]; [intro E; inversion E; auto|].
    destruct (cold_one_ok cfg MD c now head m g res I L1 L2 AM B) as (g2 & d & X & I2 & _ & D & M2 & _ & N2 & _ & R2). rewrite X.
    destruct D as [(-> & -> & _)|(-> & _)].
    - rewrite app_nil_r. apply IH; auto.
    - destruct (cold_loop_ok cfg MD c now head ms g2 (res ++ [m]) I2 ltac:(lia) (fun s H => L2 s (R2 s H)) ltac:(congruence)) as (g3 & out & Y & _). rewrite Y.
      intro E. exfalso. assert (E2 : (res ++ [m]) ++ out = res) by congruence. apply (f_equal (@length _)) in E2. rewrite !app_length in E2. simpl in E2. lia.
  Qed.

  (** ** The state a finished disk read leaves *)
  Lemma want_step A gid c gen vis q s g o g' : want A gid c gen vis q s g -> consumer_op o = true -> op_ok s o -> short o ->
    gget gid (fst (sstep s o)) = Some g' -> ensure_active c gen g' = None -> lenN (g_pend g') < max_pend cfg -> open_at g' q ->
    want A gid c gen vis q (fst (sstep s o)) g' /\ s_ret (fst (sstep s o)) = s_ret s /\ s_top (fst (sstep s o)) = s_top s /\ s_store (fst (sstep s o)) = s_store s.
  Proof.
    intros [C G EA CAP LO HI OP V] CO OK SH G' EA' CAP' OP'. pose proof (consumer_core crc cfg smax s o CO) as E. unfold core in E. inversion E as [[E1 E2 E3 E4 E5]].
    split; [|auto]. constructor; auto.
    - assert (AD : adds s o = []) by (destruct o; try discriminate; reflexivity). rewrite <- (app_nil_r A), <- AD. apply calm_step; auto. destruct o; try discriminate; exact Logic.I.
    - unfold first_file. rewrite E2. exact LO.
    - rewrite E1. exact HI.
    - rewrite E2. exact V.
  Qed.
  Lemma run_step gid s i vis k : nth_error (s_colds s) i = Some k ->
    let s' := fst (sstep s (SColdRun i vis)) in
    gget gid s' = gget gid s /\
    nth_error (s_colds s') i = Some (mkCold (k_gid k) (k_c k) (k_gen k) (k_limit k) (k_from k) (k_tok k) (Some (cold_read crc (seen vis (s_store s)) (k_from k) (k_limit k)))).
  Proof.
    intro E. cbn [StreamSysModel.sstep fst]. unfold op_cold_run. rewrite E. split; [reflexivity|]. cbn [s_colds set_colds].
    assert (i < length (s_colds s))%nat by (apply nth_error_Some; congruence).
    rewrite nth_error_app2 by (rewrite firstn_length; lia). rewrite firstn_length. replace (i - Nat.min i (length (s_colds s)))%nat with 0%nat by lia. reflexivity.
  Qed.
  (** Finishing any disk read of the group takes the flag down; it hands out messages or
      leaves the group as it was, cut to the head. *)
  Lemma done_or A gid c gen vis q s g i k ms now : want A gid c gen vis q s g -> s_ret s = None -> nth_error (s_colds s) i = Some k -> k_gid k = gid -> k_res k = Some ms ->
    let o := SColdDone i now in
    (exists m r, snd (sstep s o) = RMsgs (m :: r)) \/
    exists g', gget gid (fst (sstep s o)) = Some g' /\ g_cold g' = false /\ (g' = set_cold false g \/ g' = fst (clamp_head (t_head (s_top s)) (set_cold false g))) /\
      want A gid c gen vis q (fst (sstep s o)) g' /\ s_ret (fst (sstep s o)) = None /\ s_top (fst (sstep s o)) = s_top s.
  Proof.
    intros W R EK KG KR o. pose proof (want_inv _ _ _ _ _ _ _ _ W) as I. pose proof W as [C G EA CAP LO HI OP V].
    pose proof (calm_sys crc crc32 cfg smax A s C) as SO. destruct (head_first A s SO R) as (HF & H1). rewrite <- HF in LO.
    assert (I0 : inv cfg (set_cold false g)) by (destruct I as (I & M); split; [apply inv0_cold; exact I|exact M]).
    assert (STEP : forall g', gget gid (fst (sstep s o)) = Some g' -> (g' = set_cold false g \/ g' = fst (clamp_head (t_head (s_top s)) (set_cold false g))) ->
      g_cold g' = false /\ want A gid c gen vis q (fst (sstep s o)) g' /\ s_ret (fst (sstep s o)) = None /\ s_top (fst (sstep s o)) = s_top s).
    { intros g' E D. assert (CC : g_cold g' = false) by (destruct D as [->| ->]; [reflexivity|apply clamp_flag; reflexivity]).
      assert (W2 : want A gid c gen vis q (fst (sstep s o)) g' /\ s_ret (fst (sstep s o)) = s_ret s /\ s_top (fst (sstep s o)) = s_top s /\ s_store (fst (sstep s o)) = s_store s).
      { apply (want_step A gid c gen vis q s g o g' W); try reflexivity; auto.
        - destruct D as [->| ->]; [exact EA|apply act_clamp; exact EA].
        - destruct D as [->| ->]; [exact CAP|apply cap_clamp; exact CAP].
        - destruct D as [->| ->]; [exact OP|apply open_clamp; auto]. }
      rewrite R in W2. tauto. }
    assert (HGG : forall x, gget gid (set_colds x s) = Some g) by (intro x; exact G).
    assert (MAIN : (exists m r, snd (sstep s o) = RMsgs (m :: r)) \/ exists g', gget gid (fst (sstep s o)) = Some g' /\ (g' = set_cold false g \/ g' = fst (clamp_head (t_head (s_top s)) (set_cold false g)))).
    { unfold o. cbn [StreamSysModel.sstep]. unfold op_cold_done. rewrite EK, KR, KG, HGG.
      destruct (negb (k_tok k =? g_tok g)); [right; exists (set_cold false g); split; [apply gget_gput_same|auto]|].
      pose proof (clamp_twice (t_head (s_top s)) (set_cold false g)) as CT. pose proof (clamp_inv cfg (t_head (s_top s)) _ I0) as I1.
      cbn [s_top set_colds]. destruct (clamp_head (t_head (s_top s)) (set_cold false g)) as [g2 cl] eqn:EC. cbn [fst] in *.
      destruct (ensure_active (k_c k) (k_gen k) g2) as [e|] eqn:EA2.
      { rewrite (cold_err cfg (k_c k) (k_gen k) now ms (t_head (s_top s)) g2 e EA2). right. exists g2. split; [apply gget_gput_same|auto]. }
      assert (AM : agetN (k_c k) (g_mem g2) <> None) by (apply ensure_None in EA2; tauto).
      destruct (cold_ok cfg MD (k_c k) (k_gen k) now ms (t_head (s_top s)) g2 I1 EA2) as (g3 & out & X & _). rewrite X.
      destruct out as [|m r]; [right|left; simpl; eauto]. exists g3. cbn [fst]. rewrite gget_mark. split; [apply gget_gput_same|]. right.
      unfold register_cold in X. rewrite EA2, CT in X. cbn [fst] in X.
      destruct (clamp_head_low cfg MD (t_head (s_top s)) g2 (proj1 I1)) as (L1 & L2). rewrite CT in L1, L2. cbn [fst] in L1, L2.
      destruct (cold_loop cfg (k_c k) now (t_head (s_top s)) ms (g2, [])) as [g4 r4] eqn:EL. inversion X; subst g4 r4.
      apply (cold_loop_nil (k_c k) now (t_head (s_top s)) ms g2 [] g3 I1 L1 L2 AM EL). }
    destruct MAIN as [M|(g' & E & D)]; [left; exact M|right]. exists g'. destruct (STEP g' E D) as (S1 & S2 & S3 & S4). auto 10.
  Qed.

  Lemma want_short A gid c gen vis q s g : want A gid c gen vis q s g -> lenN gid < 65536.
  Proof. intros [C G _ _ _ _ _ _]. apply (c_short _ _ _ (calm_all crc crc32 cfg smax MD A s C)). apply key_gget. congruence. Qed.

  (** ** One round of a member: a fetch, and if it has to read the disk, the read *)
  Section Round.
    Variable A : list msg.
    Variable gid : bytes.
    Variables c gen limit now : N.
    Variable vis : N -> N.
    Variable q : N.
    Hypothesis LIM : 1 <= limit.
    Notation want := (want A gid c gen vis q).
    Notation serves := (serves gid c gen limit now vis).

    Lemma round s g : want s g -> s_ret s = None -> g_cold g = false ->
      serves s \/
      (g_tok (fst (clamp_head (t_head (s_top s)) g)) <> g_tok g /\
       exists s' g', want s' g' /\ s_ret s' = None /\ g_cold g' = false /\ clamp_head (t_head (s_top s')) g' = (g', false) /\ (serves s' -> serves s)).
    Proof.
      intros W R F. pose proof (want_inv _ _ _ _ _ _ _ _ W) as I. pose proof (want_short _ _ _ _ _ _ _ _ W) as SHORT.
      set (o1 := STry gid c gen limit now (g_tok g)). set (s1 := fst (sstep s o1)).
      assert (V1 : serving gid c gen limit now vis s o1) by (apply sv_try; apply W).
      destruct (try_or A gid c gen vis q s g limit now (g_tok g) W R F LIM) as [(m & ms & E)|(fr & E)]; [left; eapply sv_now; eauto|].
      cbv zeta in E. fold o1 in E. fold s1 in E. set (g1 := fst (clamp_head (t_head (s_top s)) g)) in *. destruct E as (G1 & CS & FR1 & FR2 & DU).
      pose proof W as [C G EA CAP LO HI OP V]. pose proof (calm_sys crc crc32 cfg smax A s C) as SO. destruct (head_first A s SO R) as (HF & H1).
      pose proof (clamp_twice (t_head (s_top s)) g) as CT. cbv zeta in CT. fold g1 in CT.
      assert (W1 : want s1 (set_cold true g1) /\ s_ret s1 = s_ret s /\ s_top s1 = s_top s /\ s_store s1 = s_store s).
      { apply (want_step A gid c gen vis q s g o1 (set_cold true g1) W); auto; try reflexivity.
        - change (ensure_active c gen g1 = None). apply act_clamp. exact EA.
        - change (lenN (g_pend g1) < max_pend cfg). apply cap_clamp. exact CAP.
        - change (open_at g1 q). apply open_clamp; auto. rewrite HF. exact LO. }
      destruct W1 as (W1 & R1 & T1 & D1).
      set (i := length (s_colds s)). assert (EK : nth_error (s_colds s1) i = Some (mkCold gid c gen limit fr (g_tok g) None)).
      { rewrite CS. unfold i. rewrite nth_error_app2 by lia. rewrite Nat.sub_diag. reflexivity. }
      set (o2 := SColdRun i vis). set (s2 := fst (sstep s1 o2)).
      destruct (run_step gid s1 i vis _ EK) as (G2 & EK2). fold o2 in G2, EK2. fold s2 in G2, EK2. cbn [k_gid k_c k_gen k_limit k_from k_tok] in EK2.
      assert (W2 : want s2 (set_cold true g1) /\ s_ret s2 = s_ret s1 /\ s_top s2 = s_top s1 /\ s_store s2 = s_store s1).
      { apply (want_step A gid c gen vis q s1 (set_cold true g1) o2 (set_cold true g1) W1); auto; try reflexivity.
        - simpl. rewrite D1. exact V.
        - unfold s2 in G2. rewrite G2. exact G1.
        - apply W1. - apply W1. - apply W1. }
      destruct W2 as (W2 & R2 & T2 & D2).
      assert (R20 : s_ret s2 = None) by congruence. assert (T20 : s_top s2 = s_top s) by congruence.
      set (o3 := SColdDone i now). assert (V3 : serving gid c gen limit now vis s2 o3) by (eapply sv_done; [exact EK2|reflexivity]).
      assert (V2 : serving gid c gen limit now vis s1 o2) by apply sv_run.
      assert (UP2 : serves s2 -> serves s) by (intro Z; apply (sv_more _ _ _ _ _ _ s o1 V1); apply (sv_more _ _ _ _ _ _ s1 o2 V2); exact Z).
      destruct (N.eq_dec (g_tok g1) (g_tok g)) as [TK|TK].
      - left. apply UP2. assert (RR : exists m r, snd (sstep s2 o3) = RMsgs (m :: r)); [|destruct RR as (m & r & RR); eapply sv_now; eauto].
        rewrite D1 in EK2. destruct (cold_first A s vis fr limit SO V R FR1 FR2 LIM) as (m & ms & EM & SEQ). rewrite EM in EK2.
        unfold o3. cbn [StreamSysModel.sstep]. unfold op_cold_done. rewrite EK2. cbn [k_res k_gid k_tok k_c k_gen].
        assert (GG : forall x, gget gid (set_colds x s2) = Some (set_cold true g1)) by (intro x; transitivity (gget gid s1); [exact G2|exact G1]). rewrite GG.
        change (g_tok (set_cold true g1)) with (g_tok g1). rewrite TK, N.eqb_refl. cbn [negb s_top set_colds].
        change (set_cold false (set_cold true g1)) with (set_cold false g1). rewrite T20, (clamp_set_flag false _ _ CT).
        destruct (cold_gives c gen now m ms (t_head (s_top s)) (set_cold false g1)) as (g2 & m' & ms' & X).
        + destruct (clamp_inv cfg (t_head (s_top s)) g I) as (I1 & M1). fold g1 in I1, M1. split; [apply inv0_cold; exact I1|exact M1].
        + apply clamp_set_flag. exact CT.
        + change (ensure_active c gen g1 = None). apply act_clamp. exact EA.
        + change (lenN (g_pend g1) < max_pend cfg). apply cap_clamp. exact CAP.
        + rewrite SEQ. exact FR1.
        + rewrite SEQ. exact DU.
        + rewrite X. simpl. eauto.
      - destruct (done_or A gid c gen vis q s2 (set_cold true g1) i _ _ now W2 R20 EK2 eq_refl eq_refl) as [(m & r & X)|(g' & G3 & F3 & D3 & W3 & R3 & T3)].
        + left. apply UP2. eapply sv_now; eauto.
        + right. split; [exact TK|]. exists (fst (sstep s2 o3)), g'. split; [exact W3|]. split; [exact R3|]. split; [exact F3|]. split.
          * fold o3 in T3. rewrite T3. rewrite T20 in *. change (set_cold false (set_cold true g1)) with (set_cold false g1) in D3. rewrite (clamp_set_flag false _ _ CT) in D3. cbn [fst] in D3.
            assert (g' = set_cold false g1) by tauto. subst g'. apply clamp_set_flag. exact CT.
          * intro Z. apply UP2. eapply sv_more; eauto.
    Qed.
    Lemma two_rounds s g : want s g -> s_ret s = None -> g_cold g = false -> serves s.
    Proof.
      intros W R F. destruct (round s g W R F) as [|(_ & s' & g' & W' & R' & F' & CT & UP)]; auto.
      apply UP. destruct (round s' g' W' R' F') as [|(TK & _)]; auto. rewrite CT in TK. contradiction TK; reflexivity.
    Qed.
    Lemma finish s g : want s g -> s_ret s = None -> reading gid s -> serves s.
    Proof.
      intros W R RD. destruct (g_cold g) eqn:F; [|apply (two_rounds s g); auto].
      destruct (RD g (w_get _ _ _ _ _ _ _ _ W) F) as (k & IK & KG). apply In_nth_error in IK. destruct IK as (i & EK).
      assert (RUN : forall s k (ms : list msg), want s g -> s_ret s = None -> nth_error (s_colds s) i = Some k -> k_gid k = gid -> k_res k = Some ms -> serves s).
      { clear s k W R RD KG EK F. intros s k ms W R EK KG KR. assert (V3 : serving gid c gen limit now vis s (SColdDone i now)) by (eapply sv_done; eauto).
        destruct (done_or A gid c gen vis q s g i k ms now W R EK KG KR) as [(m & r & X)|(g' & G3 & F3 & _ & W3 & R3 & _)].
        - eapply sv_now; eauto.
        - eapply sv_more; [exact V3|]. apply (two_rounds _ g'); auto. }
      destruct (run_step gid s i vis k EK) as (G2 & EK2).
      destruct (want_step A gid c gen vis q s g (SColdRun i vis) g W) as (W2 & R2 & _); try reflexivity; try apply W.
      { rewrite G2. apply W. }
      eapply sv_more; [apply sv_run|]. eapply RUN; eauto; [congruence|reflexivity].
    Qed.
  End Round.

  (** The end of a retention run, if one is under way *)
  Lemma head_want A gid c gen vis q s g : want A gid c gen vis q s g -> reading gid s ->
    exists g', want A gid c gen vis q (fst (sstep s SHead)) g' /\ s_ret (fst (sstep s SHead)) = None /\ reading gid (fst (sstep s SHead)).
  Proof.
    intros W RD. pose proof (want_inv _ _ _ _ _ _ _ _ W) as I. pose proof W as [C G EA CAP LO HI OP V].
    pose proof (calm_sys crc crc32 cfg smax A s C) as SO.
    assert (CA : calm A (fst (sstep s SHead))).
    { pose proof (StreamSysLife.calm_step crc cfg smax A s SHead C Logic.I Logic.I Logic.I) as X. simpl adds in X. rewrite app_nil_r in X. exact X. }
    pose proof (step_group crc cfg smax gid s SHead) as SG. rewrite G in SG. cbn [gtrace] in SG.
    assert (FF : s_ret (fst (sstep s SHead)) = None /\ s_store (fst (sstep s SHead)) = s_store s /\ t_next (s_top (fst (sstep s SHead))) = t_next (s_top s) /\ s_colds (fst (sstep s SHead)) = s_colds s).
    { cbn [StreamSysModel.sstep fst]. unfold op_head. destruct (s_ret s) as [h|] eqn:R; [|cbn [fst]; auto]. destruct (h =? t_head (s_top s)); cbn [fst]; auto.
      match goal with |- context [mark ?b _] => destruct b end; auto. }
    destruct FF as (F1 & F2 & F3 & F4).
    assert (GG : exists g', gget gid (fst (sstep s SHead)) = Some g' /\ (g' = g \/ exists h, h <= q /\ g' = fst (clamp_head h g))).
    { rewrite SG. destruct (s_ret s) as [h|] eqn:R; [|simpl; eauto]. destruct (h =? t_head (s_top s)); [simpl; eauto|]. cbn [grun gstep snd].
      eexists. split; [reflexivity|]. right. exists h. split; [|reflexivity]. destruct SO as (W0 & dh & bl & H0). destruct (i_ret _ _ _ _ _ _ _ H0 h R) as (_ & ->).
      rewrite <- (first_eq crc 1 A W0 dh bl s H0). exact LO. }
    destruct GG as (g' & G' & D). exists g'. split; [|split; [exact F1|]].
    - constructor; auto.
      + destruct D as [->|(h & _ & ->)]; auto. apply act_clamp. exact EA.
      + destruct D as [->|(h & _ & ->)]; auto. apply cap_clamp. exact CAP.
      + unfold first_file. rewrite F2. exact LO.
      + rewrite F3. exact HI.
      + destruct D as [->|(h & L & ->)]; auto. apply open_clamp; auto.
      + rewrite F2. exact V.
    - intros g0 E F. rewrite G' in E. inversion E; subst g0. rewrite F4. apply (RD g G). destruct D as [->|(h & _ & ->)]; auto.
      destruct (g_cold g) eqn:X; auto. rewrite (clamp_flag h g X) in F. discriminate.
  Qed.
  Theorem progress A gid c gen vis q s g limit now : want A gid c gen vis q s g -> reading gid s -> 1 <= limit -> serves gid c gen limit now vis s.
  Proof.
    intros W RD L. destruct (head_want _ _ _ _ _ _ _ _ W RD) as (g' & W' & R' & RD').
    eapply sv_more; [apply sv_head|]. apply (finish A gid c gen limit now vis q L _ g'); auto.
  Qed.

  (** ** A disk read is under way whenever the flag says so, unless a read was cut off *)
  Lemma flag_issue c now m g : g_cold (fst (issue_delivery cfg c now m g)) = g_cold g.
  Proof. unfold issue_delivery. cbv zeta. destruct (_ <? _); reflexivity. Qed.
  Lemma flag_release l : forall g, g_cold (fold_left (release_one cfg) l g) = g_cold g.
  Proof. induction l as [|x l IH]; intro g; simpl; auto. rewrite IH. unfold release_one, release_seq. destruct (_ <=? _); [reflexivity|]. destruct (nmem _ _); reflexivity. Qed.
  Lemma flag_remove ord c g : g_cold (fst (remove_member cfg ord c g)) = g_cold g.
  Proof. unfold remove_member. destruct (agetN c (g_mem g)); [|reflexivity]. unfold release_consumer, try_advance_floor. cbn [fst new_token set_floor g_cold]. rewrite flag_release. reflexivity. Qed.
  Lemma flag_red c now log ram head budget : forall red res g, g_cold (fst (fetch_red cfg c now log ram head budget red res g)) = g_cold g.
  Proof.
    induction red as [|x red IH]; intros res g; simpl; auto. destruct (_ <=? _); [reflexivity|]. destruct (_ <? _); [rewrite IH; reflexivity|].
    destruct (read_from_log _ _ _) as [m|]; [|reflexivity]. pose proof (flag_issue c now m (set_red red g)) as X. destruct (issue_delivery _ _ _ _ _) as [g1 o]. rewrite IH. exact X.
  Qed.
  Lemma flag_new c now log ram head budget : forall fuel res g, g_cold (fst (fetch_new cfg fuel c now log ram head budget res g)) = g_cold g.
  Proof.
    induction fuel as [|f IH]; intros res g; cbn [fetch_new]; auto. destruct (_ <=? _); [reflexivity|].
    assert (X : g_cold (if g_next g <? head then set_floor (N.max (g_floor g) (head - 1)) (set_next head g) else g) = g_cold g) by (destruct (_ <? _); reflexivity).
    destruct (read_from_log _ _ _) as [m|]; [|exact X]. cbv zeta.
    match goal with |- context [issue_delivery cfg c now m ?y] => pose proof (flag_issue c now m y) as Y; destruct (issue_delivery cfg c now m y) as [g1 o] end.
    rewrite IH. cbn [fst] in Y. rewrite Y. exact X.
  Qed.
  Lemma flag_cold c now head : forall ms acc, g_cold (fst (cold_loop cfg c now head ms acc)) = g_cold (fst acc).
  Proof.
    induction ms as [|m ms IH]; intros [g res]; simpl; auto. destruct (_ <=? _); [reflexivity|]. rewrite IH. destruct (_ <? head); [reflexivity|].
    assert (X : forall g0 b (u v : bool), g_cold (fst (if u || v then
      let (g1, o) := issue_delivery cfg c now m (if v then set_next (m_seq m + 1) g0 else g0) in (g1, match o with Some m' => res ++ [m'] | None => res end) else (g0, b))) = g_cold g0).
    { intros g0 b u v. destruct (u || v); [|reflexivity].
      match goal with |- context [issue_delivery cfg c now m ?y] => pose proof (flag_issue c now m y) as Y; destruct (issue_delivery cfg c now m y) as [g1 o] end.
      cbn [fst] in *. rewrite Y. destruct v; reflexivity. }
    rewrite X. destruct (nmem _ _); destruct (_ <? _); reflexivity.
  Qed.
  Lemma flag_clamp head g : g_cold (fst (clamp_head head g)) = true -> g_cold g = true.
  Proof. intro H. destruct (g_cold g) eqn:E; auto. rewrite (clamp_flag head g E) in H. discriminate. Qed.
  Lemma flag_gstep g op : op <> GFlag true -> g_cold (fst (gstep cfg g op)) = true -> g_cold g = true.
  Proof.
    destruct op; intro NE; simpl; try (intro H; exact H); try discriminate.
    - rewrite flag_remove. auto.
    - unfold fetch. destruct (ensure_active c gen g); [auto|]. cbv zeta. destruct (_ <=? _); [apply flag_clamp|].
      destruct (fetch_red _ _ _ _ _ _ _ _ _ _) as [g1 r1] eqn:E1. destruct (fetch_new _ _ _ _ _ _ _ _ _ _) as [g2 r2] eqn:E2. simpl. intro H.
      pose proof (flag_new c now log ram head (N.min limit (max_pend cfg - lenN (g_pend (fst (clamp_head head g))))) (S (length log)) r1 g1) as X2. rewrite E2 in X2.
      pose proof (flag_red c now log ram head (N.min limit (max_pend cfg - lenN (g_pend (fst (clamp_head head g))))) (g_red (fst (clamp_head head g))) [] (fst (clamp_head head g))) as X1. rewrite E1 in X1.
      simpl in X1, X2. apply (flag_clamp head). congruence.
    - unfold register_cold. destruct (ensure_active c gen g); [auto|].
      pose proof (flag_cold c now head ms (fst (clamp_head head g), [])) as X. destruct (cold_loop _ _ _ _ _ _) as [g1 r]. simpl in *. intro H. apply (flag_clamp head). congruence.
    - unfold ack. destruct (ensure_active c gen g); [auto|]. destruct (pget s (g_pend g)) as [p|]; [|auto]. destruct (p_cons p =? c); auto.
    - unfold check_redelivery. destruct (filter _ _) as [|x l]; [auto|]. unfold try_advance_floor. cbn [fst set_floor g_cold]. rewrite flag_release. auto.
    - apply flag_clamp.
    - destruct b; [contradiction NE; reflexivity|discriminate].
  Qed.
  Lemma flag_grun : forall ops g, (forall o, In o ops -> o <> GFlag true) -> g_cold (snd (grun cfg g [] ops)) = true -> g_cold g = true.
  Proof.
    induction ops as [|x ops IH]; intros g H; [auto|]. cbn [grun]. pose proof (flag_gstep g x (H x (or_introl eq_refl))) as X. destruct (gstep cfg g x) as [g' o].
    rewrite grun_state. intro E. apply X. apply IH; auto. intros y HY. apply H. right. exact HY.
  Qed.

  Lemma colds_mark b s : s_colds (mark b s) = s_colds s.
  Proof. destruct b; reflexivity. Qed.
  Lemma colds_drop ord : forall l s, s_colds (fold_left (drop_member cfg ord) l s) = s_colds s.
  Proof.
    induction l as [|b l IH]; intro s; simpl; auto. rewrite IH. unfold drop_member. destruct (gget _ _); auto. destruct (remove_member _ _ _ _) as [g' [x|]]; reflexivity.
  Qed.
  Lemma colds_same s o : match o with STry _ _ _ _ _ _ | SColdRun _ _ | SColdDone _ _ | SColdAbort _ => True | _ => s_colds (fst (sstep s o)) = s_colds s end.
  Proof.
    destruct o; try exact Logic.I; try reflexivity; cbn [StreamSysModel.sstep fst].
    - unfold op_send. destruct (nth_error _ _); reflexivity.
    - unfold op_join. destruct (clamp_head _ _) as [g1 cl]. cbn [fst]. rewrite colds_mark. reflexivity.
    - unfold op_leave. destruct (gget gid s); auto. destruct (negb _); auto. destruct (remove_member _ _ _ _) as [g' [x|]]; reflexivity.
    - unfold op_disconnect. destruct (aget _ _ _); auto. rewrite colds_drop. reflexivity.
    - unfold op_ack. destruct (gget gid s); auto. destruct (ack _ _ _ _) as [g' [x|]]; reflexivity.
    - unfold op_collect. destruct (s_dirty s); reflexivity.
    - unfold op_save. destruct (s_save s); reflexivity.
    - unfold op_head. destruct (s_ret s); auto. destruct (_ =? _); auto. cbn [fst]. rewrite colds_mark. reflexivity.
    - unfold op_tick. cbn [fst]. rewrite colds_mark. reflexivity.
  Qed.
  Lemma nth_error_firstn_lt {X} : forall (l : list X) i j, (j < i)%nat -> nth_error (firstn i l) j = nth_error l j.
  Proof. induction l as [|x l IH]; intros i j H; destruct i; [lia|reflexivity|lia|]. destruct j; simpl; auto. apply IH. lia. Qed.
  Lemma in_remove {X} i (l : list X) k k' : nth_error l i = Some k' -> In k l -> k <> k' -> In k (remove_nth i l).
  Proof.
    intros E H NE. apply In_nth_error in H. destruct H as (j & H). unfold remove_nth. apply in_app_iff.
    destruct (Nat.lt_trichotomy j i) as [L|[L|L]].
    - left. apply (nth_error_In _ j). rewrite nth_error_firstn_lt by auto. exact H.
    - congruence.
    - right. apply (nth_error_In _ (j - S i)). rewrite nth_skipn. replace (S i + (j - S i))%nat with j by lia. exact H.
  Qed.
  Definition uncut (o : sop) : Prop := match o with SColdAbort _ => False | _ => True end.
  Lemma reading_step gid s o : uncut o -> reading gid s -> reading gid (fst (sstep s o)).
  Proof.
    intros U RD g' G' F.
    (* the group had the flag already, or this very fetch starts a disk read *)
    assert (OLD : (exists g, gget gid s = Some g /\ g_cold g = true) \/ (exists c gen limit now tok x, o = STry gid c gen limit now tok /\ snd (sstep s o) = RCold x)).
    { rewrite step_group in G'. destruct (gget gid s) as [g|] eqn:G.
      - destruct (g_cold g) eqn:FG; [left; eauto|]. right. inversion G'; subst g'; clear G'.
        assert (NF : forall ops, (forall x, In x ops -> x <> GFlag true) -> g_cold (snd (grun cfg g [] ops)) = true -> False).
        { intros ops H E. apply flag_grun in E; auto. congruence. }
        destruct o; cbn [gtrace] in F; try (exfalso; apply (NF []); [intros ? []|exact F]).
        + destruct (beqb gid gid0); (exfalso; refine (NF _ _ F); simpl; intuition (subst; discriminate)).
        + destruct (_ && _); (exfalso; refine (NF _ _ F); simpl; intuition (subst; discriminate)).
        + destruct (aget _ _ _); exfalso; refine (NF _ _ F); [|intros ? []]. intros x HX. apply in_map_iff in HX. destruct HX as (b & <- & _). discriminate.
        + destruct (beqb gid gid0); (exfalso; refine (NF _ _ F); simpl; intuition (subst; discriminate)).
        + destruct (beqb gid gid0); [|(exfalso; refine (NF _ _ F); simpl; tauto)]. destruct beginning; (exfalso; refine (NF _ _ F); simpl; intuition (subst; discriminate)).
        + destruct (beqb gid gid0) eqn:EB; [|exfalso; refine (NF _ _ F); simpl; tauto]. apply beqb_eq in EB. subst gid0.
          destruct (is_backpressured _ _); [exfalso; refine (NF _ _ F); simpl; intuition (subst; discriminate)|].
          destruct (snd (sstep s (STry gid c gen limit now tok))) eqn:ES; try (exfalso; refine (NF _ _ F); simpl; intuition (subst; discriminate)).
          eauto 10.
        + destruct (nth_error _ _) as [k|]; [|exfalso; refine (NF _ _ F); simpl; tauto]. destruct (beqb _ _); [|exfalso; refine (NF _ _ F); simpl; tauto].
          destruct (k_res k); [|exfalso; refine (NF _ _ F); simpl; tauto]. destruct (_ =? _); exfalso; refine (NF _ _ F); simpl; intuition (subst; discriminate).
        + destruct (s_ret s); [|exfalso; refine (NF _ _ F); simpl; tauto]. destruct (_ =? _); exfalso; refine (NF _ _ F); simpl; intuition (subst; discriminate).
        + exfalso; refine (NF _ _ F); simpl; intuition (subst; discriminate).
      - destruct (creates gid o) eqn:EC; [|discriminate]. inversion G'; subst g'; clear G'. exfalso.
        assert (X : g_cold (group_new (t_head (s_top s))) = true); [|discriminate].
        refine (flag_grun _ _ _ F). destruct o; try discriminate EC; cbn [creates gtrace] in *; rewrite EC; simpl; [|destruct beginning]; intuition (subst; discriminate). }
    destruct OLD as [(g & G & FG)|(c & gen & limit & now & tok & x & -> & ES)].
    - destruct (RD g G FG) as (k & IK & KG). pose proof (colds_same s o) as CS. destruct o; try (rewrite CS; eauto; fail); try contradiction; clear CS.
      + exists k. split; [|exact KG]. cbn [StreamSysModel.sstep]. unfold op_try. destruct (gget gid0 s); auto. destruct (clamp_head _ _) as [g1 cl]. destruct (is_backpressured _ _); auto.
        destruct (fetch _ _ _ _ _ _ _ _ _) as [g2 [e|[|m ms]]]; cbn [fst]; rewrite ?colds_mark; auto. destruct (g_cold g2); cbn [fst]; rewrite ?colds_mark; auto.
        destruct (_ && _); cbn [fst]; rewrite ?colds_mark; auto. cbn [s_colds set_colds]. apply in_app_iff. auto.
      + destruct (nth_error (s_colds s) i) as [k0|] eqn:EK.
        * apply In_nth_error in IK. destruct IK as (j & IK). destruct (Nat.eq_dec i j) as [<-|NE].
          -- destruct (run_step gid s i vis k0 EK) as (_ & EK2). eexists. split; [eapply nth_error_In; exact EK2|]. cbn [k_gid]. congruence.
          -- exists k. split; [|exact KG]. cbn [StreamSysModel.sstep fst]. unfold op_cold_run. rewrite EK. cbn [s_colds set_colds]. apply in_app_iff.
             destruct (Nat.lt_trichotomy j i) as [L|[L|L]]; [left; apply (nth_error_In _ j); rewrite nth_error_firstn_lt by auto; exact IK|lia|].
             right. right. change (In k (skipn (S i) (s_colds s))). apply (nth_error_In _ (j - S i)). rewrite nth_skipn. replace (S i + (j - S i))%nat with j by lia. exact IK.
        * exists k. split; [|exact KG]. cbn [StreamSysModel.sstep fst]. unfold op_cold_run. rewrite EK. exact IK.
      + destruct (nth_error (s_colds s) i) as [k0|] eqn:EK.
        2: { exists k. split; [|exact KG]. cbn [StreamSysModel.sstep]. unfold op_cold_done. rewrite EK. exact IK. }
        destruct (k_res k0) as [ms|] eqn:KR.
        2: { exists k. split; [|exact KG]. cbn [StreamSysModel.sstep]. unfold op_cold_done. rewrite EK, KR. exact IK. }
        destruct (beqb gid (k_gid k0)) eqn:EB.
        * exfalso. rewrite step_group, G in G'. cbn [gtrace] in G'. rewrite EK, EB, KR in G'. inversion G'; subst g'; clear G'.
          cbn [grun gstep] in F. rewrite grun_state in F. apply flag_grun in F; [discriminate|]. destruct (_ =? _); simpl; intuition (subst; discriminate).
        * exists k. split; [|exact KG]. apply beqb_neq in EB. assert (IR : In k (remove_nth i (s_colds s))) by (eapply in_remove; eauto; congruence).
          cbn [StreamSysModel.sstep]. unfold op_cold_done. rewrite EK, KR. cbv zeta. destruct (gget (k_gid k0) _); [|exact IR]. destruct (negb _); [exact IR|].
          destruct (clamp_head _ _) as [g2 cl]. destruct (register_cold _ _ _ _ _ _ _) as [g3 [e|r]]; cbn [fst]; rewrite ?colds_mark; exact IR.
    - cbn [StreamSysModel.sstep] in *. unfold op_try in *. destruct (gget gid s); [|discriminate]. destruct (clamp_head _ _) as [g1 cl]. destruct (is_backpressured _ _); [discriminate|].
      destruct (fetch _ _ _ _ _ _ _ _ _) as [g2 [e|[|m ms]]]; cbn [fst snd] in *; try discriminate. destruct (g_cold g2); [discriminate|]. destruct (_ && _); [|discriminate].
      cbn [fst s_colds set_colds]. eexists. split; [apply in_app_iff; right; left; reflexivity|reflexivity].
  Qed.
  (** Calm histories in which no connection is cut off during a disk read (or in which the
      server was restarted since). *)
  Inductive uncut_life : list msg -> sys -> Prop :=
  | uc_new soft : uncut_life [] (sys_new soft)
  | uc_step A s o : uncut_life A s -> op_ok s o -> orderly o -> short o -> uncut o -> uncut_life (A ++ adds s o) (fst (sstep s o))
  | uc_restart A s soft vis : calm A s -> vis_ok vis (s_store s) -> s_box s = [] -> flushed s ->
      uncut_life A (boot crc soft (crash vis (s_store s))).
  Theorem uncut_calm A s : uncut_life A s -> calm A s.
  Proof. induction 1; [apply calm_new|apply StreamSysLife.calm_step; auto|apply StreamSysLife.calm_restart; auto]. Qed.
  Theorem uncut_reading gid A s : uncut_life A s -> reading gid s.
  Proof.
    induction 1.
    - intros g G. discriminate.
    - apply reading_step; auto.
    - intros g G F. exfalso. unfold boot, gget in G. destruct (recover_topic crc (crash vis (s_store s))) as [[head ms] gs]. cbn [s_groups] in G.
      rewrite (aget_map_vals (fun _ v => group_restore v (t_head (topic_restore soft (N.max head 1) ms)))) in G. destruct (aget beqb gid gs); [|discriminate].
      simpl in G. inversion G; subst g. discriminate.
  Qed.

  (** ** A flag without a read: nothing of the above hands out anything *)
  Lemma aset_same {K V} (eqb : K -> K -> bool) (EQ : forall x y, eqb x y = true <-> x = y) k v : forall l : list (K * V), aget eqb k l = Some v -> aset eqb k v l = l.
  Proof.
    induction l as [|[k' v'] l IH]; simpl; [discriminate|]. destruct (eqb k k') eqn:E.
    - intro H. inversion H; subst. apply EQ in E. subst. reflexivity.
    - intro H. rewrite IH; auto.
  Qed.
  Lemma gput_same gid g s : gget gid s = Some g -> gput gid g s = s.
  Proof. intro G. unfold gput. rewrite (aset_same beqb beqb_eq _ _ _ G). destruct s; reflexivity. Qed.
  Lemma stuck gid g s : gget gid s = Some g -> g_cold g = true -> s_colds s = [] -> s_ret s = None ->
    clamp_head (t_head (s_top s)) g = (g, false) -> g_red g = [] -> g_next g < t_ram (s_top s) -> t_head (s_top s) <= g_next g ->
    forall c gen limit now vis, ~ serves gid c gen limit now vis s.
  Proof.
    intros G F NC R CT RED NX HD c gen limit now vis SV.
    assert (ALL : forall o, serving gid c gen limit now vis s o -> fst (sstep s o) = s /\ forall m ms, snd (sstep s o) <> RMsgs (m :: ms)).
    { intros o V. destruct V as [|g0 G0|i|i k EK _]; cbn [StreamSysModel.sstep fst snd].
      - unfold op_head. rewrite R. split; [reflexivity|discriminate].
      - unfold op_try. rewrite G. rewrite CT. destruct (is_backpressured cfg g); [cbn [fst snd]; rewrite (gput_same _ _ _ G); split; [reflexivity|discriminate]|].
        unfold fetch. destruct (ensure_active c gen g); [cbn [fst snd]; rewrite (gput_same _ _ _ G); split; [reflexivity|discriminate]|].
        rewrite CT. cbn [fst]. destruct (_ <=? _); [rewrite F; cbn [mark fst snd]; rewrite (gput_same _ _ _ G); split; [reflexivity|discriminate]|].
        rewrite RED. cbn [fetch_red]. assert (SR : set_red [] g = g) by (rewrite <- RED; destruct g; reflexivity). rewrite SR. cbn [fetch_new].
        assert (RL : read_from_log (t_log (s_top s)) (t_ram (s_top s)) (N.max (g_next g) (t_head (s_top s))) = None).
        { unfold read_from_log. replace (N.max (g_next g) (t_head (s_top s))) with (g_next g) by lia. destruct (N.ltb_spec (g_next g) (t_ram (s_top s))); [reflexivity|lia]. }
        rewrite RL. destruct (N.ltb_spec (g_next g) (t_head (s_top s))); [lia|].
        destruct (_ <=? _); rewrite F; cbn [mark fst snd]; rewrite (gput_same _ _ _ G); (split; [reflexivity|discriminate]).
      - unfold op_cold_run. rewrite NC. destruct i; (split; [reflexivity|discriminate]).
      - rewrite NC in EK. destruct i; discriminate. }
    assert (GEN : forall x, serves gid c gen limit now vis x -> x = s -> False); [|apply (GEN s SV eq_refl)].
    clear SV. intros x SV. induction SV as [x o m ms V E|x o V SV IH]; intros ->.
    - destruct (ALL o V) as (_ & X). apply (X _ _ E).
    - apply IH. apply (ALL o V).
  Qed.
End Sys.
