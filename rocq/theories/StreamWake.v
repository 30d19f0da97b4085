(** The wait loop of stream fetches. *)
From Verif Require Import LibBase LibMap StreamTopicModel StreamGroupModel StreamStoreModel StreamStoreCodec StreamStoreProofs StreamStoreFacts StreamGroupSpec StreamGroupProofs StreamGroupFetch StreamGroupHist StreamGroupFacts StreamTopicProofs StreamSysModel StreamSysProofs StreamSysHist StreamSysFacts StreamSysBoot StreamSysLife StreamWild WakeModel WakeProofs.

(** A fetch: group, consumer, generation, limit, and the cancellation token it took
    at its start (manager.rs:205-214). *)
Record fpar := mkF { f_gid : bytes; f_c : N; f_gen : N; f_limit : N; f_tok : N }.

Section Sys.
  Variable crc : bytes -> N.
  Hypothesis crc32 : forall b, crc b < 2 ^ 32.
  Variable cfg : gcfg.
  Variable smax : N.
  Hypothesis MD : 1 <= max_del cfg.
  Notation sstep := (sstep crc cfg smax).

  Definition snext (s : sys) (o : sop) : sys := fst (sstep s o).
  (** a member of a group the connection is bound to leaves (manager.rs:372-381) *)
  Fixpoint drops (ord : N -> list N) (l : list (bytes * N)) (s : sys) : bool :=
    match l with
    | [] => false
    | b :: r => (match gget (fst b) s with
                 | Some g => isSome (snd (remove_member cfg (ord (snd b)) (snd b) g))
                 | None => false
                 end) || drops ord r (drop_member cfg ord s b)
    end.
  (** Which operations call notify_waiters: publish (manager.rs:172), a successful
      leave (325), a disconnect that removed a member (383), seek (293), retention
      when the head moved (625), the redelivery task when it released something (659). *)
  Definition s_rings (s : sys) (o : sop) : bool :=
    match o with
    | SPub _ _ => true
    | SLeave _ _ _ _ => match snd (sstep s o) with RUnit => true | _ => false end
    | SDisc ord conn => match aget N.eqb conn (s_clients s) with
                        | Some l => drops ord l (set_clients (adel N.eqb conn (s_clients s)) s)
                        | None => false
                        end
    | SSeek _ _ => true
    | SHead => snd (op_head s)
    | STick ord now => snd (op_tick cfg ord now s)
    | _ => false
    end.
  (** manager.rs:229-239 *)
  Definition s_attempt (p : fpar) (now : N) : sop := STry (f_gid p) (f_c p) (f_gen p) (f_limit p) now (f_tok p).
  (** manager.rs:235-237: a waiting fetch of a consumer that is no member is answered
      with no messages. That it is still none at the second look follows from
      consumer ids being fresh. *)
  Definition s_said (r : sout) : sout := match r with RErr (Group NotMember) => RMsgs [] | r => r end.
  Definition s_answer (s : sys) (o : sop) : option sout :=
    match snd (sstep s o) with RWait => None | r => Some (s_said r) end.
  Definition s_quiet (p : fpar) (s : sys) : Prop :=
    exists g, gget (f_gid p) s = Some g /\ g_red g = [] /\ t_next (s_top s) <= g_next g.

  (** ** Group operations that leave nothing new to deliver *)
  Definition settledg (B : N) (g : group) : Prop := g_red g = [] /\ B <= g_next g.
  Lemma settled_clamp B h g : settledg B g -> settledg B (fst (clamp_head h g)).
  Proof.
    intros (R & L). destruct (clamp_fields h g) as (A & _ & C & _). split; [rewrite C|rewrite A]; simpl.
    - rewrite R. reflexivity.
    - destruct (_ <? _) eqn:E; [apply N.ltb_lt in E; lia|auto].
  Qed.
  Lemma settled_issue B c now m g : settledg B g -> settledg B (fst (issue_delivery cfg c now m g)).
  Proof. intros (R & L). unfold issue_delivery. destruct (_ <? _); split; auto. Qed.
  Lemma settled_new B c now log ram head budget : forall fuel res g, settledg B g -> settledg B (fst (fetch_new cfg fuel c now log ram head budget res g)).
  Proof.
    induction fuel as [|fuel IH]; intros res g H; [exact H|]. cbn [fetch_new]. destruct (_ <=? _); [exact H|]. cbv zeta.
    set (g1 := if g_next g <? head then _ else g).
    assert (H1 : settledg B g1) by (unfold g1; destruct (g_next g <? head) eqn:E; auto; apply N.ltb_lt in E; destruct H; split; simpl; auto; lia).
    destruct (read_from_log log ram (N.max (g_next g) head)) as [m|]; [|exact H1].
    assert (H2 : settledg B (set_next (N.max (g_next g) head + 1) g1)) by (destruct H, H1; split; simpl; auto; lia).
    pose proof (settled_issue B c now m _ H2) as H3. destruct (issue_delivery cfg c now m _) as [g3 o]. apply IH. exact H3.
  Qed.
  Lemma settled_cold_one B c now head m g res : settledg B g -> settledg B (fst (cold_one cfg c now head (g, res) m)).
  Proof.
    intro H. unfold cold_one. destruct (_ <? head); [exact H|]. cbv zeta. pose proof H as (R & L).
    assert (E : nmem (m_seq m) (g_red g) = false) by (rewrite R; reflexivity). rewrite E. simpl orb.
    set (g2 := if g_next g <? head then _ else g).
    assert (H1 : settledg B g2) by (unfold g2; destruct (g_next g <? head) eqn:E2; auto; apply N.ltb_lt in E2; split; simpl; auto; lia).
    destruct (N.eqb_spec (m_seq m) (N.max (g_next g) (N.max head 1))) as [E3|]; [|exact H1].
    assert (H2 : settledg B (set_next (m_seq m + 1) g2)) by (destruct H1; split; simpl; auto; lia).
    pose proof (settled_issue B c now m _ H2) as H3. destruct (issue_delivery cfg c now m _) as [g3 o]. exact H3.
  Qed.
  Lemma settled_cold B c now head : forall ms acc, settledg B (fst acc) -> settledg B (fst (cold_loop cfg c now head ms acc)).
  Proof.
    induction ms as [|m ms IH]; intros [g res] H; [exact H|]. cbn [cold_loop]. destruct (_ <=? _); [exact H|]. apply IH. apply settled_cold_one. exact H.
  Qed.
  (** Neither joining, acknowledging, fetching nor retention. *)
  Definition calm_op (g : group) (o : gop) : Prop :=
    match o with
    | GLeave ord c => agetN c (g_mem g) = None
    | GTick ord now => snd (check_redelivery cfg ord now g) = false
    | GSeekB _ | GSeekE _ => False
    | _ => True
    end.
  Lemma settled_step B g o : settledg B g -> calm_op g o -> settledg B (fst (gstep cfg g o)).
  Proof.
    intros H OK. destruct o; cbn [gstep calm_op] in *; try contradiction.
    - exact H.
    - unfold remove_member. rewrite OK. exact H.
    - unfold fetch. destruct (ensure_active c gen g); [exact H|]. cbv zeta. pose proof (settled_clamp B head g H) as H1.
      destruct (_ <=? _); [exact H1|]. rewrite (proj1 H1). cbn [fetch_red].
      match goal with |- context [fetch_new cfg ?n ?a ?b ?c0 ?d ?e ?f ?h ?i] => pose proof (settled_new B a b c0 d e f n h i) as Y; destruct (fetch_new cfg n a b c0 d e f h i) as [g2 r2] end.
      apply Y. destruct H1. split; auto.
    - unfold register_cold. destruct (ensure_active c gen g); [exact H|]. pose proof (settled_cold B c now head ms (fst (clamp_head head g), []) (settled_clamp B head g H)) as H1.
      destruct (cold_loop cfg c now head ms _) as [g1 r]. exact H1.
    - unfold ack. destruct (ensure_active c gen g); [exact H|]. destruct (pget s (g_pend g)) as [p|]; [|exact H]. destruct (_ =? _); [|exact H]. exact H.
    - unfold check_redelivery in *. destruct (filter _ _); [exact H|discriminate].
    - apply settled_clamp; auto.
    - exact H.
  Qed.
  Fixpoint calm_ops (g : group) (ops : list gop) : Prop :=
    match ops with [] => True | o :: r => calm_op g o /\ calm_ops (fst (gstep cfg g o)) r end.
  Lemma settled_run B : forall ops g h, settledg B g -> calm_ops g ops -> settledg B (snd (grun cfg g h ops)).
  Proof.
    induction ops as [|o ops IH]; intros g h H OK; [exact H|]. simpl. destruct OK as (O1 & O2). pose proof (settled_step B g o H O1) as H1.
    destruct (gstep cfg g o) as [g' r]. apply IH; auto.
  Qed.

  Lemma drops_calm ord gid : forall l s g, gget gid s = Some g -> drops ord l s = false ->
    calm_ops g (map (fun b => GLeave (ord (snd b)) (snd b)) (filter (fun b => beqb gid (fst b)) l)).
  Proof.
    induction l as [|[k c] l IH]; intros s g HG D; simpl; auto. cbn [drops fst snd] in D. apply orb_false_iff in D. destruct D as (D1 & D2).
    destruct (beqb gid k) eqn:E; simpl.
    - apply beqb_eq in E. subst k. rewrite HG in D1. unfold remove_member in *. destruct (agetN c (g_mem g)) eqn:EM; [discriminate|].
      split; auto. apply (IH _ _ HG). unfold drop_member in D2. cbn [fst snd] in D2. rewrite HG in D2. unfold remove_member in D2. rewrite EM in D2. exact D2.
    - eapply IH; [|exact D2]. unfold drop_member. cbn [fst snd]. destruct (gget k s) as [gk|] eqn:EK; auto.
      destruct (remove_member cfg (ord c) c gk) as [g' [x|]]; auto. change (gget gid (set_dirty true (gput k g' s))) with (gget gid (gput k g' s)).
      rewrite gget_gput, E. exact HG.
  Qed.
  Lemma rings_calm gid g s o : gget gid s = Some g -> s_rings s o = false -> calm_ops g (gtrace crc cfg smax gid g s o).
  Proof.
    intros HG R. destruct o; cbn [gtrace]; try exact Logic.I; try discriminate R.
    - destruct (beqb gid gid0); repeat (split; [exact Logic.I|]); exact Logic.I.
    - destruct (beqb gid gid0) eqn:E; simpl; auto. apply beqb_eq in E. subst gid0. destruct (N.eqb_spec (g_gen g) gen) as [EG|]; [|exact Logic.I].
      split; [|exact Logic.I]. cbn [s_rings StreamSysModel.sstep] in R. unfold op_leave in R. rewrite HG in R. destruct (N.eqb_spec (g_gen g) gen); [|contradiction]. simpl in R.
      unfold remove_member in R. destruct (agetN c (g_mem g)) eqn:EM; [discriminate|]. exact EM.
    - cbn [s_rings] in R. destruct (aget N.eqb conn (s_clients s)) as [l|]; [|exact Logic.I]. eapply drops_calm; [|exact R]. exact HG.
    - destruct (beqb gid gid0); repeat (split; [exact Logic.I|]); exact Logic.I.
    - destruct (beqb gid gid0); [|exact Logic.I]. split; [exact Logic.I|]. destruct (is_backpressured _ _); [exact Logic.I|]. split; [exact Logic.I|].
      destruct (snd (sstep s (STry gid0 c gen limit now tok))); repeat (split; [exact Logic.I|]); exact Logic.I.
    - destruct (nth_error _ _) as [k|]; [|exact Logic.I]. destruct (beqb gid (k_gid k)); [|exact Logic.I]. destruct (k_res k); [|exact Logic.I]. split; [exact Logic.I|].
      destruct (_ =? _); repeat (split; [exact Logic.I|]); exact Logic.I.
    - destruct (s_ret s) as [h|]; [|exact Logic.I]. destruct (_ =? _); repeat (split; [exact Logic.I|]); exact Logic.I.
    - split; [|exact Logic.I]. cbn [s_rings] in R. unfold op_tick in R. cbn [snd] in R. cbn [calm_op].
      destruct (snd (check_redelivery cfg (ord gid) now g)) eqn:EC; auto. exfalso. 
      assert (X : existsb (fun e : bytes * (group * bool) => snd (snd e)) (map (fun e => (fst e, check_redelivery cfg (ord (fst e)) now (snd e))) (s_groups s)) = true); [|congruence].
      apply existsb_exists. exists (gid, check_redelivery cfg (ord gid) now g). split; [|exact EC]. apply in_map_iff. exists (gid, g). split; auto.
      apply (aget_In beqb beqb_eq). exact HG.
  Qed.
  Lemma next_same s o : s_rings s o = false -> t_next (s_top (snext s o)) = t_next (s_top s).
  Proof.
    intro R. unfold snext. destruct (top_step crc cfg smax s o) as [->|[(ts & pay & -> & _)|[(_ & ->)|(h & _ & _ & ->)]]]; auto; [discriminate|].
    apply evict_fields.
  Qed.
  Lemma s_hkeep s o p : wild crc cfg s -> fits s o -> s_rings s o = false -> s_quiet p s -> s_quiet p (snext s o).
  Proof.
    intros _ _ R (g & HG & HR & HN). unfold s_quiet. rewrite next_same by auto. unfold snext. rewrite step_group, HG. eexists. split; [reflexivity|].
    apply (settled_run (t_next (s_top s))); [split; auto|]. apply rings_calm; auto.
  Qed.

  (** ** A turn that finds nothing *)
  Lemma in_memory s n : wild crc cfg s -> t_ram (s_top s) <= n -> n < t_next (s_top s) -> read_from_log (t_log (s_top s)) (t_ram (s_top s)) n <> None.
  Proof.
    intros W A B. destruct (m_top _ (x_mem _ _ _ W)) as (f & L & K & _ & _).
    unfold read_from_log. destruct (N.ltb_spec n (t_ram (s_top s))); [lia|]. simpl. destruct (t_log (s_top s)) as [|m r] eqn:EL; [pose proof (k_ram _ _ _ K EL); lia|].
    rewrite <- EL. destruct (k_log _ _ _ K) as (k & E & F). destruct F as (F1 & F2); [rewrite EL; discriminate|].
    intro X. apply nth_error_None in X. assert (Y : lenN (t_log (s_top s)) = lenN L - k) by (rewrite E; apply lenN_dropN). rewrite (k_next _ _ _ K) in B. unfold lenN in *. lia.
  Qed.
  Lemma s_hnone s p now : wild crc cfg s -> 1 <= f_limit p -> s_answer s (s_attempt p now) = None -> s_quiet p (snext s (s_attempt p now)).
  Proof.
    intros W L H. destruct p as [gid c gen limit tok]. cbn [f_limit] in L. unfold s_answer, s_attempt in *. cbn [f_gid f_c f_gen f_limit f_tok] in *.
    pose proof (wild_step crc crc32 cfg smax s (STry gid c gen limit now tok) W Logic.I) as W'. unfold s_quiet, snext. cbn [f_gid].
    assert (NS : t_next (s_top (fst (sstep s (STry gid c gen limit now tok)))) = t_next (s_top s)) by (apply (next_same s (STry gid c gen limit now tok)); reflexivity).
    rewrite NS.
    pose proof (proj1 (x_below _ _ _ W') gid) as BL. rewrite NS in BL.
    destruct (m_top _ (x_mem _ _ _ W)) as (f & A & K & HR & HN). pose proof (topic_log_ok _ _ _ K) as LO.
    cbn [StreamSysModel.sstep] in *. unfold op_try in *. destruct (gget gid s) as [g0|] eqn:EG; [|discriminate].
    destruct (x_hist _ _ _ W gid g0 EG) as (st & h & HH). pose proof (a_inv _ _ _ _ (hist_agrees cfg MD st h g0 HH)) as I0.
    pose proof (clamp_inv cfg (t_head (s_top s)) g0 I0) as I1.
    destruct (clamp_head (t_head (s_top s)) g0) as [g1 cl]. cbn [fst] in I1. unfold is_backpressured in *.
    destruct (N.leb_spec (max_pend cfg) (lenN (g_pend g1))) as [|BP]; [discriminate|].
    destruct (ensure_active c gen g1) as [e|] eqn:EA; [rewrite (fetch_err cfg c gen limit now _ _ _ g1 e EA) in H; discriminate|].
    destruct (fetch_exact cfg MD c gen limit now (t_log (s_top s)) (t_ram (s_top s)) (t_head (s_top s)) g1 I1 LO EA) as (g2 & EF & I2 & _ & R2 & N2 & P2 & _).
    rewrite EF in *. set (r1 := takeN _ (red_part _ _ _)) in *. set (r2 := takeN _ (new_part _ _ _)) in *.
    destruct (r1 ++ r2) eqn:ER; [|discriminate]. apply app_eq_nil in ER. destruct ER as (ER1 & ER2).
    destruct (g_cold g2); [discriminate|].
    assert (MK : forall b x, gget gid (mark b x) = gget gid x) by (intros; apply gget_mark).
    destruct ((next_fetch_seq (t_head (s_top s)) g2 <? t_next (s_top s)) && (next_fetch_seq (t_head (s_top s)) g2 <? t_ram (s_top s))) eqn:EC; [discriminate|].
    cbn [fst] in *. rewrite MK, gget_gput_same in *. exists g2. split; [reflexivity|]. specialize (BL g2 eq_refl).
    set (gc := fst (clamp_head (t_head (s_top s)) g1)) in *.
    assert (PL : lenN (g_pend gc) <= lenN (g_pend g1)).
    { unfold gc. destruct (clamp_fields (t_head (s_top s)) g1) as (_ & -> & _). simpl. apply lenN_filter. }
    assert (BU : 1 <= N.min limit (max_pend cfg - lenN (g_pend gc))) by lia.
    assert (TN : forall X n (l : list X), 1 <= n -> takeN n l = [] -> l = []).
    { intros X n [|x l] Hn Ht; auto. rewrite takeN_cons in Ht by lia. discriminate. }
    unfold r2 in ER2. rewrite ER1, lenN_nil, N.sub_0_r in ER2. apply TN in ER2; auto. unfold r1 in ER1. pose proof ER1 as ER1'. apply TN in ER1'; auto.
    fold r1 in ER1. rewrite ER1, lenN_nil in R2. unfold dropN in R2. simpl in R2.
    assert (X2 : r2 = []) by (unfold r2; rewrite ER1, lenN_nil, N.sub_0_r, ER2; apply takeN_nil). rewrite X2, lenN_nil, N.add_0_r in N2.
    destruct (clamp_head_low cfg MD (t_head (s_top s)) g1 (proj1 I1)) as (C1 & C2). fold gc in C1, C2.
    assert (RED : g_red g2 = []).
    { destruct (g_red g2) as [|q rr] eqn:EQ; auto. exfalso. rewrite <- R2 in *.
      assert (IQ : In q (g_red g2)) by (rewrite EQ; left; auto).
      pose proof (i_rrange _ _ (proj1 I2) q IQ) as (Q1 & Q2). assert (Q3 : t_head (s_top s) <= q) by (apply C2; left; auto).
      unfold next_fetch_seq in EC. rewrite EQ in EC. replace (N.max q (N.max (t_head (s_top s)) 1)) with q in EC by lia.
      assert (Q4 : q < t_next (s_top s)) by lia. apply andb_false_iff in EC. destruct EC as [EC|EC]; apply N.ltb_ge in EC; [lia|].
      cbn [red_part] in ER1'. pose proof (in_memory s q W EC Q4). destruct (read_from_log _ _ q); [discriminate|congruence]. }
    split; auto. destruct (N.le_gt_cases (t_next (s_top s)) (g_next g2)) as [|LT]; auto. exfalso.
    unfold next_fetch_seq in EC. rewrite RED, N2 in EC. pose proof (i_fl _ _ (proj1 I2)) as FL. rewrite N2 in *.
    replace (N.max (g_next gc) (N.max (t_head (s_top s)) 1)) with (g_next gc) in EC by lia.
    apply andb_false_iff in EC. destruct EC as [EC|EC]; apply N.ltb_ge in EC; [lia|].
    pose proof (in_memory s (g_next gc) W EC LT) as M. rewrite new_part_step in ER2. destruct (read_from_log _ _ (g_next gc)); [discriminate|congruence].
  Qed.

  (** ** The loop over this system *)
  Definition swrun := wrun sys sop fpar sout N snext s_rings s_attempt s_answer false.
  Definition swstep := wstep sys sop fpar sout N snext s_rings s_attempt s_answer false.
  Notation W0 := (wake0 sys fpar sout).
  (** Publishes are within the ranges of the encoding; fetches ask for at least one
      message. *)
  Definition s_okpar (p : fpar) : Prop := 1 <= f_limit p.
  Definition s_sched (s : sys) (xs : list (wop sop fpar N)) : Prop :=
    xsok sys sop fpar sout N snext s_rings s_attempt s_answer false fits s_okpar (W0 s) xs.
  Lemma s_hinv s o : wild crc cfg s -> fits s o -> wild crc cfg (snext s o).
  Proof. intros. apply (wild_step crc crc32); auto. Qed.
  Lemma s_hatt s p now : wild crc cfg s -> s_okpar p -> fits s (s_attempt p now).
  Proof. intros _ _. exact Logic.I. Qed.
  Lemma stream_quiet s xs id p : wild crc cfg s -> s_sched s xs ->
    asleep sys fpar sout id p (swrun (W0 s) xs) -> s_quiet p (w_st _ _ _ (swrun (W0 s) xs)).
  Proof.
    intros I OK A.
    exact (no_lost_wakeup sys sop fpar sout N snext s_rings s_attempt s_answer false (wild crc cfg) fits s_okpar s_quiet
      s_hinv s_hatt s_hnone s_hkeep s xs id p I OK A).
  Qed.
  Lemma stream_inv s xs : wild crc cfg s -> s_sched s xs -> wild crc cfg (w_st _ _ _ (swrun (W0 s) xs)) /\
    forall id p ph, waiting _ _ _ id (swrun (W0 s) xs) = Some (mkWaiter _ p ph) -> 1 <= f_limit p.
  Proof.
    intros I OK.
    destruct (WI_run sys sop fpar sout N snext s_rings s_attempt s_answer false (wild crc cfg) fits s_okpar s_quiet
      s_hinv s_hatt s_hnone s_hkeep xs (W0 s) (WI_0 _ _ _ _ _ _ s I) OK) as (A & B). split; [exact A|].
    intros id p ph H. exact (proj1 (B id p ph H)).
  Qed.
  (** A quiet group has no message that waits to be handed out. *)
  Lemma quiet_status s p : wild crc cfg s -> s_quiet p s -> exists g, gget (f_gid p) s = Some g /\
    forall st h, hist cfg st h g -> forall q, q < t_next (s_top s) -> status_of cfg st h q <> Fresh /\ forall n, status_of cfg st h q <> Waiting n.
  Proof.
    intros W (g & HG & HR & HN). exists g. split; auto. intros st h HH q L. rewrite (a_st _ _ _ _ (hist_agrees cfg MD st h g HH)). unfold abs.
    rewrite HR. simpl nmem. destruct (pget q (g_pend g)); [split; intros; discriminate|]. destruct (nmem q (g_park g)); [split; intros; discriminate|].
    destruct (N.ltb_spec q (g_next g)); [split; intros; discriminate|lia].
  Qed.
  Theorem stream_no_sleep s xs id p : wild crc cfg s -> s_sched s xs ->
    let w := w_st _ _ _ (swrun (W0 s) xs) in
    asleep sys fpar sout id p (swrun (W0 s) xs) ->
    exists g, gget (f_gid p) w = Some g /\ (exists st h, hist cfg st h g) /\
    forall st h, hist cfg st h g -> forall q, q < t_next (s_top w) -> status_of cfg st h q <> Fresh /\ forall n, status_of cfg st h q <> Waiting n.
  Proof.
    intros I OK w A. destruct (stream_inv s xs I OK) as (W & _). fold w in W. destruct (quiet_status w p W (stream_quiet s xs id p I OK A)) as (g & HG & HS).
    exists g. split; auto. split; auto. apply (x_hist _ _ _ W (f_gid p)); auto.
  Qed.
  Definition s_turn := turn sys sop fpar sout N.
  (** The turn of a suspended fetch after everything owed has been signalled. *)
  Theorem stream_turn s xs id p n now : wild crc cfg s -> s_sched s xs ->
    let w := swrun (W0 s) xs in
    waiting _ _ _ id w = Some (mkWaiter _ p (Blocked n)) -> ~ s_quiet p (w_st _ _ _ w) ->
    let w' := swrun w (s_turn w id now) in
    match s_answer (w_st _ _ _ w) (s_attempt p now) with
    | Some a => w_done _ _ _ w' = (id, a) :: w_done _ _ _ w
    | None => s_quiet p (w_st _ _ _ w')
    end.
  Proof.
    intros I OK w HW NE w'.
    pose proof (turn_answers sys sop fpar sout N snext s_rings s_attempt s_answer false (wild crc cfg) fits s_okpar s_quiet
      s_hinv s_hatt s_hnone s_hkeep s xs id p n now I OK HW NE) as T. cbv zeta in T. destruct T as (_ & T).
    change (wrun sys sop fpar sout N snext s_rings s_attempt s_answer false (W0 s) xs) with w in T.
    destruct (s_answer (w_st _ _ _ w) (s_attempt p now)); [exact (proj1 T)|exact T].
  Qed.
  (** A publish finds a suspended fetch whose group is up to date: the fetch returns
      exactly the published message. *)
  Lemma fetch_published s ts pay p g now : wild crc cfg s -> fits s (SPub ts pay) -> s_quiet p s -> 1 <= f_limit p ->
    gget (f_gid p) s = Some g -> ensure_active (f_c p) (f_gen p) g = None -> lenN (g_pend g) < max_pend cfg ->
    s_answer (snext s (SPub ts pay)) (s_attempt p now) = Some (RMsgs [mkMsg (t_next (s_top s)) ts pay]).
  Proof.
    intros W FT (g' & HG & HR & HN) L EG EA BP. rewrite EG in HG. inversion HG; subst g'. clear HG.
    destruct p as [gid c gen limit tok]. cbn [f_gid f_c f_gen f_limit] in *. pose proof (s_hinv s (SPub ts pay) W FT) as W'.
    assert (NB : g_next g = t_next (s_top s)) by (pose proof (proj1 (x_below _ _ _ W) gid g EG); lia).
    destruct (m_top _ (x_mem _ _ _ W)) as (f & A & K & HRM & HN2).
    destruct (m_top _ (x_mem _ _ _ W')) as (f' & A' & K' & HR' & HN'). pose proof (topic_log_ok _ _ _ K') as LO.
    destruct (x_hist _ _ _ W gid g EG) as (st & h & HH). pose proof (a_inv _ _ _ _ (hist_agrees cfg MD st h g HH)) as I0.
    pose proof (k_pos _ _ _ K) as KP.
    set (s1 := snext s (SPub ts pay)) in *.
    assert (T1 : s_top s1 = fst (append ts pay (s_top s))) by reflexivity.
    assert (G1 : gget gid s1 = Some g) by exact EG.
    assert (HD : t_head (s_top s1) = t_head (s_top s)) by reflexivity.
    assert (NX : t_next (s_top s1) = t_next (s_top s) + 1) by reflexivity.
    assert (RD : read_from_log (t_log (s_top s1)) (t_ram (s_top s1)) (t_next (s_top s)) = Some (mkMsg (t_next (s_top s)) ts pay)).
    { rewrite T1. unfold append. cbn [fst t_log t_ram]. unfold read_from_log. destruct (t_log (s_top s)) as [|m0 r0] eqn:EL.
      - destruct (N.ltb_spec (t_next (s_top s)) (t_next (s_top s))); [lia|]. rewrite N.sub_diag. reflexivity.
      - destruct (k_log _ _ _ K) as (k & E & F). rewrite EL in F. destruct F as (F1 & F2); [discriminate|].
        assert (X : t_next (s_top s) - t_ram (s_top s) = lenN (m0 :: r0)) by (rewrite <- EL, E, lenN_dropN, (k_next _ _ _ K); lia).
        pose proof (x_ram _ _ _ W). destruct (N.ltb_spec (t_next (s_top s)) (t_ram (s_top s))); [lia|]. rewrite X. simpl orb.
        destruct ((m0 :: r0) ++ [mkMsg (t_next (s_top s)) ts pay]) eqn:EX; [discriminate|]. rewrite <- EX.
        rewrite nth_error_app2 by (unfold lenN; lia). unfold lenN. rewrite Nnat.Nat2N.id, Nat.sub_diag. reflexivity. }
    unfold s_answer, s_attempt. cbn [f_gid f_c f_gen f_limit f_tok StreamSysModel.sstep]. unfold op_try. rewrite G1.
    pose proof (clamp_fields (t_head (s_top s1)) g) as CF. destruct CF as (C1 & C2 & C3 & C4 & C5 & C6 & C7).
    pose proof (clamp_inv cfg (t_head (s_top s1)) g I0) as I1.
    destruct (clamp_head (t_head (s_top s1)) g) as [g1 cl] eqn:EC. cbn [fst] in *.
    assert (PL : lenN (g_pend g1) <= lenN (g_pend g)) by (rewrite C2; apply lenN_filter).
    unfold is_backpressured. destruct (N.leb_spec (max_pend cfg) (lenN (g_pend g1))); [lia|].
    assert (EA1 : ensure_active c gen g1 = None) by (unfold ensure_active in *; rewrite C6, C7; exact EA).
    destruct (fetch_exact cfg MD c gen limit now (t_log (s_top s1)) (t_ram (s_top s1)) (t_head (s_top s1)) g1 I1 LO EA1) as (g2 & EF & _).
    rewrite EF. pose proof (clamp_fields (t_head (s_top s1)) g1) as (D1 & D2 & D3 & _).
    assert (R1 : g_red g1 = []) by (rewrite C3; simpl; rewrite HR; reflexivity).
    assert (R2 : g_red (fst (clamp_head (t_head (s_top s1)) g1)) = []) by (rewrite D3; simpl; rewrite R1; reflexivity).
    assert (M1 : g_next g1 = t_next (s_top s)).
    { rewrite C1. simpl. destruct (_ <? _) eqn:E; [apply N.ltb_lt in E; lia|auto]. }
    assert (M2 : g_next (fst (clamp_head (t_head (s_top s1)) g1)) = t_next (s_top s)).
    { rewrite D1. simpl. destruct (_ <? _) eqn:E; [apply N.ltb_lt in E; lia|auto]. }
    rewrite R2, M2. cbn [red_part]. rewrite takeN_nil, lenN_nil, N.sub_0_r.
    assert (PL2 : lenN (g_pend (fst (clamp_head (t_head (s_top s1)) g1))) <= lenN (g_pend g1)) by (rewrite D2; apply lenN_filter).
    rewrite new_part_step, RD.
    assert (NONE : new_part (t_log (s_top s1)) (t_ram (s_top s1)) (t_next (s_top s) + 1) = []).
    { rewrite new_part_step. destruct (read_from_log _ _ (t_next (s_top s) + 1)) as [m|] eqn:EM; auto. exfalso.
      apply read_lt in EM. destruct (t_log (s_top s1)) as [|m1 r1] eqn:EL; [rewrite lenN_nil in EM; pose proof (x_ram _ _ _ W'); lia|].
      destruct (k_log _ _ _ K') as (k & E & F). rewrite EL in F. destruct F as (F1 & F2); [discriminate|].
      rewrite <- EL, E, lenN_dropN in EM. rewrite (k_next _ _ _ K') in NX. lia. }
    rewrite NONE, takeN_cons by lia. rewrite takeN_nil. reflexivity.
  Qed.

  Lemma sched_snoc : forall xs w x,
    xsok sys sop fpar sout N snext s_rings s_attempt s_answer false fits s_okpar w xs ->
    xok sys sop fpar sout N fits s_okpar (swrun w xs) x ->
    xsok sys sop fpar sout N snext s_rings s_attempt s_answer false fits s_okpar w (xs ++ [x]).
  Proof. induction xs as [|y xs IH]; intros w x H X; simpl in *; [split; auto|]. destruct H as (H1 & H2). split; auto. Qed.
  Theorem stream_published s xs id p g ts pay now : wild crc cfg s -> s_sched s xs ->
    let w := swrun (W0 s) xs in
    asleep sys fpar sout id p w -> gget (f_gid p) (w_st _ _ _ w) = Some g ->
    ensure_active (f_c p) (f_gen p) g = None -> lenN (g_pend g) < max_pend cfg -> fits (w_st _ _ _ w) (SPub ts pay) ->
    let w1 := swstep w (WOp _ _ _ (SPub ts pay)) in
    w_done _ _ _ (swrun w1 (s_turn w1 id now)) = (id, RMsgs [mkMsg (t_next (s_top (w_st _ _ _ w))) ts pay]) :: w_done _ _ _ w.
  Proof.
    intros I OK w A HG EA BP FT w1. destruct (stream_inv s xs I OK) as (W & L). fold w in W, L. pose proof (stream_quiet s xs id p I OK A) as Q. fold w in Q.
    destruct A as (A & AO).
    assert (R1 : w1 = swrun (W0 s) (xs ++ [WOp _ _ _ (SPub ts pay)])) by (unfold swrun; rewrite wrun_app; reflexivity).
    assert (OK1 : s_sched s (xs ++ [WOp _ _ _ (SPub ts pay)])) by (apply sched_snoc; auto).
    pose proof (stream_turn s _ id p (w_cnt _ _ _ w) now I OK1) as T. cbv zeta in T. rewrite <- R1 in T.
    assert (S1 : w_st _ _ _ w1 = snext (w_st _ _ _ w) (SPub ts pay)) by reflexivity.
    pose proof (fetch_published (w_st _ _ _ w) ts pay p g now W FT Q (L _ _ _ A) HG EA BP) as F. rewrite S1, F in T. apply T; [exact A|].
    intros (g' & HG' & _ & HN). change (gget (f_gid p) (w_st _ _ _ w) = Some g') in HG'. rewrite HG in HG'. inversion HG'; subst g'.
    change (t_next (s_top (w_st _ _ _ w)) + 1 <= g_next g) in HN. pose proof (proj1 (x_below _ _ _ W) _ _ HG). lia.
  Qed.
End Sys.
