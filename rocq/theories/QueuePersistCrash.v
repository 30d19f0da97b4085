(** Crash points, concurrent senders, recovered delivery state, restart order. *)
From Verif Require Import LibBase LibMap QueueModel QueueSpec QueueObs QueueProofs QueueRefine QueueTrace QueueFacts QueueFacts2 QueuePersistModel QueuePersistProofs QueuePersistInv QueuePersistSys.

(** * C43 *)
Definition crash_free (evs : list pev) : Prop := forall e, In e evs -> is_crash e = false.
Lemma sends_app : forall cfg h1 h2 i, sends cfg i (h1 ++ h2) = sends cfg i h1 ++ sends cfg (qrun cfg i h1) h2.
Proof. intros cfg h1; induction h1 as [|o h1 IH]; intros h2 i; simpl; auto. rewrite IH, app_assoc. reflexivity. Qed.
Lemma segment : forall cfg s evs s', psteps cfg s evs s' -> p_chan s = [] -> p_batch s = [] -> crash_free evs ->
  exists p, p ++ pend s' = sends cfg (p_mem s) (reqs evs) /\ p_db s' = exec_all p (p_db s) /\ p_mem s' = qrun cfg (p_mem s) (reqs evs).
Proof.
  intros cfg s evs s' Hs Hc Hb; induction Hs as [s|s evs s1 e s2 Hs IH Hp]; intro Hf.
  - exists []. unfold pend. rewrite Hc, Hb. auto.
  - destruct (IH Hc Hb) as [p [H1 [H2 H3]]]; [intros x Hx; apply Hf; apply in_or_app; auto|].
    assert (He : is_crash e = false) by (apply Hf; apply in_or_app; right; left; auto).
    rewrite reqs_app, sends_app, qrun_app, <- H1, <- H3.
    destruct Hp as [i c b d o|i c1 c2 b d|i c b d|i c b d clk main dead Pm Pd]; unfold pend in *; cbn [p_mem p_chan p_batch p_db reqs flat_map sends qrun fold_left app is_crash] in *; try discriminate; rewrite ?app_nil_r.
    + exists p. split; [rewrite <- !app_assoc; auto|auto].
    + exists p. split; [rewrite <- !app_assoc; auto|auto].
    + exists (p ++ b). split; [rewrite <- !app_assoc; auto|]. split; [rewrite exec_all_app, H2; auto|auto].
Qed.
Lemma prefix_cut : forall cfg h i p r, p ++ r = sends cfg i h ->
  exists h1 h2, h = h1 ++ h2 /\
    ((h2 = [] /\ p = sends cfg i h1) \/
     exists o h3 q q', h2 = o :: h3 /\ p = sends cfg i h1 ++ q /\ q ++ q' = qstore cfg (qrun cfg i h1) o).
Proof.
  intros cfg h; induction h as [|o h IH]; intros i p r H; cbn [sends] in H.
  - apply app_eq_nil in H. destruct H as [-> _]. exists [], []. auto.
  - assert (Hc : (exists q', p ++ q' = qstore cfg i o) \/ exists p', p = qstore cfg i o ++ p' /\ p' ++ r = sends cfg (qnext cfg i o) h).
    { revert H. generalize (sends cfg (qnext cfg i o) h) as t. generalize (qstore cfg i o) as s. clear.
      intros s; revert p; induction s as [|x s IHs]; intros p t H.
      - right. exists p. auto.
      - destruct p as [|y p]; [left; exists (x :: s); auto|]. cbn [app] in H. inversion H; subst. destruct (IHs p t H2) as [[q' E]|[p' [E1 E2]]].
        + left. exists q'. cbn [app]. rewrite E; auto.
        + right. exists p'. cbn [app]. rewrite E1; auto. }
    destruct Hc as [[q' E]|[p' [-> E]]].
    + exists [], (o :: h). split; auto. right. exists o, h, p, q'. auto.
    + destruct (IH _ _ _ E) as [h1 [h2 [-> [[-> ->]|[o' [h3 [q [q' [-> [-> Hq]]]]]]]]]].
      * exists (o :: h1), []. split; auto.
      * exists (o :: h1), (o' :: h3). split; auto. right. exists o', h3, q, q'. cbn [sends]. rewrite <- app_assoc. auto.
Qed.
Lemma simple_loc : forall x c o, simple o -> op_id o <> x -> loc x c o = c.
Proof.
  intros x [r d] o Hs Hn. destruct o; simpl in *; try contradiction; subst.
  - destruct (N.eqb_spec x id); congruence.
  - destruct (N.eqb_spec x (d_id d0)); congruence.
Qed.
Lemma simple_fold : forall x l c, Forall simple l -> ~ In x (map op_id l) -> fold_left (loc x) l c = c.
Proof.
  intros x l; induction l as [|o l IH]; intros c Hs Hn; simpl; auto. inversion Hs; subst. rewrite simple_loc; auto.
  - apply IH; auto. simpl in Hn; tauto.
  - simpl in Hn; tauto.
Qed.
Lemma distinct_prefix : forall x l q q' c, (length l <= 1)%nat \/ (Forall simple l /\ NoDup (map op_id l)) -> q ++ q' = l ->
  fold_left (loc x) q c = c \/ fold_left (loc x) q c = fold_left (loc x) l c.
Proof.
  intros x l q q' c [Hl|[Hs Hn]] E.
  - destruct q as [|a q]; auto. right. subst l. destruct q' as [|b q']; [rewrite app_nil_r; auto|].
    rewrite app_length in Hl. simpl in Hl. lia.
  - subst l. rewrite map_app in Hn. apply NoDup_app_inv in Hn. destruct Hn as [_ [_ Hd]]. apply Forall_app in Hs. destruct Hs as [H1 H2].
    rewrite fold_left_app. destruct (in_dec N.eq_dec x (map op_id q)) as [Hi|Hi].
    + right. rewrite (simple_fold x q'); auto.
    + left. apply simple_fold; auto.
Qed.
Lemma sends_cells : forall cfg h i S, RI i S -> fresh_from S h -> forall x, fold_left (loc x) (sends cfg i h) (mem_at x i) = mem_at x (qrun cfg i h).
Proof.
  intros cfg h; induction h as [|o h IH]; intros i S HR Hf x; auto. destruct (fresh_from_cons cfg i S o h HR Hf) as [Ho Hf'].
  cbn [sends qrun fold_left]. rewrite fold_left_app, (step_store cfg i S o HR Ho). apply (IH _ (a_next cfg S o)); auto.
  apply (proj1 (step_refines cfg i S o HR Ho)).
Qed.
Lemma mem_empty_pend : forall P s S, SysInv P s S -> p_chan s = [] -> p_batch s = [] -> forall x, db_at x (p_db s) = mem_at x (p_mem s).
Proof. intros P s S HI Hc Hb x. pose proof (si_cells _ _ _ HI x) as H. unfold pend in H. rewrite Hc, Hb in H. exact H. Qed.
Lemma fresh_split : forall a b, fresh (a ++ b) -> fresh a /\ fresh b /\ (forall x, In x (map body_id (pushed a)) -> ~ In x (map body_id (pushed b))).
Proof. intros a b H. unfold fresh in *. rewrite pushed_app, map_app in H. apply NoDup_app_inv in H. auto. Qed.
Lemma sys_fresh_from : forall evs s S h, SysInv (fun b => In b (pushed (reqs evs))) s S -> fresh (reqs evs ++ h) -> fresh_from S h.
Proof.
  intros evs s S h HI Hf. apply fresh_split in Hf. destruct Hf as [_ [Hf Hx]]. split; auto.
  intros x Hp Ha. apply ids_body_mem in Ha. destruct Ha as [b [Hb <-]]. apply (Hx (body_id b)); auto. apply in_map. apply (si_b _ _ _ HI); auto.
Qed.
Lemma psteps_app : forall cfg a s b s1 s2, psteps cfg s a s1 -> psteps cfg s1 b s2 -> psteps cfg s (a ++ b) s2.
Proof.
  intros cfg a s b s1 s2 H1 H2; induction H2 as [|s1 evs s2 e s3 H2 IH Hp]; [rewrite app_nil_r; auto|].
  rewrite app_assoc. econstructor; eauto.
Qed.
Lemma crash_prefix : forall cfg evs0 s0 evs s clk s',
  psteps cfg sys0 evs0 s0 -> p_chan s0 = [] -> p_batch s0 = [] ->
  psteps cfg s0 evs s -> crash_free evs -> pstep cfg s (ECrash clk) s' -> fresh (reqs evs0 ++ reqs evs) ->
  exists h1 h2, reqs evs = h1 ++ h2 /\
    forall x, seen x (p_mem s') = seen x (qrun cfg (p_mem s0) h1) \/
      exists o h3, h2 = o :: h3 /\ seen x (p_mem s') = seen x (qrun cfg (p_mem s0) (h1 ++ [o])).
Proof.
  intros cfg evs0 s0 evs s clk s' H0 Hc Hb Hs Hcf Hp Hf.
  destruct (sys_reach cfg evs0 s0 H0) as [S0 HI0]; [apply fresh_split in Hf; tauto|].
  destruct (sys_reach cfg (evs0 ++ evs) s (psteps_app _ _ _ _ _ _ H0 Hs)) as [S HI]; [rewrite reqs_app; auto|].
  destruct (sys_step cfg _ _ _ _ _ HI Hp) as [S' HI']; [intros b []|].
  destruct (segment cfg s0 evs s Hs Hc Hb Hcf) as [p [E1 [E2 E3]]].
  destruct (prefix_cut _ _ _ _ _ E1) as [h1 [h2 [E H]]]. exists h1, h2. split; auto. intro x.
  pose proof (sys_fresh_from evs0 s0 S0 (reqs evs) HI0 Hf) as Hff. pose proof (si_ri _ _ _ HI0) as HR0.
  rewrite E in Hff. destruct (fresh_from_app cfg h1 h2 _ _ HR0 Hff) as [Hf1 Hf2].
  destruct (run_refines cfg h1 _ _ HR0 Hf1) as [HR1 _].
  assert (Hcell : mem_at x (p_mem s') = fold_left (loc x) p (mem_at x (p_mem s0))).
  { rewrite <- (mem_empty_pend _ _ _ HI' ) by (inversion Hp; reflexivity). replace (p_db s') with (p_db s) by (inversion Hp; reflexivity).
    rewrite E2, exec_all_at, (mem_empty_pend _ _ _ HI0 Hc Hb). reflexivity. }
  rewrite (seen_mem _ _ x (si_ri _ _ _ HI')), (seen_mem _ _ x HR1), Hcell.
  destruct H as [[-> ->]|[o [h3 [q [q' [-> [-> Hq]]]]]]].
  - left. apply (sends_cells cfg h1 _ S0); auto.
  - rewrite fold_left_app, (sends_cells cfg h1 _ S0) by auto.
    destruct (fresh_from_cons cfg _ _ o h3 HR1 Hf2) as [Ho _].
    pose proof (store_cases cfg _ _ o HR1 Ho) as Hsc.
    destruct (distinct_prefix x _ q q' (mem_at x (qrun cfg (p_mem s0) h1)) Hsc Hq) as [D|D]; rewrite D; auto.
    right. exists o, h3. split; auto. rewrite qrun_app. cbn [qrun fold_left].
    rewrite (seen_mem _ (a_next cfg (a_run cfg S0 h1) o)) by (apply step_refines; auto).
    apply (step_store cfg _ _ o HR1 Ho).
Qed.
(** a message gone and flushed never comes back *)
Lemma gone_for_good : forall cfg evs s id evs2 s2, psteps cfg sys0 evs s -> p_chan s = [] -> p_batch s = [] -> ~ listed (p_mem s) id ->
  psteps cfg s evs2 s2 -> fresh (reqs evs ++ reqs evs2) -> ~ In id (map body_id (pushed (reqs evs2))) ->
  ~ listed (p_mem s2) id /\ forall o, push_of o = [] -> ~ In id (map m_id (ret (qouts cfg (p_mem s2) o))).
Proof.
  intros cfg evs s id evs2 s2 H0 Hc Hb Hl Hs Hf Hid. apply fresh_split in Hf. destruct Hf as [Hf1 [Hf2 Hf3]].
  destruct (sys_reach cfg evs s H0 Hf1) as [S HI]. pose proof (si_ri _ _ _ HI) as HR.
  assert (Ha : ~ In id (all_ids S)) by (rewrite <- (listed_all_ids _ _ _ HR); auto).
  set (B := filter (fun b => negb (body_id b =? id)) (pushed (reqs evs))).
  pose proof (mem_empty_pend _ _ _ HI Hc Hb id) as Hcell.
  assert (Hnone : mem_at id (p_mem s) = (None, None)).
  { rewrite <- (seen_mem _ _ id HR). unfold seen. f_equal.
    - destruct (find_id id (obs_wait (p_mem s) ++ obs_fly (p_mem s))) as [m|] eqn:E; auto. exfalso; apply Hl. apply find_id_some in E. destruct E as [E <-].
      unfold listed. apply in_app_or in E. destruct E; [left|right; left]; apply in_map; auto.
    - destruct (find _ (obs_dead (p_mem s))) as [d|] eqn:E; auto. exfalso; apply Hl. apply find_some in E. destruct E as [E E2]. apply N.eqb_eq in E2.
      right; right. rewrite <- E2. apply in_map; auto. }
  rewrite Hnone in Hcell. unfold db_at in Hcell. inversion Hcell as [[C1 C2]].
  apply (aget_None_notin N.eqb Neqb_ok) in C1. apply (aget_None_notin N.eqb Neqb_ok) in C2.
  assert (HI2 : SysInv (fun b => In b B) s S).
  { destruct HI as [A1 A2 A3 A4 A5]. constructor; auto.
    - destruct A3 as [W1 W2 W3 W4 W5 W6]. constructor; auto.
      + intros x r Hx. apply filter_In. split; auto. change (body_id (rbody x r)) with x. apply negb_true_iff. apply N.eqb_neq. intros ->. apply C1. unfold akeys. apply in_map_iff. exists (id, r); auto.
      + intros x e Hx. apply filter_In. split; eauto. change (body_id (dbody_of e)) with (d_id e). apply negb_true_iff. apply N.eqb_neq. rewrite (W4 _ _ Hx). intros ->. apply C2. unfold akeys. apply in_map_iff. exists (id, e); auto.
    - unfold pend. rewrite Hc, Hb. exact I.
    - intros b Hx. apply filter_In. split; auto. apply negb_true_iff. apply N.eqb_neq. intro E. apply Ha. rewrite all_ids_bodies, <- E. apply in_map; auto. }
  destruct (sys_run cfg B s evs2 s2 S HI2 Hs) as [S2 HJ].
  { rewrite map_app. apply NoDup_app_intro; auto.
    - unfold B. clear -Hf1. unfold fresh in Hf1. induction (pushed (reqs evs)) as [|b l IH]; simpl in *; auto. inversion Hf1; subst.
      destruct (negb (body_id b =? id)); auto. simpl. constructor; auto. intro Hi. apply H1. apply in_map_iff in Hi. destruct Hi as [y [Hy Hi]]. apply filter_In in Hi. rewrite <- Hy. apply in_map; tauto.
    - intros x Hx. apply Hf3. unfold B in Hx. apply in_map_iff in Hx. destruct Hx as [y [<- Hy]]. apply filter_In in Hy. apply in_map; tauto. }
  pose proof (si_ri _ _ _ HJ) as HR2.
  assert (Ha2 : ~ In id (all_ids S2)).
  { intro Hi. apply ids_body_mem in Hi. destruct Hi as [b [Hb2 He]]. apply (si_b _ _ _ HJ) in Hb2. apply in_app_or in Hb2. destruct Hb2 as [Hb2|Hb2].
    - apply filter_In in Hb2. destruct Hb2 as [_ Hb2]. rewrite He, N.eqb_refl in Hb2. discriminate.
    - apply Hid. rewrite <- He. apply in_map; auto. }
  split; [rewrite (listed_all_ids _ _ _ HR2); auto|]. intros o Ho.
  assert (Hof : op_fresh S2 o) by (destruct o; simpl; auto; discriminate).
  destruct (step_refines cfg _ _ o HR2 Hof) as [_ ->]. intro Hi. apply (ret_ids _ _ _ _ (RI_SInv _ _ HR2)) in Hi.
  apply Ha2. unfold all_ids. rewrite ids_app, !in_app_iff. auto.
Qed.

(** * C44: concurrent requests, sends outside the lock *)
Definition touches (x : N) (o : storeop) : bool :=
  match o with
  | SInsert m => x =? m_id m | SDelete id => x =? id | SUpdate id _ _ => x =? id | SInsertDLQ d => x =? d_id d
  | SDeleteDLQ id => x =? id | SMoveToDLQ id d => (x =? id) || (x =? d_id d) | SMoveToMain id m => (x =? id) || (x =? m_id m)
  | SPurgeDLQ => true
  end.
Lemma loc_untouched : forall x c o, touches x o = false -> loc x c o = c.
Proof.
  intros x [r d] o H; destruct o; simpl in *; try discriminate; try rewrite H; auto; apply orb_false_iff in H; destruct H as [-> ->]; auto.
Qed.
Lemma loc_filter : forall x l c, fold_left (loc x) l c = fold_left (loc x) (filter (touches x) l) c.
Proof.
  intros x l; induction l as [|o l IH]; intro c; simpl; auto. destruct (touches x o) eqn:E; simpl; auto. rewrite loc_untouched; auto.
Qed.
Definition creqs (l : list cev) : list qop := flat_map (fun e => match e with CReq o => [o] | CSend _ => [] end) l.
(** whenever a request runs, no storage operation still unsent concerns one of its messages *)
Fixpoint hazard_free (cfg : qconfig) (s : csys) (l : list cev) : Prop :=
  match l with
  | [] => True
  | e :: l' =>
      match e with
      | CReq o => forall x, existsb (touches x) (qstore cfg (c_mem s) o) = true -> existsb (touches x) (concat (c_out s)) = false
      | CSend _ => True
      end /\ hazard_free cfg (cstep cfg s e) l'
  end.
Lemma filter_none : forall x l, existsb (touches x) l = false -> filter (touches x) l = [].
Proof. intros x l; induction l as [|o l IH]; simpl; intro H; auto. apply orb_false_iff in H. destruct H as [-> H]. auto. Qed.
Lemma concat_none : forall x out, (forall b, In b out -> existsb (touches x) b = false) -> filter (touches x) (concat out) = [].
Proof.
  intros x out; induction out as [|a out IH]; simpl; intro H; auto. rewrite filter_app, (filter_none x a), IH; auto.
Qed.
Lemma existsb_concat : forall x out, existsb (touches x) (concat out) = false -> forall b, In b out -> existsb (touches x) b = false.
Proof.
  intros x out; induction out as [|a out IH]; simpl; intros H b Hb; [contradiction|]. rewrite existsb_app in H. apply orb_false_iff in H. destruct H as [H1 H2].
  destruct Hb as [<-|Hb]; auto.
Qed.
Lemma nth_split' : forall A (l : list A) k a, nth_error l k = Some a -> l = firstn k l ++ a :: skipn (S k) l.
Proof.
  intros A l; induction l as [|b l IH]; intros [|k] a H; simpl in *; try discriminate.
  - inversion H; auto.
  - f_equal. apply IH; auto.
Qed.
Definition owners (x : N) (out : list (list storeop)) : nat := length (filter (existsb (touches x)) out).
Lemma owners_app : forall x a b, owners x (a ++ b) = (owners x a + owners x b)%nat.
Proof. intros; unfold owners; rewrite filter_app, app_length; auto. Qed.
Lemma owners_zero : forall x out, owners x out = O -> filter (touches x) (concat out) = [].
Proof.
  intros x out H. apply concat_none. intros b Hb. destruct (existsb (touches x) b) eqn:E; auto. unfold owners in H.
  apply length_zero_iff_nil in H. assert (Hi : In b (filter (existsb (touches x)) out)) by (apply filter_In; auto). rewrite H in Hi; contradiction.
Qed.
Lemma owners_none : forall x out, existsb (touches x) (concat out) = false -> owners x out = O.
Proof.
  intros x out H. unfold owners. pose proof (existsb_concat x out H) as Ha. clear H.
  induction out as [|a out IH]; simpl; auto. rewrite (Ha a) by (left; auto). apply IH. intros b Hb; apply Ha; right; auto.
Qed.
Lemma crun_order : forall cfg l s h S, 
  hazard_free cfg s l -> c_mem s = qrun cfg inner0 h -> S = sends cfg inner0 h ->
  (forall x, (owners x (c_out s) <= 1)%nat /\ filter (touches x) (c_sent s) ++ filter (touches x) (concat (c_out s)) = filter (touches x) S) ->
  let s' := crun cfg s l in
  c_mem s' = qrun cfg inner0 (h ++ creqs l) /\
  forall x, filter (touches x) (c_sent s') ++ filter (touches x) (concat (c_out s')) = filter (touches x) (sends cfg inner0 (h ++ creqs l)).
Proof.
  intros cfg l; induction l as [|e l IH]; intros s h S Hh Hm HS Hx; cbn [crun fold_left].
  - simpl. rewrite app_nil_r. split; auto. intro x. destruct (Hx x) as [_ E]. rewrite E, HS. auto.
  - destruct Hh as [He Hl]. destruct e as [o|k].
    + replace (h ++ creqs (CReq o :: l)) with ((h ++ [o]) ++ creqs l) by (rewrite <- app_assoc; reflexivity).
      apply (IH _ _ (sends cfg inner0 (h ++ [o]))); auto.
      * cbn [cstep c_mem]. rewrite Hm, qrun_app. reflexivity.
      * intro x. cbn [cstep c_mem c_out c_sent]. destruct (Hx x) as [H1 H2]. split.
        -- rewrite owners_app. unfold owners at 2. simpl. destruct (existsb (touches x) (qstore cfg (c_mem s) o)) eqn:E; simpl; [|lia].
           rewrite (owners_none x (c_out s) (He x E)). lia.
        -- rewrite concat_app, filter_app, app_assoc, H2, sends_app, filter_app, HS. simpl. rewrite !app_nil_r, Hm. reflexivity.
    + replace (h ++ creqs (CSend k :: l)) with (h ++ creqs l) by reflexivity.
      apply (IH _ _ S); auto.
      * cbn [cstep]. destruct (nth_error (c_out s) k) as [[|op rest]|]; auto.
      * intro x. cbn [cstep]. destruct (nth_error (c_out s) k) as [[|op rest]|] eqn:E; auto. apply nth_split' in E.
        destruct (Hx x) as [H1 H2]. cbn [c_out c_sent].
        set (l1 := firstn k (c_out s)) in *. set (l2 := skipn (Datatypes.S k) (c_out s)) in *. rewrite E in H1, H2.
        rewrite owners_app in *. rewrite concat_app, filter_app in *. cbn [concat] in *. rewrite filter_app in *.
        unfold owners in H1 at 2. unfold owners at 2. cbn [filter existsb] in *. rewrite filter_app. cbn [filter].
        destruct (touches x op) eqn:Et; cbn [orb length] in *.
        -- assert (Hz : owners x l1 = O) by lia. pose proof (owners_zero x l1 Hz) as Hc. rewrite Hc in *. rewrite Hz in *. cbn [app] in *. split.
           ++ destruct (existsb (touches x) rest); simpl; unfold owners in *; lia.
           ++ rewrite <- H2, <- app_assoc. reflexivity.
        -- rewrite app_nil_r. split; auto. destruct (existsb (touches x) rest); simpl in *; auto.
Qed.
Lemma concurrent_ok : forall cfg l, fresh (creqs l) -> hazard_free cfg c0 l ->
  let s := crun cfg c0 l in concat (c_out s) = [] ->
  c_mem s = qrun cfg inner0 (creqs l) /\
  forall x, db_at x (exec_all (c_sent s) db0) = seen x (c_mem s).
Proof.
  intros cfg l Hf Hh s Hd.
  destruct (crun_order cfg l c0 [] [] Hh eq_refl eq_refl) as [Hm Hx]; [intro x; split; simpl; auto|]. fold s in Hm, Hx. cbn [app] in Hm, Hx.
  split; auto. intro x. rewrite exec_all_at, loc_filter. specialize (Hx x). rewrite Hd in Hx. simpl in Hx. rewrite app_nil_r in Hx. rewrite Hx, <- loc_filter.
  change (db_at x db0) with (mem_at x inner0). rewrite (sends_cells cfg _ inner0 spec0 RI_empty (fresh_from0 _ Hf)).
  rewrite Hm. symmetry. eapply seen_mem. apply reach; auto.
Qed.
(** ... and what comes back after a restart *)
Lemma nd_rows_db : forall l, NoDup (akeys (db_main (exec_all l db0))) /\ NoDup (akeys (db_dead (exec_all l db0))) /\
  (forall id e, In (id, e) (db_dead (exec_all l db0)) -> d_id e = id).
Proof.
  intro l. assert (H : forall d, NoDup (akeys (db_main d)) /\ NoDup (akeys (db_dead d)) /\ (forall id e, In (id, e) (db_dead d) -> d_id e = id) ->
    NoDup (akeys (db_main (exec_all l d))) /\ NoDup (akeys (db_dead (exec_all l d))) /\ (forall id e, In (id, e) (db_dead (exec_all l d)) -> d_id e = id)).
  { induction l as [|o l IH]; intros d H; simpl; auto. apply IH. destruct H as [H1 [H2 H3]].
    destruct o; simpl; (split; [try apply nd_ins; try apply nd_adel; rewrite ?keys_upd; auto|]); (split; [try apply nd_ins; try apply nd_adel; auto; constructor|]); auto;
      intros k e0 Hi; try (apply in_ins in Hi; destruct Hi as [Hi|[-> ->]]; auto); try (apply in_adel in Hi; apply H3; tauto); contradiction. }
  apply H. simpl. split; [constructor|]. split; [constructor|]. intros ? ? [].
Qed.
Lemma seen_ext : forall i S x, RI i S -> forall m, In m (obs_wait i ++ obs_fly i) -> m_id m = x -> fst (seen x i) = Some (row_of m).
Proof. intros i S x HR m Hm <-. unfold seen. cbn [fst]. rewrite (find_id_nd _ _ (obs_nd _ _ HR) Hm). reflexivity. Qed.
Lemma concurrent_restart : forall cfg l clk main dead, fresh (creqs l) -> hazard_free cfg c0 l ->
  let s := crun cfg c0 l in concat (c_out s) = [] ->
  let d := exec_all (c_sent s) db0 in Permutation main (db_main d) -> Permutation dead (db_dead d) ->
  Permutation (rows (recover clk main dead)) (rows (c_mem s)) /\ Permutation (obs_dead (recover clk main dead)) (obs_dead (c_mem s)).
Proof.
  intros cfg l clk main dead Hf Hh s Hd d Pm Pd. destruct (concurrent_ok cfg l Hf Hh Hd) as [Hm Hx]. fold s in Hm, Hx. fold d in Hx.
  pose proof (reach cfg (creqs l) Hf) as HR. rewrite <- Hm in HR.
  destruct (nd_rows_db (c_sent s)) as [N1 [N2 N3]]. fold d in N1, N2, N3.
  assert (HW : wfdb (fun _ => True) d).
  { constructor; auto. intros id H1 H2. pose proof (Hx id) as E. rewrite (seen_mem _ _ id HR) in E. unfold db_at, mem_at in E.
    apply (aget_Some_in N.eqb Neqb_ok) in H1. apply (aget_Some_in N.eqb Neqb_ok) in H2. destruct H1 as [r H1], H2 as [e H2]. rewrite H1, H2 in E.
    pose proof (f_equal fst E) as E1. pose proof (f_equal snd E) as E2. cbn [fst snd] in E1, E2. symmetry in E2.
    rewrite (j_x _ _ (RI_J _ _ HR) _ _ E2) in E1. discriminate. }
  destruct (recover_ok _ d clk main dead HW Pm Pd) as [HR' [HC _]].
  apply (rows_perm _ _ _ _ HR' HR). intro x. rewrite (seen_mem _ _ x HR'), HC. apply Hx.
Qed.

(** * C45: delivery state after recovery *)
Lemma load_nth : forall clk t i j id r, nth_error t j = Some (id, r) -> In (load_row (clk (i + j)%nat) (id, r)) (load_rows clk i t).
Proof.
  intros clk t; induction t as [|e t IH]; intros i [|j] id r H; simpl in H; try discriminate.
  - inversion H; subst. rewrite Nat.add_0_r. left; auto.
  - right. replace (i + S j)%nat with (S i + j)%nat by lia. apply IH; auto.
Qed.
Lemma recovered_state : forall clk main dead j id r,
  NoDup (akeys main ++ akeys dead) -> (forall k e, In (k, e) dead -> d_id e = k) -> nth_error main j = Some (id, r) ->
  let i := recover clk main dead in
  let m := load_row (clk j) (id, r) in
  (In id (map m_id (obs_fly i)) <-> clk j < w_vis r /\ 0 < w_att r) /\
  (In id (map m_id (obs_wait i)) <-> ~ (clk j < w_vis r /\ 0 < w_att r)) /\
  In m (obs_wait i ++ obs_fly i).
Proof.
  intros clk main dead j id r Hn Hk Hj i m. apply NoDup_app_inv in Hn. destruct Hn as [N1 [N2 N3]].
  assert (HW : wfdb (fun _ => True) (mkDb main dead)) by (constructor; auto).
  destruct (recover_ok _ _ clk main dead HW (Permutation_refl _) (Permutation_refl _)) as [HR _]. fold i in HR.
  pose proof (load_nth clk main 0 j id r Hj) as Hm. cbn [Nat.add] in Hm. fold m in Hm.
  assert (Hw : Permutation (obs_wait i) (filter ready (load_rows clk 0 main))) by apply (obs_wait_perm _ _ HR).
  assert (Hfl : Permutation (obs_fly i) (filter (fun m => negb (ready m)) (load_rows clk 0 main))).
  { rewrite (obs_fly_eq _ _ HR). cbn [recovered s_fly]. unfold fly_order. rewrite fold_ins_perm, app_nil_r. auto. }
  assert (Hr : ready m = negb ((clk j <? w_vis r) && (0 <? w_att r))) by (unfold m, load_row, ready; cbn [m_state]; destruct ((clk j <? w_vis r) && (0 <? w_att r)); reflexivity).
  assert (Nl : NoDup (ids (load_rows clk 0 main))) by (rewrite load_ids; auto).
  assert (Hsame : forall x, In x (load_rows clk 0 main) -> m_id x = id -> x = m).
  { intros x Hx He. apply (NoDup_ids_inj _ _ _ Nl Hx Hm). rewrite He. reflexivity. }
  assert (Hb : (clk j <? w_vis r) && (0 <? w_att r) = true <-> clk j < w_vis r /\ 0 < w_att r).
  { rewrite andb_true_iff, !N.ltb_lt. tauto. }
  split; [|split].
  - rewrite <- Hb. split.
    + intro H. apply in_map_iff in H. destruct H as [x [He Hx]]. apply (Permutation_in _ Hfl) in Hx. apply filter_In in Hx. destruct Hx as [Hx Hs].
      rewrite (Hsame x Hx He), Hr, negb_involutive in Hs. auto.
    + intro H. apply in_map_iff. exists m. split; auto. apply (Permutation_in _ (Permutation_sym Hfl)). apply filter_In. split; auto. rewrite Hr, negb_involutive; auto.
  - rewrite <- Hb, not_true_iff_false. split.
    + intro H. apply in_map_iff in H. destruct H as [x [He Hx]]. apply (Permutation_in _ Hw) in Hx. apply filter_In in Hx. destruct Hx as [Hx Hs].
      rewrite (Hsame x Hx He), Hr in Hs. apply negb_true_iff; auto.
    + intro H. apply in_map_iff. exists m. split; auto. apply (Permutation_in _ (Permutation_sym Hw)). apply filter_In. split; auto. rewrite Hr, H; auto.
  - apply in_or_app. destruct (ready m) eqn:E.
    + left. apply (Permutation_in _ (Permutation_sym Hw)). apply filter_In; auto.
    + right. apply (Permutation_in _ (Permutation_sym Hfl)). apply filter_In. rewrite E; auto.
Qed.
(** nothing is stuck: a pass of the timeout task after the deadline returns or
    dead-letters an in-flight message; a large enough batch hands out every
    waiting message *)
Lemma never_stuck : forall cfg i S, RI i S ->
  (forall m now1 now2, In m (obs_fly i) -> dl m <= now1 -> dl m <= now2 ->
     let i' := qnext cfg i (QoExpire now1 now2) in
     In (m_id m) (map m_id (obs_wait i')) \/ In (m_id m) (map d_id (obs_dead i'))) /\
  (forall m max clk, In m (obs_wait i) -> lenN (obs_wait i) <= max -> In (m_id m) (map m_id (ret (qouts cfg i (QoConsume max clk))))).
Proof.
  intros cfg i S HR. split.
  - intros m now1 now2 Hm H1 H2 i'. destruct (step_refines cfg i S (QoExpire now1 now2) HR I) as [HR' _]. fold i' in HR'.
    rewrite (obs_fly_eq _ _ HR) in Hm. rewrite (obs_dead_eq _ _ HR').
    pose proof (obs_wait_ids _ _ (m_id m) HR') as Hw. unfold ids in Hw. rewrite Hw.
    unfold a_next. cbn [a_step]. assert (E : existsb (overdue now1) (s_fly S) = true).
    { apply existsb_exists. exists m. split; auto. unfold overdue. apply N.leb_le; auto. }
    rewrite E. cbn [fst s_wait s_dead]. rewrite !map_app, !in_app_iff.
    assert (Hd : In m (filter (overdue now2) (s_fly S))) by (apply filter_In; split; auto; apply N.leb_le; auto).
    destruct (exhausted cfg m) eqn:Ee.
    + right. right. rewrite map_map. apply in_map_iff. exists m. split; auto. apply filter_In; auto.
    + left. right. rewrite map_map. apply in_map_iff. exists m. split; auto. apply filter_In. rewrite Ee; auto.
  - intros m max clk Hm Hl. destruct (step_refines cfg i S (QoConsume max clk) HR I) as [_ ->].
    pose proof (obs_wait_perm _ _ HR) as Hp. unfold lenN in Hl. rewrite (Permutation_length Hp) in Hl. apply (Permutation_in _ Hp) in Hm.
    unfold a_out. cbn [a_step].
    assert (Hn : N.to_nat (N.min max (lenN (s_wait S))) = length (s_wait S)) by (unfold lenN; lia). rewrite Hn.
    destruct (a_take_spec cfg clk (length (s_wait S)) 0 S (SInv_nd_w _ (RI_SInv _ _ HR)) (le_n _)) as [F _].
    destruct (a_take cfg (length (s_wait S)) 0 clk S) as [S' ms]. cbn [fst snd ret] in *.
    rewrite firstn_all2 in F by (rewrite (Permutation_length (dsort_perm (s_wait S))); lia).
    apply dsort_In in Hm. clear -F Hm. induction F as [|x y l l' [j [_ Hy]] F IH]; [contradiction|]. destruct Hm as [->|Hm].
    + left. rewrite Hy. reflexivity.
    + right. auto.
Qed.

(** * C46: order after a restart when nothing was returned to the queue *)
Definition plain (o : qop) : bool :=
  match o with QoPush _ _ _ _ | QoPop _ | QoConsume _ _ | QoAck _ => true | _ => false end.
