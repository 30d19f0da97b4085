(** The running server with storage, crashes and restarts. *)
From Verif Require Import LibBase LibMap QueueModel QueueSpec QueueObs QueueProofs QueueRefine QueueTrace QueueFacts QueueFacts2 QueuePersistModel QueuePersistProofs QueuePersistInv.

(** * Storage operations of one request *)
Lemma dead_body : forall S d, In d (s_dead S) -> In (dbody_of d) (bodies S).
Proof. intros S d H. unfold bodies. apply in_or_app; right. apply in_map; auto. Qed.
Lemma bodies_step : forall cfg S o (P : body -> Prop), SInv S -> (forall b, In b (bodies S) -> P b) -> (forall b, In b (push_of o) -> P b) ->
  forall b, In b (bodies (a_next cfg S o)) -> P b.
Proof.
  intros cfg S o P HI HB HP b Hb.
  assert (H : In b (bodies S ++ push_of o)).
  { eapply Permutation_in; [symmetry; apply (a_step_perm cfg S o HI)|]. apply in_or_app; auto. }
  apply in_app_or in H. destruct H; auto.
Qed.
Definition simple (o : storeop) : Prop :=
  match o with SUpdate _ _ _ => True | SMoveToDLQ id d => id = d_id d | _ => False end.
Definition op_id (o : storeop) : N :=
  match o with
  | SInsert m => m_id m | SDelete id => id | SUpdate id _ _ => id | SInsertDLQ d => d_id d
  | SDeleteDLQ id => id | SMoveToDLQ id _ => id | SMoveToMain id _ => id | SPurgeDLQ => 0
  end.
Lemma ids_requeued : forall l, ids (map requeued l) = ids l.
Proof. intros; unfold ids; rewrite map_map; apply map_ext; reflexivity. Qed.
Lemma store_cases : forall cfg i S o, RI i S -> op_fresh S o ->
  (length (qstore cfg i o) <= 1)%nat \/ (Forall simple (qstore cfg i o) /\ NoDup (map op_id (qstore cfg i o))).
Proof.
  intros cfg i S o HR Hf. pose proof (RI_SInv _ _ HR) as HI. pose proof (proj2 (step_refines cfg i S o HR Hf)) as Hout.
  unfold qstore, qouts in *.
  destruct o as [id payload prio now|now|max clk|id|id reason now|now1 now2|id|id|]; cbn [qstep] in *; try (left; simpl; lia).
  - left. destruct (pop_single _ _ _) as [s' [m|]]; simpl; lia.
  - right. destruct (take_facts cfg S (QoConsume max clk) HI eq_refl) as [Hn _].
    destruct (take_batch _ _ _ _) as [[s' ms]|]; cbn [fst snd] in *; [|split; constructor].
    rewrite <- Hout in Hn. cbn [ret] in Hn. split.
    + apply Forall_forall. intros x Hx. apply in_map_iff in Hx. destruct Hx as [m [<- _]]. exact I.
    + rewrite map_map. exact Hn.
  - left. destruct (delete_message _ _) as [s' [m|]]; simpl; lia.
  - left. destruct (q_nack _ _ _ _ _) as [[s' [m|]] [d|]]; simpl; lia.
  - right. destruct (next_inflight_timeout (i_state i)) as [ts|]; [|split; constructor].
    destruct (ts <=? now1); [|split; constructor].
    destruct (process_expired _ _ _) as [[s' rq] dead]. cbn [fst snd] in *. unfold a_out in Hout. cbn [a_step] in Hout.
    destruct (existsb (overdue now1) (s_fly S)); cbn [snd] in Hout; inversion Hout; subst; [|split; constructor].
    split.
    + apply Forall_app; split; apply Forall_forall; intros x Hx; apply in_map_iff in Hx; destruct Hx as [m [<- _]]; simpl; auto.
    + rewrite map_app, !map_map. cbn [op_id m_id requeued set_vis set_state d_id from_message].
      set (due := filter (overdue now2) (s_fly S)).
      assert (Hd : NoDup (ids due)) by (apply NoDup_ids_filter; apply SInv_nd_f; auto).
      change (NoDup (ids (filter (fun m => negb (exhausted cfg m)) due) ++ ids (filter (exhausted cfg) due))).
      rewrite <- ids_app. eapply Permutation_NoDup; [|exact Hd]. unfold ids. apply Permutation_map. apply perm_filter_split.
  - left. destruct (aget _ _ _); simpl; lia.
  - left. destruct (aget _ _ _); simpl; lia.
Qed.
Lemma store_ok : forall cfg i S o (P : body -> Prop) D, RI i S -> op_fresh S o ->
  (forall x, db_at x D = mem_at x i) -> (forall b, In b (bodies S) -> P b) -> (forall b, In b (push_of o) -> P b) ->
  opsok P D (qstore cfg i o).
Proof.
  intros cfg i S o P D HR Hf HD HB HP. pose proof (RI_SInv _ _ HR) as HI.
  destruct (step_refines cfg i S o HR Hf) as [HR' Hout].
  pose proof (bodies_step cfg S o P HI HB HP) as HB'.
  unfold qstore, qouts, qnext in *.
  destruct o as [id payload prio now|now|max clk|id|id reason now|now1 now2|id|id|]; cbn [qstep] in *.
  - cbn [fst snd opsok good]. split; auto. split; [apply HP; left; reflexivity|]. cbn [m_id new_message].
    destruct Hf as [_ Hf]. intro Hi. apply Hf. apply (aget_Some_in N.eqb Neqb_ok) in Hi. destruct Hi as [e He].
    pose proof (HD id) as E. unfold db_at, mem_at in E. inversion E as [[E1 E2]]. rewrite E2 in He.
    rewrite (ri_d _ _ HR), <- akeys_dids by (apply (ri_k _ _ HR)). apply (aget_Some_in N.eqb Neqb_ok). eauto.
  - apply opsok_easy. destruct (pop_single _ _ _) as [s' [m|]]; repeat constructor.
  - apply opsok_easy. destruct (take_batch _ _ _ _) as [[s' ms]|]; [|constructor].
    apply Forall_forall. intros x Hx. apply in_map_iff in Hx. destruct Hx as [m [<- _]]. exact I.
  - apply opsok_easy. destruct (delete_message _ _) as [s' [m|]]; repeat constructor.
  - apply opsok_easy. destruct (q_nack _ _ _ _ _) as [[s' [m|]] [d|]]; cbn [fst snd] in *; repeat constructor.
    apply HB'. apply dead_body. rewrite (ri_d _ _ HR'). cbn [i_dlq]. unfold dlq_push. unfold avals, aput. rewrite map_app. apply in_or_app; right; left; reflexivity.
  - apply opsok_easy. destruct (next_inflight_timeout (i_state i)) as [ts|]; [|constructor].
    destruct (ts <=? now1); [|constructor].
    destruct (process_expired _ _ _) as [[s' rq] dead]. cbn [fst snd] in *.
    apply Forall_app; split; apply Forall_forall; intros x Hx; apply in_map_iff in Hx; destruct Hx as [m [<- Hm]]; simpl; auto.
    split; auto. apply HB'. apply dead_body. unfold a_out in Hout. unfold a_next. cbn [a_step] in *.
    destruct (existsb (overdue now1) (s_fly S)); cbn [fst snd s_dead] in *; inversion Hout; subst; [|contradiction].
    apply in_or_app; auto.
  - destruct (aget N.eqb id (i_dlq i)) as [d|] eqn:E; [|exact I]. cbn [fst snd opsok good]. split; auto.
    assert (Hin : In (id, d) (i_dlq i)) by (apply (aget_In N.eqb Neqb_ok); auto).
    split; [symmetry; apply (ri_k _ _ HR); auto|]. apply HB. change (body_of (to_message d)) with (dbody_of d). apply dead_body.
    rewrite (ri_d _ _ HR). unfold avals. apply in_map_iff. exists (id, d); auto.
  - apply opsok_easy. destruct (aget _ _ _); repeat constructor.
  - apply opsok_easy. repeat constructor.
Qed.

(** * Invariant *)
Definition pend (s : psys) : list storeop := p_batch s ++ p_chan s.
Record SysInv (P : body -> Prop) (s : psys) (S : qspec) : Prop := {
  si_ri : RI (p_mem s) S;
  si_cells : forall x, db_at x (exec_all (pend s) (p_db s)) = mem_at x (p_mem s);
  si_wf : wfdb P (p_db s);
  si_ops : opsok P (p_db s) (pend s);
  si_b : forall b, In b (bodies S) -> P b }.
Lemma SysInv_mono : forall (P Q : body -> Prop) s S, (forall b, P b -> Q b) -> SysInv P s S -> SysInv Q s S.
Proof.
  intros P Q s S H [A B C D E]; constructor; auto; [eapply wf_mono; eauto|eapply opsok_mono; eauto].
Qed.
Lemma SysInv0 : SysInv (fun b => In b []) sys0 spec0.
Proof.
  constructor; simpl; auto.
  - apply RI_empty.
  - constructor; simpl; auto; try constructor; contradiction.
Qed.
Lemma ids_body_mem : forall S id, In id (all_ids S) -> exists b, In b (bodies S) /\ body_id b = id.
Proof. intros S id H. rewrite all_ids_bodies in H. apply in_map_iff in H. destruct H as [b [H1 H2]]. eauto. Qed.
Lemma op_fresh_of : forall (P : body -> Prop) S o, (forall b, In b (bodies S) -> P b) ->
  (forall b, In b (push_of o) -> forall b', P b' -> body_id b' <> body_id b) -> op_fresh S o.
Proof.
  intros P S o HB Hf. destruct o as [id payload prio now|now|max clk|id|id reason now|now1 now2|id|id|]; simpl; auto.
  assert (Hn : ~ In id (all_ids S)).
  { intro Hi. apply ids_body_mem in Hi. destruct Hi as [x [Hx He]]. apply HB in Hx.
    apply (Hf (id, payload, prio, now) (or_introl eq_refl) x Hx). exact He. }
  unfold all_ids in Hn. rewrite in_app_iff in Hn. tauto.
Qed.
Lemma sys_req : forall cfg P i c b d o S, SysInv P (mkSys i c b d) S -> 
  (forall b, In b (push_of o) -> forall b', P b' -> body_id b' <> body_id b) ->
  op_fresh S o /\ SysInv (fun b => P b \/ In b (push_of o)) (mkSys (qnext cfg i o) (c ++ qstore cfg i o) b d) (a_next cfg S o).
Proof.
  intros cfg P i c b d o S HI Hf. pose proof (op_fresh_of P S o (si_b _ _ _ HI) Hf) as Ho. split; auto.
  apply (SysInv_mono P (fun b => P b \/ In b (push_of o))) in HI; [|auto].
  destruct HI as [HR HC HW HO HB]. unfold pend in *. cbn [p_mem p_chan p_batch p_db] in *.
  destruct (step_refines cfg i S o HR Ho) as [HR' _].
  constructor; unfold pend; cbn [p_mem p_chan p_batch p_db]; auto.
  - intro x. rewrite app_assoc, exec_all_app, exec_all_at, HC. apply (step_store cfg i S o HR Ho).
  - rewrite app_assoc. apply opsok_app. split; auto. apply (store_ok cfg i S o _ _ HR Ho HC HB). auto.
  - apply (bodies_step cfg S o _ (RI_SInv _ _ HR) HB). auto.
Qed.
Lemma sys_step : forall cfg P s e s' S, SysInv P s S -> pstep cfg s e s' ->
  (forall b, In b (pushed (reqs [e])) -> forall b', P b' -> body_id b' <> body_id b) ->
  exists S', SysInv (fun b => P b \/ In b (pushed (reqs [e]))) s' S'.
Proof.
  intros cfg P s e s' S HI Hs Hf. destruct Hs as [i c b d o|i c1 c2 b d|i c b d|i c b d clk main dead Pm Pd].
  - simpl in *. rewrite app_nil_r in *. exists (a_next cfg S o). apply sys_req; auto.
  - exists S. apply (SysInv_mono P); [auto|]. destruct HI as [HR HC HW HO HB]. unfold pend in *. cbn [p_mem p_chan p_batch p_db] in *.
    constructor; unfold pend; cbn [p_mem p_chan p_batch p_db]; auto; rewrite <- app_assoc; auto.
  - exists S. apply (SysInv_mono P); [auto|]. destruct HI as [HR HC HW HO HB]. unfold pend in *. cbn [p_mem p_chan p_batch p_db] in *.
    apply opsok_app in HO. destruct HO as [HO1 HO2].
    constructor; unfold pend; cbn [p_mem p_chan p_batch p_db app]; auto.
    + intro x. rewrite <- HC, exec_all_app. reflexivity.
    + apply opsok_wf; auto.
  - destruct HI as [HR HC HW HO HB]. cbn [p_mem p_chan p_batch p_db] in *.
    destruct (recover_ok P d clk main dead HW Pm Pd) as [HR' [HC' HB']].
    exists (recovered clk main dead). apply (SysInv_mono P); [auto|].
    constructor; unfold pend; cbn [p_mem p_chan p_batch p_db app exec_all fold_left opsok]; auto.
Qed.
Lemma reqs_app : forall a b, reqs (a ++ b) = reqs a ++ reqs b.
Proof. intros; unfold reqs; apply flat_map_app. Qed.
Lemma pushed_app : forall a b, pushed (a ++ b) = pushed a ++ pushed b.
Proof. intros; unfold pushed; apply flat_map_app. Qed.
Lemma sys_run : forall cfg B s evs s' S, SysInv (fun b => In b B) s S -> psteps cfg s evs s' ->
  NoDup (map body_id (B ++ pushed (reqs evs))) ->
  exists S', SysInv (fun b => In b (B ++ pushed (reqs evs))) s' S'.
Proof.
  intros cfg B s evs s' S HI Hs; induction Hs as [s|s evs s1 e s2 Hs IH Hp]; intro Hn.
  - exists S. simpl. rewrite app_nil_r. auto.
  - rewrite reqs_app, pushed_app, app_assoc, map_app in Hn. apply NoDup_app_inv in Hn. destruct Hn as [Hn1 [Hn2 Hn3]].
    destruct (IH HI Hn1) as [S1 H1].
    destruct (sys_step cfg _ s1 e s2 S1 H1 Hp) as [S2 H2].
    + intros b Hb b' Hb' He. apply (Hn3 (body_id b)); [rewrite <- He|]; apply in_map; auto.
    + exists S2. eapply SysInv_mono; [|exact H2]. intros b Hb. rewrite reqs_app, pushed_app, app_assoc, in_app_iff. auto.
Qed.
Lemma sys_reach : forall cfg evs s, psteps cfg sys0 evs s -> fresh (reqs evs) -> exists S, SysInv (fun b => In b (pushed (reqs evs))) s S.
Proof. intros cfg evs s Hs Hf. apply (sys_run cfg [] sys0 evs s spec0 SysInv0 Hs). exact Hf. Qed.

(** * What a client sees of one message *)
Definition seen (x : N) (i : inner) : option row * option dlqmsg :=
  (option_map row_of (find_id x (obs_wait i ++ obs_fly i)), find (fun d => d_id d =? x) (obs_dead i)).
Lemma find_perm : forall x a b, NoDup (ids a) -> Permutation a b -> find_id x a = find_id x b.
Proof.
  intros x a b Hn Hp.
  assert (Hb : NoDup (ids b)) by (eapply Permutation_NoDup; [apply Permutation_map; exact Hp|auto]).
  destruct (find_id x a) as [m|] eqn:E.
  - apply find_id_some in E. destruct E as [E1 <-]. symmetry. apply find_id_nd; auto. eapply Permutation_in; eauto.
  - destruct (find_id x b) as [m|] eqn:E2; auto. apply find_id_some in E2. destruct E2 as [E2 <-].
    rewrite (find_id_nd m a Hn) in E; [discriminate|]. apply (Permutation_in _ (Permutation_sym Hp)); auto.
Qed.
Lemma seen_mem : forall i S x, RI i S -> seen x i = mem_at x i.
Proof.
  intros i S x HR. unfold seen, mem_at. f_equal.
  - f_equal. rewrite (RQ_find _ _ _ _ _ x (ri_q _ _ HR)). apply find_perm.
    + eapply Permutation_NoDup; [|apply (SInv_nd_wf _ (RI_SInv _ _ HR))]. unfold ids. apply Permutation_map.
      rewrite (obs_fly_eq _ _ HR). apply Permutation_app_tail. symmetry. apply obs_wait_perm; auto.
    + rewrite (obs_fly_eq _ _ HR). apply Permutation_app_tail. apply obs_wait_perm; auto.
  - symmetry. apply dlq_find. apply (ri_k _ _ HR).
Qed.
(** two states that show the same for every id list the same messages *)
Definition rows (i : inner) : list (N * row) := map (fun m => (m_id m, row_of m)) (obs_wait i ++ obs_fly i).
Lemma obs_nd : forall i S, RI i S -> NoDup (ids (obs_wait i ++ obs_fly i)).
Proof.
  intros i S HR. eapply Permutation_NoDup; [|apply (SInv_nd_wf _ (RI_SInv _ _ HR))]. unfold ids. apply Permutation_map.
  rewrite (obs_fly_eq _ _ HR). apply Permutation_app_tail. symmetry. apply obs_wait_perm; auto.
Qed.
Lemma NoDup_map_inv' : forall A B (f : A -> B) l, NoDup (map f l) -> NoDup l.
Proof. intros A B f l H. apply NoDup_map_inv with (f := f). auto. Qed.
Lemma rows_perm : forall i j S T, RI i S -> RI j T -> (forall x, seen x i = seen x j) ->
  Permutation (rows i) (rows j) /\ Permutation (obs_dead i) (obs_dead j).
Proof.
  intros i j S T Hi Hj Hs. pose proof (obs_nd i S Hi) as Ni. pose proof (obs_nd j T Hj) as Nj.
  assert (Hr : forall a b U V, RI a U -> RI b V -> (forall x, seen x a = seen x b) -> NoDup (ids (obs_wait a ++ obs_fly a)) -> forall e, In e (rows a) -> In e (rows b)).
  { clear. intros a b U V Ha Hb Hs Na e He. unfold rows in *. apply in_map_iff in He. destruct He as [m [<- Hm]].
    pose proof (Hs (m_id m)) as E. unfold seen in E. pose proof (f_equal fst E) as E1. cbn [fst] in E1. rewrite (find_id_nd _ _ Na Hm) in E1. cbn [option_map] in E1.
    destruct (find_id (m_id m) (obs_wait b ++ obs_fly b)) as [m'|] eqn:F; [|discriminate]. assert (E2 : row_of m' = row_of m) by (cbn [option_map] in E1; congruence).
    apply find_id_some in F. destruct F as [F1 F2]. apply in_map_iff. exists m'. split; [|auto]. rewrite F2, E2. reflexivity. }
  assert (Hn : forall a, NoDup (ids (obs_wait a ++ obs_fly a)) -> NoDup (rows a)).
  { intros a Ha. apply (NoDup_map_inv' _ _ fst). unfold rows. rewrite map_map. exact Ha. }
  split.
  - apply NoDup_Permutation; auto. intro e. split; [eapply Hr; eauto|eapply Hr; eauto].
  - assert (Hd : forall a b U V, RI a U -> RI b V -> (forall x, seen x a = seen x b) -> forall d, In d (obs_dead a) -> In d (obs_dead b)).
    { clear. intros a b U V Ha Hb Hs d Hd. unfold obs_dead, avals in Hd. apply in_map_iff in Hd. destruct Hd as [[k e] [<- He]]. cbn [snd].
      pose proof (Hs k) as E. unfold seen in E. pose proof (f_equal snd E) as E1. cbn [snd] in E1. unfold obs_dead in E1. rewrite <- !dlq_find in E1 by (eapply ri_k; eauto).
      rewrite (In_aget N.eqb Neqb_ok k e (i_dlq a) (ri_nd _ _ Ha) He) in E1. symmetry in E1. apply (aget_In N.eqb Neqb_ok) in E1.
      unfold obs_dead, avals. apply in_map_iff. exists (k, e); auto. }
    assert (Nd : forall a U, RI a U -> NoDup (obs_dead a)).
    { clear. intros a U Ha. apply (NoDup_map_inv' _ _ d_id). pose proof (ri_nd _ _ Ha) as H. rewrite akeys_dids in H by (apply (ri_k _ _ Ha)). exact H. }
    apply NoDup_Permutation; eauto. intro d. split; [eapply Hd; eauto|eapply Hd; eauto].
Qed.
(** * C42 *)
Lemma restart_restores : forall cfg evs s clk s', psteps cfg sys0 evs s -> fresh (reqs evs) -> p_chan s = [] -> p_batch s = [] ->
  pstep cfg s (ECrash clk) s' ->
  Permutation (rows (p_mem s')) (rows (p_mem s)) /\ Permutation (obs_dead (p_mem s')) (obs_dead (p_mem s)).
Proof.
  intros cfg evs s clk s' Hs Hf Hc Hb Hp. destruct (sys_reach cfg evs s Hs Hf) as [S HI].
  destruct (sys_step cfg _ _ _ _ _ HI Hp) as [S' HI']; [intros b []|].
  apply (rows_perm _ _ S' S); [apply (si_ri _ _ _ HI')|apply (si_ri _ _ _ HI)|].
  intro x. rewrite (seen_mem _ _ x (si_ri _ _ _ HI)), (seen_mem _ _ x (si_ri _ _ _ HI')).
  rewrite <- (si_cells _ _ _ HI), <- (si_cells _ _ _ HI'). unfold pend. rewrite Hc, Hb.
  inversion Hp; subst. reflexivity.
Qed.
(** after any history with crashes the queue is a reference queue again *)
Lemma serves_after : forall cfg evs s h, psteps cfg sys0 evs s -> fresh (reqs evs ++ h) ->
  exists S, Permutation (s_wait S) (obs_wait (p_mem s)) /\ s_fly S = obs_fly (p_mem s) /\ s_dead S = obs_dead (p_mem s) /\
    outs cfg (p_mem s) h = a_outs cfg S h.
Proof.
  intros cfg evs s h Hs Hf. unfold fresh in Hf. rewrite pushed_app, map_app in Hf. apply NoDup_app_inv in Hf. destruct Hf as [Hf1 [Hf2 Hf3]].
  destruct (sys_reach cfg evs s Hs Hf1) as [S HI]. exists S. pose proof (si_ri _ _ _ HI) as HR.
  split; [symmetry; apply obs_wait_perm; auto|]. split; [symmetry; apply obs_fly_eq; auto|]. split; [symmetry; apply obs_dead_eq; auto|].
  apply run_refines; auto. split; auto. intros x Hx Ha. apply ids_body_mem in Ha. destruct Ha as [b [Hb <-]].
  apply (Hf3 (body_id b)); auto. apply in_map. apply (si_b _ _ _ HI); auto.
Qed.
(** nothing is invented, altered or duplicated by crashes *)
Lemma only_pushed : forall cfg evs s, psteps cfg sys0 evs s -> fresh (reqs evs) ->
  NoDup (map m_id (obs_wait (p_mem s)) ++ map m_id (obs_fly (p_mem s)) ++ map d_id (obs_dead (p_mem s))) /\
  (forall b, In b (map body_of (obs_wait (p_mem s) ++ obs_fly (p_mem s)) ++ map dbody_of (obs_dead (p_mem s))) -> In b (pushed (reqs evs))).
Proof.
  intros cfg evs s Hs Hf. destruct (sys_reach cfg evs s Hs Hf) as [S HI]. pose proof (si_ri _ _ _ HI) as HR.
  pose proof (RI_SInv _ _ HR) as [Hn _ _].
  rewrite (obs_fly_eq _ _ HR), (obs_dead_eq _ _ HR). pose proof (obs_wait_perm _ _ HR) as Hw. split.
  - eapply Permutation_NoDup; [|exact Hn]. unfold all_ids, ids, dids. rewrite map_app, <- app_assoc. apply Permutation_app_tail. apply Permutation_map. symmetry; auto.
  - intros b Hb. apply (si_b _ _ _ HI). unfold bodies. eapply Permutation_in; [|exact Hb]. apply Permutation_app_tail. apply Permutation_map.
    apply Permutation_app_tail. auto.
Qed.
