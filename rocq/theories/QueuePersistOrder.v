(** Order after a restart; delivery attempts across restarts; file names. *)
From Verif Require Import LibBase LibMap QueueModel QueueSpec QueueObs QueueProofs QueueRefine QueueTrace QueueFacts QueueFacts2 QueuePersistModel QueuePersistProofs QueuePersistInv QueuePersistSys QueuePersistCrash.

(** * C46 for histories that return nothing to the queue *)
Definition Ord (S : qspec) (keys : list N) : Prop :=
  (exists keep, ids (s_wait S) = filter keep keys) /\ (forall m, In m (s_wait S) -> m_att m = 0) /\ (forall x, In x keys -> In x (ids (s_wait S ++ s_fly S))).
Lemma akeys_adel : forall A k (t : list (N * A)), akeys (adel N.eqb k t) = nrem k (akeys t).
Proof.
  intros A k t; unfold nrem; induction t as [|[a b] t IH]; simpl; auto. rewrite (N.eqb_sym k a). destruct (a =? k); simpl; rewrite IH; auto.
Qed.
Lemma keys_exec_upd : forall ms d, akeys (db_main (exec_all (map upd_of ms) d)) = akeys (db_main d).
Proof. induction ms as [|m ms IH]; intro d; simpl; auto. unfold exec_all in IH. rewrite IH. simpl. apply keys_upd. Qed.
Lemma Ord_step : forall cfg i S o d, RI i S -> op_fresh S o -> plain o = true -> (forall x, db_at x d = mem_at x i) ->
  Ord S (akeys (db_main d)) -> Ord (a_next cfg S o) (akeys (db_main (exec_all (qstore cfg i o) d))).
Proof.
  intros cfg i S o d HR Ho Hp HD [[keep Hk] [Ha Hx]]. pose proof (RI_SInv _ _ HR) as HI.
  destruct (step_refines cfg i S o HR Ho) as [HR' Hout].
  assert (Hkeys : forall x, In x (akeys (db_main (exec_all (qstore cfg i o) d))) -> In x (ids (s_wait (a_next cfg S o) ++ s_fly (a_next cfg S o)))).
  { intros x Hi. apply (aget_Some_in N.eqb Neqb_ok) in Hi. destruct Hi as [r Hr].
    assert (E : db_at x (exec_all (qstore cfg i o) d) = mem_at x (qnext cfg i o)) by (rewrite exec_all_at, HD; apply (step_store cfg i S o HR Ho)).
    unfold db_at, mem_at in E. rewrite Hr in E. pose proof (f_equal fst E) as E1. cbn [fst] in E1.
    destruct (getr (i_state (qnext cfg i o)) x) as [m|] eqn:Eg; [|discriminate].
    destruct (in_dec N.eq_dec x (ids (s_wait (a_next cfg S o) ++ s_fly (a_next cfg S o)))) as [|Hn]; auto.
    apply (getr_none_ids _ _ _ _ (ri_q _ _ HR')) in Hn. congruence. }
  assert (Hpair : (exists keep, ids (s_wait (a_next cfg S o)) = filter keep (akeys (db_main (exec_all (qstore cfg i o) d)))) /\
                  (forall m, In m (s_wait (a_next cfg S o)) -> m_att m = 0)); [|destruct Hpair; split; auto].
  destruct o as [id payload prio now|now|max clk|id|id reason now|now1 now2|id|id|]; try discriminate.
  - unfold qstore, a_next. cbn [qstep a_step fst snd exec_all fold_left exec_op db_main m_id new_message s_wait]. unfold ins.
    assert (Hn : ~ In id (akeys (db_main d))) by (intro Hi; apply Hx in Hi; simpl in Ho; tauto).
    pose proof Hn as Hn'. apply (aget_None_notin N.eqb Neqb_ok) in Hn. rewrite Hn. split.
    + exists (fun x => (x =? id) || keep x). rewrite ids_app, akeys_app, filter_app. simpl. rewrite N.eqb_refl. cbn [orb]. f_equal. rewrite Hk.
      apply filter_ext_in'. intros x Hi. destruct (N.eqb_spec x id); subst; [contradiction|auto].
    + intros m Hm. apply in_app_or in Hm. destruct Hm as [Hm|[<-|[]]]; auto.
  - assert (Hq : qstore cfg i (QoPop now) = map upd_of (ret (qouts cfg i (QoPop now)))).
    { unfold qstore, qouts. cbn [qstep]. destruct (pop_single _ _ _) as [s' [m|]]; reflexivity. }
    rewrite Hq, keys_exec_upd. destruct (a_step_wait cfg S (QoPop now) HI I) as [k [new [Hw Hnew]]].
    destruct (take_facts cfg S (QoPop now) HI eq_refl) as [_ [H2 _]].
    split; [|intros m Hm; apply Ha; apply H2; auto].
    pose proof (a_take_wait_filter cfg (fun _ => now) 1 0 S) as [k' Hk']. unfold a_next. cbn [a_step]. cbn [a_take] in Hk'.
    exists (fun x => k' x && keep x). rewrite <- filter_filter, <- Hk, <- Hk'. destruct (a_pop cfg now S) as [S' [m|]]; reflexivity.
  - assert (Hq : qstore cfg i (QoConsume max clk) = map upd_of (ret (qouts cfg i (QoConsume max clk)))).
    { unfold qstore, qouts. cbn [qstep]. destruct (take_batch _ _ _ _) as [[s' ms]|]; reflexivity. }
    rewrite Hq, keys_exec_upd. destruct (take_facts cfg S (QoConsume max clk) HI eq_refl) as [_ [H2 _]].
    split; [|intros m Hm; apply Ha; apply H2; auto].
    pose proof (a_take_wait_filter cfg clk (N.to_nat (N.min max (lenN (s_wait S)))) 0 S) as [k' Hk']. unfold a_next. cbn [a_step].
    exists (fun x => k' x && keep x). rewrite <- filter_filter, <- Hk, <- Hk'. destruct (a_take cfg _ 0 clk S) as [S' ms]; reflexivity.
  - unfold qstore, qouts, a_next, a_out in *. cbn [qstep a_step] in *.
    destruct (delete_message id (i_state i)) as [s' [m|]]; cbn [fst snd] in *; destruct (find_id id (s_wait S ++ s_fly S)) as [m'|]; cbn [fst snd] in *; try discriminate.
    + cbn [exec_all fold_left exec_op db_main s_wait]. rewrite akeys_adel. split.
      * exists keep. rewrite ids_without, Hk. unfold nrem. apply filter_comm.
      * intros x Hm. apply without_In in Hm. apply Ha; tauto.
    + cbn [exec_all fold_left]. split; eauto.
Qed.
Lemma Ord_run : forall cfg h i S d, RI i S -> fresh_from S h -> forallb plain h = true -> (forall x, db_at x d = mem_at x i) ->
  Ord S (akeys (db_main d)) -> Ord (a_run cfg S h) (akeys (db_main (exec_all (sends cfg i h) d))).
Proof.
  intros cfg h; induction h as [|o h IH]; intros i S d HR Hf Hp HD HO; auto. cbn [sends a_run fold_left]. rewrite exec_all_app.
  cbn [forallb] in Hp. apply andb_true_iff in Hp. destruct Hp as [Hp1 Hp2].
  destruct (fresh_from_cons cfg i S o h HR Hf) as [Ho Hf']. destruct (step_refines cfg i S o HR Ho) as [HR' _].
  apply (IH (qnext cfg i o)); auto.
  - intro x. rewrite exec_all_at, HD. apply (step_store cfg i S o HR Ho).
  - apply Ord_step; auto.
Qed.
Lemma filter_keep_mem : forall keep l, NoDup l -> filter (fun x => nmem x (filter keep l)) l = filter keep l.
Proof.
  intros keep l _. apply filter_ext_in'. intros x Hx. destruct (keep x) eqn:E.
  - apply nmem_In. apply filter_In; auto.
  - apply nmem_false. intro H. apply filter_In in H. destruct H; congruence.
Qed.
Lemma ids_filter_prio : forall (pr : N -> N) k l, (forall m, In m l -> m_prio m = pr (m_id m)) ->
  ids (filter (fun m => m_prio m =? k) l) = filter (fun x => pr x =? k) (ids l).
Proof.
  intros pr k l; induction l as [|m l IH]; simpl; intro H; auto. rewrite (H m) by auto. destruct (pr (m_id m) =? k); simpl; rewrite IH; auto.
Qed.
Lemma restart_order : forall cfg h clk k, fresh h -> forallb plain h = true ->
  let i := qrun cfg inner0 h in
  let d := exec_all (sends cfg inner0 h) db0 in
  let i' := recover clk (db_main d) (db_dead d) in
  let before := map m_id (filter (fun m => m_prio m =? k) (obs_wait i)) in
  filter (fun x => nmem x (map m_id (obs_wait i))) (map m_id (filter (fun m => m_prio m =? k) (obs_wait i'))) = before.
Proof.
  intros cfg h clk k Hf Hp i d i' before. pose proof (reach cfg h Hf) as HR. fold i in HR. set (S := a_run cfg spec0 h) in *.
  assert (HD : forall x, db_at x d = mem_at x i).
  { intro x. unfold d. rewrite exec_all_at. apply (sends_cells cfg h inner0 spec0 RI_empty (fresh_from0 _ Hf)). }
  assert (HO : Ord S (akeys (db_main d))).
  { apply (Ord_run cfg h inner0 spec0 db0 RI_empty (fresh_from0 _ Hf) Hp); auto. split; [exists (fun _ => true); auto|]. split; [intros m []|auto]. }
  destruct HO as [[keep Hk] [Ha _]].
  destruct (nd_rows_db (sends cfg inner0 h)) as [N1 [N2 N3]]. fold d in N1, N2, N3.
  assert (HW : wfdb (fun _ => True) d).
  { constructor; auto. intros id H1 H2. pose proof (HD id) as E. unfold db_at, mem_at in E.
    apply (aget_Some_in N.eqb Neqb_ok) in H1. apply (aget_Some_in N.eqb Neqb_ok) in H2. destruct H1 as [r H1], H2 as [e H2]. rewrite H1, H2 in E.
    pose proof (f_equal fst E) as E1. pose proof (f_equal snd E) as E2. cbn [fst snd] in E1, E2. symmetry in E2.
    rewrite (j_x _ _ (RI_J _ _ HR) _ _ E2) in E1. discriminate. }
  destruct (recover_ok _ d clk _ _ HW (Permutation_refl _) (Permutation_refl _)) as [HR' [HC _]]. fold i' in HR', HC.
  set (L := load_rows clk 0 (db_main d)).
  assert (HWL : s_wait (recovered clk (db_main d) (db_dead d)) = filter ready L) by reflexivity.
  set (pr := fun x => match aget N.eqb x (db_main d) with Some r => w_prio r | None => 0 end).
  assert (P1 : forall m, In m (s_wait S) -> m_prio m = pr (m_id m)).
  { intros m Hm. unfold pr. pose proof (HD (m_id m)) as E. unfold db_at, mem_at in E. pose proof (f_equal fst E) as E1. cbn [fst] in E1. rewrite E1.
    destruct (r_w _ _ _ _ _ (ri_q _ _ HR) m Hm) as [_ Hg]. rewrite Hg. reflexivity. }
  assert (P2 : forall m, In m L -> m_prio m = pr (m_id m)).
  { intros m Hm. unfold pr. apply load_in in Hm. destruct Hm as [j [id [r [Hr ->]]]]. cbn [m_id load_row]. rewrite (In_aget N.eqb Neqb_ok _ _ _ N1 Hr). reflexivity. }
  assert (Hmem : forall x, nmem x (map m_id (obs_wait i)) = nmem x (ids (s_wait S))).
  { intro x. apply eq_true_iff_eq. rewrite !nmem_In. apply (obs_wait_ids _ _ x HR). }
  unfold before. rewrite (filter_ext _ _ Hmem).
  rewrite (obs_wait_eq _ _ HR), (obs_wait_eq _ _ HR'), HWL, !by_prio_filter.
  fold (ids (filter (fun m => m_prio m =? k) (s_wait S))) (ids (filter (fun m => m_prio m =? k) (filter ready L))).
  rewrite (ids_filter_prio pr k (s_wait S) P1), (ids_filter_prio pr k (filter ready L)) by (intros m Hm; apply filter_In in Hm; apply P2; tauto).
  rewrite filter_comm. f_equal.
  assert (Hready : forall m, In m L -> In (m_id m) (ids (s_wait S)) -> ready m = true).
  { intros m Hm Hi. apply load_in in Hm. destruct Hm as [j [id [r [Hr ->]]]]. cbn [m_id load_row] in Hi.
    unfold ids in Hi. apply in_map_iff in Hi. destruct Hi as [m' [E Hm']].
    pose proof (HD id) as Ec. unfold db_at, mem_at in Ec. pose proof (f_equal fst Ec) as E1. cbn [fst] in E1.
    destruct (r_w _ _ _ _ _ (ri_q _ _ HR) m' Hm') as [_ Hg]. rewrite E in Hg. rewrite Hg, (In_aget N.eqb Neqb_ok _ _ _ N1 Hr) in E1. inversion E1; subst r.
    unfold ready, load_row. cbn [m_state w_att row_of]. rewrite (Ha m' Hm'). rewrite andb_false_r. reflexivity. }
  transitivity (filter (fun x => nmem x (ids (s_wait S))) (ids L)).
  - clear -Hready. induction L as [|m L IH]; simpl; auto. destruct (nmem (m_id m) (ids (s_wait S))) eqn:E.
    + rewrite (Hready m) by (simpl; auto; apply nmem_In; auto). simpl. rewrite E. f_equal. apply IH. intros; apply Hready; simpl; auto.
    + destruct (ready m); simpl; rewrite ?E; apply IH; intros; apply Hready; simpl; auto.
  - unfold L. rewrite load_ids, Hk. apply filter_keep_mem; auto.
Qed.

(** * Delivery attempts across restarts *)
Definition crashes (evs : list pev) : N := lenN (filter is_crash evs).
Definition op_att (B : N) (o : storeop) : Prop :=
  match o with SUpdate _ _ a => a <= B | SInsert m => m_att m <= B | _ => True end.
Record AttInv (B : N) (s : psys) : Prop := {
  at_w : forall m, In m (obs_wait (p_mem s)) -> m_att m + 1 <= B;
  at_f : forall m, In m (obs_fly (p_mem s)) -> m_att m <= B;
  at_o : Forall (op_att B) (pend s);
  at_d : forall id r, In (id, r) (db_main (p_db s)) -> w_att r <= B }.
Definition BInv (B : N) (S : qspec) : Prop := (forall m, In m (s_wait S) -> m_att m + 1 <= B) /\ (forall m, In m (s_fly S) -> m_att m <= B).
Lemma BInv_step : forall cfg B S o, 1 <= B -> c_max cfg <= B -> SInv S -> BInv B S -> BInv B (a_next cfg S o).
Proof.
  intros cfg B S o HB1 HB2 HI [HW HF]. destruct (is_take o) eqn:Et.
  - destruct (take_facts cfg S o HI Et) as [_ [H2 [H3 _]]]. split.
    + intros m Hm. apply HW. apply H2; auto.
    + intros m Hm. destruct (H3 m Hm) as [Hm'|[_ [x [t [Hx ->]]]]]; auto. cbn [delivered m_att set_att set_vis set_state]. apply HW; auto.
  - unfold a_next, exhausted. destruct o as [id payload prio now|now|max clk|id|id reason now|now1 now2|id|id|]; try discriminate; cbn [a_step].
    + split; cbn [fst s_wait s_fly]; auto. intros m Hm. apply in_app_or in Hm. destruct Hm as [Hm|[<-|[]]]; auto.
    + destruct (find_id id _) as [m0|]; [|split; auto]. split; cbn [fst s_wait s_fly]; intros m Hm; apply without_In in Hm; [apply HW|apply HF]; tauto.
    + destruct (find_id id _) as [m|] eqn:E; [|split; auto]. unfold exhausted. destruct (N.leb_spec (c_max cfg) (m_att m)) as [Hl|Hl].
      * split; cbn [fst s_wait s_fly]; intros x Hm; apply without_In in Hm; [apply HW|apply HF]; tauto.
      * destruct (m_state m); split; cbn [fst s_wait s_fly]; auto.
        -- intros x Hx. apply in_map_iff in Hx. destruct Hx as [y [Hy Hx]]. destruct (m_id y =? id); subst x; apply (HW y Hx).
        -- intros x Hx. apply in_app_or in Hx. destruct Hx as [Hx|[<-|[]]]; auto. cbn [m_att requeued set_vis set_state set_reason noted]. lia.
        -- intros x Hm; apply without_In in Hm; apply HF; tauto.
    + destruct (existsb _ _); [|split; auto]. split; cbn [fst s_wait s_fly].
      * intros x Hx. apply in_app_or in Hx. destruct Hx as [Hx|Hx]; auto. apply in_map_iff in Hx. destruct Hx as [y [<- Hx]].
        apply filter_In in Hx. destruct Hx as [_ Hx]. apply negb_true_iff, N.leb_gt in Hx. cbn [m_att requeued set_vis set_state]. lia.
      * intros x Hx. apply filter_In in Hx. apply HF; tauto.
    + destruct (find _ _) as [d|]; [|split; auto]. split; cbn [fst s_wait s_fly]; auto.
      intros x Hx. apply in_app_or in Hx. destruct Hx as [Hx|[<-|[]]]; auto.
    + destruct (find _ _) as [d|]; split; auto.
    + split; auto.
Qed.
Lemma BInv_obs : forall B i S, RI i S -> (BInv B S <-> (forall m, In m (obs_wait i) -> m_att m + 1 <= B) /\ (forall m, In m (obs_fly i) -> m_att m <= B)).
Proof.
  intros B i S HR. unfold BInv. rewrite (obs_fly_eq _ _ HR). pose proof (obs_wait_perm _ _ HR) as Hp.
  split; intros [H1 H2]; split; auto; intros m Hm; apply H1; [apply (Permutation_in _ Hp)|apply (Permutation_in _ (Permutation_sym Hp))]; auto.
Qed.
Lemma store_att : forall cfg i S o B, RI i S -> op_fresh S o -> 1 <= B -> c_max cfg <= B -> BInv B S -> Forall (op_att B) (qstore cfg i o).
Proof.
  intros cfg i S o B HR Ho HB1 HB2 HB. pose proof (RI_SInv _ _ HR) as HI.
  destruct (BInv_step cfg B S o HB1 HB2 HI HB) as [HW HF].
  destruct (step_refines cfg i S o HR Ho) as [HR' Hout].
  assert (Htake : forall ms, ms = ret (qouts cfg i o) -> Forall (op_att B) (map upd_of ms)).
  { intros ms ->. apply Forall_forall. intros x Hx. apply in_map_iff in Hx. destruct Hx as [m [<- Hm]]. simpl. rewrite Hout in Hm.
    apply (ret_in_fly _ _ _ _ HI) in Hm. apply HF; tauto. }
  unfold qstore, qouts, qnext in *.
  destruct o as [id payload prio now|now|max clk|id|id reason now|now1 now2|id|id|]; cbn [qstep] in *.
  - cbn [snd]. constructor; [simpl; lia|constructor].
  - destruct (pop_single _ _ _) as [s' [m|]]; [apply (Htake [m]); reflexivity|constructor].
  - destruct (take_batch _ _ _ _) as [[s' ms]|]; [apply (Htake ms); reflexivity|constructor].
  - destruct (delete_message _ _) as [s' [m|]]; repeat constructor.
  - destruct (q_nack id reason (c_max cfg) now (i_state i)) as [[s' [m|]] [d|]] eqn:En; cbn [fst snd] in *; repeat constructor; simpl.
    all: unfold q_nack, reg_get in En; destruct (aget N.eqb id (q_reg (i_state i))) as [m0|]; [|discriminate];
      destruct (N.leb_spec (c_max cfg) (m_att m0)) as [Hl|Hl];
      [destruct (delete_message id _) as [s1 [m1|]]; discriminate|];
      destruct (transition_to id Ready _) as [s1 [|]] eqn:Et; [|discriminate];
      destruct (aget N.eqb id (q_reg s1)) as [m1|] eqn:Eg; [|discriminate]; inversion En; subst; try discriminate;
      apply transition_getr in Et; fold (getr s1 id) in Eg;
      rewrite getr_set, upd_same in Et; destruct Et as [_ Et]; rewrite Et, upd_same in Eg; inversion Eg; subst; cbn [m_att set_vis set_state set_reason]; lia.
  - destruct (next_inflight_timeout (i_state i)) as [ts|]; [|constructor]. destruct (ts <=? now1); [|constructor].
    destruct (process_expired _ _ _) as [[s' rq] dead]. cbn [fst snd] in *. unfold a_out, a_next in *. cbn [a_step] in *.
    destruct (existsb (overdue now1) (s_fly S)); cbn [fst snd s_wait s_fly] in *; inversion Hout; subst; [|constructor].
    apply Forall_app; split; apply Forall_forall; intros x Hx; apply in_map_iff in Hx; destruct Hx as [m [<- Hm]]; simpl; auto.
    assert (Hm' : m_att m + 1 <= B) by (apply HW; apply in_or_app; auto). lia.
  - destruct (aget N.eqb id (i_dlq i)); repeat constructor.
  - destruct (aget N.eqb id (i_dlq i)); repeat constructor.
  - repeat constructor.
Qed.
Lemma exec_att : forall B l d, Forall (op_att B) l -> (forall id r, In (id, r) (db_main d) -> w_att r <= B) -> NoDup (akeys (db_main d)) ->
  forall id r, In (id, r) (db_main (exec_all l d)) -> w_att r <= B.
Proof.
  intros B l; induction l as [|o l IH]; intros d Ho Hd Hn; [simpl; auto|]. inversion Ho; subst. cbn [exec_all fold_left]. apply IH; auto.
  - intros id r Hi. destruct o; simpl in *; eauto.
    + apply in_ins in Hi. destruct Hi as [Hi|[-> ->]]; eauto.
    + apply in_adel in Hi. destruct Hi; eauto.
    + unfold upd_row in Hi. destruct (aget N.eqb id0 (db_main d)) as [r0|] eqn:E; eauto. apply in_aset in Hi; auto. destruct Hi as [[-> ->]|Hi]; eauto.
    + apply in_adel in Hi. destruct Hi; eauto.
    + apply in_ins in Hi. destruct Hi as [Hi|[-> ->]]; eauto. simpl; lia.
  - destruct o; simpl; try apply nd_ins; try apply nd_adel; rewrite ?keys_upd; auto.
Qed.
Lemma att_step : forall cfg P s e s' S B, SysInv P s S -> pstep cfg s e s' ->
  (forall b, In b (pushed (reqs [e])) -> forall b', P b' -> body_id b' <> body_id b) ->
  1 <= B -> c_max cfg <= B -> AttInv B s -> AttInv (if is_crash e then B + 1 else B) s'.
Proof.
  intros cfg P s e s' S B HI Hs Hf HB1 HB2 [HW HF HO HD]. destruct Hs as [i c b d o|i c1 c2 b d|i c b d|i c b d clk main dead Pm Pd]; unfold pend in *; cbn [is_crash p_mem p_chan p_batch p_db] in *.
  - simpl in Hf. rewrite app_nil_r in Hf. destruct (sys_req cfg P i c b d o S HI Hf) as [Ho HI']. pose proof (si_ri _ _ _ HI) as HR. cbn [p_mem] in HR.
    pose proof (proj2 (BInv_obs B i S HR) (conj HW HF)) as HB.
    pose proof (BInv_step cfg B S o HB1 HB2 (RI_SInv _ _ HR) HB) as HB'.
    apply (proj1 (BInv_obs B _ _ (si_ri _ _ _ HI'))) in HB'. cbn [p_mem] in HB'.
    constructor; unfold pend; cbn [p_mem p_chan p_batch p_db]; try tauto; auto.
    rewrite app_assoc. apply Forall_app. split; auto. apply (store_att cfg i S o B HR Ho); auto.
  - constructor; unfold pend; cbn [p_mem p_chan p_batch p_db]; auto. rewrite <- app_assoc; auto.
  - apply Forall_app in HO. destruct HO as [HO1 HO2]. constructor; unfold pend; cbn [p_mem p_chan p_batch p_db app]; auto.
    apply exec_att; auto. apply (wf_m _ _ (si_wf _ _ _ HI)).
  - pose proof (si_wf _ _ _ HI) as HWf. cbn [p_db] in HWf.
    destruct (recover_ok P d clk main dead HWf Pm Pd) as [HR' _].
    assert (Hall : forall m, In m (load_rows clk 0 main) -> m_att m <= B).
    { intros m Hm. apply load_in in Hm. destruct Hm as [j [id [r [Hr ->]]]]. cbn [m_att load_row]. apply (HD id). eapply Permutation_in; eauto. }
    constructor; unfold pend; cbn [p_mem p_chan p_batch p_db app]; auto.
    + intros m Hm. apply (Permutation_in _ (obs_wait_perm _ _ HR')) in Hm. cbn [recovered s_wait] in Hm. apply filter_In in Hm. specialize (Hall m (proj1 Hm)). lia.
    + intros m Hm. rewrite (obs_fly_eq _ _ HR') in Hm. cbn [recovered s_fly] in Hm. unfold fly_order in Hm. apply (Permutation_in _ (fold_ins_perm _ _)) in Hm. rewrite app_nil_r in Hm.
      apply filter_In in Hm. specialize (Hall m (proj1 Hm)). lia.
    + intros id r Hi. specialize (HD id r Hi). lia.
Qed.
Lemma crashes_snoc : forall evs e, crashes (evs ++ [e]) = if is_crash e then crashes evs + 1 else crashes evs.
Proof. intros evs e. unfold crashes, lenN. rewrite filter_app, app_length. simpl. destruct (is_crash e); simpl; lia. Qed.
Lemma att_run : forall cfg evs s, psteps cfg sys0 evs s -> fresh (reqs evs) -> AttInv (N.max 1 (c_max cfg) + crashes evs) s.
Proof.
  intros cfg evs s Hs. remember sys0 as s0 eqn:E0. induction Hs as [s|s evs s1 e s2 Hs IH Hp]; subst; intro Hf.
  - constructor; simpl; try contradiction; constructor.
  - rewrite reqs_app in Hf. destruct (fresh_split _ _ Hf) as [Hf1 [Hf2 Hf3]].
    destruct (sys_reach cfg evs s1 Hs Hf1) as [S HI]. specialize (IH eq_refl Hf1).
    pose proof (att_step cfg _ s1 e s2 S (N.max 1 (c_max cfg) + crashes evs) HI Hp) as H. rewrite crashes_snoc.
    assert (H' : AttInv (if is_crash e then N.max 1 (c_max cfg) + crashes evs + 1 else N.max 1 (c_max cfg) + crashes evs) s2).
    { apply H; auto; [|lia|lia]. intros b Hb b' Hb' He. apply (Hf3 (body_id b)); [rewrite <- He|]; apply in_map; auto. }
    destruct (is_crash e); auto. rewrite N.add_assoc. auto.
Qed.
Lemma attempts_restart : forall cfg evs s o m, psteps cfg sys0 evs s -> fresh (reqs evs) -> push_of o = [] ->
  In m (ret (qouts cfg (p_mem s) o)) -> 1 <= m_att m /\ m_att m <= N.max 1 (c_max cfg) + crashes evs.
Proof.
  intros cfg evs s o m Hs Hf Ho Hm. destruct (sys_reach cfg evs s Hs Hf) as [S HI]. pose proof (si_ri _ _ _ HI) as HR.
  pose proof (att_run cfg evs s Hs Hf) as [HW HF _ _].
  assert (Hof : op_fresh S o) by (destruct o; simpl; auto; discriminate).
  rewrite (proj2 (step_refines cfg _ _ o HR Hof)) in Hm. destruct (ret_in_fly _ _ _ _ (RI_SInv _ _ HR) Hm) as [_ [now [x [-> [Hx _]]]]].
  apply (Permutation_in _ (Permutation_sym (obs_wait_perm _ _ HR))) in Hx. specialize (HW x Hx). cbn [m_att delivered set_att set_vis set_state]. lia.
Qed.

(** * C47: file names *)
Lemma is_prefix_spec : forall a b, is_prefix a b = true <-> exists c, b = a ++ c.
Proof.
  induction a as [|x a IH]; intro b; simpl; [split; eauto|]. destruct b as [|y b]; [split; [discriminate|intros [c H]; discriminate]|].
  rewrite andb_true_iff, N.eqb_eq, IH. split.
  - intros [-> [c ->]]. exists c. reflexivity.
  - intros [c H]. inversion H; subst. eauto.
Qed.
Lemma ends_with_spec : forall suf s, ends_with suf s = true <-> exists p, s = p ++ suf.
Proof.
  intros suf s. unfold ends_with. rewrite is_prefix_spec. split; intros [c H].
  - exists (rev c). rewrite <- (rev_involutive s), H, rev_app_distr, rev_involutive. reflexivity.
  - exists (rev c). rewrite H, rev_app_distr. reflexivity.
Qed.
Lemma trim_not : forall f suf s, ends_with suf s = false -> trim_end f suf s = s.
Proof. intros [|f] suf s H; simpl; auto. rewrite H. reflexivity. Qed.
Lemma trim_length : forall f suf s, (length (trim_end f suf s) <= length s)%nat.
Proof.
  induction f as [|f IH]; intros suf s; simpl; [lia|]. destruct (ends_with suf s); [|lia]. etransitivity; [apply IH|]. rewrite firstn_length. lia.
Qed.
Lemma restored_iff : forall n, restored_name (db_file n) = Some n <-> forall p, n <> p ++ dotdb.
Proof.
  intro n. unfold restored_name, db_file.
  assert (H1 : ends_with dotdb (n ++ dotdb) = true) by (apply ends_with_spec; eauto). rewrite H1.
  assert (Hl : length (n ++ dotdb) = S (S (S (length n)))) by (rewrite app_length; simpl; lia). rewrite Hl. cbn [trim_end]. rewrite H1.
  replace (length (n ++ dotdb) - length dotdb)%nat with (length n) by (rewrite Hl; simpl; lia).
  rewrite firstn_app, Nat.sub_diag, firstn_all, app_nil_r.
  destruct (ends_with dotdb n) eqn:E.
  - split; [|intro H; apply ends_with_spec in E; destruct E as [p E]; elim (H p E)].
    intro H. inversion H as [H2]. exfalso. apply ends_with_spec in E. destruct E as [p E].
    pose proof (f_equal (@length N) H2) as H3. rewrite app_length in *.
    pose proof (trim_length (S (length n)) dotdb (firstn (length n - length dotdb) n)) as H4.
    rewrite firstn_length in H4. subst n. rewrite app_length in *. simpl length in *. lia.
  - split; [intros _ p ->|intros _; reflexivity].
    assert (Ht : ends_with dotdb (p ++ dotdb) = true) by (apply ends_with_spec; eauto). congruence.
Qed.
(** different queues never share a file *)
Lemma db_file_inj : forall a b, db_file a = db_file b -> a = b.
Proof. intros a b H. unfold db_file in H. apply app_inv_tail in H. auto. Qed.
Lemma recovered_live : forall cfg clk main dead, NoDup (akeys main ++ akeys dead) -> (forall k e, In (k, e) dead -> d_id e = k) ->
  let i := recover clk main dead in
  (forall m now1 now2, In m (obs_fly i) -> dl m <= now1 -> dl m <= now2 ->
     let i' := qnext cfg i (QoExpire now1 now2) in
     In (m_id m) (map m_id (obs_wait i')) \/ In (m_id m) (map d_id (obs_dead i'))) /\
  (forall m max clk, In m (obs_wait i) -> lenN (obs_wait i) <= max -> In (m_id m) (map m_id (ret (qouts cfg i (QoConsume max clk))))).
Proof.
  intros cfg clk main dead Hn Hk i. apply NoDup_app_inv in Hn. destruct Hn as [N1 [N2 N3]].
  assert (HW : wfdb (fun _ => True) (mkDb main dead)) by (constructor; auto).
  destruct (recover_ok _ _ clk main dead HW (Permutation_refl _) (Permutation_refl _)) as [HR _]. apply (never_stuck cfg _ _ HR).
Qed.

(** a runnable schedule: the writer takes everything, rows load in rowid order *)
Definition pdo (cfg : qconfig) (s : psys) (e : pev) : psys :=
  match e with
  | EReq o => mkSys (qnext cfg (p_mem s) o) (p_chan s ++ qstore cfg (p_mem s) o) (p_batch s) (p_db s)
  | ERecv => mkSys (p_mem s) [] (p_batch s ++ p_chan s) (p_db s)
  | EFlush => mkSys (p_mem s) (p_chan s) [] (exec_all (p_batch s) (p_db s))
  | ECrash clk => mkSys (recover clk (db_main (p_db s)) (db_dead (p_db s))) [] [] (p_db s)
  end.
Lemma pdo_ok : forall cfg evs s, psteps cfg s evs (fold_left (pdo cfg) evs s).
Proof.
  intros cfg evs s; induction evs as [|e evs IH] using rev_ind; [constructor|]. rewrite fold_left_app. eapply psteps_snoc; [exact IH|]. cbn [fold_left].
  destruct (fold_left (pdo cfg) evs s) as [i c b d]. destruct e; cbn [pdo p_mem p_chan p_batch p_db]; [constructor| |constructor|constructor; reflexivity].
  pose proof (PS_recv cfg i c [] b d) as H. rewrite app_nil_r in H. exact H.
Qed.
