(** Retry accounting, nack, dead letters, statistics. *)
From Verif Require Import LibBase LibMap QueueModel QueueSpec QueueObs QueueProofs QueueRefine QueueTrace QueueFacts.

Definition cnt (id : N) (l : list message) : nat := length (filter (fun m => m_id m =? id) l).
Lemma cnt_notin : forall id l, ~ In id (ids l) -> cnt id l = O.
Proof.
  intros id l H. unfold cnt. rewrite filter_false_nil; auto. intros m Hm. apply N.eqb_neq. intro He. apply H.
  rewrite <- He. apply ids_In; auto.
Qed.
Lemma cnt_in : forall id l, NoDup (ids l) -> In id (ids l) -> cnt id l = 1%nat.
Proof.
  intros id l; induction l as [|m l IH]; simpl; intros Hn Hi; [contradiction|].
  inversion Hn as [|x l' Hx Hn']; subst. unfold cnt; simpl. destruct (N.eqb_spec (m_id m) id) as [He|Hne]; simpl.
  - f_equal. apply cnt_notin. rewrite <- He; auto.
  - apply IH; auto. destruct Hi; [contradiction|auto].
Qed.
Lemma deliveries_cons : forall id r rs, deliveries id (r :: rs) = (cnt id (ret r) + deliveries id rs)%nat.
Proof. intros; unfold deliveries, cnt. simpl. rewrite filter_app, app_length. reflexivity. Qed.
Lemma deliveries_app : forall id a b, deliveries id (a ++ b) = (deliveries id a + deliveries id b)%nat.
Proof. intros; unfold deliveries. rewrite flat_map_app, filter_app, app_length. reflexivity. Qed.

(** what a delivery does *)
Definition is_take (o : qop) : bool := match o with QoPop _ => true | QoConsume _ _ => true | _ => false end.
Lemma dsort_In : forall m l, In m (dsort l) <-> In m l.
Proof. intros; split; apply Permutation_in; [|symmetry]; apply dsort_perm. Qed.
Lemma a_take_facts : forall cfg clk n i S, SInv S -> (n <= length (s_wait S))%nat ->
  let r := a_take cfg n i clk S in
  NoDup (ids (snd r)) /\
  (forall m, In m (s_wait (fst r)) -> In m (s_wait S) /\ ~ In (m_id m) (ids (snd r))) /\
  (forall m, In m (s_fly (fst r)) -> In m (s_fly S) \/ (In m (snd r) /\ exists x t, In x (s_wait S) /\ m = delivered t x)) /\
  s_dead (fst r) = s_dead S.
Proof.
  intros cfg clk n i S HI Hl r.
  pose proof (SInv_nd_w _ HI) as Hnw. destruct (a_take_spec cfg clk n i S Hnw Hl) as [H1 [H2 [H3 H4]]]. fold r in H1, H2, H3, H4.
  assert (Hids : ids (snd r) = ids (firstn n (dsort (s_wait S)))).
  { clear - H1. induction H1 as [|x m l l' [j [_ Hm]] HF IH]; auto. cbn [ids map]. unfold ids in IH. rewrite IH, Hm. reflexivity. }
  pose proof (dsort_nd _ Hnw) as Hnd. rewrite <- (firstn_skipn n (dsort (s_wait S))), ids_app in Hnd.
  apply NoDup_app_inv in Hnd. destruct Hnd as [Hn1 [Hn2 Hn3]].
  split; [rewrite Hids; auto|]. split; [|split].
  - intros m Hm. rewrite <- dsort_In, H2 in Hm. split.
    + rewrite <- dsort_In, <- (firstn_skipn n (dsort (s_wait S))). apply in_or_app; auto.
    + rewrite Hids. intro Hi. apply (Hn3 _ Hi). apply ids_In; auto.
  - intros m Hm. apply (Permutation_in _ H4) in Hm. apply in_app_or in Hm. destruct Hm as [Hm|Hm]; auto. right. split; auto.
    assert (Hx : exists x t, In x (firstn n (dsort (s_wait S))) /\ m = delivered t x).
    { clear - H1 Hm. induction H1 as [|x y l l' [j [_ Hy]] HF IH]; [contradiction|]. destruct Hm as [<-|Hm].
      - exists x, (due_at (clk j) (c_vt cfg)). split; [left; auto|auto].
      - destruct (IH Hm) as [a [t [Ha Ht]]]. exists a, t. split; [right; auto|auto]. }
    destruct Hx as [x [t [Hx Ht]]]. exists x, t. split; auto.
    rewrite <- dsort_In, <- (firstn_skipn n (dsort (s_wait S))). apply in_or_app; auto.
  - apply (proj2 (a_take_perm cfg clk n i S Hnw)).
Qed.
Lemma take_facts : forall cfg S o, SInv S -> is_take o = true ->
  let S' := a_next cfg S o in let r := ret (a_out cfg S o) in
  NoDup (ids r) /\
  (forall m, In m (s_wait S') -> In m (s_wait S) /\ ~ In (m_id m) (ids r)) /\
  (forall m, In m (s_fly S') -> In m (s_fly S) \/ (In m r /\ exists x t, In x (s_wait S) /\ m = delivered t x)) /\
  s_dead S' = s_dead S.
Proof.
  intros cfg S o HI Ht. destruct o as [|now|max clk| | | | | |]; try discriminate; unfold a_next, a_out; cbn [a_step].
  - pose proof (a_take_facts cfg (fun _ => now) (Nat.min 1 (length (s_wait S))) 0 S HI) as H. cbn zeta in H.
    unfold a_pop. destruct (best (s_wait S)) as [b|] eqn:E.
    + destruct (best_spec _ _ E) as [Hi _].
      assert (Hl : Nat.min 1 (length (s_wait S)) = 1%nat) by (destruct (s_wait S); [contradiction|simpl; lia]).
      rewrite Hl in H. cbn [a_take] in H. unfold a_pop in H. rewrite E in H. apply H. destruct (s_wait S); [contradiction|simpl; lia].
    + cbn [fst snd ret]. split; [constructor|]. split; [intros m Hm; split; auto|]. auto.
  - pose proof (a_take_facts cfg clk (N.to_nat (N.min max (lenN (s_wait S)))) 0 S HI) as H. cbn zeta in H.
    destruct (a_take cfg _ 0 clk S) as [S' ms]. cbn [fst snd ret] in *. apply H. unfold lenN; lia.
Qed.
Lemma ret_notake : forall cfg S o, is_take o = false -> ret (a_out cfg S o) = [].
Proof.
  intros cfg S o H; destruct o; try discriminate; unfold a_out; cbn [a_step]; auto.
  - destruct (find_id _ _); reflexivity.
  - destruct (find_id _ _) as [m|]; [destruct (exhausted cfg m); [|destruct (m_state m)]|]; reflexivity.
  - destruct (existsb _ _); reflexivity.
  - destruct (find _ _); reflexivity.
  - destruct (find _ _); reflexivity.
Qed.

(** * Attempt bounds *)
Definition AInv (cfg : qconfig) (S : qspec) : Prop :=
  (forall m, In m (s_wait S) -> m_att m = 0 \/ m_att m < c_max cfg) /\
  (forall m, In m (s_fly S) -> 1 <= m_att m /\ m_att m <= N.max 1 (c_max cfg)).
Lemma AInv_step : forall cfg S o, SInv S -> AInv cfg S -> AInv cfg (a_next cfg S o).
Proof.
  intros cfg S o HI [HW HF]. destruct (is_take o) eqn:Et.
  - destruct (take_facts cfg S o HI Et) as [_ [H2 [H3 _]]]. split.
    + intros m Hm. apply HW. apply H2; auto.
    + intros m Hm. destruct (H3 m Hm) as [Hm'|[_ [x [t [Hx ->]]]]]; auto. cbn [delivered m_att set_att set_vis set_state].
      specialize (HW x Hx). lia.
  - unfold a_next, exhausted. destruct o as [id payload prio now|now|max clk|id|id reason now|now1 now2|id|id|]; try discriminate; cbn [a_step].
    + split; cbn [fst s_wait s_fly]; auto. intros m Hm. apply in_app_or in Hm. destruct Hm as [Hm|[<-|[]]]; auto.
    + destruct (find_id id _) as [m0|]; [|split; auto]. split; cbn [fst s_wait s_fly]; intros m Hm; apply without_In in Hm; [apply HW|apply HF]; tauto.
    + destruct (find_id id _) as [m|] eqn:E; [|split; auto]. unfold exhausted. destruct (N.leb_spec (c_max cfg) (m_att m)) as [Hl|Hl].
      * split; cbn [fst s_wait s_fly]; intros x Hm; apply without_In in Hm; [apply HW|apply HF]; tauto.
      * destruct (m_state m); split; cbn [fst s_wait s_fly]; auto.
        -- intros x Hx. apply in_map_iff in Hx. destruct Hx as [y [Hy Hx]]. destruct (m_id y =? id); subst x; apply (HW y Hx).
        -- intros x Hx. apply in_app_or in Hx. destruct Hx as [Hx|[<-|[]]]; auto.
        -- intros x Hm; apply without_In in Hm; apply HF; tauto.
    + destruct (existsb _ _); [|split; auto]. split; cbn [fst s_wait s_fly].
      * intros x Hx. apply in_app_or in Hx. destruct Hx as [Hx|Hx]; auto. apply in_map_iff in Hx. destruct Hx as [y [<- Hx]].
        apply filter_In in Hx. destruct Hx as [_ Hx]. apply negb_true_iff, N.leb_gt in Hx. right; exact Hx.
      * intros x Hx. apply filter_In in Hx. apply HF; tauto.
    + destruct (find _ _) as [d|]; [|split; auto]. split; cbn [fst s_wait s_fly]; auto.
      intros x Hx. apply in_app_or in Hx. destruct Hx as [Hx|[<-|[]]]; auto.
    + destruct (find _ _) as [d|]; split; auto.
    + split; auto.
Qed.
Lemma AInv_run : forall cfg h i S, RI i S -> fresh_from S h -> AInv cfg S -> AInv cfg (a_run cfg S h).
Proof.
  intros cfg h; induction h as [|o h IH]; intros i S HR Hf HA; [auto|].
  destruct (fresh_from_cons cfg i S o h HR Hf) as [Ho Hf']. destruct (step_refines cfg i S o HR Ho) as [HR' _].
  apply (IH _ _ HR' Hf'). apply AInv_step; auto. eapply RI_SInv; eauto.
Qed.
Lemma AInv0 : forall cfg, AInv cfg spec0.
Proof. intros; split; intros m []. Qed.
Lemma attempts_bounded : forall cfg h m, fresh h ->
  (In m (obs_wait (qrun cfg inner0 h)) -> m_att m = 0 \/ m_att m < c_max cfg) /\
  (In m (obs_fly (qrun cfg inner0 h)) -> 1 <= m_att m /\ m_att m <= N.max 1 (c_max cfg)).
Proof.
  intros cfg h m Hf. pose proof (reach cfg h Hf) as HR.
  destruct (AInv_run cfg h inner0 spec0 RI_empty (fresh_from0 _ Hf) (AInv0 cfg)) as [HW HF]. split.
  - intro Hm. apply HW. eapply Permutation_in; [apply (obs_wait_perm _ _ HR)|auto].
  - rewrite (obs_fly_eq _ _ HR). auto.
Qed.

(** * Attempts count deliveries *)
Definition Cnt (S : qspec) (id : N) (n : nat) : Prop :=
  (forall m, In m (s_wait S ++ s_fly S) -> m_id m = id -> m_att m = N.of_nat n) /\
  (forall d, In d (s_dead S) -> d_id d = id -> d_att d = N.of_nat n).
Lemma Cnt_step : forall cfg S o id n, SInv S -> op_fresh S o -> o <> QoMove id ->
  (In id (map body_id (push_of o)) -> n = O) -> Cnt S id n ->
  Cnt (a_next cfg S o) id (n + cnt id (ret (a_out cfg S o))).
Proof.
  intros cfg S o id n HI Ho Hmv Hpush [HM HD]. destruct (is_take o) eqn:Et.
  - destruct (take_facts cfg S o HI Et) as [H1 [H2 [H3 H4]]]. split.
    + intros m Hm Hid. apply in_app_or in Hm. destruct Hm as [Hm|Hm].
      * destruct (H2 m Hm) as [Hw Hn]. rewrite Hid in Hn. rewrite (cnt_notin _ _ Hn), Nat.add_0_r.
        apply HM; auto. apply in_or_app; auto.
      * destruct (H3 m Hm) as [Hm'|[Hr [x [t [Hx Heq]]]]].
        -- rewrite cnt_notin, Nat.add_0_r; [apply HM; auto; apply in_or_app; auto|].
           intro Hi. apply (ret_ids _ _ _ _ HI) in Hi. pose proof (SInv_nd_wf _ HI) as Hn. rewrite ids_app in Hn.
           apply NoDup_app_inv in Hn. destruct Hn as [_ [_ Hd]]. apply (Hd id); auto. rewrite <- Hid; apply ids_In; auto.
        -- rewrite cnt_in; auto; [|rewrite <- Hid; apply ids_In; auto]. rewrite Heq. cbn [delivered m_att set_att set_vis set_state].
           rewrite (HM x); [lia|apply in_or_app; auto|]. rewrite Heq in Hid. exact Hid.
    + rewrite H4. intros d Hd Hid. rewrite cnt_notin, Nat.add_0_r; [auto|].
      intro Hi. apply (ret_ids _ _ _ _ HI) in Hi. destruct HI as [HI _ _]. apply NoDup_app_inv in HI. destruct HI as [_ [_ Hdd]].
      apply (Hdd id); [rewrite ids_app; apply in_or_app; auto|]. rewrite <- Hid. apply (in_map d_id); auto.
  - rewrite (ret_notake cfg S o Et). change (cnt id []) with O. rewrite Nat.add_0_r.
    unfold a_next. destruct o as [id' payload prio now|now|max clk|id'|id' reason now|now1 now2|id'|id'|]; try discriminate; cbn [a_step].
    + split; cbn [fst s_wait s_fly s_dead]; auto. intros m Hm Hid. rewrite <- app_assoc, in_app_iff in Hm. cbn [app] in Hm. destruct Hm as [Hm|[Hm|Hm]].
      * apply HM; auto; apply in_or_app; auto.
      * subst m. cbn [m_id msg_pushed] in Hid. subst id'. rewrite Hpush by (left; reflexivity). reflexivity.
      * apply HM; auto; apply in_or_app; auto.
    + destruct (find_id id' _) as [m0|]; [|split; auto]. split; cbn [fst s_wait s_fly s_dead]; auto.
      intros m Hm. rewrite <- without_app in Hm. apply without_In in Hm. apply HM; tauto.
    + destruct (find_id id' _) as [m|] eqn:E; [|split; auto]. apply find_id_some in E. destruct E as [E1 E2].
      destruct (exhausted cfg m); [|destruct (m_state m) eqn:Est]; (split; cbn [fst s_wait s_fly s_dead]; auto).
      * intros x Hm. rewrite <- without_app in Hm. apply without_In in Hm. apply HM; tauto.
      * intros d Hd Hid. apply in_app_or in Hd. destruct Hd as [Hd|[<-|[]]]; auto. apply (HM m); auto.
      * intros x Hx Hid. apply in_app_or in Hx. destruct Hx as [Hx|Hx]; [|apply HM; auto; apply in_or_app; auto].
        apply in_map_iff in Hx. destruct Hx as [y [Hy Hx]].
        assert (Hyid : m_id y = id) by (destruct (m_id y =? id'); subst x; exact Hid).
        assert (Hya : m_att x = m_att y) by (destruct (m_id y =? id'); subst x; reflexivity).
        rewrite Hya. apply HM; auto. apply in_or_app; auto.
      * intros x Hx Hid. rewrite <- app_assoc, in_app_iff in Hx. cbn [app] in Hx. destruct Hx as [Hx|[Hx|Hx]].
        -- apply HM; auto; apply in_or_app; auto.
        -- subst x. apply (HM m); auto.
        -- apply without_In in Hx. apply HM; [apply in_or_app; tauto|auto].
    + destruct (existsb _ _); [|split; auto]. split; cbn [fst s_wait s_fly s_dead].
      * intros x Hx Hid. rewrite !in_app_iff in Hx. destruct Hx as [[Hx|Hx]|Hx].
        -- apply HM; auto; apply in_or_app; auto.
        -- apply in_map_iff in Hx. destruct Hx as [y [<- Hx]]. apply filter_In in Hx. destruct Hx as [Hx _]. apply filter_In in Hx.
           apply (HM y); auto. apply in_or_app; tauto.
        -- apply filter_In in Hx. apply HM; auto; apply in_or_app; tauto.
      * intros d Hd Hid. apply in_app_or in Hd. destruct Hd as [Hd|Hd]; auto. apply in_map_iff in Hd. destruct Hd as [y [<- Hx]].
        apply filter_In in Hx. destruct Hx as [Hx _]. apply filter_In in Hx. apply (HM y); auto. apply in_or_app; tauto.
    + destruct (find _ _) as [d|] eqn:E; [|split; auto]. apply find_some in E. destruct E as [E1 E2]. apply N.eqb_eq in E2.
      split; cbn [fst s_wait s_fly s_dead].
      * intros m Hm Hid. rewrite <- app_assoc, in_app_iff in Hm. cbn [app] in Hm. destruct Hm as [Hm|[Hm|Hm]].
        -- apply HM; auto; apply in_or_app; auto.
        -- subst m. cbn [m_id revived msg_pushed] in Hid. congruence.
        -- apply HM; auto; apply in_or_app; auto.
      * intros x Hx. apply filter_In in Hx. apply HD; tauto.
    + destruct (find _ _) as [d|] eqn:E; split; cbn [fst s_wait s_fly s_dead]; auto.
      intros x Hx. apply filter_In in Hx. apply HD; tauto.
    + split; cbn [fst s_wait s_fly s_dead]; auto. intros d [].
Qed.
Lemma Cnt_run : forall cfg id h i S n, RI i S -> fresh_from S h -> ~ In (QoMove id) h ->
  (In id (map body_id (pushed h)) -> n = O) -> Cnt S id n -> AInv cfg S ->
  Cnt (a_run cfg S h) id (n + deliveries id (a_outs cfg S h)) /\
  (N.of_nat (n + deliveries id (a_outs cfg S h)) <= N.max (N.of_nat n) (N.max 1 (c_max cfg))).
Proof.
  intros cfg id h; induction h as [|o h IH]; intros i S n HR Hf Hmv Hp HC HA.
  - simpl. unfold deliveries; simpl. rewrite Nat.add_0_r. split; auto. lia.
  - destruct (fresh_from_cons cfg i S o h HR Hf) as [Ho Hf']. destruct (step_refines cfg i S o HR Ho) as [HR' _].
    pose proof (RI_SInv _ _ HR) as HI.
    cbn [a_outs]. rewrite deliveries_cons.
    unfold pushed in Hp. cbn [flat_map] in Hp. rewrite map_app, in_app_iff in Hp.
    assert (HC' : Cnt (a_next cfg S o) id (n + cnt id (ret (a_out cfg S o)))).
    { apply Cnt_step; auto. intro He; apply Hmv; left; auto. }
    assert (HA' : AInv cfg (a_next cfg S o)) by (apply AInv_step; auto).
    destruct (IH (qnext cfg i o) (a_next cfg S o) (n + cnt id (ret (a_out cfg S o)))%nat HR' Hf') as [H1 H2]; auto.
    + intro Hi; apply Hmv; right; auto.
    + intro Hi. rewrite Hp by auto. simpl. apply cnt_notin. intro Hr. apply (ret_ids _ _ _ _ HI) in Hr.
      destruct Hf as [_ Hf]. apply (Hf id).
      * unfold pushed. cbn [flat_map]. rewrite map_app. apply in_or_app; auto.
      * unfold all_ids. rewrite ids_app, !in_app_iff. auto.
    + rewrite Nat.add_assoc. split; [exact H1|].
      destruct (cnt id (ret (a_out cfg S o))) eqn:Ec; [rewrite Nat.add_0_r in *; exact H2|].
      assert (Hm : exists m, In m (ret (a_out cfg S o)) /\ m_id m = id).
      { unfold cnt in Ec. destruct (filter (fun m => m_id m =? id) (ret (a_out cfg S o))) as [|m l] eqn:E; [discriminate|].
        assert (Hin : In m (filter (fun m => m_id m =? id) (ret (a_out cfg S o)))) by (rewrite E; left; auto).
        apply filter_In in Hin. destruct Hin as [Hin He]. apply N.eqb_eq in He. eauto. }
      destruct Hm as [m [Hm Hid]]. destruct (ret_in_fly cfg S o m HI Hm) as [Hfl _].
      pose proof (proj2 HA' m Hfl) as [_ Hb]. rewrite (proj1 HC' m) in Hb; auto; [lia|]. apply in_or_app; auto.
Qed.
(** deliveries between entering and leaving *)
Lemma retry_bound : forall cfg id h1 h2, fresh (h1 ++ h2) ->
  let i := qrun cfg inner0 h1 in
  (forall m, In m (obs_wait i ++ obs_fly i) -> m_id m = id -> m_att m = 0) ->
  ~ In id (map d_id (obs_dead i)) ->
  ~ In (QoMove id) h2 ->
  let k := deliveries id (outs cfg i h2) in
  let i' := qrun cfg i h2 in
  N.of_nat k <= N.max 1 (c_max cfg) /\
  (forall m, In m (obs_wait i' ++ obs_fly i') -> m_id m = id -> m_att m = N.of_nat k) /\
  (forall d, In d (obs_dead i') -> d_id d = id -> d_att d = N.of_nat k).
Proof.
  intros cfg id h1 h2 Hf i H0 Hd Hmv k i'.
  destruct (reach_app cfg h1 h2 Hf) as [HR Hf2]. fold i in HR.
  destruct (run_refines cfg h2 i _ HR Hf2) as [HR' HO]. fold i' in HR'.
  assert (HC : Cnt (a_run cfg spec0 h1) id 0).
  { split.
    - intros m Hm Hid. change (N.of_nat 0) with 0. apply H0; auto.
      apply in_app_or in Hm. apply in_or_app. rewrite (obs_fly_eq _ _ HR). destruct Hm as [Hm|Hm]; auto. left.
      eapply Permutation_in; [symmetry; apply (obs_wait_perm _ _ HR)|auto].
    - intros d Hdd Hid. exfalso. apply Hd. rewrite (obs_dead_eq _ _ HR). apply in_map_iff. exists d; auto. }
  assert (HA : AInv cfg (a_run cfg spec0 h1)).
  { apply (AInv_run cfg h1 inner0 spec0 RI_empty); [|apply AInv0].
    exact (proj1 (fresh_from_app cfg h1 h2 inner0 spec0 RI_empty (fresh_from0 _ Hf))). }
  destruct (Cnt_run cfg id h2 i _ 0 HR Hf2 Hmv (fun _ => eq_refl) HC HA) as [[HM HD] HB].
  unfold k. rewrite HO. cbn [Nat.add] in *. split; [lia|]. split.
  - intros m Hm. apply HM. apply in_app_or in Hm. apply in_or_app. rewrite (obs_fly_eq _ _ HR') in Hm. destruct Hm as [Hm|Hm]; auto. left.
    eapply Permutation_in; [apply (obs_wait_perm _ _ HR')|auto].
  - rewrite (obs_dead_eq _ _ HR'). exact HD.
Qed.
(** why a message is dead-lettered *)
Lemma dead_cause : forall cfg S o d, In d (s_dead (a_next cfg S o)) ->
  In d (s_dead S) \/
  exists m r now, In m (s_wait S ++ s_fly S) /\ d = dead_letter m r now /\ c_max cfg <= m_att m /\
    (o = QoNack (m_id m) r now \/ (exists n1, o = QoExpire n1 now /\ r = timed_out /\ In m (s_fly S) /\ dl m <= now)).
Proof.
  intros cfg S o d. unfold a_next.
  destruct o as [id payload prio now|now|max clk|id|id reason now|now1 now2|id|id|]; cbn [a_step]; auto.
  - unfold a_pop; destruct (best _); auto.
  - assert (H : forall n i S0, s_dead (fst (a_take cfg n i clk S0)) = s_dead S0).
    { induction n as [|n IH]; intros i S0; simpl; auto. unfold a_pop. destruct (best (s_wait S0)); simpl; auto.
      match goal with |- context [a_take cfg n (Datatypes.S i) clk ?T] => specialize (IH (Datatypes.S i) T); destruct (a_take cfg n (Datatypes.S i) clk T) end.
      simpl in *. auto. }
    specialize (H (N.to_nat (N.min max (lenN (s_wait S)))) 0%nat S). destruct (a_take _ _ _ _ _). simpl in *. rewrite H. auto.
  - destruct (find_id _ _); auto.
  - destruct (find_id _ _) as [m|] eqn:E; auto. apply find_id_some in E. destruct E as [E1 E2]. unfold exhausted.
    destruct (N.leb_spec (c_max cfg) (m_att m)); [|destruct (m_state m); auto]. cbn [fst s_dead]. rewrite in_app_iff.
    intros [Hd|[<-|[]]]; auto. right. exists m, reason, now. subst id. auto.
  - destruct (existsb _ _); auto. cbn [fst s_dead]. rewrite in_app_iff. intros [Hd|Hd]; auto. right.
    apply in_map_iff in Hd. destruct Hd as [m [<- Hm]]. apply filter_In in Hm. destruct Hm as [Hm He]. apply filter_In in Hm. destruct Hm as [Hm Ho].
    apply N.leb_le in He. apply N.leb_le in Ho. exists m, timed_out, now2.
    split; [apply in_or_app; auto|]. split; auto. split; auto. right. exists now1. auto.
  - destruct (find _ _); auto. cbn [fst s_dead]. intro Hd. apply filter_In in Hd. tauto.
  - destruct (find _ _); auto. cbn [fst s_dead]. intro Hd. apply filter_In in Hd. tauto.
  - intros [].
Qed.
Lemma dead_letter_cause : forall cfg h o d, fresh (h ++ [o]) -> 1 <= c_max cfg ->
  let i := qrun cfg inner0 h in
  In d (obs_dead (qnext cfg i o)) -> ~ In d (obs_dead i) ->
  exists m r now, In m (obs_fly i) /\ d = dead_letter m r now /\ m_att m = c_max cfg /\
    (o = QoNack (m_id m) r now \/
     exists n1 t, o = QoExpire n1 now /\ r = timed_out /\ m_state m = InFlight t /\ t <= now).
Proof.
  intros cfg h o d Hf Hmax i Hd Hn. destruct (reach_app cfg h [o] Hf) as [HR Hf2]. fold i in HR.
  destruct (step_out cfg h o Hf) as [_ HR']. fold i in HR'.
  rewrite (obs_dead_eq _ _ HR') in Hd. rewrite (obs_dead_eq _ _ HR) in Hn.
  assert (Hfh : fresh h).
  { unfold fresh, pushed in *. rewrite flat_map_app, map_app in Hf. apply NoDup_app_inv in Hf; tauto. }
  destruct (dead_cause cfg _ _ _ Hd) as [H|[m [r [now [H1 [H2 [H3 H4]]]]]]]; [contradiction|].
  pose proof (AInv_run cfg h inner0 spec0 RI_empty (fresh_from0 _ Hfh) (AInv0 cfg)) as [HW HF].
  apply in_app_or in H1. destruct H1 as [H1|H1]; [destruct (HW m H1); lia|].
  exists m, r, now. rewrite (obs_fly_eq _ _ HR). split; auto. split; auto. split; [specialize (HF m H1); lia|].
  destruct H4 as [H4|[n1 [H4 [H5 [H6 H7]]]]]; auto. right.
  destruct (si_f _ (RI_SInv _ _ HR) m H1) as [t Ht]. exists n1, t. unfold dl in H7; rewrite Ht in H7. auto.
Qed.

(** * Nack *)
Lemma find_id_nd : forall m l, NoDup (ids l) -> In m l -> find_id (m_id m) l = Some m.
Proof.
  intros m l Hn Hi. destruct (find_id (m_id m) l) as [x|] eqn:E.
  - apply find_id_some in E. destruct E as [E1 E2]. f_equal. eapply (NoDup_ids_inj l); eauto.
  - unfold find_id in E. apply (find_none _ _ E) in Hi. rewrite N.eqb_refl in Hi. discriminate.
Qed.
Lemma nack_in_flight : forall cfg h m reason now, fresh h ->
  let i := qrun cfg inner0 h in
  let o := QoNack (m_id m) reason now in
  In m (obs_fly i) ->
  qouts cfg i o = RBool true /\
  obs_fly (qnext cfg i o) = filter (fun x => negb (m_id x =? m_id m)) (obs_fly i) /\
  (if m_att m <? c_max cfg
   then arrivals cfg (h ++ [o]) = arrivals cfg h ++ [requeued (noted reason m)] /\
        obs_dead (qnext cfg i o) = obs_dead i /\
        Permutation (obs_wait (qnext cfg i o)) (obs_wait i ++ [requeued (noted reason m)])
   else arrivals cfg (h ++ [o]) = arrivals cfg h /\
        obs_dead (qnext cfg i o) = obs_dead i ++ [dead_letter m reason now] /\
        obs_wait (qnext cfg i o) = obs_wait i).
Proof.
  intros cfg h m reason now Hf i o Hm. pose proof (reach cfg h Hf) as HR. fold i in HR.
  destruct (step_out cfg h o (fresh_snoc h o Hf eq_refl)) as [Ho HR']. fold i in Ho, HR'.
  unfold arrivals. rewrite a_run_app. change (a_run cfg (a_run cfg spec0 h) [o]) with (a_next cfg (a_run cfg spec0 h) o).
  set (S := a_run cfg spec0 h) in *. rewrite (obs_fly_eq _ _ HR) in Hm.
  pose proof (SInv_nd_wf _ (RI_SInv _ _ HR)) as Hn. pose proof (si_f _ (RI_SInv _ _ HR) m Hm) as [t Ht].
  assert (Hfi : find_id (m_id m) (s_wait S ++ s_fly S) = Some m) by (apply find_id_nd; auto; apply in_or_app; auto).
  assert (Hww : without (m_id m) (s_wait S) = s_wait S) by (apply without_notin; eapply RS_f_not_w; [apply (ri_q _ _ HR)|auto]).
  rewrite Ho, (obs_fly_eq _ _ HR'), (obs_fly_eq _ _ HR), (obs_dead_eq _ _ HR'), (obs_dead_eq _ _ HR), (obs_wait_eq _ _ HR'), (obs_wait_eq _ _ HR).
  unfold a_out, a_next, o. cbn [a_step]. rewrite Hfi. unfold exhausted. rewrite N.ltb_antisym.
  destruct (c_max cfg <=? m_att m); cbn [negb fst snd s_wait s_fly s_dead].
  - rewrite Hww. auto.
  - rewrite Ht. cbn [fst snd s_wait s_fly s_dead]. split; auto. split; auto. split; auto. split; auto.
    rewrite !by_prio_perm. reflexivity.
Qed.
Lemma settle_iff_present : forall cfg h id, fresh h ->
  let i := qrun cfg inner0 h in
  let present := In id (map m_id (obs_wait i ++ obs_fly i)) in
  (qouts cfg i (QoAck id) = RBool true <-> present) /\
  (forall r now, qouts cfg i (QoNack id r now) = RBool true <-> present) /\
  (qouts cfg i (QoAck id) = RBool false <-> ~ present) /\
  (forall r now, qouts cfg i (QoNack id r now) = RBool false <-> ~ present).
Proof.
  intros cfg h id Hf i present. pose proof (reach cfg h Hf) as HR. fold i in HR.
  set (S := a_run cfg spec0 h) in *.
  assert (Hp : present <-> find_id id (s_wait S ++ s_fly S) <> None).
  { unfold present. rewrite map_app, in_app_iff, (obs_fly_eq _ _ HR).
    pose proof (obs_wait_ids _ _ id HR) as Hw. unfold ids in Hw. rewrite Hw. rewrite <- in_app_iff, <- map_app.
    rewrite <- (RQ_find _ _ _ _ _ id (ri_q _ _ HR)). rewrite (getr_none_ids _ _ _ id (ri_q _ _ HR)). fold (ids (s_wait S ++ s_fly S)).
    destruct (in_dec N.eq_dec id (ids (s_wait S ++ s_fly S))); tauto. }
  destruct (step_out cfg h (QoAck id) (fresh_snoc h (QoAck id) Hf eq_refl)) as [Ha _]. fold i S in Ha.
  assert (Hnk : forall r now, qouts cfg i (QoNack id r now) = a_out cfg S (QoNack id r now)).
  { intros r now. apply (step_out cfg h (QoNack id r now) (fresh_snoc h (QoNack id r now) Hf eq_refl)). }
  clearbody present. clear HR.
  assert (Hc : (present /\ qouts cfg i (QoAck id) = RBool true /\ forall r now, qouts cfg i (QoNack id r now) = RBool true) \/
               (~ present /\ qouts cfg i (QoAck id) = RBool false /\ forall r now, qouts cfg i (QoNack id r now) = RBool false)).
  { rewrite Ha. destruct (find_id id (s_wait S ++ s_fly S)) as [m|] eqn:E.
    - left. split; [apply Hp; discriminate|]. split; [unfold a_out; cbn [a_step]; rewrite E; reflexivity|].
      intros r now. rewrite Hnk. unfold a_out; cbn [a_step]; rewrite E. destruct (exhausted cfg m); [|destruct (m_state m)]; reflexivity.
    - right. split; [rewrite Hp; tauto|]. split; [unfold a_out; cbn [a_step]; rewrite E; reflexivity|].
      intros r now. rewrite Hnk. unfold a_out; cbn [a_step]; rewrite E. reflexivity. }
  destruct Hc as [[H1 [H2 H3]]|[H1 [H2 H3]]]; rewrite H2; (split; [|split; [intros r now; rewrite H3|split; [|intros r now; rewrite H3]]]);
    split; intro H; try discriminate; try contradiction; auto.
Qed.

(** * Dead letters *)
Lemma peek_spec : forall q offset limit,
  dlq_peek offset limit q = (lenN (avals q), takeN limit (dropN offset (rev (avals q)))).
Proof. intros; unfold dlq_peek. f_equal. unfold lenN, avals. rewrite map_length. reflexivity. Qed.
Fixpoint pages {A} (page : N -> list A) (limit off : N) (n : nat) : list A :=
  match n with O => [] | S n' => page off ++ pages page limit (off + limit) n' end.
Lemma pages_all : forall A (l : list A) limit n off,
  pages (fun o => takeN limit (dropN o l)) limit off n = takeN (limit * N.of_nat n) (dropN off l).
Proof.
  intros A l limit n; induction n as [|n IH]; intro off; cbn [pages].
  - replace (limit * N.of_nat 0) with 0 by lia. reflexivity.
  - rewrite IH. replace (off + limit) with (limit + off) by lia. rewrite <- dropN_dropN. generalize (dropN off l). intro r.
    rewrite <- (takeN_dropN _ limit r) at 3. destruct (N.le_ge_cases limit (lenN r)).
    + rewrite takeN_app_ge by (rewrite lenN_takeN; lia). rewrite lenN_takeN. f_equal. f_equal. lia.
    + rewrite (dropN_all _ limit r) by lia. rewrite app_nil_r, takeN_nil, app_nil_r. symmetry. apply takeN_all.
      rewrite lenN_takeN. lia.
Qed.
Lemma peek_pages : forall cfg h limit n, 
  let i := qrun cfg inner0 h in
  0 < limit -> lenN (obs_dead i) <= limit * N.of_nat n ->
  pages (fun off => snd (dlq_peek off limit (i_dlq i))) limit 0 n = rev (obs_dead i) /\
  forall off lim, fst (dlq_peek off lim (i_dlq i)) = lenN (obs_dead i).
Proof.
  intros cfg h limit n i Hl Hn. split.
  - unfold dlq_peek. cbn [snd]. rewrite pages_all. rewrite dropN_0. apply takeN_all. unfold obs_dead in Hn.
    unfold lenN in *. rewrite rev_length. exact Hn.
  - intros off lim. rewrite peek_spec. reflexivity.
Qed.
Lemma dead_order : forall cfg h o, fresh (h ++ [o]) ->
  exists keep new, obs_dead (qnext cfg (qrun cfg inner0 h) o) = filter keep (obs_dead (qrun cfg inner0 h)) ++ new.
Proof.
  intros cfg h o Hf. destruct (reach_app cfg h [o] Hf) as [HR _]. destruct (step_out cfg h o Hf) as [_ HR'].
  rewrite (obs_dead_eq _ _ HR), (obs_dead_eq _ _ HR'). set (S := a_run cfg spec0 h) in *.
  assert (Hsame : exists keep new, s_dead S = filter keep (s_dead S) ++ new).
  { exists (fun _ => true), []. rewrite app_nil_r, filter_true_id; auto. }
  assert (Happ : forall new, exists keep new', s_dead S ++ new = filter keep (s_dead S) ++ new').
  { intros new. exists (fun _ => true), new. rewrite filter_true_id; auto. }
  destruct (is_take o) eqn:Et.
  { destruct (take_facts cfg S o (RI_SInv _ _ HR) Et) as [_ [_ [_ H]]]. rewrite H. exact Hsame. }
  unfold a_next. destruct o as [id payload prio now|now|max clk|id|id reason now|now1 now2|id|id|]; try discriminate; cbn [a_step]; auto.
  - destruct (find_id _ _); auto.
  - destruct (find_id _ _) as [m|]; [destruct (exhausted cfg m); [|destruct (m_state m)]|]; cbn [fst s_dead]; auto.
  - destruct (existsb _ _); cbn [fst s_dead]; auto.
  - destruct (find _ _); cbn [fst s_dead]; auto. exists (fun d => negb (d_id d =? id)), []. rewrite app_nil_r. reflexivity.
  - destruct (find _ _); cbn [fst s_dead]; auto. exists (fun d => negb (d_id d =? id)), []. rewrite app_nil_r. reflexivity.
  - exists (fun _ => false), []. rewrite filter_false_nil; auto.
Qed.
Lemma move_spec : forall cfg h id, fresh h ->
  let i := qrun cfg inner0 h in let i' := qnext cfg i (QoMove id) in
  match find (fun d => d_id d =? id) (obs_dead i) with
  | Some d =>
      qouts cfg i (QoMove id) = RBool true /\
      obs_dead i' = filter (fun d => negb (d_id d =? id)) (obs_dead i) /\
      arrivals cfg (h ++ [QoMove id]) = arrivals cfg h ++ [msg_pushed id (d_payload d) (d_prio d) (d_created d)] /\
      Permutation (obs_wait i') (obs_wait i ++ [msg_pushed id (d_payload d) (d_prio d) (d_created d)]) /\
      obs_fly i' = obs_fly i
  | None => qouts cfg i (QoMove id) = RBool false /\ i' = i
  end.
Proof.
  intros cfg h id Hf i i'. pose proof (reach cfg h Hf) as HR. fold i in HR.
  destruct (step_out cfg h (QoMove id) (fresh_snoc h (QoMove id) Hf eq_refl)) as [Ho HR']. fold i i' in Ho, HR'.
  unfold arrivals. rewrite a_run_app. change (a_run cfg (a_run cfg spec0 h) [QoMove id]) with (a_next cfg (a_run cfg spec0 h) (QoMove id)).
  set (S := a_run cfg spec0 h) in *.
  destruct (find (fun d => d_id d =? id) (obs_dead i)) as [d|] eqn:E.
  - rewrite Ho, (obs_fly_eq _ _ HR'), (obs_fly_eq _ _ HR), (obs_dead_eq _ _ HR'), (obs_dead_eq _ _ HR), (obs_wait_eq _ _ HR'), (obs_wait_eq _ _ HR).
    rewrite (obs_dead_eq _ _ HR) in E. unfold a_out, a_next. cbn [a_step]. rewrite E. cbn [fst snd s_wait s_fly s_dead].
    apply find_some in E. destruct E as [E1 E2]. apply N.eqb_eq in E2.
    replace (msg_pushed id (d_payload d) (d_prio d) (d_created d)) with (revived d) by (unfold revived, msg_pushed; rewrite E2; reflexivity).
    repeat split; auto. rewrite !by_prio_perm. reflexivity.
  - unfold i', qouts, qnext. cbn [qstep]. rewrite (dlq_find _ _ (ri_k _ _ HR)). fold (obs_dead i). rewrite E. auto.
Qed.
Lemma delete_spec : forall cfg h id, fresh h ->
  let i := qrun cfg inner0 h in let i' := qnext cfg i (QoDelDlq id) in
  match find (fun d => d_id d =? id) (obs_dead i) with
  | Some d =>
      qouts cfg i (QoDelDlq id) = RBool true /\
      obs_dead i' = filter (fun d => negb (d_id d =? id)) (obs_dead i) /\
      S (length (obs_dead i')) = length (obs_dead i) /\
      i_state i' = i_state i
  | None => qouts cfg i (QoDelDlq id) = RBool false /\ i' = i
  end.
Proof.
  intros cfg h id Hf i i'. pose proof (reach cfg h Hf) as HR. fold i in HR.
  unfold i', qouts, qnext. cbn [qstep]. rewrite (dlq_find _ _ (ri_k _ _ HR)). fold (obs_dead i).
  destruct (find (fun d => d_id d =? id) (obs_dead i)) as [d|] eqn:E; cbn [fst snd i_state]; auto.
  split; auto. unfold obs_dead; cbn [i_dlq]. rewrite (dlq_del _ _ (ri_k _ _ HR)). fold (obs_dead i). split; auto. split; auto.
  apply find_some in E. destruct E as [E1 E2]. apply N.eqb_eq in E2. subst id.
  assert (Hnd : NoDup (dids (obs_dead i))).
  { unfold obs_dead. rewrite <- (akeys_dids _ (ri_k _ _ HR)). apply (ri_nd _ _ HR). }
  rewrite (Permutation_length (dead_perm d _ Hnd E1)). reflexivity.
Qed.
Lemma purge_spec : forall cfg i,
  qouts cfg i QoPurge = RCount (lenN (obs_dead i)) /\
  obs_dead (qnext cfg i QoPurge) = [] /\ i_state (qnext cfg i QoPurge) = i_state i.
Proof.
  intros. unfold qouts, qnext. cbn [qstep fst snd]. split; auto. unfold obs_dead, lenN, avals. rewrite map_length. reflexivity.
Qed.

(** * Statistics *)
Lemma idx_count_flat : forall ix, idx_count ix = lenN (flat ix).
Proof.
  unfold idx_count, flat. induction ix as [|[k q] ix IH]; simpl; auto. rewrite IH, lenN_app. reflexivity.
Qed.
Lemma stats_ok : forall cfg h, fresh h ->
  let i := qrun cfg inner0 h in
  get_counters (i_state i) = (lenN (obs_wait i), lenN (obs_fly i)) /\
  lenN (obs_wait i) = lenN (arrivals cfg h) /\
  (forall max clk ms, lenN (obs_wait i) <= max -> qouts cfg i (QoConsume max clk) = RMsgs ms -> lenN ms = lenN (obs_wait i)) /\
  (forall m, In m (obs_wait i) <-> In m (obs_wait i ++ obs_fly i) /\ m_state m = Ready) /\
  (forall m, In m (obs_fly i) <-> In m (obs_wait i ++ obs_fly i) /\ m_state m <> Ready).
Proof.
  intros cfg h Hf i. pose proof (reach cfg h Hf) as HR. fold i in HR. set (S := a_run cfg spec0 h) in *.
  pose proof (ri_q _ _ HR) as HQ.
  assert (HA : flat (q_ack (i_state i)) = ids (obs_fly i)).
  { rewrite (obs_fly_eq _ _ HR). apply (flat_keyed dl); [apply (r_aok _ _ _ _ _ HQ)|apply (r_ak _ _ _ _ _ HQ)|apply (r_srt _ _ _ _ _ HQ)]. }
  assert (HW : flat (q_disp (i_state i)) = ids (obs_wait i)).
  { rewrite (obs_wait_eq _ _ HR). apply (flat_keyed m_prio); [apply (r_dok _ _ _ _ _ HQ)| |apply by_prio_sorted].
    intro k. rewrite by_prio_filter. apply (r_dk _ _ _ _ _ HQ). }
  split; [|split; [|split; [|split]]].
  - unfold get_counters. rewrite !idx_count_flat, HA, HW. unfold lenN, ids. rewrite !map_length. reflexivity.
  - unfold lenN. f_equal. apply Permutation_length. apply (obs_wait_perm _ _ HR).
  - intros max clk ms Hmax Hout. destruct (batch_ok cfg h max clk Hf) as [ms' [H1 [H2 [_ [_ [H3 [_ H4]]]]]]]. fold i in H1, H3, H4.
    rewrite Hout in H1. inversion H1; subst ms'. apply Permutation_length in H4. rewrite !map_length, app_length in H4.
    destruct (N.eq_dec (lenN ms) max) as [He|Hne]; unfold lenN in *; [lia|]. rewrite H3 in H4 by lia. simpl in H4. lia.
  - intro m. rewrite in_app_iff. split.
    + intro Hm. split; auto. apply (si_w _ (RI_SInv _ _ HR)). eapply Permutation_in; [apply (obs_wait_perm _ _ HR)|auto].
    + intros [[Hm|Hm] Hst]; auto. rewrite (obs_fly_eq _ _ HR) in Hm. destruct (si_f _ (RI_SInv _ _ HR) m Hm) as [t Ht]. congruence.
  - intro m. rewrite in_app_iff. split.
    + intro Hm. split; auto. rewrite (obs_fly_eq _ _ HR) in Hm. destruct (si_f _ (RI_SInv _ _ HR) m Hm) as [t Ht]. congruence.
    + intros [[Hm|Hm] Hst]; auto. exfalso; apply Hst. apply (si_w _ (RI_SInv _ _ HR)). eapply Permutation_in; [apply (obs_wait_perm _ _ HR)|auto].
Qed.
Lemma listing_ok : forall cfg h (inflight : bool) search limit n, fresh h ->
  let i := qrun cfg inner0 h in
  let matching := filter (fun m => search (m_payload m)) (if inflight then obs_fly i else obs_wait i) in
  (forall off lim, fst (get_messages inflight off lim search (i_state i)) = lenN matching) /\
  (0 < limit -> lenN matching <= limit * N.of_nat n ->
   pages (fun off => snd (get_messages inflight off limit search (i_state i))) limit 0 n = matching) /\
  NoDup (map m_id matching).
Proof.
  intros cfg h inflight search limit n Hf i matching. pose proof (reach cfg h Hf) as HR. fold i in HR.
  split; [|split].
  - intros off lim. unfold get_messages, matching, obs_fly, obs_wait. destruct inflight; reflexivity.
  - intros Hl Hn. unfold get_messages. cbn [snd]. rewrite pages_all, dropN_0. unfold matching, obs_fly, obs_wait in *.
    destruct inflight; apply takeN_all; exact Hn.
  - unfold matching. assert (Hnd : NoDup (ids (obs_wait i ++ obs_fly i))).
    { rewrite (obs_fly_eq _ _ HR). eapply Permutation_NoDup; [apply Permutation_map; apply Permutation_app_tail; symmetry; apply (obs_wait_perm _ _ HR)|].
      apply (SInv_nd_wf _ (RI_SInv _ _ HR)). }
    rewrite ids_app in Hnd. apply NoDup_app_inv in Hnd. destruct Hnd as [H1 [H2 _]].
    change (map m_id) with ids. destruct inflight; apply NoDup_ids_filter; auto.
Qed.

Lemma batch_order : forall cfg h max clk, fresh h ->
  let n := N.to_nat (N.min max (lenN (arrivals cfg h))) in
  exists ms, qouts cfg (qrun cfg inner0 h) (QoConsume max clk) = RMsgs ms /\
    map body_of ms = map body_of (firstn n (dsort (arrivals cfg h))) /\
    (forall k, filter (fun m => m_prio m =? k) (dsort (arrivals cfg h)) = filter (fun m => m_prio m =? k) (arrivals cfg h)).
Proof.
  intros cfg h max clk Hf n. pose proof (reach cfg h Hf) as HR.
  destruct (step_out cfg h (QoConsume max clk) (fresh_snoc h (QoConsume max clk) Hf eq_refl)) as [Ho _].
  rewrite Ho. unfold a_out. cbn [a_step]. unfold arrivals in *. set (S := a_run cfg spec0 h) in *.
  destruct (a_take_spec cfg clk n 0 S (SInv_nd_w _ (RI_SInv _ _ HR))) as [H1 _]; [unfold n, lenN; lia|].
  fold n. destruct (a_take cfg n 0 clk S) as [S' ms]. cbn [fst snd] in *. exists ms. split; auto. split; [|intro k; apply dsort_stable].
  clear - H1. induction H1 as [|x m l l' [j [_ Hm]] HF IH]; auto. cbn [map]. rewrite IH, Hm. reflexivity.
Qed.
Lemma dead_distinct : forall cfg h, fresh h -> NoDup (map d_id (obs_dead (qrun cfg inner0 h))).
Proof.
  intros cfg h Hf. pose proof (reach cfg h Hf) as HR. unfold obs_dead. change (map d_id) with dids.
  rewrite <- (akeys_dids _ (ri_k _ _ HR)). apply (ri_nd _ _ HR).
Qed.
