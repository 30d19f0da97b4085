(** The wait loop of queue consumes. *)
From Verif Require Import LibBase LibMap QueueModel QueueSpec QueueObs QueueProofs QueueRefine QueueTrace QueueFacts QueueFacts2 WakeModel WakeProofs.

Section Q.
  Variable cfg : qconfig.
  (** Which operations call notify_waiters: push (manager.rs:292), nack when the
      message goes back to waiting (356-363), the timeout task when it returned
      messages (199-201), move_to_queue when the dead letter was found (489). *)
  Definition q_rings (i : inner) (o : qop) : bool :=
    match o with
    | QoPush _ _ _ _ => true
    | QoNack id reason now => match q_nack id reason (c_max cfg) now (i_state i) with (_, Some _, _) => true | _ => false end
    | QoExpire _ _ => match qouts cfg i o with RExpired (_ :: _) _ => true | _ => false end
    | QoMove id => match aget N.eqb id (i_dlq i) with Some _ => true | None => false end
    | _ => false
    end.
  (** manager.rs:404-415: a turn of the loop for at most [max] messages; [clk]: the
      clock readings *)
  Definition q_attempt (max : N) (clk : nat -> N) : qop := QoConsume max clk.
  Definition q_answer (i : inner) (o : qop) : option (list message) :=
    match qouts cfg i o with RMsgs (m :: ms) => Some (m :: ms) | _ => None end.
  Definition qwrun := wrun inner qop N (list message) (nat -> N) (qnext cfg) q_rings q_attempt q_answer true.
  Definition qwstep := wstep inner qop N (list message) (nat -> N) (qnext cfg) q_rings q_attempt q_answer true.
  Definition q_okop (i : inner) (o : qop) : Prop := match o with QoPush id _ _ _ => ~ listed i id | _ => True end.
  Definition q_inv (i : inner) : Prop := exists S, RI i S.
  Definition q_quiet (max : N) (i : inner) : Prop := obs_wait i = [].

  Lemma fresh_listed i S o : RI i S -> q_okop i o -> op_fresh S o.
  Proof.
    intros HR H. destruct o; simpl in *; auto. rewrite (listed_all_ids i S id HR) in H. unfold all_ids in H. rewrite in_app_iff in H. tauto.
  Qed.
  Lemma quiet_spec i S : RI i S -> (obs_wait i = [] <-> s_wait S = []).
  Proof.
    intro HR. pose proof (obs_wait_perm _ _ HR) as P. split; intro H; rewrite H in P.
    - apply Permutation_nil; auto.
    - apply Permutation_nil. symmetry. exact P.
  Qed.
  Lemma q_hinv i o : q_inv i -> q_okop i o -> q_inv (qnext cfg i o).
  Proof. intros (S & HR) OK. eexists. apply (step_refines cfg i S o HR). eapply fresh_listed; eauto. Qed.
  Lemma q_hatt i max clk : q_inv i -> 1 <= max -> q_okop i (q_attempt max clk).
  Proof. intros _ _. exact Logic.I. Qed.
  (** A turn that finds nothing: nothing is waiting. *)
  Lemma q_found i S max clk : RI i S -> 1 <= max -> (q_answer i (q_attempt max clk) = None <-> s_wait S = []).
  Proof.
    intros HR L. unfold q_answer, q_attempt. rewrite (proj2 (step_refines cfg i S (QoConsume max clk) HR Logic.I)).
    unfold a_out. cbn [a_step]. split; intro H.
    - destruct (s_wait S) as [|m w] eqn:EW; auto. exfalso.
      assert (EN : N.to_nat (N.min max (lenN (m :: w))) = Datatypes.S (N.to_nat (N.min max (lenN (m :: w)) - 1))) by (rewrite lenN_cons; lia).
      rewrite EN in H. cbn [a_take] in H. unfold a_pop at 1 in H. rewrite EW in H.
      destruct (best (m :: w)) as [b|] eqn:EB.
      + destruct (a_take cfg (N.to_nat (N.min max (lenN (m :: w)) - 1)) 1 clk _) as [S'' ms]. discriminate.
      + simpl in EB. destruct (best w) as [x|]; [destruct (m_prio m <? m_prio x)|]; discriminate.
    - rewrite H. rewrite lenN_nil, N.min_0_r. reflexivity.
  Qed.
  Lemma q_hnone i max clk : q_inv i -> 1 <= max -> q_answer i (q_attempt max clk) = None -> q_quiet max (qnext cfg i (q_attempt max clk)).
  Proof.
    intros (S & HR) L H. apply (q_found i S max clk HR L) in H. destruct (step_refines cfg i S (QoConsume max clk) HR Logic.I) as (HR' & _).
    apply (quiet_spec _ _ HR'). unfold a_next. cbn [a_step]. rewrite H, lenN_nil, N.min_0_r. cbn. exact H.
  Qed.
  Lemma q_hkeep i o max : q_inv i -> q_okop i o -> q_rings i o = false -> q_quiet max i -> q_quiet max (qnext cfg i o).
  Proof.
    intros (S & HR) OK R Q. pose proof (fresh_listed i S o HR OK) as F. destruct (step_refines cfg i S o HR F) as (HR' & HO).
    apply (quiet_spec _ _ HR'). apply (quiet_spec _ _ HR) in Q. unfold a_next. destruct o as [id payload prio now|now|mx clk|id|id reason now|now1 now2|id|id|]; cbn [q_rings] in R; try discriminate; cbn [a_step].
    - unfold a_pop. rewrite Q. exact Q.
    - rewrite Q, lenN_nil, N.min_0_r. exact Q.
    - destruct (find_id _ _); simpl; rewrite ?Q; auto.
    - destruct (nack_ok cfg _ _ _ (s_dead S) id reason now (ri_q _ _ HR)) as (s' & rq & dq & H1 & _ & H3). rewrite H1 in R.
      destruct rq; [discriminate|]. replace (mkSpec (s_wait S) (s_fly S) (s_dead S)) with S in H3 by (destruct S; reflexivity). cbn [a_step] in H3.
      destruct (find_id id (s_wait S ++ s_fly S)) as [m|]; [|exact Q]. destruct (exhausted cfg m); [simpl; rewrite Q; reflexivity|].
      exfalso. destruct (m_state m); destruct dq; simpl in H3; destruct H3 as (H3 & H4); try discriminate; destruct H4 as (H4 & _);
        apply (f_equal (@length _)) in H4; rewrite app_length in H4; simpl in H4; lia.
    - rewrite HO in R. unfold a_out in R. cbn [a_step] in R. destruct (existsb _ _); [|exact Q]. simpl in *. rewrite Q.
      destruct (map requeued _) eqn:EM; [reflexivity|]. discriminate.
    - destruct (find _ _) as [d|] eqn:E; [|exact Q].
      destruct (aget N.eqb id (i_dlq i)) eqn:EA; [discriminate|]. exfalso. rewrite (ri_d _ _ HR) in E. rewrite <- dlq_find in E by apply (ri_k _ _ HR). congruence.
    - destruct (find _ _); exact Q.
    - exact Q.
  Qed.

  Notation W0 := (wake0 inner N (list message)).
  (** What the schedule must respect: pushes use new ids; consumes ask for at least
      one message. *)
  Definition q_sched (i : inner) (xs : list (wop qop N (nat -> N))) : Prop :=
    xsok inner qop N (list message) (nat -> N) (qnext cfg) q_rings q_attempt q_answer true q_okop (fun max => 1 <= max) (W0 i) xs.
  Theorem queue_no_sleep i xs id max : q_inv i -> q_sched i xs ->
    asleep inner N (list message) id max (qwrun (W0 i) xs) -> obs_wait (w_st _ _ _ (qwrun (W0 i) xs)) = [].
  Proof.
    intros I OK A.
    exact (no_lost_wakeup inner qop N (list message) (nat -> N) (qnext cfg) q_rings q_attempt q_answer true q_inv q_okop (fun max => 1 <= max) q_quiet
      q_hinv q_hatt q_hnone q_hkeep i xs id max I OK A).
  Qed.
  (** The inner state reached is well-formed. *)
  Lemma queue_inv i xs : q_inv i -> q_sched i xs -> q_inv (w_st _ _ _ (qwrun (W0 i) xs)) /\
    forall id max ph, waiting _ _ _ id (qwrun (W0 i) xs) = Some (mkWaiter _ max ph) -> 1 <= max.
  Proof.
    intros I OK.
    destruct (WI_run inner qop N (list message) (nat -> N) (qnext cfg) q_rings q_attempt q_answer true q_inv q_okop (fun max => 1 <= max) q_quiet
      q_hinv q_hatt q_hnone q_hkeep xs (W0 i) (WI_0 _ _ _ _ _ _ i I) OK) as (A & B). split; [exact A|].
    intros id max ph H. exact (proj1 (B id max ph H)).
  Qed.
  Definition q_turn := turn inner qop N (list message) (nat -> N).
  Theorem queue_turn i xs id max n clk : q_inv i -> q_sched i xs ->
    let w := qwrun (W0 i) xs in
    waiting _ _ _ id w = Some (mkWaiter _ max (Blocked n)) -> obs_wait (w_st _ _ _ w) <> [] ->
    exists m ms, w_done _ _ _ (qwrun w (q_turn w id clk)) = (id, m :: ms) :: w_done _ _ _ w /\
      qouts cfg (w_st _ _ _ w) (QoConsume max clk) = RMsgs (m :: ms).
  Proof.
    intros I OK w HW NE. destruct (queue_inv i xs I OK) as ((S & HR) & L). fold w in HR, L.
    pose proof (turn_answers inner qop N (list message) (nat -> N) (qnext cfg) q_rings q_attempt q_answer true q_inv q_okop (fun max => 1 <= max) q_quiet
      q_hinv q_hatt q_hnone q_hkeep i xs id max n clk I OK HW NE) as T. cbv zeta in T. destruct T as (_ & T).
    change (wrun inner qop N (list message) (nat -> N) (qnext cfg) q_rings q_attempt q_answer true (W0 i) xs) with w in T.
    destruct (q_answer (w_st _ _ _ w) (q_attempt max clk)) as [a|] eqn:EA.
    - unfold q_answer, q_attempt in EA. destruct (qouts cfg (w_st _ _ _ w) (QoConsume max clk)) as [|[|m ms]| | | | |] eqn:EO; try discriminate.
      inversion EA; subst. exists m, ms. split; [exact (proj1 T)|auto].
    - exfalso. apply NE. apply (quiet_spec _ _ HR). apply (q_found _ S max clk HR (L _ _ _ HW)). exact EA.
  Qed.
End Q.
