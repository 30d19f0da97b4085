(** Property C77, continued: all deliveries of a queue counted over restarts of the server.  [life] is a run with
    requests, writes and crashes, what it delivered, and what its restarts add
    (QueueDrainCrash.v). *)
From Verif Require Import LibBase LibMap QueueModel QueueSpec QueueObs QueueProofs QueueRefine QueueTrace QueueFacts QueueFacts2 QueuePersistModel QueuePersistProofs QueuePersistInv QueuePersistSys QueuePersistCrash QueuePersistOrder QueueDrain QueueDrainCrash.

(** the whole statement would have no second summand.  A restart when everything
    is written adds one delivery for each message in flight that had had all of
    its deliveries; one that loses writes can give those listed after it all
    deliveries anew *)
Theorem C77_deliveries_partial : forall cfg evs ms x s, life cfg sys0 evs ms x s -> fresh (reqs evs) ->
  lenN ms <= N.max 1 (c_max cfg) * given_all (reqs evs) + x.
Proof. intros cfg evs ms x s H Hf. pose proof (life_bound cfg evs ms x s H Hf). lia. Qed.
Print Assumptions C77_deliveries_partial.
(** every run is such a life, and without crashes nothing is added *)
Theorem C77_every_run_partial : forall cfg evs s, psteps cfg sys0 evs s ->
  exists ms x, life cfg sys0 evs ms x s /\ (crash_free evs -> x = 0).
Proof.
  intros cfg evs s H. induction H as [s|s evs s1 e s2 H IH Hp]; [exists [], 0; split; [constructor|auto]|].
  destruct IH as [ms [x [IH IH0]]].
  assert (Hc : crash_free (evs ++ [e]) -> crash_free evs) by (intros Hc y Hy; apply Hc, in_or_app; auto).
  destruct e as [o| | |clk].
  1-3: (eexists; exists (x + 0); split; [eapply life_snoc; [exact IH|exact Hp|constructor; reflexivity]|intro Hf; rewrite IH0; auto]).
  eexists; eexists. split; [eapply life_snoc; [exact IH|exact Hp|apply adds_lossy]|].
  intro Hf. specialize (Hf (ECrash clk)). assert (Hi : In (ECrash clk) (evs ++ [ECrash clk])) by (apply in_or_app; right; left; reflexivity).
  specialize (Hf Hi). discriminate.
Qed.
Print Assumptions C77_every_run_partial.

(** the natural statement fails: with maxRetries 1, one push and every restart
    made when everything was written, a message whose consumers never answer
    while the server is down past the deadline is delivered any number of times.
    (The start makes it waiting without looking at its attempts.) *)
Fixpoint again (n : nat) (t : N) : list pev :=
  match n with O => [] | S n' => [EReq (QoPop t); ERecv; EFlush; ECrash (fun _ => t + 20)] ++ again n' (t + 100) end.
(** the deliveries of a run without choices, and: every crash finds all written *)
Fixpoint served_all (cfg : qconfig) (s : psys) (evs : list pev) : list message :=
  match evs with [] => [] | e :: r => served_at cfg s e ++ served_all cfg (pdo cfg s e) r end.
Fixpoint orderly (cfg : qconfig) (s : psys) (evs : list pev) : Prop :=
  match evs with [] => True | e :: r => (is_crash e = true -> written s) /\ orderly cfg (pdo cfg s e) r end.
Definition cfg1 : qconfig := mkCfg 10 1.
Definition ready (v k : N) : inner := mkInner (q_push (mkMsg 7 [1] 0 k 1 v None Ready) q_empty) [].
Definition at_rest (v k : N) : psys := mkSys (ready v k) [] [] (mkDb [(7, mkRow [1] 0 v k 1)] []).
Lemma one_more : forall v k t, t + 20 < 2 ^ 64 ->
  exists m, qouts cfg1 (ready v k) (QoPop t) = RMsg (Some m) /\ m_id m = 7 /\
    qstore cfg1 (ready v k) (QoPop t) = [SUpdate 7 (t + 10) (k + 1)].
Proof.
  intros v k t Ht. exists (mkMsg 7 [1] 0 (k + 1) 1 (t + 10) None (InFlight (t + 10))).
  assert (E : deadline t 10 = t + 10) by (unfold deadline; apply N.mod_small; lia).
  rewrite <- E. split; [|split]; lazy -[deadline N.add]; reflexivity.
Qed.
Lemma restarted : forall v k c, v <= c -> recover (fun _ => c) [(7, mkRow [1] 0 v k 1)] [] = ready v k.
Proof.
  intros v k c H. unfold recover, ready. cbn [load_rows load_row fold_left w_payload w_prio w_att w_created w_vis avals map].
  replace (c <? v) with false by (symmetry; apply N.ltb_ge; exact H). reflexivity.
Qed.
Lemma round_again : forall v k t rest, t + 20 < 2 ^ 64 ->
  exists m, m_id m = 7 /\
    served_all cfg1 (at_rest v k) ([EReq (QoPop t); ERecv; EFlush; ECrash (fun _ => t + 20)] ++ rest) = m :: served_all cfg1 (at_rest (t + 10) (k + 1)) rest /\
    (orderly cfg1 (at_rest (t + 10) (k + 1)) rest -> orderly cfg1 (at_rest v k) ([EReq (QoPop t); ERecv; EFlush; ECrash (fun _ => t + 20)] ++ rest)).
Proof.
  intros v k t rest Ht. destruct (one_more v k t Ht) as [m [H1 [H2 H3]]]. exists m. split; [exact H2|].
  assert (E : pdo cfg1 (pdo cfg1 (pdo cfg1 (pdo cfg1 (at_rest v k) (EReq (QoPop t))) ERecv) EFlush) (ECrash (fun _ => t + 20)) = at_rest (t + 10) (k + 1)).
  { unfold pdo, at_rest. cbn [p_mem p_chan p_batch p_db app]. rewrite H3.
    change (exec_all [SUpdate 7 (t + 10) (k + 1)] (mkDb [(7, mkRow [1] 0 v k 1)] [])) with (mkDb [(7, mkRow [1] 0 (t + 10) (k + 1) 1)] []).
    cbn [db_main db_dead]. rewrite restarted by lia. reflexivity. }
  split.
  - cbn [app served_all served_at]. rewrite E. change (p_mem (at_rest v k)) with (ready v k). rewrite H1. reflexivity.
  - intro H. cbn [app orderly]. rewrite E. split; [discriminate|]. split; [discriminate|]. split; [discriminate|]. split; [|exact H].
    intros _. split; reflexivity.
Qed.
Lemma rounds_again : forall n v k t, t + 100 * N.of_nat n < 2 ^ 64 -> 
  map m_id (served_all cfg1 (at_rest v k) (again n t)) = repeat 7 n /\ orderly cfg1 (at_rest v k) (again n t).
Proof.
  intros n; induction n as [|n IH]; intros v k t Ht; [split; [reflexivity|exact I]|].
  rewrite Nat2N.inj_succ in Ht.
  destruct (round_again v k t (again n (t + 100))) as [m [H1 [H2 H3]]]; [lia|].
  destruct (IH (t + 10) (k + 1) (t + 100)) as [H4 H5]; [lia|].
  cbn [again]. split; [rewrite H2; cbn [map repeat]; rewrite H1, H4; reflexivity|exact (H3 H5)].
Qed.
Lemma again_reqs : forall n t, pushed (reqs (again n t)) = [] /\ given_all (reqs (again n t)) = 0.
Proof.
  intros n; induction n as [|n IH]; intro t; [split; reflexivity|]. cbn [again]. rewrite reqs_app', pushed_app, given_all_app.
  destruct (IH (t + 100)) as [H1 H2]. rewrite H1, H2. split; reflexivity.
Qed.
Theorem C77_any_number_refuted : forall n, 100 * N.of_nat n < 2 ^ 60 -> exists cfg evs,
  c_max cfg = 1 /\ fresh (reqs evs) /\ given_all (reqs evs) = 1 /\ orderly cfg sys0 evs /\
  psteps cfg sys0 evs (fold_left (pdo cfg) evs sys0) /\ map m_id (served_all cfg sys0 evs) = repeat 7 n.
Proof.
  intros n Hn. exists cfg1, ([EReq (QoPush 7 [1] 0 1); ERecv; EFlush] ++ again n 100).
  destruct (rounds_again n 0 0 100) as [H1 H2]; [lia|]. destruct (again_reqs n 100) as [H3 H4].
  split; [reflexivity|]. split; [|split; [|split; [|split]]].
  - unfold fresh. rewrite reqs_app', pushed_app, H3. vm_compute. repeat constructor. intros [].
  - rewrite reqs_app', given_all_app, H4. reflexivity.
  - cbn [app orderly]. split; [discriminate|]. split; [discriminate|]. split; [discriminate|]. exact H2.
  - apply pdo_ok.
  - exact H1.
Qed.
Print Assumptions C77_any_number_refuted.
Lemma pdo_step : forall cfg s e, pstep cfg s e (pdo cfg s e).
Proof.
  intros cfg [i c b d] e. destruct e; cbn [pdo p_mem p_chan p_batch p_db]; [constructor| |constructor|constructor; reflexivity].
  pose proof (PS_recv cfg i c [] b d) as H. rewrite app_nil_r in H. exact H.
Qed.
(** a run without choices, all written at each crash, as a life *)
Fixpoint added (cfg : qconfig) (s : psys) (evs : list pev) : N :=
  match evs with
  | [] => 0
  | e :: r => (if is_crash e then lenN (filter (used_up cfg) (obs_fly (p_mem s))) else 0) + added cfg (pdo cfg s e) r
  end.
Lemma orderly_life : forall cfg evs s0 evs0 ms x s, life cfg s0 evs0 ms x s -> orderly cfg s evs ->
  life cfg s0 (evs0 ++ evs) (ms ++ served_all cfg s evs) (x + added cfg s evs) (fold_left (pdo cfg) evs s).
Proof.
  intros cfg evs; induction evs as [|e evs IH]; intros s0 evs0 ms x s H Ho.
  - cbn [served_all added fold_left]. rewrite !app_nil_r, N.add_0_r. exact H.
  - cbn [orderly] in Ho. destruct Ho as [Ho1 Ho2]. cbn [served_all added fold_left]. rewrite N.add_assoc, app_assoc.
    replace (evs0 ++ e :: evs) with ((evs0 ++ [e]) ++ evs) by (rewrite <- app_assoc; reflexivity).
    apply IH; [|exact Ho2]. eapply life_snoc; [exact H|apply pdo_step|].
    destruct e as [o| | |clk]; cbn [is_crash] in *; [constructor; reflexivity|constructor; reflexivity|constructor; reflexivity|].
    apply adds_written. apply Ho1. reflexivity.
Qed.
(** two deliveries with maxRetries 1: one allowed, one added by the restart *)
Example C77_deliveries_example : let evs := [EReq (QoPush 7 [1] 0 1); ERecv; EFlush] ++ again 1 100 ++ [EReq (QoPop 200)] in
  exists s, life cfg1 sys0 evs (served_all cfg1 sys0 evs) 1 s /\ fresh (reqs evs) /\
  map m_id (served_all cfg1 sys0 evs) = [7; 7] /\ N.max 1 (c_max cfg1) * given_all (reqs evs) = 1.
Proof.
  intro evs. eexists. split; [|split; [|split; vm_compute; reflexivity]].
  - replace 1 with (0 + added cfg1 sys0 evs) at 1 by (vm_compute; reflexivity).
    apply (orderly_life cfg1 evs sys0 [] [] 0 sys0); [constructor|]. subst evs. cbn [again app orderly is_crash].
    repeat split; try discriminate.
  - unfold fresh. vm_compute. repeat constructor. intros [].
Qed.
