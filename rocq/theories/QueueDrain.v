(** Facts for C113: deliveries still possible, and emptying a queue. *)
From Verif Require Import LibBase LibMap QueueModel QueueSpec QueueObs QueueProofs QueueRefine QueueTrace QueueFacts QueueFacts2.

(** deliveries a message may still have: at most [max 1 (c_max cfg)] in all *)
Definition chances (cfg : qconfig) (m : message) : N := N.max 1 (c_max cfg) - m_att m.
Fixpoint total (cfg : qconfig) (l : list message) : N :=
  match l with [] => 0 | m :: l' => chances cfg m + total cfg l' end.
(** requests that give a message a new set of deliveries *)
Definition gives (o : qop) : N := match o with QoPush _ _ _ _ | QoMove _ => 1 | _ => 0 end.
Fixpoint given_all (h : list qop) : N := match h with [] => 0 | o :: h' => gives o + given_all h' end.
(** deliveries of a history *)
Definition handed (cfg : qconfig) (i : inner) (h : list qop) : list message := flat_map ret (outs cfg i h).

(** a worker that asks for up to [max] messages and acks all it got, [n] times;
    [clk r] are the clock readings of round [r] *)
Definition acks (r : qout) : list qop := map (fun m => QoAck (m_id m)) (ret r).
Fixpoint work (cfg : qconfig) (max : N) (clk : nat -> nat -> N) (n : nat) (i : inner) : list qop :=
  match n with
  | O => []
  | S n' =>
      let round := QoConsume max (clk n) :: acks (qouts cfg i (QoConsume max (clk n))) in
      round ++ work cfg max clk n' (qrun cfg i round)
  end.

Lemma total_app : forall cfg a b, total cfg (a ++ b) = total cfg a + total cfg b.
Proof. intros cfg a b; induction a as [|m a IH]; cbn [app total]; lia. Qed.
Lemma total_perm : forall cfg a b, Permutation a b -> total cfg a = total cfg b.
Proof. intros cfg a b H; induction H; cbn [total]; lia. Qed.
Lemma total_filter : forall cfg f l, total cfg (filter f l) + total cfg (filter (fun m => negb (f m)) l) = total cfg l.
Proof. intros cfg f l; induction l as [|m l IH]; cbn [filter total]; [lia|]. destruct (f m); cbn [negb total]; lia. Qed.
Lemma total_filter_le : forall cfg f l, total cfg (filter f l) <= total cfg l.
Proof. intros cfg f l. pose proof (total_filter cfg f l). lia. Qed.
Lemma total_without : forall cfg m l, In m l -> chances cfg m + total cfg (without (m_id m) l) <= total cfg l.
Proof.
  intros cfg m l; induction l as [|x l IH]; intros [].
  - subst x. unfold without. cbn [filter total]. rewrite N.eqb_refl. cbn [negb].
    pose proof (total_filter_le cfg (fun y => negb (m_id y =? m_id m)) l). lia.
  - specialize (IH H). unfold without in *. cbn [filter total]. destruct (negb (m_id x =? m_id m)); cbn [total]; lia.
Qed.
Lemma total_same : forall cfg f l, (forall m, m_att (f m) = m_att m) -> total cfg (map f l) = total cfg l.
Proof. intros cfg f l H; induction l as [|m l IH]; cbn [map total]; auto. unfold chances. rewrite H, IH. reflexivity. Qed.

Lemma take_total : forall cfg clk n k S, (forall m, In m (s_wait S) -> m_att m = 0 \/ m_att m < c_max cfg) ->
  let r := a_take cfg n k clk S in
  lenN (snd r) + total cfg (s_wait (fst r) ++ s_fly (fst r)) <= total cfg (s_wait S ++ s_fly S).
Proof.
  intros cfg clk n; induction n as [|n IH]; intros k S HW r; subst r; cbn [a_take].
  - cbn [fst snd]. unfold lenN. cbn [length]. lia.
  - unfold a_pop. destruct (best (s_wait S)) as [b|] eqn:E.
    + destruct (best_spec _ _ E) as [Hi _].
      set (T := mkSpec (without (m_id b) (s_wait S)) (ins_dl (delivered (due_at (clk k) (c_vt cfg)) b) (s_fly S)) (s_dead S)).
      assert (HT : forall m, In m (s_wait T) -> m_att m = 0 \/ m_att m < c_max cfg).
      { intros m Hm. apply HW. apply without_In in Hm. tauto. }
      specialize (IH (Datatypes.S k) T HT). cbn zeta in IH.
      destruct (a_take cfg n (Datatypes.S k) clk T) as [S2 ms]. cbn [fst snd] in *.
      assert (H : 1 + total cfg (s_wait T ++ s_fly T) <= total cfg (s_wait S ++ s_fly S)).
      { subst T. cbn [s_wait s_fly]. rewrite !total_app, (total_perm _ _ _ (ins_dl_perm _ _)). cbn [total].
        pose proof (total_without cfg b _ Hi) as Hw. specialize (HW b Hi). unfold chances in *. cbn [m_att delivered]. lia. }
      unfold lenN in *. cbn [length]. lia.
    + cbn [fst snd]. unfold lenN. cbn [length]. lia.
Qed.
Lemma step_total : forall cfg S o, SInv S -> AInv cfg S ->
  lenN (ret (a_out cfg S o)) + total cfg (s_wait (a_next cfg S o) ++ s_fly (a_next cfg S o))
    <= total cfg (s_wait S ++ s_fly S) + N.max 1 (c_max cfg) * gives o.
Proof.
  intros cfg S o HI [HW HF].
  assert (HL : lenN (@nil message) = 0) by reflexivity.
  unfold a_out, a_next. destruct o as [id payload prio now|now|max clk|id|id reason now|now1 now2|id|id|]; cbn [a_step gives].
  - cbn [fst snd ret s_wait s_fly]. rewrite HL, !total_app. cbn [total]. unfold chances. cbn [msg_pushed m_att]. lia.
  - pose proof (take_total cfg (fun _ => now) 1 0 S HW) as H. cbn zeta in H. cbn [a_take] in H.
    destruct (a_pop cfg now S) as [S' [m|]]; cbn [fst snd ret] in *; unfold lenN in *; cbn [length] in *; lia.
  - pose proof (take_total cfg clk (N.to_nat (N.min max (lenN (s_wait S)))) 0 S HW) as H. cbn zeta in H.
    destruct (a_take cfg _ 0 clk S) as [S' ms]; cbn [fst snd ret] in *. lia.
  - destruct (find_id id _); cbn [fst snd ret s_wait s_fly]; rewrite HL; [|lia].
    rewrite <- without_app. unfold without. pose proof (total_filter_le cfg (fun m => negb (m_id m =? id)) (s_wait S ++ s_fly S)). lia.
  - destruct (find_id id _) as [m|] eqn:E; [|cbn [fst snd ret]; lia].
    apply find_id_some in E. destruct E as [Hi Hid].
    destruct (exhausted cfg m); [|destruct (m_state m) eqn:Est]; cbn [fst snd ret s_wait s_fly]; rewrite HL.
    + rewrite <- without_app. unfold without. pose proof (total_filter_le cfg (fun m => negb (m_id m =? id)) (s_wait S ++ s_fly S)). lia.
    + rewrite !total_app, total_same; [lia|]. intro x. destruct (m_id x =? id); reflexivity.
    + assert (Hf : In m (s_fly S)).
      { apply in_app_or in Hi. destruct Hi as [Hi|Hi]; auto. rewrite (si_w _ HI m Hi) in Est; discriminate. }
      pose proof (total_without cfg m _ Hf) as Hw. rewrite Hid in Hw.
      rewrite !total_app. cbn [total]. unfold chances in *. cbn [requeued noted m_att]. lia.
  - destruct (existsb _ _); cbn [fst snd ret s_wait s_fly]; rewrite HL; [|lia].
    rewrite !total_app, total_same by reflexivity.
    pose proof (total_filter cfg (overdue now2) (s_fly S)).
    pose proof (total_filter_le cfg (fun m => negb (exhausted cfg m)) (filter (overdue now2) (s_fly S))). lia.
  - destruct (find _ (s_dead S)) as [d|]; cbn [fst snd ret s_wait s_fly]; rewrite ?HL; [|lia].
    rewrite !total_app. cbn [total]. unfold chances. cbn [revived msg_pushed m_att]. lia.
  - destruct (find _ (s_dead S)) as [d|]; cbn [fst snd ret s_wait s_fly]; rewrite HL; lia.
  - cbn [fst snd ret s_wait s_fly]. rewrite HL. lia.
Qed.
Lemma run_total : forall cfg h i S, RI i S -> fresh_from S h -> AInv cfg S ->
  lenN (flat_map ret (a_outs cfg S h)) + total cfg (s_wait (a_run cfg S h) ++ s_fly (a_run cfg S h))
    <= total cfg (s_wait S ++ s_fly S) + N.max 1 (c_max cfg) * given_all h.
Proof.
  intros cfg h; induction h as [|o h IH]; intros i S HR Hf HA.
  - change (lenN (flat_map ret (a_outs cfg S []))) with 0. change (a_run cfg S []) with S. change (given_all []) with 0. lia.
  - destruct (fresh_from_cons cfg i S o h HR Hf) as [Ho Hf']. destruct (step_refines cfg i S o HR Ho) as [HR' _].
    pose proof (RI_SInv _ _ HR) as HI.
    pose proof (step_total cfg S o HI HA) as H1.
    pose proof (IH _ _ HR' Hf' (AInv_step cfg S o HI HA)) as H2.
    cbn [a_outs flat_map given_all]. change (a_run cfg S (o :: h)) with (a_run cfg (a_next cfg S o) h).
    rewrite N.mul_add_distr_l. unfold lenN in *. rewrite app_length. lia.
Qed.
Lemma chances_bound : forall cfg h1 h2, fresh (h1 ++ h2) ->
  let i := qrun cfg inner0 h1 in
  let i' := qrun cfg i h2 in
  lenN (handed cfg i h2) + total cfg (obs_wait i' ++ obs_fly i')
    <= total cfg (obs_wait i ++ obs_fly i) + N.max 1 (c_max cfg) * given_all h2.
Proof.
  intros cfg h1 h2 Hf i i'.
  destruct (reach_app cfg h1 h2 Hf) as [HR Hf2]. fold i in HR.
  destruct (run_refines cfg h2 i _ HR Hf2) as [HR' HO]. fold i' in HR'.
  assert (HA : AInv cfg (a_run cfg spec0 h1)).
  { apply (AInv_run cfg h1 inner0 spec0 RI_empty); [|apply AInv0].
    exact (proj1 (fresh_from_app cfg h1 h2 inner0 spec0 RI_empty (fresh_from0 _ Hf))). }
  unfold handed. rewrite HO, !total_app.
  rewrite (total_perm _ _ _ (obs_wait_perm _ _ HR)), (total_perm _ _ _ (obs_wait_perm _ _ HR')), (obs_fly_eq _ _ HR), (obs_fly_eq _ _ HR').
  rewrite <- !total_app. exact (run_total cfg h2 i _ HR Hf2 HA).
Qed.

(** * Emptying *)
Definition notin (l : list N) (m : message) : bool := negb (existsb (N.eqb (m_id m)) l).
Lemma a_ack : forall cfg S id, a_next cfg S (QoAck id) = mkSpec (without id (s_wait S)) (without id (s_fly S)) (s_dead S).
Proof.
  intros cfg S id. unfold a_next. cbn [a_step]. destruct (find_id id (s_wait S ++ s_fly S)) eqn:E; [reflexivity|].
  assert (H : ~ In id (ids (s_wait S ++ s_fly S))).
  { intro Hi. apply in_map_iff in Hi. destruct Hi as [m [He Hm]]. unfold find_id in E.
    pose proof (find_none _ _ E m Hm) as H. cbn beta in H. rewrite He, N.eqb_refl in H. discriminate. }
  rewrite ids_app, in_app_iff in H. rewrite !without_notin by tauto. destruct S; reflexivity.
Qed.
Lemma a_acks : forall cfg l S, let T := a_run cfg S (map QoAck l) in
  s_wait T = filter (notin l) (s_wait S) /\ s_fly T = filter (notin l) (s_fly S) /\ s_dead T = s_dead S /\
  flat_map ret (a_outs cfg S (map QoAck l)) = [].
Proof.
  intros cfg l; induction l as [|id l IH]; intros S T; subst T; cbn [map].
  - cbn [a_run a_outs flat_map]. repeat split; symmetry; apply filter_true_id; auto.
  - change (a_run cfg S (QoAck id :: map QoAck l)) with (a_run cfg (a_next cfg S (QoAck id)) (map QoAck l)).
    cbn [a_outs flat_map]. destruct (IH (a_next cfg S (QoAck id))) as [H1 [H2 [H3 H4]]].
    rewrite H1, H2, H3, H4, a_ack. cbn [s_wait s_fly s_dead]. rewrite app_nil_r.
    assert (HF : forall w, filter (notin l) (without id w) = filter (notin (id :: l)) w).
    { intro w. unfold without. rewrite filter_filter. apply filter_ext. intro m. unfold notin. cbn [existsb].
      destruct (m_id m =? id), (existsb (N.eqb (m_id m)) l); reflexivity. }
    rewrite !HF. repeat split. apply (ret_notake cfg S (QoAck id) eq_refl).
Qed.
Lemma notin_none : forall l w, (forall x, In x (ids w) -> ~ In x l) -> filter (notin l) w = w.
Proof.
  intros l w H. apply filter_true_id. intros m Hm. unfold notin. apply negb_true_iff.
  destruct (existsb (N.eqb (m_id m)) l) eqn:E; auto. apply existsb_exists in E. destruct E as [y [Hy He]].
  apply N.eqb_eq in He. subst y. exfalso. apply (H (m_id m)); auto. apply ids_In; auto.
Qed.
Lemma notin_all : forall w, filter (notin (ids w)) w = [].
Proof.
  intro w. assert (H : forall l, (forall x, In x (ids l) -> In x (ids w)) -> filter (notin (ids w)) l = []).
  { induction l as [|m l IH]; intro H; auto. cbn [filter]. assert (E : notin (ids w) m = false).
    { unfold notin. apply negb_false_iff, existsb_exists. exists (m_id m). split; [apply H; left; reflexivity|apply N.eqb_refl]. }
    rewrite E. apply IH. intros x Hx. apply H. right; auto. }
  apply H; auto.
Qed.
Lemma fresh_from_nopush : forall S h, SInv S -> pushed h = [] -> fresh_from S h.
Proof. intros S h HI H. unfold fresh_from, fresh. rewrite H. split; [constructor|intros x []]. Qed.
Lemma round_spec : forall cfg i S max clk, RI i S ->
  let round := QoConsume max clk :: acks (qouts cfg i (QoConsume max clk)) in
  let T := a_run cfg S round in
  pushed round = [] /\ RI (qrun cfg i round) T /\ outs cfg i round = a_outs cfg S round /\
  map body_of (flat_map ret (outs cfg i round)) = map body_of (takeN max (dsort (s_wait S))) /\
  dsort (s_wait T) = dropN max (dsort (s_wait S)) /\ Permutation (s_fly T) (s_fly S) /\ s_dead T = s_dead S.
Proof.
  intros cfg i S max clk HR round T.
  assert (HP : pushed round = []).
  { subst round. unfold pushed. cbn [flat_map push_of app]. unfold acks. induction (ret _) as [|m l IH]; auto. }
  pose proof (RI_SInv _ _ HR) as HI.
  assert (Hf : fresh_from S round) by (apply fresh_from_nopush; auto).
  destruct (run_refines cfg round i S HR Hf) as [HR2 HO2].
  split; auto. split; auto. split; auto. rewrite HO2.
  destruct (fresh_from_cons cfg i S _ _ HR Hf) as [Ho _].
  destruct (step_refines cfg i S (QoConsume max clk) HR Ho) as [HR' HO].
  pose proof (SInv_nd_w _ HI) as Hnw.
  destruct (a_take_spec cfg clk (N.to_nat (N.min max (lenN (s_wait S)))) 0 S Hnw) as [H1 [H2 [H3 H4]]]; [unfold lenN; lia|].
  assert (HD : s_dead (a_next cfg S (QoConsume max clk)) = s_dead S).
  { unfold a_next. cbn [a_step]. generalize (N.to_nat (N.min max (lenN (s_wait S)))). intro n.
    assert (G : forall n k S0, s_dead (fst (a_take cfg n k clk S0)) = s_dead S0).
    { clear. induction n as [|n IH]; intros k S0; cbn [a_take]; auto. unfold a_pop. destruct (best (s_wait S0)) as [b|]; auto.
      match goal with |- context [a_take cfg n (Datatypes.S k) clk ?X] => specialize (IH (Datatypes.S k) X); destruct (a_take cfg n (Datatypes.S k) clk X) end.
      exact IH. }
    specialize (G n 0%nat S). destruct (a_take cfg n 0 clk S). exact G. }
  assert (Hlen : length (dsort (s_wait S)) = length (s_wait S)) by (apply Permutation_length, dsort_perm).
  assert (HT : firstn (N.to_nat (N.min max (lenN (s_wait S)))) (dsort (s_wait S)) = takeN max (dsort (s_wait S))).
  { unfold takeN, lenN. destruct (N.le_ge_cases max (N.of_nat (length (s_wait S)))).
    - rewrite N.min_l by auto. reflexivity.
    - rewrite N.min_r by auto. rewrite !firstn_all2 by lia. reflexivity. }
  assert (HDr : skipn (N.to_nat (N.min max (lenN (s_wait S)))) (dsort (s_wait S)) = dropN max (dsort (s_wait S))).
  { unfold dropN, lenN. destruct (N.le_ge_cases max (N.of_nat (length (s_wait S)))).
    - rewrite N.min_l by auto. reflexivity.
    - rewrite N.min_r by auto. rewrite !skipn_all2 by lia. reflexivity. }
  pose proof (RI_SInv _ _ HR') as HI'.
  set (S1 := a_next cfg S (QoConsume max clk)) in *.
  set (ms := ret (a_out cfg S (QoConsume max clk))) in *.
  assert (E1 : S1 = fst (a_take cfg (N.to_nat (N.min max (lenN (s_wait S)))) 0 clk S)).
  { subst S1. unfold a_next. cbn [a_step]. destruct (a_take cfg _ 0 clk S); reflexivity. }
  assert (E2 : ms = snd (a_take cfg (N.to_nat (N.min max (lenN (s_wait S)))) 0 clk S)).
  { subst ms. unfold a_out. cbn [a_step]. destruct (a_take cfg _ 0 clk S); reflexivity. }
  rewrite <- E1 in *. rewrite <- E2 in *.
  assert (ER : round = QoConsume max clk :: map QoAck (ids ms)).
  { subst round. unfold acks. rewrite HO. fold ms. unfold ids. rewrite map_map. reflexivity. }
  subst T. rewrite ER. clear ER HP Hf HR2 HO2. clear round.
  change (a_run cfg S (QoConsume max clk :: map QoAck (ids ms))) with (a_run cfg S1 (map QoAck (ids ms))).
  cbn [a_outs flat_map]. fold S1 ms.
  destruct (a_acks cfg (ids ms) S1) as [A1 [A2 [A3 A4]]]. rewrite A1, A2, A3, A4, app_nil_r.
  pose proof (SInv_nd_wf _ HI') as Hnwf. rewrite ids_app in Hnwf. apply NoDup_app_inv in Hnwf. destruct Hnwf as [_ [Hnf Hwf]].
  assert (Hms : forall x, In x (ids ms) -> In x (ids (s_fly S1))).
  { intros x Hx. eapply Permutation_in; [apply Permutation_map; symmetry; exact H4|]. rewrite map_app. apply in_or_app; auto. }
  rewrite (notin_none (ids ms) (s_wait S1)) by (intros x Hx Hm; exact (Hwf x Hx (Hms x Hm))).
  split; [|split; [|split]].
  - rewrite HT in H1. clear - H1. induction H1 as [|x m l l' [j [_ Hm]] HF IH]; auto. cbn [map]. rewrite IH, Hm. reflexivity.
  - rewrite H2. exact HDr.
  - rewrite (Permutation_filter' _ (notin (ids ms)) _ _ H4), filter_app, notin_all. cbn [app].
    rewrite notin_none; auto. intros x Hx Hm.
    assert (Hn : NoDup (ids (ms ++ s_fly S))) by (eapply Permutation_NoDup; [apply Permutation_map; exact H4|exact Hnf]).
    rewrite ids_app in Hn. apply NoDup_app_inv in Hn. destruct Hn as [_ [_ Hn]]. exact (Hn x Hm Hx).
  - exact HD.
Qed.
Lemma work_spec : forall cfg max clk n i S, RI i S ->
  lenN (s_wait S) <= N.of_nat n * max ->
  let w := work cfg max clk n i in
  pushed w = [] /\ exists T, RI (qrun cfg i w) T /\ s_wait T = [] /\ Permutation (s_fly T) (s_fly S) /\ s_dead T = s_dead S /\
  map body_of (flat_map ret (outs cfg i w)) = map body_of (dsort (s_wait S)).
Proof.
  intros cfg max clk n; induction n as [|n IH]; intros i S HR Hl.
  - cbn [work]. split; auto. assert (E : s_wait S = []) by (destruct (s_wait S); auto; unfold lenN in Hl; cbn [length] in Hl; lia).
    exists S. cbn [qrun outs flat_map]. rewrite E. auto.
  - cbn [work]. set (round := QoConsume max (clk (Datatypes.S n)) :: acks (qouts cfg i (QoConsume max (clk (Datatypes.S n))))).
    destruct (round_spec cfg i S max (clk (Datatypes.S n)) HR) as [P1 [P2 [P3 [P4 [P5 [P6 P7]]]]]]. fold round in P1, P2, P3, P4, P5, P6, P7.
    set (T := a_run cfg S round) in *.
    assert (Hlen : forall l, lenN (dsort l) = lenN l) by (intro l; unfold lenN; f_equal; apply Permutation_length, dsort_perm).
    assert (HlT : lenN (s_wait T) <= N.of_nat n * max).
    { rewrite <- Hlen, P5. assert (Hd : lenN (dropN max (dsort (s_wait S))) = lenN (dsort (s_wait S)) - max).
      { unfold dropN, lenN. rewrite skipn_length. lia. }
      rewrite Hd, Hlen. lia. }
    destruct (IH (qrun cfg i round) T P2 HlT) as [Q1 [T2 [Q2 [Q3 [Q4 [Q5 Q6]]]]]].
    split; [unfold pushed in *; rewrite flat_map_app, P1, Q1; reflexivity|].
    exists T2. rewrite qrun_app, outs_app, flat_map_app, map_app, P4, Q6, P5, <- map_app, takeN_dropN.
    split; [exact Q2|]. split; [exact Q3|]. split; [exact (perm_trans Q4 P6)|]. split; [congruence|reflexivity].
Qed.

(** * Several workers *)
(** how many messages a request asks for *)
Definition asks_for (o : qop) : N := match o with QoConsume max _ => max | QoPop _ => 1 | _ => 0 end.
Fixpoint asked (h : list qop) : N := match h with [] => 0 | o :: h' => asks_for o + asked h' end.
(** workers: requests for messages, and acks of messages that are not waiting *)
Fixpoint working (cfg : qconfig) (i : inner) (h : list qop) : Prop :=
  match h with
  | [] => True
  | o :: h' =>
      match o with
      | QoConsume _ _ | QoPop _ => True
      | QoAck id => ~ In id (map m_id (obs_wait i))
      | _ => False
      end /\ working cfg (qnext cfg i o) h'
  end.
Lemma takeN_plus : forall A (a b : N) (l : list A), takeN (a + b) l = takeN a l ++ takeN b (dropN a l).
Proof.
  intros A a b l. unfold takeN, dropN. rewrite N2Nat.inj_add. generalize (N.to_nat a) (N.to_nat b). clear.
  intros a; revert l; induction a as [|a IH]; intros l b; [reflexivity|]. destruct l as [|x l]; cbn [Nat.add firstn skipn app].
  - rewrite firstn_nil. reflexivity.
  - rewrite IH. reflexivity.
Qed.
Lemma dropN_plus : forall A (a b : N) (l : list A), dropN (a + b) l = dropN b (dropN a l).
Proof.
  intros A a b l. unfold dropN. rewrite N2Nat.inj_add. generalize (N.to_nat a) (N.to_nat b). clear.
  intros a; revert l; induction a as [|a IH]; intros l b; [reflexivity|]. destruct l as [|x l]; cbn [Nat.add skipn].
  - rewrite skipn_nil. reflexivity.
  - apply IH.
Qed.
Lemma take_spec : forall cfg clk n S, NoDup (ids (s_wait S)) ->
  let r := a_take cfg (N.to_nat (N.min n (lenN (s_wait S)))) 0 clk S in
  map body_of (snd r) = map body_of (takeN n (dsort (s_wait S))) /\ dsort (s_wait (fst r)) = dropN n (dsort (s_wait S)).
Proof.
  intros cfg clk n S Hnw r.
  destruct (a_take_spec cfg clk (N.to_nat (N.min n (lenN (s_wait S)))) 0 S Hnw) as [H1 [H2 _]]; [unfold lenN; lia|]. fold r in H1, H2.
  assert (Hlen : length (dsort (s_wait S)) = length (s_wait S)) by (apply Permutation_length, dsort_perm).
  assert (HT : firstn (N.to_nat (N.min n (lenN (s_wait S)))) (dsort (s_wait S)) = takeN n (dsort (s_wait S))).
  { unfold takeN, lenN. destruct (N.le_ge_cases n (N.of_nat (length (s_wait S)))).
    - rewrite N.min_l by auto. reflexivity.
    - rewrite N.min_r by auto. rewrite !firstn_all2 by lia. reflexivity. }
  assert (HD : skipn (N.to_nat (N.min n (lenN (s_wait S)))) (dsort (s_wait S)) = dropN n (dsort (s_wait S))).
  { unfold dropN, lenN. destruct (N.le_ge_cases n (N.of_nat (length (s_wait S)))).
    - rewrite N.min_l by auto. reflexivity.
    - rewrite N.min_r by auto. rewrite !skipn_all2 by lia. reflexivity. }
  rewrite HT in H1. rewrite HD in H2. split; [|exact H2].
  clear - H1. induction H1 as [|x m l l' [j [_ Hm]] HF IH]; auto. cbn [map]. rewrite IH, Hm. reflexivity.
Qed.
Lemma worker_step : forall cfg i S o, RI i S ->
  match o with QoConsume _ _ | QoPop _ => True | QoAck id => ~ In id (map m_id (obs_wait i)) | _ => False end ->
  map body_of (ret (a_out cfg S o)) = map body_of (takeN (asks_for o) (dsort (s_wait S))) /\
  dsort (s_wait (a_next cfg S o)) = dropN (asks_for o) (dsort (s_wait S)).
Proof.
  intros cfg i S o HR Ho. pose proof (SInv_nd_w _ (RI_SInv _ _ HR)) as Hnw.
  destruct o as [id payload prio now|now|max clk|id|id reason now|now1 now2|id|id|]; try contradiction; cbn [asks_for].
  - pose proof (take_spec cfg (fun _ => now) 1 S Hnw) as [H1 H2]. unfold a_out, a_next. cbn [a_step].
    destruct (s_wait S) as [|w ws] eqn:E.
    + unfold a_pop. rewrite E. cbn [best fst snd ret]. rewrite E. split; reflexivity.
    + replace (N.to_nat (N.min 1 (lenN (w :: ws)))) with 1%nat in * by (unfold lenN; cbn [length]; lia).
      cbn [a_take] in H1, H2. destruct (a_pop cfg now S) as [S' [m|]]; cbn [fst snd ret] in *; auto.
  - pose proof (take_spec cfg clk max S Hnw) as [H1 H2]. unfold a_out, a_next. cbn [a_step].
    destruct (a_take cfg (N.to_nat (N.min max (lenN (s_wait S)))) 0 clk S) as [S' ms]; cbn [fst snd ret] in *; auto.
  - rewrite (ret_notake cfg S (QoAck id) eq_refl), a_ack. cbn [s_wait]. rewrite without_notin; [split; reflexivity|].
    intro Hi. apply Ho. apply (obs_wait_ids _ _ id HR). exact Hi.
Qed.
Lemma workers_spec : forall cfg h i S, RI i S -> working cfg i h ->
  exists T, RI (qrun cfg i h) T /\ map body_of (handed cfg i h) = map body_of (takeN (asked h) (dsort (s_wait S))) /\
    dsort (s_wait T) = dropN (asked h) (dsort (s_wait S)).
Proof.
  intros cfg h; induction h as [|o h IH]; intros i S HR Hw.
  - exists S. split; [exact HR|split; reflexivity].
  - destruct Hw as [Ho Hw]. destruct (worker_step cfg i S o HR Ho) as [H1 H2].
    assert (Hf : op_fresh S o) by (destruct o; try contradiction; exact I).
    destruct (step_refines cfg i S o HR Hf) as [HR' HO].
    destruct (IH _ _ HR' Hw) as [T [T1 [T2 T3]]]. exists T. split; [exact T1|].
    cbn [asked]. rewrite takeN_plus, dropN_plus, <- H2, map_app, <- H1, <- T2. split; [|exact T3].
    unfold handed. cbn [outs flat_map]. rewrite map_app, HO. reflexivity.
Qed.
