(** Facts about every history of one queue. *)
From Verif Require Import LibBase LibMap QueueModel QueueSpec QueueObs QueueProofs QueueRefine QueueTrace.

(** messages waiting after a history, in the order in which they became waiting *)
Definition arrivals (cfg : qconfig) (h : list qop) : list message := s_wait (a_run cfg spec0 h).

(** * Dispatch order *)
Lemma step_out : forall cfg h o, fresh (h ++ [o]) ->
  qouts cfg (qrun cfg inner0 h) o = a_out cfg (a_run cfg spec0 h) o /\
  RI (qnext cfg (qrun cfg inner0 h) o) (a_next cfg (a_run cfg spec0 h) o).
Proof.
  intros cfg h o Hf. destruct (reach_app cfg h [o] Hf) as [HR Hf2].
  destruct (fresh_from_cons cfg _ _ _ _ HR Hf2) as [Ho _].
  destruct (step_refines cfg _ _ o HR Ho) as [H1 H2]. auto.
Qed.
Lemma fresh_snoc : forall h o, fresh h -> push_of o = [] -> fresh (h ++ [o]).
Proof.
  intros h o H Ho. unfold fresh, pushed in *. rewrite flat_map_app. simpl. rewrite Ho. rewrite !app_nil_r. auto.
Qed.
Lemma pop_out : forall cfg h now, fresh h ->
  qouts cfg (qrun cfg inner0 h) (QoPop now) =
  RMsg (option_map (delivered (due_at now (c_vt cfg))) (best (arrivals cfg h))).
Proof.
  intros cfg h now Hf. destruct (step_out cfg h (QoPop now) (fresh_snoc h (QoPop now) Hf eq_refl)) as [H _].
  rewrite H. unfold a_out, arrivals. simpl. unfold a_pop. destruct (best _); reflexivity.
Qed.
Lemma best_split : forall l b, best l = Some b ->
  exists l1 l2, l = l1 ++ b :: l2 /\ (forall x, In x l1 -> m_prio x < m_prio b) /\ (forall x, In x l2 -> m_prio x <= m_prio b).
Proof.
  induction l as [|x l IH]; simpl; intros b H; [discriminate|].
  destruct (best l) as [c|] eqn:E.
  - destruct (N.ltb_spec (m_prio x) (m_prio c)).
    + inversion H; subst. destruct (IH b eq_refl) as [l1 [l2 [H1 [H2 H3]]]]. subst l.
      exists (x :: l1), l2. split; auto. split; auto. intros y [<-|Hy]; auto.
    + inversion H; subst. exists [], l. split; auto. split; [intros y []|].
      destruct (best_spec _ _ E) as [_ [Hm _]]. intros y Hy. specialize (Hm y Hy). lia.
  - inversion H; subst. apply best_none in E. subst l. exists [], []. split; auto. split; intros y [].
Qed.
Lemma dispatch_order : forall cfg h now, fresh h ->
  let w := arrivals cfg h in
  let r := qouts cfg (qrun cfg inner0 h) (QoPop now) in
  (w = [] /\ r = RMsg None) \/
  exists w1 m w2, w = w1 ++ m :: w2 /\ r = RMsg (Some (delivered (due_at now (c_vt cfg)) m)) /\
    (forall x, In x w1 -> m_prio x < m_prio m) /\ (forall x, In x w2 -> m_prio x <= m_prio m).
Proof.
  intros cfg h now Hf w r. unfold r. rewrite pop_out by auto. fold w.
  destruct (best w) as [b|] eqn:E.
  - right. destruct (best_split _ _ E) as [l1 [l2 [H1 [H2 H3]]]]. exists l1, b, l2. auto.
  - left. apply best_none in E. auto.
Qed.

(** how one request changes the arrival order *)
Lemma a_take_wait_filter : forall cfg clk n i S,
  exists keep, ids (s_wait (fst (a_take cfg n i clk S))) = filter keep (ids (s_wait S)).
Proof.
  intros cfg clk n; induction n as [|n IH]; intros i S; simpl.
  - exists (fun _ => true). symmetry; apply filter_true_id; auto.
  - unfold a_pop. destruct (best (s_wait S)) as [m|]; simpl.
    + match goal with |- context [a_take cfg n (Datatypes.S i) clk ?T] => destruct (IH (Datatypes.S i) T) as [k Hk];
        destruct (a_take cfg n (Datatypes.S i) clk T) as [S2 ms] end. simpl in *.
      rewrite Hk, ids_without. unfold nrem. rewrite filter_filter. eauto.
    + exists (fun _ => true). symmetry; apply filter_true_id; auto.
Qed.
Lemma a_step_wait : forall cfg S o, SInv S -> op_fresh S o ->
  exists keep new, ids (s_wait (a_next cfg S o)) = filter keep (ids (s_wait S)) ++ new /\
    forall x, In x new -> ~ In x (ids (s_wait S)).
Proof.
  intros cfg S o HI Ho.
  assert (Hsame : forall l, l = filter (fun _ : N => true) l ++ []) by (intros; rewrite app_nil_r, filter_true_id; auto).
  assert (Hnil : forall x : N, In x [] -> ~ In x (ids (s_wait S))) by (intros x []).
  pose proof (SInv_nd_wf _ HI) as Hnwf. rewrite ids_app in Hnwf. apply NoDup_app_inv in Hnwf. destruct Hnwf as [_ [_ Hwf]].
  unfold a_next. destruct o as [id payload prio now|now|max clk|id|id reason now|now1 now2|id|id|]; cbn [a_step].
  - exists (fun _ => true), [id]. cbn [fst s_wait]. rewrite ids_app, filter_true_id by auto. split; auto.
    intros x [<-|[]]. simpl in Ho. rewrite ids_app, in_app_iff in Ho. tauto.
  - pose proof (a_take_wait_filter cfg (fun _ => now) 1 0 S) as [k Hk]. simpl in Hk.
    destruct (a_pop cfg now S) as [S' [m|]]; simpl in *; exists k, []; rewrite app_nil_r; auto.
  - pose proof (a_take_wait_filter cfg clk (N.to_nat (N.min max (lenN (s_wait S)))) 0 S) as [k Hk].
    destruct (a_take cfg _ 0 clk S) as [S' ms]; simpl in *; exists k, []; rewrite app_nil_r; auto.
  - destruct (find_id id _); cbn [fst s_wait].
    + exists (fun y => negb (y =? id)), []. rewrite app_nil_r, ids_without. auto.
    + eauto.
  - destruct (find_id id _) as [m|] eqn:E; [|cbn [fst]; eauto].
    destruct (exhausted cfg m); cbn [fst s_wait].
    + exists (fun y => negb (y =? id)), []. rewrite app_nil_r, ids_without. auto.
    + apply find_id_some in E. destruct E as [Hi Hid]. destruct (m_state m) eqn:Est; cbn [fst s_wait].
      * exists (fun _ => true), []. rewrite app_nil_r, filter_true_id by auto. split; auto.
        unfold ids; rewrite map_map; apply map_ext; intro y; destruct (m_id y =? id); auto.
      * exists (fun _ => true), [m_id m]. rewrite ids_app, filter_true_id by auto. split; auto.
        intros x [<-|[]] Hx. apply in_app_or in Hi. destruct Hi as [Hi|Hi].
        -- rewrite (si_w _ HI m Hi) in Est; discriminate.
        -- apply (Hwf (m_id m) Hx). apply ids_In; auto.
  - destruct (existsb _ _); cbn [fst s_wait]; [|eauto].
    exists (fun _ => true), (ids (map requeued (filter (fun m => negb (exhausted cfg m)) (filter (overdue now2) (s_fly S))))).
    rewrite ids_app, (filter_true_id _ (fun _ : N => true)) by auto. split; auto. intros x Hx Hx2. apply (Hwf x Hx2).
    unfold ids in Hx. rewrite map_map in Hx. simpl in Hx. apply ids_filter_in, ids_filter_in in Hx. exact Hx.
  - destruct (find _ (s_dead S)) as [d|] eqn:E; cbn [fst s_wait]; [|eauto].
    exists (fun _ => true), [d_id d]. rewrite ids_app, filter_true_id by auto. split; auto.
    intros x [<-|[]] Hx. apply find_some in E. destruct E as [E _].
    destruct HI as [HI _ _]. unfold all_ids in HI. apply NoDup_app_inv in HI. destruct HI as [_ [_ Hd]].
    apply (Hd (d_id d)); [rewrite ids_app; apply in_or_app; auto|]. apply (in_map d_id) in E; auto.
  - destruct (find _ (s_dead S)) as [d|] eqn:E; cbn [fst s_wait]; eauto.
  - cbn [fst s_wait]; eauto.
Qed.
Definition ahead (a b : N) (l : list N) : Prop := exists l1 l2, l = l1 ++ a :: l2 /\ ~ In b l1.
Lemma ahead_step : forall a b l keep new, ahead a b l -> In a (filter keep l ++ new) -> (forall x, In x new -> ~ In x l) ->
  ahead a b (filter keep l ++ new).
Proof.
  intros a b l keep new [l1 [l2 [Hl Hb]]] Ha Hn.
  assert (Hal : In a l) by (subst l; apply in_or_app; right; left; auto).
  apply in_app_or in Ha. destruct Ha as [Ha|Ha]; [|exfalso; apply (Hn a); auto].
  apply filter_In in Ha. destruct Ha as [_ Hk]. subst l. rewrite filter_app. simpl. rewrite Hk.
  exists (filter keep l1), (filter keep l2 ++ new). split; [rewrite <- app_assoc; reflexivity|].
  intro H; apply filter_In in H; tauto.
Qed.
Lemma obs_wait_ids : forall i S x, RI i S -> (In x (ids (obs_wait i)) <-> In x (ids (s_wait S))).
Proof.
  intros i S x H. split; intro Hx; eapply Permutation_in; try exact Hx; apply Permutation_map.
  - apply obs_wait_perm; auto.
  - symmetry; apply obs_wait_perm; auto.
Qed.
Lemma ahead_run : forall cfg a b h i S, RI i S -> fresh_from S h -> ahead a b (ids (s_wait S)) ->
  (forall h1 h2, h = h1 ++ h2 -> In a (ids (obs_wait (qrun cfg i h1)))) ->
  ahead a b (ids (s_wait (a_run cfg S h))).
Proof.
  intros cfg a b h; induction h as [|o h IH]; intros i S HR Hf Hah Hin; [exact Hah|].
  destruct (fresh_from_cons cfg i S o h HR Hf) as [Ho Hf'].
  destruct (step_refines cfg i S o HR Ho) as [HR' _].
  apply (IH (qnext cfg i o) (a_next cfg S o) HR' Hf').
  - destruct (a_step_wait cfg S o (RI_SInv _ _ HR) Ho) as [k [nw [He Hn]]].
    specialize (Hin [o] h eq_refl). simpl in Hin. apply (obs_wait_ids _ _ _ HR') in Hin.
    rewrite He in *. apply ahead_step; auto.
  - intros h1 h2 Hh. apply (Hin (o :: h1) h2). rewrite Hh; reflexivity.
Qed.
(** a message that started waiting later is only preferred for a higher priority *)
Lemma no_overtaking : forall cfg h1 h2 a b now m,
  fresh (h1 ++ h2) ->
  In a (map m_id (obs_wait (qrun cfg inner0 h1))) ->
  ~ In b (map m_id (obs_wait (qrun cfg inner0 h1))) ->
  (forall p q, h2 = p ++ q -> In a (map m_id (obs_wait (qrun cfg inner0 (h1 ++ p))))) ->
  qouts cfg (qrun cfg inner0 (h1 ++ h2)) (QoPop now) = RMsg (Some m) -> m_id m = b ->
  exists ma, In ma (obs_wait (qrun cfg inner0 (h1 ++ h2))) /\ m_id ma = a /\ m_prio ma < m_prio m.
Proof.
  intros cfg h1 h2 a b now m Hf Ha Hb Hst Hout Hid.
  destruct (reach_app cfg h1 h2 Hf) as [HR Hf2]. pose proof (reach cfg _ Hf) as HR2.
  assert (Hah : ahead a b (ids (s_wait (a_run cfg spec0 (h1 ++ h2))))).
  { rewrite a_run_app. apply (ahead_run cfg a b h2 (qrun cfg inner0 h1)); auto.
    - apply (obs_wait_ids _ _ _ HR) in Ha. apply in_split in Ha. destruct Ha as [l1 [l2 Hl]].
      exists l1, l2. split; auto. intro Hi. apply Hb. apply (obs_wait_ids _ _ _ HR). rewrite Hl. apply in_or_app; auto.
    - intros p q Hpq. rewrite <- qrun_app. eapply Hst; eauto. }
  rewrite pop_out in Hout by auto. unfold arrivals in Hout.
  set (w := s_wait (a_run cfg spec0 (h1 ++ h2))) in *.
  destruct (best w) as [mb|] eqn:E; [|discriminate]. simpl in Hout. inversion Hout as [Hm]. clear Hout.
  assert (Hmb : m_id mb = b) by (rewrite <- Hid, <- Hm; reflexivity).
  assert (Hpr : m_prio m = m_prio mb) by (rewrite <- Hm; reflexivity).
  destruct (best_split _ _ E) as [w1 [w2 [Hw [H1 H2]]]].
  assert (Hab : a <> b) by (intro; subst a; contradiction).
  destruct Hah as [l1 [l2 [Hl Hnb]]].
  assert (Hin : In a (ids w1)).
  { rewrite Hw, ids_app in Hl. simpl in Hl. rewrite Hmb in Hl. clear - Hl Hnb Hab. revert l1 Hl Hnb.
    induction (ids w1) as [|x r IH]; intros l1 Hl Hnb; simpl in *.
    - destruct l1 as [|y l1]; simpl in Hl; inversion Hl; subst; [contradiction|]. exfalso; apply Hnb; left; auto.
    - destruct l1 as [|y l1]; simpl in Hl; inversion Hl; subst; auto. right. apply (IH l1); auto.
      intro Hi; apply Hnb; right; auto. }
  unfold ids in Hin. apply in_map_iff in Hin. destruct Hin as [ma [Hma Hin]].
  exists ma. split; [|split; [auto|]].
  - eapply Permutation_in; [symmetry; apply (obs_wait_perm _ _ HR2)|]. fold w. rewrite Hw. apply in_or_app; auto.
  - apply H1; auto.
Qed.

(** * Batches *)
Fixpoint ins_desc (m : message) (l : list message) : list message :=
  match l with [] => [m] | x :: l' => if m_prio x <=? m_prio m then m :: x :: l' else x :: ins_desc m l' end.
Fixpoint dsort (l : list message) : list message :=
  match l with [] => [] | m :: l' => ins_desc m (dsort l') end.
Definition desc (l : list message) : Prop := StronglySorted (fun a b => m_prio b <= m_prio a) l.
Lemma ins_desc_perm : forall m l, Permutation (ins_desc m l) (m :: l).
Proof.
  intros m l; induction l as [|x l IH]; simpl; auto. destruct (m_prio x <=? m_prio m); auto.
  rewrite IH. apply perm_swap.
Qed.
Lemma dsort_perm : forall l, Permutation (dsort l) l.
Proof. induction l as [|m l IH]; simpl; auto. rewrite ins_desc_perm; auto. Qed.
Lemma ins_desc_sorted : forall m l, desc l -> desc (ins_desc m l).
Proof.
  intros m l; unfold desc; induction l as [|x l IH]; simpl; intro H; [repeat constructor|].
  inversion H as [|y l' Hs Hx]; subst. destruct (N.leb_spec (m_prio x) (m_prio m)).
  - constructor; auto. constructor; auto. eapply Forall_impl; [|exact Hx]. simpl; intros; lia.
  - constructor; auto. apply Forall_forall. intros y Hy.
    apply (Permutation_in _ (ins_desc_perm m l)) in Hy. destruct Hy as [<-|Hy]; [lia|]. rewrite Forall_forall in Hx; auto.
Qed.
Lemma dsort_sorted : forall l, desc (dsort l).
Proof. induction l as [|m l IH]; simpl; [constructor|apply ins_desc_sorted; auto]. Qed.
Lemma ins_desc_stable : forall k m l, filter (fun x => m_prio x =? k) (ins_desc m l) =
  (if m_prio m =? k then [m] else []) ++ filter (fun x => m_prio x =? k) l.
Proof.
  intros k m l; induction l as [|x l IH]; cbn [ins_desc filter].
  - destruct (m_prio m =? k); auto.
  - destruct (N.leb_spec (m_prio x) (m_prio m)) as [Hle|Hgt]; cbn [filter].
    + destruct (m_prio m =? k); auto.
    + rewrite IH. destruct (N.eqb_spec (m_prio m) k), (N.eqb_spec (m_prio x) k); auto. lia.
Qed.
Lemma dsort_stable : forall k l, filter (fun x => m_prio x =? k) (dsort l) = filter (fun x => m_prio x =? k) l.
Proof.
  intros k l; induction l as [|m l IH]; cbn [dsort filter]; auto.
  rewrite ins_desc_stable, IH. destruct (m_prio m =? k); auto.
Qed.
Lemma ins_desc_filter : forall P m l, desc l ->
  filter P (ins_desc m l) = if P m then ins_desc m (filter P l) else filter P l.
Proof.
  intros P m l; unfold desc; induction l as [|x l IH]; intro H; cbn [ins_desc filter].
  - destruct (P m); auto.
  - inversion H as [|y l' Hs Hx]; subst. destruct (N.leb_spec (m_prio x) (m_prio m)); cbn [filter].
    + destruct (P m) eqn:Em; auto. destruct (P x).
      * cbn [ins_desc]. destruct (N.leb_spec (m_prio x) (m_prio m)); [auto|lia].
      * assert (Hall : Forall (fun b => m_prio b <= m_prio m) (filter P l)).
        { apply Forall_forall. intros y Hy. apply filter_In in Hy. rewrite Forall_forall in Hx. specialize (Hx y (proj1 Hy)). lia. }
        destruct (filter P l) as [|y r]; cbn [ins_desc]; auto.
        apply Forall_cons_iff in Hall. destruct Hall as [Hy _]. destruct (N.leb_spec (m_prio y) (m_prio m)); [auto|lia].
    + rewrite IH by auto. destruct (P x), (P m); auto. cbn [ins_desc]. destruct (N.leb_spec (m_prio x) (m_prio m)); [lia|auto].
Qed.
Lemma dsort_filter : forall P l, dsort (filter P l) = filter P (dsort l).
Proof.
  intros P l; induction l as [|m l IH]; cbn [dsort filter]; auto.
  rewrite ins_desc_filter by apply dsort_sorted. destruct (P m); cbn [dsort]; rewrite IH; auto.
Qed.
Lemma best_dsort : forall l, best l = hd_error (dsort l).
Proof.
  induction l as [|m l IH]; cbn [best dsort]; auto. rewrite IH. destruct (dsort l) as [|b r]; cbn [hd_error ins_desc]; auto.
  destruct (N.leb_spec (m_prio b) (m_prio m)), (N.ltb_spec (m_prio m) (m_prio b)); auto; lia.
Qed.
Lemma dsort_nd : forall l, NoDup (ids l) -> NoDup (ids (dsort l)).
Proof. intros l H. eapply Permutation_NoDup; [apply Permutation_map; symmetry; apply dsort_perm|auto]. Qed.
Lemma dsort_without : forall m l, NoDup (ids l) -> best l = Some m -> dsort l = m :: dsort (without (m_id m) l).
Proof.
  intros m l Hn Hb. unfold without. rewrite dsort_filter. rewrite best_dsort in Hb. apply dsort_nd in Hn.
  destruct (dsort l) as [|x r]; [discriminate|]. simpl in Hb. inversion Hb; subst x. simpl.
  rewrite N.eqb_refl. simpl. f_equal. symmetry. inversion Hn as [|y l' Hx Hn']; subst. fold (without (m_id m) r).
  apply without_notin; auto.
Qed.
Lemma Forall2_impl' : forall A B (P Q : A -> B -> Prop) l l', (forall a b, P a b -> Q a b) -> Forall2 P l l' -> Forall2 Q l l'.
Proof. intros A B P Q l l' H HF; induction HF; constructor; auto. Qed.
Lemma a_take_spec : forall cfg clk n i S, NoDup (ids (s_wait S)) -> (n <= length (s_wait S))%nat ->
  let r := a_take cfg n i clk S in
  Forall2 (fun x m => exists j, (i <= j < i + n)%nat /\ m = delivered (due_at (clk j) (c_vt cfg)) x) (firstn n (dsort (s_wait S))) (snd r) /\
  dsort (s_wait (fst r)) = skipn n (dsort (s_wait S)) /\
  NoDup (ids (s_wait (fst r))) /\
  Permutation (s_fly (fst r)) (snd r ++ s_fly S).
Proof.
  intros cfg clk n; induction n as [|n IH]; intros i S Hn Hl; cbn zeta.
  - simpl. auto.
  - cbn [a_take]. unfold a_pop. destruct (best (s_wait S)) as [m|] eqn:E.
    2:{ apply best_none in E. rewrite E in Hl. simpl in Hl. lia. }
    destruct (best_spec _ _ E) as [Hi _]. pose proof (dsort_without m _ Hn E) as Hd.
    pose proof (without_length m _ Hn Hi) as Hlen.
    match goal with |- context [a_take cfg n (Datatypes.S i) clk ?T] =>
      destruct (IH (Datatypes.S i) T (NoDup_ids_without _ _ Hn)) as [H1 [H2 [H3 H4]]]; [cbn [s_wait]; lia|];
      destruct (a_take cfg n (Datatypes.S i) clk T) as [S2 ms] end.
    cbn [fst snd s_wait s_fly] in *. rewrite Hd. cbn [firstn skipn]. split; [|split; [|split]]; auto.
    + constructor.
      * exists i. split; [lia|auto].
      * eapply Forall2_impl'; [|exact H1]. intros a b [j [Hj Hb]]. exists j. split; [lia|auto].
    + rewrite H4, ins_dl_perm. simpl. symmetry. apply Permutation_middle.
Qed.

Lemma consume_spec : forall cfg h max clk, fresh h ->
  let i := qrun cfg inner0 h in
  exists ms order,
    qouts cfg i (QoConsume max clk) = RMsgs ms /\
    (* [order]: the waiting messages, highest priority first, arrival order within a priority *)
    Permutation order (arrivals cfg h) /\ desc order /\
    (forall p, filter (fun m => m_prio m =? p) order = filter (fun m => m_prio m =? p) (arrivals cfg h)) /\
    (* the batch is the first [max] of them *)
    map body_of ms = map body_of (takeN max order) /\
    (* the rest stays waiting *)
    Permutation (obs_wait (qnext cfg i (QoConsume max clk))) (dropN max order) /\
    Permutation (obs_fly (qnext cfg i (QoConsume max clk))) (ms ++ obs_fly i).
Proof.
  intros cfg h max clk Hf i. destruct (step_out cfg h (QoConsume max clk) (fresh_snoc h (QoConsume max clk) Hf eq_refl)) as [Hout HR'].
  pose proof (reach cfg h Hf) as HR. fold i in Hout, HR', HR. unfold arrivals. set (S := a_run cfg spec0 h) in *.
  pose proof (SInv_nd_w _ (RI_SInv _ _ HR)) as Hnw.
  destruct (a_take_spec cfg clk (N.to_nat (N.min max (lenN (s_wait S)))) 0 S Hnw) as [H1 [H2 [H3 H4]]]; [unfold lenN; lia|].
  unfold a_out, a_next in *. cbn [a_step] in *.
  pose proof (obs_fly_eq _ _ HR) as HF. pose proof (obs_fly_eq _ _ HR') as HF'. pose proof (obs_wait_perm _ _ HR') as HW'.
  destruct (a_take cfg (N.to_nat (N.min max (lenN (s_wait S)))) 0 clk S) as [S' ms]. cbn [fst snd] in *.
  exists ms, (dsort (s_wait S)). split; auto. split; [apply dsort_perm|]. split; [apply dsort_sorted|].
  split; [intro; apply dsort_stable|].
  assert (Hlen : length (dsort (s_wait S)) = length (s_wait S)) by (apply Permutation_length, dsort_perm).
  assert (HT : firstn (N.to_nat (N.min max (lenN (s_wait S)))) (dsort (s_wait S)) = takeN max (dsort (s_wait S))).
  { unfold takeN, lenN. destruct (N.le_ge_cases max (N.of_nat (length (s_wait S)))).
    - rewrite N.min_l by auto. reflexivity.
    - rewrite N.min_r by auto. rewrite !firstn_all2 by lia. reflexivity. }
  assert (HD : skipn (N.to_nat (N.min max (lenN (s_wait S)))) (dsort (s_wait S)) = dropN max (dsort (s_wait S))).
  { unfold dropN, lenN. destruct (N.le_ge_cases max (N.of_nat (length (s_wait S)))).
    - rewrite N.min_l by auto. reflexivity.
    - rewrite N.min_r by auto. rewrite !skipn_all2 by lia. reflexivity. }
  split; [|split; [rewrite HW'|rewrite HF, HF'; auto]].
  - rewrite HT in H1. clear - H1. induction H1 as [|x m l l' [j [_ Hm]] HF IH]; auto. cbn [map]. rewrite IH, Hm. reflexivity.
  - rewrite <- HD, <- H2. symmetry; apply dsort_perm.
Qed.
Lemma batch_ok : forall cfg h max clk, fresh h ->
  let i := qrun cfg inner0 h in
  exists ms, qouts cfg i (QoConsume max clk) = RMsgs ms /\
    lenN ms <= max /\ NoDup (map m_id ms) /\ desc ms /\
    (lenN ms < max -> obs_wait (qnext cfg i (QoConsume max clk)) = []) /\
    (forall m x, In m ms -> In x (obs_wait (qnext cfg i (QoConsume max clk))) -> m_prio x <= m_prio m) /\
    Permutation (map body_of (obs_wait i)) (map body_of (ms ++ obs_wait (qnext cfg i (QoConsume max clk)))).
Proof.
  intros cfg h max clk Hf i. destruct (consume_spec cfg h max clk Hf) as [ms [order [H1 [H2 [H3 [H4 [H5 [H6 H7]]]]]]]].
  fold i in H1, H6, H7. exists ms. split; auto.
  pose proof (reach cfg h Hf) as HR. fold i in HR.
  assert (Hlen : lenN ms = N.min max (lenN order)).
  { apply (f_equal lenN) in H5. unfold lenN in H5 at 1 2. rewrite !map_length in H5.
    change (N.of_nat (length ms)) with (lenN ms) in H5. rewrite H5. change (N.of_nat (length (takeN max order))) with (lenN (takeN max order)).
    apply lenN_takeN. }
  assert (Hids : map m_id ms = map m_id (takeN max order)).
  { apply (f_equal (map body_id)) in H5. rewrite !map_map in H5. exact H5. }
  assert (Hpr : map m_prio ms = map m_prio (takeN max order)).
  { apply (f_equal (map (fun b : body => snd (fst b)))) in H5. rewrite !map_map in H5. exact H5. }
  assert (Hnd : NoDup (ids order)).
  { eapply Permutation_NoDup; [apply Permutation_map; symmetry; exact H2|]. apply (SInv_nd_w _ (RI_SInv _ _ HR)). }
  assert (Hsplit : desc (takeN max order) /\ (forall m x, In m (takeN max order) -> In x (dropN max order) -> m_prio x <= m_prio m)).
  { rewrite <- (takeN_dropN _ max order) in H3. revert H3. generalize (takeN max order) (dropN max order). clear.
    unfold desc. induction l as [|y l IH]; intros r H; simpl in *.
    - split; [constructor|intros m x []].
    - inversion H as [|z l' Hs Hx]; subst. destruct (IH r Hs) as [A B]. split.
      + constructor; auto. rewrite Forall_forall in *. intros z Hz. apply Hx. apply in_or_app; auto.
      + intros m x [<-|Hm] Hxx; [|apply B; auto]. rewrite Forall_forall in Hx. apply Hx. apply in_or_app; auto. }
  destruct Hsplit as [Hd1 Hd2].
  split; [lia|]. split; [|split; [|split; [|split]]].
  - rewrite Hids. unfold ids in Hnd. rewrite <- (takeN_dropN _ max order), map_app in Hnd. apply NoDup_app_inv in Hnd; tauto.
  - clear - Hpr Hd1. unfold desc in *. revert Hpr Hd1. generalize (takeN max order). induction ms as [|m ms IH]; intros l He Hd; [constructor|].
    destruct l as [|x l]; [discriminate|]. simpl in He. inversion He as [[Hm Hl]]. inversion Hd as [|y l' Hs Hx]; subst.
    constructor; [eapply IH; eauto|]. rewrite Forall_forall in *. intros y Hy. rewrite Hm.
    apply (in_map m_prio) in Hy. rewrite Hl in Hy. apply in_map_iff in Hy. destruct Hy as [z [Hz Hy]]. rewrite <- Hz. auto.
  - intro Hlt. rewrite (dropN_all _ max order) in H6 by lia. apply Permutation_nil. symmetry; auto.
  - intros m x Hm Hx. apply (Permutation_in _ H6) in Hx. apply (in_map m_prio) in Hm. rewrite Hpr in Hm.
    apply in_map_iff in Hm. destruct Hm as [z [Hz Hm]]. rewrite <- Hz. auto.
  - rewrite map_app, H5, (Permutation_map body_of H6), <- map_app, takeN_dropN.
    apply Permutation_map. rewrite (obs_wait_perm _ _ HR). symmetry; auto.
Qed.

(** * Absent messages stay absent *)
Lemma ret_ids : forall cfg S o x, SInv S -> In x (ids (ret (a_out cfg S o))) -> In x (ids (s_wait S)).
Proof.
  intros cfg S o x HI. unfold a_out.
  destruct o as [id payload prio now|now|max clk|id|id reason now|now1 now2|id|id|]; cbn [a_step].
  - intros [].
  - unfold a_pop. destruct (best (s_wait S)) as [m|] eqn:E; simpl; [|intros []].
    intros [<-|[]]. destruct (best_spec _ _ E) as [Hi _]. apply (ids_In m); auto.
  - pose proof (a_take_spec cfg clk (N.to_nat (N.min max (lenN (s_wait S)))) 0 S (SInv_nd_w _ HI)) as H. cbn zeta in H.
    destruct H as [H _]; [unfold lenN; lia|].
    destruct (a_take cfg _ 0 clk S) as [S' ms]. simpl in *. intro Hx. unfold ids in Hx. apply in_map_iff in Hx.
    destruct Hx as [m [Hm Hx]].
    assert (HH : exists y, In y (firstn (N.to_nat (N.min max (lenN (s_wait S)))) (dsort (s_wait S))) /\ m_id y = m_id m).
    { clear - H Hx. induction H as [|a b l l' [j [_ Hb]] HF IH]; [contradiction|]. destruct Hx as [->|Hx].
      - exists a. split; [left; auto|]. rewrite Hb. reflexivity.
      - destruct (IH Hx) as [y [Hy1 Hy2]]. exists y; split; [right|]; auto. }
    destruct HH as [y [Hy1 Hy2]]. subst x. rewrite <- Hy2. apply ids_In.
    eapply Permutation_in; [apply dsort_perm|].
    rewrite <- (firstn_skipn (N.to_nat (N.min max (lenN (s_wait S)))) (dsort (s_wait S))). apply in_or_app; auto.
  - destruct (find_id _ _); intros [].
  - destruct (find_id _ _) as [m|]; [destruct (exhausted cfg m); [|destruct (m_state m)]|]; intros [].
  - destruct (existsb _ _); intros [].
  - destruct (find _ _); intros [].
  - destruct (find _ _); intros [].
  - intros [].
Qed.
Lemma all_ids_step : forall cfg S o x, SInv S -> In x (all_ids (a_next cfg S o)) -> In x (all_ids S) \/ In x (map body_id (push_of o)).
Proof.
  intros cfg S o x HI Hx. rewrite all_ids_bodies in *.
  assert (Hb : In x (map body_id (bodies S ++ push_of o))).
  { eapply Permutation_in; [apply Permutation_map; symmetry; apply (a_step_perm cfg S o HI)|].
    rewrite map_app, in_app_iff. auto. }
  rewrite map_app, in_app_iff in Hb. exact Hb.
Qed.
Lemma absent_forever : forall cfg h i S id, RI i S -> fresh_from S h -> ~ In id (all_ids S) ->
  ~ In id (map body_id (pushed h)) ->
  ~ In id (all_ids (a_run cfg S h)) /\ ~ In id (ids (flat_map ret (a_outs cfg S h))).
Proof.
  intros cfg h; induction h as [|o h IH]; intros i S id HR Hf Ha Hp; [simpl; auto|].
  destruct (fresh_from_cons cfg i S o h HR Hf) as [Ho Hf'].
  destruct (step_refines cfg i S o HR Ho) as [HR' _].
  unfold pushed in Hp. cbn [flat_map] in Hp. rewrite map_app, in_app_iff in Hp.
  destruct (IH _ _ id HR' Hf') as [H1 H2].
  - intro Hx. apply (all_ids_step _ _ _ _ (RI_SInv _ _ HR)) in Hx. tauto.
  - tauto.
  - split; [exact H1|]. cbn [a_outs flat_map]. rewrite ids_app, in_app_iff. intros [Hx|Hx]; [|tauto].
    apply (ret_ids _ _ _ _ (RI_SInv _ _ HR)) in Hx. apply Ha. unfold all_ids. rewrite ids_app, !in_app_iff. auto.
Qed.
Lemma all_ids_pushed : forall cfg h x, fresh h -> In x (all_ids (a_run cfg spec0 h)) -> In x (map body_id (pushed h)).
Proof.
  intros cfg h x Hf Hx. pose proof (conservation cfg h inner0 spec0 RI_empty (fresh_from0 _ Hf)) as HC. simpl in HC.
  rewrite all_ids_bodies in Hx. eapply Permutation_in; [apply Permutation_map; symmetry; exact HC|].
  rewrite map_app, in_app_iff; auto.
Qed.

(** * Ack *)
Definition listed (i : inner) (id : N) : Prop :=
  In id (map m_id (obs_wait i)) \/ In id (map m_id (obs_fly i)) \/ In id (map d_id (obs_dead i)).
Lemma listed_all_ids : forall i S id, RI i S -> (listed i id <-> In id (all_ids S)).
Proof.
  intros i S id HR. unfold listed, all_ids. rewrite ids_app, !in_app_iff.
  rewrite (obs_fly_eq _ _ HR), (obs_dead_eq _ _ HR). pose proof (obs_wait_ids _ _ id HR) as H. unfold ids, dids in *. tauto.
Qed.
Lemma ack_removes : forall cfg S id, SInv S -> a_out cfg S (QoAck id) = RBool true -> ~ In id (all_ids (a_next cfg S (QoAck id))).
Proof.
  intros cfg S id HI. unfold a_out, a_next. cbn [a_step]. destruct (find_id id _) as [m|] eqn:E; [|discriminate].
  intros _. cbn [fst]. unfold all_ids. cbn [s_wait s_fly s_dead]. rewrite in_app_iff, ids_app, in_app_iff, !ids_without_in.
  apply find_id_some in E. destruct E as [E1 E2]. destruct HI as [HI _ _]. apply NoDup_app_inv in HI. destruct HI as [_ [_ Hd]].
  intros [H|H]; [tauto|]. apply (Hd id); auto. rewrite <- E2. apply ids_In; auto.
Qed.
Lemma ack_permanent : forall cfg h1 id h2,
  fresh (h1 ++ QoAck id :: h2) ->
  qouts cfg (qrun cfg inner0 h1) (QoAck id) = RBool true ->
  let i1 := qnext cfg (qrun cfg inner0 h1) (QoAck id) in
  ~ In id (map m_id (flat_map ret (outs cfg i1 h2))) /\
  ~ listed (qrun cfg i1 h2) id /\
  qouts cfg (qrun cfg i1 h2) (QoAck id) = RBool false /\
  forall r now, qouts cfg (qrun cfg i1 h2) (QoNack id r now) = RBool false.
Proof.
  intros cfg h1 id h2 Hf Hout i1.
  destruct (reach_app cfg h1 (QoAck id :: h2) Hf) as [HR Hf2].
  destruct (fresh_from_cons cfg _ _ _ _ HR Hf2) as [Ho Hf3].
  destruct (step_refines cfg _ _ (QoAck id) HR Ho) as [HR1 Hout1]. rewrite Hout in Hout1. symmetry in Hout1.
  set (S := a_run cfg spec0 h1) in *. fold i1 in HR1.
  assert (Hin : In id (ids (s_wait S ++ s_fly S))).
  { unfold a_out in Hout1. cbn [a_step] in Hout1. destruct (find_id id _) as [m|] eqn:E; [|discriminate].
    apply find_id_some in E. destruct E as [E1 E2]. rewrite <- E2. apply ids_In; auto. }
  pose proof (ack_removes cfg S id (RI_SInv _ _ HR) Hout1) as Habs.
  assert (Hnp : ~ In id (map body_id (pushed h2))).
  { intro Hp. destruct Hf2 as [_ Hf2]. apply (Hf2 id); [exact Hp|]. unfold all_ids; apply in_or_app; auto. }
  destruct (run_refines cfg h2 i1 _ HR1 Hf3) as [HR2 HO].
  destruct (absent_forever cfg h2 i1 _ id HR1 Hf3 Habs Hnp) as [HA HB].
  assert (Hnone : find_id id (s_wait (a_run cfg (a_next cfg S (QoAck id)) h2) ++ s_fly (a_run cfg (a_next cfg S (QoAck id)) h2)) = None).
  { destruct (find_id _ _) as [m|] eqn:E; auto. apply find_id_some in E. destruct E as [E1 E2]. exfalso. apply HA.
    unfold all_ids. apply in_or_app; left. rewrite <- E2 at 1. apply ids_In; auto. }
  split; [rewrite HO; exact HB|]. split; [rewrite (listed_all_ids _ _ _ HR2); auto|]. split.
  - destruct (step_refines cfg _ _ (QoAck id) HR2 I) as [_ H]. rewrite H. unfold a_out; cbn [a_step]. rewrite Hnone. reflexivity.
  - intros r now. destruct (step_refines cfg _ _ (QoNack id r now) HR2 I) as [_ H]. rewrite H. unfold a_out; cbn [a_step]. rewrite Hnone. reflexivity.
Qed.

(** * No second delivery while in flight *)
(** requests that may end the current delivery of [id] with deadline [D] *)
Definition settles (id D : N) (o : qop) : Prop :=
  match o with
  | QoAck x => x = id
  | QoNack x _ _ => x = id
  | QoExpire _ now2 => D <= now2
  | _ => False
  end.
Lemma fly_stays : forall cfg S o m, SInv S -> op_fresh S o -> In m (s_fly S) -> ~ settles (m_id m) (dl m) o ->
  In m (s_fly (a_next cfg S o)) /\ ~ In (m_id m) (ids (ret (a_out cfg S o))).
Proof.
  intros cfg S o m HI Ho Hm Hs. split.
  - unfold a_next. destruct o as [id payload prio now|now|max clk|id|id reason now|now1 now2|id|id|]; cbn [a_step]; auto.
    + unfold a_pop. destruct (best (s_wait S)); cbn [fst s_fly]; auto. apply ins_dl_In; auto.
    + pose proof (a_take_spec cfg clk (N.to_nat (N.min max (lenN (s_wait S)))) 0 S (SInv_nd_w _ HI)) as H. cbn zeta in H.
      destruct H as [_ [_ [_ H]]]; [unfold lenN; lia|].
      destruct (a_take cfg _ 0 clk S) as [S' ms]. simpl in *. eapply Permutation_in; [symmetry; exact H|]. apply in_or_app; auto.
    + destruct (find_id id _); cbn [fst s_fly]; auto. apply without_In. simpl in Hs. split; [auto|congruence].
    + destruct (find_id id _) as [m0|]; [destruct (exhausted cfg m0); [|destruct (m_state m0)]|]; cbn [fst s_fly]; auto;
        apply without_In; simpl in Hs; (split; [auto|congruence]).
    + destruct (existsb _ _); cbn [fst s_fly]; auto. apply filter_In. split; auto. unfold overdue. simpl in Hs.
      apply negb_true_iff. apply N.leb_gt. lia.
    + destruct (find _ _); auto.
    + destruct (find _ _); auto.
  - intro Hx. apply (ret_ids _ _ _ _ HI) in Hx. pose proof (SInv_nd_wf _ HI) as Hn. rewrite ids_app in Hn.
    apply NoDup_app_inv in Hn. destruct Hn as [_ [_ Hd]]. apply (Hd _ Hx). apply ids_In; auto.
Qed.
Lemma fly_stays_run : forall cfg h i S m, RI i S -> fresh_from S h -> In m (s_fly S) ->
  (forall o, In o h -> ~ settles (m_id m) (dl m) o) ->
  In m (s_fly (a_run cfg S h)) /\ ~ In (m_id m) (ids (flat_map ret (a_outs cfg S h))).
Proof.
  intros cfg h; induction h as [|o h IH]; intros i S m HR Hf Hm Hs; [simpl; auto|].
  destruct (fresh_from_cons cfg i S o h HR Hf) as [Ho Hf'].
  destruct (step_refines cfg i S o HR Ho) as [HR' _].
  destruct (fly_stays cfg S o m (RI_SInv _ _ HR) Ho Hm (Hs o (or_introl eq_refl))) as [H1 H2].
  destruct (IH _ _ m HR' Hf' H1) as [H3 H4]; [intros; apply Hs; right; auto|].
  split; auto. cbn [a_outs flat_map]. rewrite ids_app, in_app_iff. tauto.
Qed.
Lemma ret_in_fly : forall cfg S o m, SInv S -> In m (ret (a_out cfg S o)) -> In m (s_fly (a_next cfg S o)) /\
  exists now x, m = delivered (due_at now (c_vt cfg)) x /\ In x (s_wait S) /\
    match o with QoPop n => now = n | QoConsume _ clk => exists j, now = clk j | _ => False end.
Proof.
  intros cfg S o m HI. unfold a_out, a_next.
  destruct o as [id payload prio now|now|max clk|id|id reason now|now1 now2|id|id|]; cbn [a_step].
  - intros [].
  - unfold a_pop. destruct (best (s_wait S)) as [b|] eqn:E; simpl; [|intros []]. intros [<-|[]].
    split; [apply ins_dl_In; auto|]. destruct (best_spec _ _ E) as [Hi _]. exists now, b. auto.
  - pose proof (a_take_spec cfg clk (N.to_nat (N.min max (lenN (s_wait S)))) 0 S (SInv_nd_w _ HI)) as H. cbn zeta in H.
    destruct H as [H1 [_ [_ H2]]]; [unfold lenN; lia|].
    destruct (a_take cfg _ 0 clk S) as [S' ms]. simpl in *. intro Hx. split.
    + eapply Permutation_in; [symmetry; exact H2|]. apply in_or_app; auto.
    + assert (HH : exists y j, In y (firstn (N.to_nat (N.min max (lenN (s_wait S)))) (dsort (s_wait S))) /\ m = delivered (due_at (clk j) (c_vt cfg)) y).
      { clear - H1 Hx. induction H1 as [|a b l l' [j [_ Hb]] HF IH]; [contradiction|]. destruct Hx as [->|Hx].
        - exists a, j. split; [left; auto|auto].
        - destruct (IH Hx) as [y [j' [Hy1 Hy2]]]. exists y, j'; split; [right|]; auto. }
      destruct HH as [y [j [Hy1 Hy2]]]. exists (clk j), y. split; auto. split; [|eauto].
      eapply Permutation_in; [apply dsort_perm|].
      rewrite <- (firstn_skipn (N.to_nat (N.min max (lenN (s_wait S)))) (dsort (s_wait S))). apply in_or_app; auto.
  - destruct (find_id _ _); intros [].
  - destruct (find_id _ _) as [x|]; [destruct (exhausted cfg x); [|destruct (m_state x)]|]; intros [].
  - destruct (existsb _ _); intros [].
  - destruct (find _ _); intros [].
  - destruct (find _ _); intros [].
  - intros [].
Qed.
Lemma no_double_delivery : forall cfg h1 o h2 m,
  fresh (h1 ++ o :: h2) ->
  In m (ret (qouts cfg (qrun cfg inner0 h1) o)) ->
  (forall x, In x h2 -> ~ settles (m_id m) (m_vis m) x) ->
  ~ In (m_id m) (map m_id (flat_map ret (outs cfg (qnext cfg (qrun cfg inner0 h1) o) h2))) /\
  In m (obs_fly (qrun cfg inner0 (h1 ++ o :: h2))).
Proof.
  intros cfg h1 o h2 m Hf Hret Hs.
  destruct (reach_app cfg h1 (o :: h2) Hf) as [HR Hf2].
  destruct (fresh_from_cons cfg _ _ _ _ HR Hf2) as [Ho Hf3].
  destruct (step_refines cfg _ _ o HR Ho) as [HR1 Hout1]. rewrite Hout1 in Hret.
  destruct (ret_in_fly cfg _ _ _ (RI_SInv _ _ HR) Hret) as [Hfly [now [x [Hm _]]]].
  assert (Hdl : dl m = m_vis m) by (rewrite Hm; reflexivity).
  destruct (fly_stays_run cfg h2 _ _ m HR1 Hf3 Hfly) as [H1 H2].
  { intros y Hy; rewrite Hdl; auto. }
  destruct (run_refines cfg h2 _ _ HR1 Hf3) as [HR2 HO].
  rewrite HO. split; [exact H2|]. rewrite qrun_app. change (qrun cfg (qrun cfg inner0 h1) (o :: h2)) with (qrun cfg (qnext cfg (qrun cfg inner0 h1) o) h2). rewrite (obs_fly_eq _ _ HR2). exact H1.
Qed.
Lemma delivery_deadline : forall cfg h o m, fresh (h ++ [o]) -> In m (ret (qouts cfg (qrun cfg inner0 h) o)) ->
  exists now, m_vis m = due_at now (c_vt cfg) /\ m_state m = InFlight (m_vis m) /\
    match o with QoPop n => now = n | QoConsume _ clk => exists j, now = clk j | _ => False end.
Proof.
  intros cfg h o m Hf Hret. destruct (reach_app cfg h [o] Hf) as [HR Hf2].
  destruct (step_out cfg h o Hf) as [Ho _]. rewrite Ho in Hret.
  destruct (ret_in_fly cfg _ _ _ (RI_SInv _ _ HR) Hret) as [_ [now [x [Hm [_ Hc]]]]].
  exists now. rewrite Hm. auto.
Qed.

(** * Timeouts *)
Lemma expire_exact : forall cfg h now1 now2, fresh h ->
  let i := qrun cfg inner0 h in
  let i' := qnext cfg i (QoExpire now1 now2) in
  let due m := match m_state m with InFlight t => t <=? now2 | Ready => false end in
  (if existsb (fun m => match m_state m with InFlight t => t <=? now1 | Ready => false end) (obs_fly i)
   then
     obs_fly i' = filter (fun m => negb (due m)) (obs_fly i) /\
     Permutation (obs_wait i')
       (obs_wait i ++ map requeued (filter (fun m => due m && (m_att m <? c_max cfg)) (obs_fly i))) /\
     obs_dead i' = obs_dead i ++
       map (fun m => dead_letter m timed_out now2) (filter (fun m => due m && (c_max cfg <=? m_att m)) (obs_fly i)) /\
     arrivals cfg (h ++ [QoExpire now1 now2]) =
       arrivals cfg h ++ map requeued (filter (fun m => due m && (m_att m <? c_max cfg)) (obs_fly i))
   else i' = i).
Proof.
  intros cfg h now1 now2 Hf i i' due.
  pose proof (reach cfg h Hf) as HR. fold i in HR.
  destruct (step_out cfg h (QoExpire now1 now2) (fresh_snoc h (QoExpire now1 now2) Hf eq_refl)) as [_ HR']. fold i i' in HR'.
  set (S := a_run cfg spec0 h) in *.
  assert (Hdue : forall n m, In m (s_fly S) -> match m_state m with InFlight t => t <=? n | Ready => false end = overdue n m).
  { intros n m Hm. destruct (si_f _ (RI_SInv _ _ HR) m Hm) as [t Ht]. unfold overdue, dl. rewrite Ht. reflexivity. }
  assert (HE : existsb (fun m => match m_state m with InFlight t => t <=? now1 | Ready => false end) (obs_fly i) = existsb (overdue now1) (s_fly S)).
  { rewrite (obs_fly_eq _ _ HR). clear - Hdue. induction (s_fly S) as [|m l IH]; auto. cbn [existsb].
    rewrite (Hdue now1 m) by (left; auto). rewrite IH; auto. intros; apply Hdue; right; auto. }
  rewrite HE. destruct (existsb (overdue now1) (s_fly S)) eqn:Ex.
  - unfold arrivals. rewrite a_run_app. fold S. cbn [a_run fold_left].
    rewrite (obs_fly_eq _ _ HR'), (obs_fly_eq _ _ HR), (obs_dead_eq _ _ HR'), (obs_dead_eq _ _ HR).
    rewrite (obs_wait_perm _ _ HR'), (obs_wait_perm _ _ HR).
    unfold a_next. cbn [a_step]. rewrite Ex. cbn [fst s_wait s_fly s_dead].
    assert (H1 : filter (fun m => due m && (m_att m <? c_max cfg)) (s_fly S) = filter (fun m => negb (exhausted cfg m)) (filter (overdue now2) (s_fly S))).
    { rewrite filter_filter. apply filter_ext_in'. intros m Hm. unfold due. rewrite Hdue by auto. unfold exhausted. rewrite N.leb_antisym.
      rewrite negb_involutive. apply andb_comm. }
    assert (H2 : filter (fun m => due m && (c_max cfg <=? m_att m)) (s_fly S) = filter (exhausted cfg) (filter (overdue now2) (s_fly S))).
    { rewrite filter_filter. apply filter_ext_in'. intros m Hm. unfold due. rewrite Hdue by auto. apply andb_comm. }
    rewrite H1, H2. split; [|auto]. apply filter_ext_in'. intros m Hm. unfold due. rewrite Hdue by auto. reflexivity.
  - unfold i', qnext. cbn [qstep]. pose proof (overdue_first now1 _ _ _ (ri_q _ _ HR)) as Hov. rewrite Ex in Hov.
    destruct (next_inflight_timeout (i_state i)) as [ts|]; [rewrite Hov|]; reflexivity.
Qed.
