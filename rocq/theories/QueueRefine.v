(** Refinement, continued: nack, timeouts, DLQ and whole histories. *)
From Verif Require Import LibBase LibMap QueueModel QueueSpec QueueProofs.

Lemma RS_nd_w : forall s w f, RS s w f -> NoDup (ids w).
Proof. intros s w f HR. pose proof (r_nd _ _ _ _ _ HR) as Hn. rewrite ids_app in Hn. apply NoDup_app_inv in Hn; tauto. Qed.
Lemma RS_nd_f : forall s w f, RS s w f -> NoDup (ids f).
Proof. intros s w f HR. pose proof (r_nd _ _ _ _ _ HR) as Hn. rewrite ids_app in Hn. apply NoDup_app_inv in Hn; tauto. Qed.

Lemma reg_get_set_same : forall id m s, reg_get id (reg_set id m s) = Some m.
Proof. intros; unfold reg_get, reg_set; simpl. apply (aget_aset_same N.eqb N.eqb_eq). Qed.
Lemma in_map_upd : forall m m' l, In m l -> In m' (map (fun x => if m_id x =? m_id m then m' else x) l).
Proof. intros m m' l H. apply in_map_iff. exists m. rewrite N.eqb_refl. auto. Qed.

Lemma map_upd_upd : forall id (a b : message) l, m_id a = id ->
  map (fun x => if m_id x =? id then b else x) (map (fun x => if m_id x =? id then a else x) l) =
  map (fun x => if m_id x =? id then b else x) l.
Proof.
  intros id a b l Ha. rewrite map_map. apply map_ext. intros x.
  destruct (N.eqb_spec (m_id x) id) as [He|Hn].
  - rewrite Ha, N.eqb_refl. reflexivity.
  - destruct (N.eqb_spec (m_id x) id); [contradiction|reflexivity].
Qed.
Lemma nack_ok : forall cfg s w f dd id reason now, RS s w f ->
  exists s' rq dq, q_nack id reason (c_max cfg) now s = (s', rq, dq) /\
  let r := a_step cfg (mkSpec w f dd) (QoNack id reason now) in
  RS s' (s_wait (fst r)) (s_fly (fst r)) /\
  match rq, dq with
  | Some _, _ => snd r = RBool true /\ s_dead (fst r) = dd
  | None, Some d => snd r = RBool true /\ s_dead (fst r) = dd ++ [d] /\ d_id d = id /\ getr s id <> None
  | None, None => snd r = RBool false /\ s_dead (fst r) = dd
  end.
Proof.
  intros cfg s w f dd id reason now HR. unfold q_nack. unfold reg_get at 1. fold (getr s id).
  cbn [a_step s_wait s_fly s_dead]. rewrite <- (RQ_find _ _ _ _ _ id HR).
  destruct (getr s id) as [m|] eqn:Eg; [|eexists; eexists; eexists; split; [reflexivity|simpl; auto]].
  set (m1 := set_reason (Some reason) m).
  unfold exhausted. destruct (RS_cases _ _ _ _ _ HR Eg) as [Hid Hc]. subst id.
  destruct Hc as [[Hi Hst]|[Hi [t Hst]]].
  - (* waiting *)
    pose proof (reg_set_w_ok s w f m m1 HR Hi eq_refl eq_refl Hst) as HR1.
    destruct (c_max cfg <=? m_att m).
    + pose proof (delete_ok _ _ _ (m_id m) HR1) as HD.
      rewrite (getr_set (m_id m) m1 s), upd_same in HD. destruct HD as [HD1 HD2].
      destruct (delete_message (m_id m) (reg_set (m_id m) m1 s)) as [s1 o]; simpl in *; subst o.
      eexists; eexists; eexists; split; [reflexivity|]. simpl.
      rewrite without_map_upd in HD2 by reflexivity. split; [exact HD2|]. split; [auto|split; [auto|split; [auto|discriminate]]].
    + rewrite Hst. unfold transition_to. rewrite reg_get_set_same. unfold m1 at 1; cbn [m_state set_reason]. rewrite Hst.
      cbn [mstate_eqb]. rewrite reg_get_set_same. eexists; eexists; eexists; split; [reflexivity|]. simpl. split; auto.
      pose proof (reg_set_w_ok _ _ _ m1 (set_vis 0 m1) HR1 (in_map_upd m m1 w Hi) eq_refl eq_refl Hst) as HR2.
      change (m_id m1) with (m_id m) in HR2. rewrite map_upd_upd in HR2 by reflexivity.
      rewrite <- (map_upd_ext (m_id m) (set_vis 0 m1) _ m w); auto.
      * eapply RS_nd_w; eauto.
      * unfold m1, requeued, set_vis, set_state, set_reason; simpl. rewrite Hst. reflexivity.
  - (* in flight *)
    pose proof (reg_set_f_ok s w f m m1 HR Hi eq_refl eq_refl) as HR1.
    destruct (c_max cfg <=? m_att m).
    + pose proof (delete_ok _ _ _ (m_id m) HR1) as HD.
      rewrite (getr_set (m_id m) m1 s), upd_same in HD. destruct HD as [HD1 HD2].
      destruct (delete_message (m_id m) (reg_set (m_id m) m1 s)) as [s1 o]; simpl in *; subst o.
      eexists; eexists; eexists; split; [reflexivity|]. simpl.
      rewrite without_map_upd in HD2 by reflexivity. split; [exact HD2|]. split; [auto|split; [auto|split; [auto|discriminate]]].
    + rewrite Hst.
      destruct (requeue_ok _ _ _ m1 HR1 (in_map_upd m m1 f Hi)) as [s1 [H1 [H2 H3]]].
      change (m_id m1) with (m_id m) in *. rewrite H1, H2.
      eexists; eexists; eexists; split; [reflexivity|]. simpl. split; auto.
      rewrite without_map_upd in H3 by reflexivity. exact H3.
Qed.

Definition minus (l : list message) (xs : list N) : list message := filter (fun m => negb (nmem (m_id m) xs)) l.
Lemma minus_nil : forall l, minus l [] = l.
Proof. intros; apply filter_true_id; auto. Qed.
Lemma minus_cons : forall l x xs, minus (without x l) xs = minus l (x :: xs).
Proof.
  intros l x xs; unfold minus, without. rewrite filter_filter. apply filter_ext. intros m.
  unfold nmem; simpl. rewrite (N.eqb_sym x). destruct (m_id m =? x); simpl; auto. apply andb_false_r. apply andb_true_r.
Qed.

Lemma requeue_all : forall l s out w f, RS s w f -> (forall m, In m l -> In m f) -> NoDup (ids l) ->
  exists s', fold_left requeue_one (ids l) (s, out) = (s', out ++ map requeued l) /\
    RS s' (w ++ map requeued l) (minus f (ids l)).
Proof.
  induction l as [|m l IH]; intros s out w f HR Hin Hn.
  - exists s. simpl. rewrite !app_nil_r, minus_nil. auto.
  - inversion Hn as [|x l' Hx Hn']; subst.
    destruct (requeue_ok s w f m HR (Hin m (or_introl eq_refl))) as [s1 [H1 [H2 H3]]].
    cbn [ids map fold_left]. unfold requeue_one at 2. rewrite H1, H2.
    destruct (IH (reg_set (m_id m) (requeued m) s1) (out ++ [requeued m]) _ _ H3) as [s' [HA HB]].
    + intros y Hy. apply without_In. split; [apply Hin; right; auto|]. intro He. apply Hx. rewrite <- He; apply ids_In; auto.
    + auto.
    + exists s'. split.
      * unfold ids in HA. change (set_vis 0 (set_state Ready m)) with (requeued m). rewrite HA.
        rewrite <- app_assoc; reflexivity.
      * rewrite <- app_assoc in HB. rewrite minus_cons in HB. exact HB.
Qed.
Lemma dlq_all : forall now l s out w f, RS s w f -> (forall m, In m l -> In m f) -> NoDup (ids l) ->
  exists s', fold_left (dlq_one now) (ids l) (s, out) = (s', out ++ map (fun m => from_message m timeout_reason now) l) /\
    RS s' w (minus f (ids l)).
Proof.
  intros now; induction l as [|m l IH]; intros s out w f HR Hin Hn.
  - exists s. simpl. rewrite !app_nil_r, minus_nil. auto.
  - inversion Hn as [|x l' Hx Hn']; subst.
    pose proof (Hin m (or_introl eq_refl)) as Hm.
    destruct (r_f _ _ _ _ _ HR m Hm) as [[t Hst] Hg].
    cbn [ids map fold_left]. unfold dlq_one at 2. unfold reg_get. fold (getr s (m_id m)). rewrite Hg, Hst. cbn [q_reg q_disp q_ack].
    match goal with |- context [mkQ ?a ?b ?c] => set (s1 := mkQ a b c) end.
    assert (H3 : RS s1 w (without (m_id m) f)).
    { unfold RS, s1; cbn [q_reg q_disp q_ack]. pose proof (RQ_del_f _ _ _ _ _ m HR Hm) as H. unfold dl in H; rewrite Hst in H.
      eapply RQ_ext; [|exact H]. intro x; symmetry; apply (getr_del (m_id m) s). }
    destruct (IH s1 (out ++ [from_message m timeout_reason now]) _ _ H3) as [s' [HA HB]].
    + intros y Hy. apply without_In. split; [apply Hin; right; auto|]. intro He. apply Hx. rewrite <- He; apply ids_In; auto.
    + auto.
    + exists s'. split.
      * unfold ids in HA. rewrite HA. rewrite <- app_assoc; reflexivity.
      * rewrite minus_cons in HB. exact HB.
Qed.
Lemma filter_ids : forall (P : N -> bool) (Q : message -> bool) l, (forall m, In m l -> P (m_id m) = Q m) ->
  filter P (ids l) = ids (filter Q l).
Proof.
  intros P Q l; induction l as [|m l IH]; simpl; intro H; auto.
  rewrite (H m) by auto. destruct (Q m); simpl; rewrite IH; auto.
Qed.
Lemma NoDup_ids_filter : forall P l, NoDup (ids l) -> NoDup (ids (filter P l)).
Proof.
  intros P l; induction l as [|m l IH]; simpl; intro H; auto. inversion H as [|x l' Hx Hn]; subst.
  destruct (P m); simpl; auto. constructor; auto. intro Hi. apply Hx.
  unfold ids in *. apply in_map_iff in Hi. destruct Hi as [y [Hy Hi]]. apply filter_In in Hi.
  apply in_map_iff; exists y; tauto.
Qed.
Lemma minus_filter : forall (P : message -> bool) l, NoDup (ids l) ->
  minus l (ids (filter P l)) = filter (fun m => negb (P m)) l.
Proof.
  intros P l Hn. apply filter_ext_in'. intros m Hm. f_equal.
  destruct (P m) eqn:E.
  - apply nmem_In. apply ids_In. apply filter_In; auto.
  - apply nmem_false. intro Hi. unfold ids in Hi. apply in_map_iff in Hi. destruct Hi as [y [Hy Hi]].
    apply filter_In in Hi. destruct Hi as [Hi Hp]. assert (y = m) by (eapply (NoDup_ids_inj l); eauto). congruence.
Qed.
Lemma minus_sub : forall (P : message -> bool) l l2, NoDup (ids l) -> (forall m, In m l2 -> In m l) ->
  minus l2 (ids (filter P l)) = filter (fun m => negb (P m)) l2.
Proof.
  intros P l l2 Hn Hs. apply filter_ext_in'. intros m Hm. f_equal.
  destruct (P m) eqn:E.
  - apply nmem_In. apply ids_In. apply filter_In; auto.
  - apply nmem_false. intro Hi. unfold ids in Hi. apply in_map_iff in Hi. destruct Hi as [y [Hy Hi]].
    apply filter_In in Hi. destruct Hi as [Hi Hp]. assert (y = m) by (eapply (NoDup_ids_inj l); eauto). congruence.
Qed.
Lemma expired_ok : forall cfg now s w f, RS s w f ->
  let due := filter (overdue now) f in
  let back := map requeued (filter (fun m => negb (exhausted cfg m)) due) in
  let died := map (fun m => from_message m timeout_reason now) (filter (exhausted cfg) due) in
  exists s', process_expired (c_max cfg) now s = (s', back, died) /\
    RS s' (w ++ back) (filter (fun m => negb (overdue now m)) f).
Proof.
  intros cfg now s w f HR due back died. unfold process_expired.
  rewrite (overdue_keyed dl now (q_ack s) f) by (try apply (r_aok _ _ _ _ _ HR); try apply (r_ak _ _ _ _ _ HR); apply (r_srt _ _ _ _ _ HR)).
  change (filter (fun m => dl m <=? now) f) with due.
  assert (Hget : forall m, In m due -> reg_get (m_id m) s = Some m).
  { intros m Hm. apply filter_In in Hm. apply (r_f _ _ _ _ _ HR m); tauto. }
  rewrite (filter_ids (fun id => is_retry (c_max cfg) id s) (fun m => negb (exhausted cfg m)) due)
    by (intros m Hm; unfold is_retry; rewrite (Hget m Hm); reflexivity).
  rewrite (filter_ids (fun id => is_dlq (c_max cfg) id s) (exhausted cfg) due)
    by (intros m Hm; unfold is_dlq; rewrite (Hget m Hm); reflexivity).
  pose proof (RS_nd_f _ _ _ HR) as Hnf.
  assert (Hnd : NoDup (ids due)) by (apply NoDup_ids_filter; auto).
  destruct (requeue_all (filter (fun m => negb (exhausted cfg m)) due) s [] w f HR) as [s1 [HA HB]].
  { intros m Hm. apply filter_In in Hm. destruct Hm as [Hm _]. apply filter_In in Hm; tauto. }
  { apply NoDup_ids_filter; auto. }
  rewrite HA. cbn [app].
  assert (Hm1 : forall m, In m f -> In m f) by auto.
  assert (E1 : minus f (ids (filter (fun m => negb (exhausted cfg m)) due)) =
               filter (fun m => negb (negb (exhausted cfg m) && overdue now m)) f).
  { unfold due. rewrite filter_filter. apply minus_filter; auto. }
  rewrite E1 in HB.
  destruct (dlq_all now (filter (exhausted cfg) due) s1 [] _ _ HB) as [s2 [HC HD]].
  { intros m Hm. apply filter_In in Hm. destruct Hm as [Hm He]. apply filter_In in Hm. destruct Hm as [Hm Ho].
    apply filter_In. split; auto. rewrite He. reflexivity. }
  { apply NoDup_ids_filter; auto. }
  rewrite HC. exists s2. split; [reflexivity|].
  assert (E2 : minus (filter (fun m => negb (negb (exhausted cfg m) && overdue now m)) f) (ids (filter (exhausted cfg) due)) =
               filter (fun m => negb (overdue now m)) f).
  { unfold due. rewrite filter_filter. rewrite (minus_sub _ f) by (auto; intros m Hm; apply filter_In in Hm; tauto).
    rewrite filter_filter. apply filter_ext. intros m. destruct (exhausted cfg m), (overdue now m); reflexivity. }
  rewrite E2 in HD. exact HD.
Qed.
Lemma overdue_first : forall now s w f, RS s w f ->
  match next_inflight_timeout s with Some ts => ts <=? now | None => false end = existsb (overdue now) f.
Proof.
  intros now s w f HR.
  pose proof (overdue_keyed dl now (q_ack s) f (proj1 (r_aok _ _ _ _ _ HR)) (r_ak _ _ _ _ _ HR) (r_srt _ _ _ _ _ HR)) as H.
  destruct (r_aok _ _ _ _ _ HR) as [_ Hne]. unfold next_inflight_timeout.
  assert (HE : existsb (overdue now) f = match filter (fun m => dl m <=? now) f with [] => false | _ => true end).
  { unfold overdue. clear. induction f as [|m f IH]; simpl; auto. destruct (dl m <=? now); simpl; auto. }
  rewrite HE. destruct (q_ack s) as [|[k q] ix]; simpl in H.
  - destruct (filter _ f); auto; discriminate.
  - apply Forall_cons_iff in Hne. destruct Hne as [Hq _]. simpl in Hq. destruct (k <=? now).
    + destruct q as [|x q]; [contradiction Hq; auto|]. destruct (filter _ f); auto; discriminate.
    + destruct (filter _ f); auto; discriminate.
Qed.

(** * The whole queue *)
Definition dids (l : list dlqmsg) : list N := map d_id l.
Record RI (i : inner) (S : qspec) : Prop := {
  ri_q : RS (i_state i) (s_wait S) (s_fly S);
  ri_d : s_dead S = avals (i_dlq i);
  ri_nd : NoDup (akeys (i_dlq i));
  ri_k : forall id d, In (id, d) (i_dlq i) -> d_id d = id;
  ri_x : forall id, In id (akeys (i_dlq i)) -> getr (i_state i) id = None }.

(** the pushed id is new *)
Definition op_fresh (S : qspec) (o : qop) : Prop :=
  match o with QoPush id _ _ _ => ~ In id (ids (s_wait S ++ s_fly S)) /\ ~ In id (dids (s_dead S)) | _ => True end.

Lemma akeys_dids : forall q, (forall id d, In (id, d) q -> d_id d = id) -> akeys q = dids (avals q).
Proof.
  intros q; induction q as [|[k d] q IH]; simpl; intro H; auto. f_equal.
  - symmetry; apply H; auto.
  - apply IH; intros; apply H; auto.
Qed.
Lemma getr_none_ids : forall s w f id, RS s w f -> (getr s id = None <-> ~ In id (ids (w ++ f))).
Proof.
  intros s w f id HR. rewrite (RQ_find _ _ _ _ _ id HR). unfold find_id. split.
  - intros H Hi. unfold ids in Hi. apply in_map_iff in Hi. destruct Hi as [m [Hm Hi]].
    apply (find_none _ _ H) in Hi. rewrite Hm, N.eqb_refl in Hi; discriminate.
  - intro H. destruct (find _ (w ++ f)) as [m|] eqn:E; auto. apply find_some in E. destruct E as [Hi He].
    apply N.eqb_eq in He. exfalso; apply H. rewrite <- He. apply ids_In; auto.
Qed.
Lemma dlq_find : forall q id, (forall id d, In (id, d) q -> d_id d = id) ->
  aget N.eqb id q = find (fun d => d_id d =? id) (avals q).
Proof.
  intros q id; induction q as [|[k d] q IH]; simpl; intro H; auto.
  rewrite (H k d) by auto. rewrite N.eqb_sym. destruct (k =? id); auto.
Qed.
Lemma dlq_del : forall q id, (forall id d, In (id, d) q -> d_id d = id) ->
  avals (dlq_remove id q) = dead_del id (avals q).
Proof.
  intros q id; unfold dlq_remove; induction q as [|[k d] q IH]; simpl; intro H; auto.
  rewrite (H k d) by auto. rewrite (N.eqb_sym id k). destruct (N.eqb_spec k id); simpl; rewrite IH; auto.
Qed.
Lemma avals_app : forall (a b : dlq), avals (a ++ b) = avals a ++ avals b.
Proof. intros; apply map_app. Qed.
Lemma dlq_push_fresh : forall d q, ~ In (d_id d) (akeys q) -> dlq_push d q = q ++ [(d_id d, d)].
Proof. intros; unfold dlq_push, aput. rewrite (adel_notin N.eqb N.eqb_eq) by auto. reflexivity. Qed.
Lemma dlq_push_all : forall l q, NoDup (akeys q ++ dids l) ->
  fold_left (fun q d => dlq_push d q) l q = q ++ map (fun d => (d_id d, d)) l.
Proof.
  induction l as [|d l IH]; intros q Hn; simpl; [rewrite app_nil_r; auto|].
  assert (Hf : ~ In (d_id d) (akeys q)).
  { intro Hi. apply NoDup_app_inv in Hn. destruct Hn as [_ [_ Hd]]. apply (Hd _ Hi). left; auto. }
  rewrite dlq_push_fresh by auto. rewrite IH.
  - rewrite <- app_assoc. reflexivity.
  - rewrite akeys_app, <- app_assoc. exact Hn.
Qed.

(** ids of the messages after one abstract step only shrink, except push/move *)
Lemma incl_getr_none : forall s w f s' w' f' id, RS s w f -> RS s' w' f' ->
  (forall x, In x (ids (w' ++ f')) -> In x (ids (w ++ f))) -> getr s id = None -> getr s' id = None.
Proof.
  intros s w f s' w' f' id H1 H2 Hi Hg. apply (getr_none_ids _ _ _ _ H2). intro Hx. apply Hi in Hx.
  apply (getr_none_ids _ _ _ _ H1) in Hg. contradiction.
Qed.
Lemma a_pop_ids : forall cfg now S x, In x (ids (s_wait (fst (a_pop cfg now S)) ++ s_fly (fst (a_pop cfg now S)))) ->
  In x (ids (s_wait S ++ s_fly S)).
Proof.
  intros cfg now S x. unfold a_pop. destruct (best (s_wait S)) as [m|] eqn:E; auto. simpl.
  destruct (best_spec _ _ E) as [Hi _].
  rewrite !ids_app, !in_app_iff. unfold ids. intros [H|H].
  - left. apply in_map_iff in H. destruct H as [y [Hy H]]. apply without_In in H. apply in_map_iff; exists y; tauto.
  - apply in_map_iff in H. destruct H as [y [Hy H]]. apply ins_dl_In in H. destruct H as [->|H].
    + left. subst x. apply (ids_In m); auto.
    + right. apply in_map_iff; exists y; tauto.
Qed.
Lemma a_take_ids : forall cfg clk n i S x, In x (ids (s_wait (fst (a_take cfg n i clk S)) ++ s_fly (fst (a_take cfg n i clk S)))) ->
  In x (ids (s_wait S ++ s_fly S)).
Proof.
  intros cfg clk n; induction n as [|n IH]; intros i S x; simpl; auto.
  pose proof (a_pop_ids cfg (clk i) S x) as HP. destruct (a_pop cfg (clk i) S) as [S' [m|]]; simpl in *; auto.
  specialize (IH (Datatypes.S i) S' x). destruct (a_take cfg n (Datatypes.S i) clk S') as [S2 ms]; simpl in *. auto.
Qed.
Lemma ids_without_in : forall id x l, In x (ids (without id l)) <-> In x (ids l) /\ x <> id.
Proof. intros; rewrite ids_without; apply nrem_In. Qed.
Lemma ids_filter_in : forall P x l, In x (ids (filter P l)) -> In x (ids l).
Proof.
  intros P x l H. unfold ids in *. apply in_map_iff in H. destruct H as [y [Hy H]]. apply filter_In in H.
  apply in_map_iff; exists y; tauto.
Qed.

Lemma step_refines : forall cfg i S o, RI i S -> op_fresh S o ->
  RI (qnext cfg i o) (a_next cfg S o) /\ qouts cfg i o = a_out cfg S o.
Proof.
  intros cfg i [w f dd] o [HQ HD HN HK HX] Hf. unfold qnext, qouts, a_next, a_out. cbn [s_wait s_fly s_dead] in *.
  assert (Hfind : forall id, getr (i_state i) id = find_id id (w ++ f)) by (intro; eapply RQ_find; eauto).
  destruct o as [id payload prio now|now|max clk|id|id reason now|now1 now2|id|id|]; cbn [qstep a_step].
  - (* push *)
    destruct Hf as [Hf1 Hf2]. cbn [fst snd s_wait s_fly s_dead i_state i_dlq]. split; [|auto].
    assert (HR : RS (q_push (msg_pushed id payload prio now) (i_state i)) (w ++ [msg_pushed id payload prio now]) f).
    { apply push_ok; auto. apply (getr_none_ids _ _ _ _ HQ); auto. }
    constructor; cbn [s_wait s_fly s_dead i_state i_dlq]; auto.
    intros x Hx. apply (getr_none_ids _ _ _ _ HR). intro Hi.
    specialize (HX x Hx). apply (getr_none_ids _ _ _ _ HQ) in HX. apply HX.
    rewrite !ids_app in *. rewrite !in_app_iff in *. simpl in Hi. destruct Hi as [[Hi|[Hi|[]]]|Hi]; auto.
    exfalso. apply Hf2. subst x. cbn [s_dead]. rewrite HD, <- akeys_dids; auto.
  - (* pop *)
    pose proof (pop_ok cfg _ _ _ dd now HQ) as HP. cbn zeta in HP. destruct HP as [HP1 [HP2 HP3]].
    pose proof (a_pop_ids cfg now (mkSpec w f dd)) as Hids.
    destruct (pop_single now (c_vt cfg) (i_state i)) as [s' r]. destruct (a_pop cfg now (mkSpec w f dd)) as [S' r'].
    cbn [fst snd] in *. subst r'. destruct r as [m|]; cbn [fst snd]; (split; [|auto]);
      (constructor; cbn [s_wait s_fly s_dead i_state i_dlq]; auto; [congruence|];
       intros x Hx; eapply incl_getr_none; [exact HQ|exact HP2| |auto]; exact Hids).
  - (* consume *)
    destruct (take_batch_ok cfg clk max _ _ _ dd HQ) as [s' [ms [H1 H2]]]. cbn zeta in H2. cbn [s_wait].
    pose proof (a_take_ids cfg clk (N.to_nat (N.min max (lenN w))) 0 (mkSpec w f dd)) as Hids.
    rewrite H1. destruct (a_take cfg _ 0 clk _) as [S' ms']. cbn [fst snd] in *.
    destruct H2 as [-> [HP2 HP3]]. split; [|auto].
    constructor; cbn [s_wait s_fly s_dead i_state i_dlq]; auto; [congruence|].
    intros x Hx; eapply incl_getr_none; [exact HQ|exact HP2| |auto]; exact Hids.
  - (* ack *)
    pose proof (delete_ok _ _ _ id HQ) as HDel. cbn [s_wait s_fly s_dead]. rewrite <- Hfind.
    destruct (getr (i_state i) id) as [m|] eqn:Eg.
    + destruct HDel as [HD1 HD2]. destruct (delete_message id (i_state i)) as [s' r]; simpl in HD1, HD2. subst r.
      cbn [fst snd]. split; [|auto]. constructor; cbn [s_wait s_fly s_dead i_state i_dlq]; auto.
      intros x Hx; eapply incl_getr_none; [exact HQ|exact HD2| |auto].
      intros y. rewrite !ids_app, !in_app_iff, !ids_without_in. tauto.
    + rewrite HDel. cbn [fst snd]. split; [|auto]. constructor; cbn [s_wait s_fly s_dead i_state i_dlq]; auto.
  - (* nack *)
    destruct (nack_ok cfg _ _ _ dd id reason now HQ) as [s' [rq [dq [H1 [H2 H3]]]]]. rewrite H1.
    assert (Hids : forall x, In x (ids (s_wait (fst (a_step cfg (mkSpec w f dd) (QoNack id reason now))) ++
                                       s_fly (fst (a_step cfg (mkSpec w f dd) (QoNack id reason now))))) ->
                   In x (ids (w ++ f)) /\ (snd (a_step cfg (mkSpec w f dd) (QoNack id reason now)) = RBool true ->
                                           s_dead (fst (a_step cfg (mkSpec w f dd) (QoNack id reason now))) <> dd -> x <> id)).
    { intro x. cbn [a_step s_wait s_fly s_dead]. rewrite <- Hfind. destruct (getr (i_state i) id) as [m|] eqn:Eg.
      - destruct (RS_cases _ _ _ _ _ HQ Eg) as [Hid Hc].
        destruct (exhausted cfg m); cbn [fst snd s_wait s_fly s_dead].
        + rewrite !ids_app, !in_app_iff, !ids_without_in. tauto.
        + destruct (m_state m) eqn:Est; cbn [fst snd s_wait s_fly s_dead].
          * replace (ids (map (fun x0 => if m_id x0 =? id then requeued (noted reason x0) else x0) w ++ f))
              with (ids (w ++ f)); [tauto|].
            rewrite !ids_app. f_equal. unfold ids. rewrite map_map. apply map_ext. intros y. destruct (m_id y =? id); reflexivity.
          * rewrite !ids_app, !in_app_iff, ids_without_in. cbn [ids map In]. intro Hx. split; [|tauto].
            destruct Hx as [[Hx|[Hx|[]]]|Hx]; try tauto. right. rewrite <- Hx.
            apply (ids_In m). destruct Hc as [[_ Hc]|[Hc _]]; [congruence|auto].
      - cbn [fst snd s_wait s_fly s_dead]. tauto. }
    cbn [a_step s_wait s_fly s_dead] in *.
    match goal with |- context [match find_id id (w ++ f) with Some _ => _ | None => _ end] => idtac end.
    set (r := match find_id id (w ++ f) with Some _ => _ | None => _ end) in *.
    destruct rq as [m|]; [|destruct dq as [d|]]; cbn [fst snd].
    + destruct H3 as [H3 H4]. rewrite H3. split; [|auto]. constructor; cbn [i_state i_dlq]; auto; [congruence|].
      intros x Hx. eapply incl_getr_none; [exact HQ|exact H2| |auto]. intros y Hy. apply Hids; auto.
    + destruct H3 as [H3 [H4 [H5 H6]]]. rewrite H3. split; [|auto].
      assert (Hfr : ~ In (d_id d) (akeys (i_dlq i))).
      { intro Hi. apply HX in Hi. rewrite H5 in Hi. contradiction. }
      constructor; cbn [i_state i_dlq]; auto.
      * rewrite H4, HD, dlq_push_fresh by auto. rewrite avals_app. reflexivity.
      * apply (NoDup_aput N.eqb N.eqb_eq); auto.
      * intros k d' Hk. rewrite dlq_push_fresh in Hk by auto. apply in_app_or in Hk. destruct Hk as [Hk|[Hk|[]]]; auto.
        inversion Hk; auto.
      * intros x Hx. unfold dlq_push in Hx. apply (akeys_aput_in N.eqb N.eqb_eq) in Hx. apply (getr_none_ids _ _ _ _ H2).
        intro Hi. apply Hids in Hi. destruct Hi as [Hi Hne]. destruct Hx as [->|Hx].
        -- apply Hne; auto. rewrite H4. intro He. apply (f_equal (@length _)) in He. rewrite app_length in He. simpl in He. lia.
        -- apply HX in Hx. apply (getr_none_ids _ _ _ _ HQ) in Hx. contradiction.
    + destruct H3 as [H3 H4]. rewrite H3. split; [|auto]. constructor; cbn [i_state i_dlq]; auto; [congruence|].
      intros x Hx. eapply incl_getr_none; [exact HQ|exact H2| |auto]. intros y Hy. apply Hids; auto.
  - (* expire *)
    pose proof (overdue_first now1 _ _ _ HQ) as Ho. cbn [s_fly s_wait s_dead]. rewrite <- Ho.
    destruct (next_inflight_timeout (i_state i)) as [ts|].
    2:{ cbn [fst snd]. split; [constructor; auto|auto]. }
    destruct (ts <=? now1); [|cbn [fst snd]; split; [constructor; auto|auto]].
    destruct (expired_ok cfg now2 _ _ _ HQ) as [s' [H1 H2]]. cbn zeta in H1, H2. rewrite H1. cbn [fst snd]. split; [|auto].
    assert (Hdidsin : forall x, In x (dids (map (fun m => dead_letter m timed_out now2) (filter (exhausted cfg) (filter (overdue now2) f)))) ->
      exists m, In m f /\ overdue now2 m = true /\ exhausted cfg m = true /\ m_id m = x).
    { intros x Hx. unfold dids in Hx. rewrite map_map in Hx. apply in_map_iff in Hx. destruct Hx as [m [Hm Hx]].
      apply filter_In in Hx. destruct Hx as [Hx He]. apply filter_In in Hx. exists m. simpl in Hm. tauto. }
    assert (Hnd : NoDup (akeys (i_dlq i) ++ dids (map (fun m => dead_letter m timed_out now2) (filter (exhausted cfg) (filter (overdue now2) f))))).
    { apply NoDup_app_intro; auto.
      - unfold dids. rewrite map_map. change (map (fun x => d_id (dead_letter x timed_out now2))) with ids.
        apply NoDup_ids_filter, NoDup_ids_filter. eapply RS_nd_f; eauto.
      - intros x Hx Hx2. apply HX in Hx. apply Hdidsin in Hx2. destruct Hx2 as [m [Hm [_ [_ He]]]].
        apply (getr_none_ids _ _ _ _ HQ) in Hx. apply Hx. rewrite ids_app, in_app_iff. right. rewrite <- He. apply ids_In; auto. }
    constructor; cbn [s_wait s_fly s_dead i_state i_dlq]; auto.
    + rewrite dlq_push_all by auto. rewrite avals_app, HD. f_equal. unfold avals. rewrite map_map. simpl. rewrite map_id. reflexivity.
    + rewrite dlq_push_all by auto. rewrite akeys_app. unfold akeys at 2. rewrite map_map. exact Hnd.
    + intros k d. rewrite dlq_push_all by auto. rewrite in_app_iff. intros [Hk|Hk]; auto.
      apply in_map_iff in Hk. destruct Hk as [d' [Hk _]]. inversion Hk; auto.
    + intros x. rewrite dlq_push_all by auto. rewrite akeys_app, in_app_iff. unfold akeys at 2. rewrite map_map. simpl.
      intros [Hx|Hx].
      * eapply incl_getr_none; [exact HQ|exact H2| |auto]. intros y. rewrite !ids_app, !in_app_iff.
        intros [[Hy|Hy]|Hy]; auto; [|apply ids_filter_in in Hy; auto].
        right. unfold ids in Hy. rewrite map_map in Hy. simpl in Hy. apply ids_filter_in, ids_filter_in in Hy. exact Hy.
      * apply Hdidsin in Hx. destruct Hx as [m [Hm [Hov [Hex He]]]]. apply (getr_none_ids _ _ _ _ H2). intro Hi.
        rewrite !ids_app, !in_app_iff in Hi. destruct Hi as [[Hi|Hi]|Hi].
        -- apply (RS_f_not_w _ _ _ m HQ Hm). rewrite He; auto.
        -- unfold ids in Hi. rewrite map_map in Hi. simpl in Hi. apply in_map_iff in Hi. destruct Hi as [y [Hy Hi]].
           apply filter_In in Hi. destruct Hi as [Hi Hnex]. apply filter_In in Hi. destruct Hi as [Hi _].
           assert (y = m) by (eapply (NoDup_ids_inj f); eauto; [eapply RS_nd_f; eauto|congruence]). subst y.
           rewrite Hex in Hnex; discriminate.
        -- unfold ids in Hi. apply in_map_iff in Hi. destruct Hi as [y [Hy Hi]].
           apply filter_In in Hi. destruct Hi as [Hi Hnov].
           assert (y = m) by (eapply (NoDup_ids_inj f); eauto; [eapply RS_nd_f; eauto|congruence]). subst y.
           rewrite Hov in Hnov; discriminate.
  - (* move *)
    cbn [s_dead s_wait s_fly]. rewrite HD. rewrite <- dlq_find by auto.
    destruct (aget N.eqb id (i_dlq i)) as [d|] eqn:Ed; cbn [fst snd]; (split; [|auto]).
    + apply (aget_In N.eqb N.eqb_eq) in Ed. pose proof (HK _ _ Ed) as Hid.
      assert (Hin : In id (akeys (i_dlq i))) by (unfold akeys; apply in_map_iff; exists (id, d); auto).
      assert (HR : RS (q_push (revived d) (i_state i)) (w ++ [revived d]) f).
      { apply push_ok; auto. simpl. rewrite Hid. apply HX; auto. }
      constructor; cbn [s_wait s_fly s_dead i_state i_dlq]; auto.
      * symmetry; apply dlq_del; auto.
      * apply (NoDup_adel N.eqb N.eqb_eq); auto.
      * intros k d' Hk. apply (adel_In N.eqb N.eqb_eq) in Hk. apply HK; tauto.
      * intros x Hx. apply (akeys_adel_in N.eqb N.eqb_eq) in Hx. destruct Hx as [Hx Hne].
        apply (getr_none_ids _ _ _ _ HR). rewrite !ids_app, !in_app_iff. simpl. rewrite Hid.
        apply HX in Hx. apply (getr_none_ids _ _ _ _ HQ) in Hx. rewrite ids_app, in_app_iff in Hx. intuition congruence.
    + constructor; cbn [s_wait s_fly s_dead i_state i_dlq]; auto.
  - (* delete from the DLQ *)
    cbn [s_dead s_wait s_fly]. rewrite HD. rewrite <- dlq_find by auto.
    destruct (aget N.eqb id (i_dlq i)) as [d|] eqn:Ed; cbn [fst snd]; (split; [|auto]).
    + constructor; cbn [s_wait s_fly s_dead i_state i_dlq]; auto.
      * symmetry; apply dlq_del; auto.
      * apply (NoDup_adel N.eqb N.eqb_eq); auto.
      * intros k d' Hk. apply (adel_In N.eqb N.eqb_eq) in Hk. apply HK; tauto.
      * intros x Hx. apply (akeys_adel_in N.eqb N.eqb_eq) in Hx. apply HX; tauto.
    + constructor; cbn [s_wait s_fly s_dead i_state i_dlq]; auto.
  - (* purge *)
    cbn [fst snd s_dead s_wait s_fly]. split.
    + constructor; cbn [s_wait s_fly s_dead i_state i_dlq akeys map]; auto; try contradiction. constructor.
    + rewrite HD. unfold lenN, avals. rewrite map_length. reflexivity.
Qed.

Lemma RS_empty : RS q_empty [] [].
Proof.
  constructor; simpl; try (intros; contradiction); try discriminate.
  - constructor.
  - apply ix_ok_nil.
  - apply ix_ok_nil.
  - intro k; reflexivity.
  - intro k; reflexivity.
  - constructor.
Qed.
Lemma RI_empty : RI inner0 spec0.
Proof.
  constructor; simpl; try (intros; contradiction); auto. apply RS_empty. constructor.
Qed.
