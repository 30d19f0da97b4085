(** Whole histories: the refinement lifted, and conservation of messages. *)
From Verif Require Import LibBase LibMap QueueModel QueueSpec QueueObs QueueProofs QueueRefine.

(** * Observations of related states *)
Lemma msgs_of_map : forall reg l, (forall m, In m l -> aget N.eqb (m_id m) reg = Some m) -> msgs_of reg (ids l) = l.
Proof.
  intros reg l; induction l as [|m l IH]; simpl; intro H; auto.
  rewrite (H m) by auto. simpl. f_equal; auto.
Qed.
Lemma obs_fly_eq : forall i S, RI i S -> obs_fly i = s_fly S.
Proof.
  intros i S [HQ _ _ _ _]. unfold obs_fly.
  rewrite (flat_keyed dl _ (s_fly S) (proj1 (r_aok _ _ _ _ _ HQ)) (r_ak _ _ _ _ _ HQ) (r_srt _ _ _ _ _ HQ)).
  apply msgs_of_map. intros m Hm. apply (r_f _ _ _ _ _ HQ m Hm).
Qed.
Lemma obs_dead_eq : forall i S, RI i S -> obs_dead i = s_dead S.
Proof. intros i S [_ H _ _ _]. symmetry; exact H. Qed.

(** stable sort by ascending priority, used to describe the pending listing *)
Fixpoint ins_pr (m : message) (l : list message) : list message :=
  match l with [] => [m] | x :: l' => if m_prio m <=? m_prio x then m :: x :: l' else x :: ins_pr m l' end.
Fixpoint by_prio (l : list message) : list message :=
  match l with [] => [] | m :: l' => ins_pr m (by_prio l') end.
Lemma ins_pr_perm : forall m l, Permutation (ins_pr m l) (m :: l).
Proof.
  intros m l; induction l as [|x l IH]; simpl; auto. destruct (m_prio m <=? m_prio x); auto.
  rewrite IH. apply perm_swap.
Qed.
Lemma by_prio_perm : forall l, Permutation (by_prio l) l.
Proof. induction l as [|m l IH]; simpl; auto. rewrite ins_pr_perm; auto. Qed.
Lemma ins_pr_sorted : forall m l, fsorted m_prio l -> fsorted m_prio (ins_pr m l).
Proof.
  intros m l; unfold fsorted; induction l as [|x l IH]; simpl; intro H; [repeat constructor|].
  inversion H as [|y l' Hs Hx]; subst. destruct (N.leb_spec (m_prio m) (m_prio x)).
  - constructor; auto. constructor; auto. eapply Forall_impl; [|exact Hx]. simpl; intros; lia.
  - constructor; auto. apply Forall_forall. intros y Hy.
    apply (Permutation_in _ (ins_pr_perm m l)) in Hy. destruct Hy as [<-|Hy]; [lia|]. rewrite Forall_forall in Hx; auto.
Qed.
Lemma by_prio_sorted : forall l, fsorted m_prio (by_prio l).
Proof. induction l as [|m l IH]; simpl; [constructor|apply ins_pr_sorted; auto]. Qed.
Lemma ins_pr_filter : forall k m l, filter (fun x => m_prio x =? k) (ins_pr m l) =
  (if m_prio m =? k then [m] else []) ++ filter (fun x => m_prio x =? k) l.
Proof.
  intros k m l; induction l as [|x l IH]; cbn [ins_pr filter].
  - destruct (m_prio m =? k); auto.
  - destruct (N.leb_spec (m_prio m) (m_prio x)) as [Hle|Hgt]; cbn [filter].
    + destruct (m_prio m =? k); auto.
    + rewrite IH. destruct (N.eqb_spec (m_prio m) k), (N.eqb_spec (m_prio x) k); auto. lia.
Qed.
Lemma by_prio_filter : forall k l, filter (fun x => m_prio x =? k) (by_prio l) = filter (fun x => m_prio x =? k) l.
Proof.
  intros k l; induction l as [|m l IH]; cbn [by_prio filter]; auto.
  rewrite ins_pr_filter, IH. destruct (m_prio m =? k); auto.
Qed.
Lemma obs_wait_eq : forall i S, RI i S -> obs_wait i = by_prio (s_wait S).
Proof.
  intros i S [HQ _ _ _ _]. unfold obs_wait.
  rewrite (flat_keyed m_prio _ (by_prio (s_wait S)) (proj1 (r_dok _ _ _ _ _ HQ))).
  - apply msgs_of_map. intros m Hm. apply (r_w _ _ _ _ _ HQ m). eapply Permutation_in; [apply by_prio_perm|auto].
  - intro k. rewrite by_prio_filter. apply (r_dk _ _ _ _ _ HQ).
  - apply by_prio_sorted.
Qed.
Lemma obs_wait_perm : forall i S, RI i S -> Permutation (obs_wait i) (s_wait S).
Proof. intros i S H. rewrite (obs_wait_eq _ _ H). apply by_prio_perm. Qed.

(** * Conservation on the specification *)
Definition bodies (S : qspec) : list body := map body_of (s_wait S ++ s_fly S) ++ map dbody_of (s_dead S).
Definition all_ids (S : qspec) : list N := ids (s_wait S ++ s_fly S) ++ dids (s_dead S).
Lemma all_ids_bodies : forall S, all_ids S = map body_id (bodies S).
Proof.
  intros S; unfold all_ids, bodies, ids, dids. rewrite (map_app body_id), !map_map. reflexivity.
Qed.
Record SInv (S : qspec) : Prop := {
  si_nd : NoDup (all_ids S);
  si_w : forall m, In m (s_wait S) -> m_state m = Ready;
  si_f : forall m, In m (s_fly S) -> exists t, m_state m = InFlight t }.
Lemma RI_SInv : forall i S, RI i S -> SInv S.
Proof.
  intros i S [HQ HD HN HK HX]. constructor.
  - unfold all_ids. apply NoDup_app_intro.
    + apply (r_nd _ _ _ _ _ HQ).
    + rewrite HD, <- akeys_dids; auto.
    + intros x Hx Hx2. rewrite HD, <- akeys_dids in Hx2 by auto. apply HX in Hx2.
      apply (getr_none_ids _ _ _ _ HQ) in Hx2. contradiction.
  - intros m Hm; apply (r_w _ _ _ _ _ HQ m Hm).
  - intros m Hm; apply (r_f _ _ _ _ _ HQ m Hm).
Qed.

Definition a_gone (cfg : qconfig) (S : qspec) (o : qop) : list body :=
  match o, a_out cfg S o with
  | QoAck id, RBool true => map body_of (filter (fun m => m_id m =? id) (s_wait S ++ s_fly S))
  | QoDelDlq id, RBool true => map dbody_of (filter (fun d => d_id d =? id) (s_dead S))
  | QoPurge, _ => map dbody_of (s_dead S)
  | _, _ => []
  end.
Lemma perm_filter_split : forall A (P : A -> bool) l, Permutation l (filter (fun x => negb (P x)) l ++ filter P l).
Proof.
  intros A P l; induction l as [|x l IH]; simpl; auto.
  destruct (P x); simpl; [|auto]. rewrite IH at 1. apply Permutation_middle.
Qed.
Lemma Permutation_filter' : forall A (f : A -> bool) l l', Permutation l l' -> Permutation (filter f l) (filter f l').
Proof.
  intros A f l l' H; induction H as [|x l l' H IH|x y l|l l2 l3 H1 IH1 H2 IH2]; simpl; auto.
  - destruct (f x); auto.
  - destruct (f x), (f y); auto. apply perm_swap.
  - etransitivity; eauto.
Qed.
Lemma without_perm : forall m l, NoDup (ids l) -> In m l -> Permutation l (m :: without (m_id m) l).
Proof.
  intros m l Hn Hi. rewrite (perm_filter_split _ (fun x => m_id x =? m_id m) l) at 1.
  fold (without (m_id m) l).
  assert (HE : filter (fun x => m_id x =? m_id m) l = [m]).
  { clear - Hn Hi. induction l as [|x l IH]; simpl in *; [contradiction|]. inversion Hn as [|y l' Hx Hn']; subst.
    destruct Hi as [->|Hi].
    - rewrite N.eqb_refl. f_equal. apply filter_false_nil. intros y Hy. apply N.eqb_neq. intro He. apply Hx.
      rewrite <- He. apply ids_In; auto.
    - destruct (N.eqb_spec (m_id x) (m_id m)) as [He|]; auto. exfalso; apply Hx; rewrite He; apply ids_In; auto. }
  rewrite HE. symmetry. apply Permutation_cons_append.
Qed.
Lemma SInv_nd_wf : forall S, SInv S -> NoDup (ids (s_wait S ++ s_fly S)).
Proof. intros S H. destruct H as [H _ _]. apply NoDup_app_inv in H; tauto. Qed.
Lemma SInv_nd_w : forall S, SInv S -> NoDup (ids (s_wait S)).
Proof. intros S H. apply SInv_nd_wf in H. rewrite ids_app in H. apply NoDup_app_inv in H; tauto. Qed.
Lemma SInv_nd_f : forall S, SInv S -> NoDup (ids (s_fly S)).
Proof. intros S H. apply SInv_nd_wf in H. rewrite ids_app in H. apply NoDup_app_inv in H; tauto. Qed.
Lemma a_pop_perm : forall cfg now S, NoDup (ids (s_wait S)) ->
  Permutation (map body_of (s_wait S ++ s_fly S))
              (map body_of (s_wait (fst (a_pop cfg now S)) ++ s_fly (fst (a_pop cfg now S)))).
Proof.
  intros cfg now S Hn. unfold a_pop. destruct (best (s_wait S)) as [m|] eqn:E; [|reflexivity]. simpl.
  destruct (best_spec _ _ E) as [Hi _]. rewrite !map_app.
  rewrite (Permutation_map body_of (without_perm m _ Hn Hi)).
  rewrite (Permutation_map body_of (ins_dl_perm _ (s_fly S))). simpl. apply Permutation_middle.
Qed.
Lemma a_pop_nd : forall cfg now S, NoDup (ids (s_wait S)) -> NoDup (ids (s_wait (fst (a_pop cfg now S)))).
Proof.
  intros cfg now S Hn. unfold a_pop. destruct (best (s_wait S)) as [m|]; auto. simpl. apply NoDup_ids_without; auto.
Qed.
Lemma a_pop_dead : forall cfg now S, s_dead (fst (a_pop cfg now S)) = s_dead S.
Proof. intros; unfold a_pop. destruct (best (s_wait S)); auto. Qed.
Lemma a_take_perm : forall cfg clk n i S, NoDup (ids (s_wait S)) ->
  Permutation (map body_of (s_wait S ++ s_fly S))
              (map body_of (s_wait (fst (a_take cfg n i clk S)) ++ s_fly (fst (a_take cfg n i clk S)))) /\
  s_dead (fst (a_take cfg n i clk S)) = s_dead S.
Proof.
  intros cfg clk n; induction n as [|n IH]; intros i S Hn; simpl; auto.
  pose proof (a_pop_perm cfg (clk i) S Hn) as HP. pose proof (a_pop_nd cfg (clk i) S Hn) as Hn'.
  pose proof (a_pop_dead cfg (clk i) S) as Hd.
  destruct (a_pop cfg (clk i) S) as [S' [m|]]; simpl in *; auto.
  specialize (IH (Datatypes.S i) S' Hn'). destruct (a_take cfg n (Datatypes.S i) clk S') as [S2 ms]; simpl in *.
  destruct IH as [IH1 IH2]. split; [etransitivity; eauto|congruence].
Qed.
Lemma find_id_some : forall id l m, find_id id l = Some m -> In m l /\ m_id m = id.
Proof. intros id l m H. apply find_some in H. destruct H as [H1 H2]. apply N.eqb_eq in H2. auto. Qed.
Lemma dead_perm : forall d l, NoDup (dids l) -> In d l -> Permutation l (d :: dead_del (d_id d) l).
Proof.
  intros d l Hn Hi. rewrite (perm_filter_split _ (fun x => d_id x =? d_id d) l) at 1.
  fold (dead_del (d_id d) l).
  assert (HE : filter (fun x => d_id x =? d_id d) l = [d]).
  { clear - Hn Hi. induction l as [|x l IH]; simpl in *; [contradiction|]. inversion Hn as [|y l' Hx Hn']; subst.
    destruct Hi as [->|Hi].
    - rewrite N.eqb_refl. f_equal. apply filter_false_nil. intros y Hy. apply N.eqb_neq. intro He. apply Hx.
      rewrite <- He. apply in_map; auto.
    - destruct (N.eqb_spec (d_id x) (d_id d)) as [He|]; auto. exfalso; apply Hx; rewrite He; apply in_map; auto. }
  rewrite HE. symmetry. apply Permutation_cons_append.
Qed.
Lemma map_body_requeued : forall l, map body_of (map requeued l) = map body_of l.
Proof. intros; rewrite map_map. reflexivity. Qed.
Lemma a_step_perm : forall cfg S o, SInv S ->
  Permutation (bodies S ++ push_of o) (bodies (a_next cfg S o) ++ a_gone cfg S o).
Proof.
  intros cfg S o HI. unfold a_gone, a_out, a_next, bodies.
  pose proof (SInv_nd_w _ HI) as Hnw. pose proof (SInv_nd_f _ HI) as Hnf. pose proof (SInv_nd_wf _ HI) as Hnwf.
  assert (Hnd : NoDup (dids (s_dead S))) by (destruct HI as [H _ _]; apply NoDup_app_inv in H; tauto).
  destruct o as [id payload prio now|now|max clk|id|id reason now|now1 now2|id|id|]; cbn [a_step push_of]; rewrite ?app_nil_r.
  - cbn [fst snd s_wait s_fly s_dead]. rewrite !map_app. cbn [map]. rewrite <- !app_assoc.
    apply Permutation_app_head. change (body_of (msg_pushed id payload prio now)) with (id, payload, prio, now).
    cbn [app]. rewrite app_assoc. symmetry. apply Permutation_cons_append.
  - pose proof (a_pop_perm cfg now S Hnw) as HP. pose proof (a_pop_dead cfg now S) as HD.
    destruct (a_pop cfg now S) as [S' r]; simpl in *. rewrite ?app_nil_r, HD. apply Permutation_app_tail; auto.
  - pose proof (a_take_perm cfg clk (N.to_nat (N.min max (lenN (s_wait S)))) 0 S Hnw) as [HP HD].
    destruct (a_take cfg _ 0 clk S) as [S' r]; simpl in *. rewrite ?app_nil_r, HD. apply Permutation_app_tail; auto.
  - destruct (find_id id (s_wait S ++ s_fly S)) as [m|] eqn:E; cbn [fst snd s_wait s_fly s_dead]; [|rewrite ?app_nil_r; auto].
    rewrite <- without_app. rewrite (Permutation_map body_of (perm_filter_split _ (fun m => m_id m =? id) (s_wait S ++ s_fly S))).
    fold (without id (s_wait S ++ s_fly S)). rewrite map_app, <- !app_assoc. apply Permutation_app_head, Permutation_app_comm.
  - destruct (find_id id (s_wait S ++ s_fly S)) as [m|] eqn:E; cbn [fst snd s_wait s_fly s_dead]; [|rewrite ?app_nil_r; auto].
    apply find_id_some in E. destruct E as [Hi Hid]. subst id.
    destruct (exhausted cfg m); cbn [fst snd s_wait s_fly s_dead]; rewrite ?app_nil_r.
    + rewrite <- without_app. rewrite (Permutation_map body_of (without_perm m _ Hnwf Hi)). rewrite map_app.
      cbn [map]. rewrite app_assoc. change (dbody_of (dead_letter m reason now)) with (body_of m).
      simpl. apply Permutation_cons_append.
    + destruct (m_state m) eqn:Est; cbn [fst snd s_wait s_fly s_dead]; rewrite ?app_nil_r.
      * apply Permutation_app_tail. rewrite !map_app. apply Permutation_app_tail. rewrite map_map.
        apply Permutation_refl'. apply map_ext. intros x. destruct (m_id x =? m_id m); auto.
      * apply Permutation_app_tail. apply in_app_or in Hi. destruct Hi as [Hi|Hi].
        { rewrite (si_w _ HI m Hi) in Est; discriminate. }
        rewrite !map_app. rewrite <- app_assoc. apply Permutation_app_head. simpl.
        rewrite (Permutation_map body_of (without_perm m _ Hnf Hi)). reflexivity.
  - destruct (existsb (overdue now1) (s_fly S)); cbn [fst snd s_wait s_fly s_dead]; rewrite ?app_nil_r; auto.
    set (due := filter (overdue now2) (s_fly S)).
    rewrite !map_app, map_body_requeued. rewrite (map_map _ dbody_of).
    change (map (fun x => dbody_of (dead_letter x timed_out now2))) with (map body_of).
    rewrite (Permutation_map body_of (perm_filter_split _ (overdue now2) (s_fly S))). fold due. rewrite map_app.
    rewrite (Permutation_map body_of (perm_filter_split _ (exhausted cfg) due)), map_app.
    set (A := map body_of (s_wait S)). set (B := map body_of (filter (fun x => negb (overdue now2 x)) (s_fly S))).
    set (C := map body_of (filter (fun x => negb (exhausted cfg x)) due)). set (D := map body_of (filter (exhausted cfg) due)).
    set (F := map dbody_of (s_dead S)). rewrite <- !app_assoc. apply Permutation_app_head.
    rewrite (Permutation_app_swap_app B C). apply Permutation_app_head, Permutation_app_head, Permutation_app_comm.
  - destruct (find (fun d => d_id d =? id) (s_dead S)) as [d|] eqn:E; cbn [fst snd s_wait s_fly s_dead]; rewrite ?app_nil_r; auto.
    apply find_some in E. destruct E as [Hi He]. apply N.eqb_eq in He. subst id.
    rewrite (Permutation_map dbody_of (dead_perm d _ Hnd Hi)). rewrite !map_app. cbn [map].
    change (body_of (revived d)) with (dbody_of d). rewrite <- !app_assoc. apply Permutation_app_head. simpl.
    symmetry. apply Permutation_middle.
  - destruct (find (fun d => d_id d =? id) (s_dead S)) as [d|] eqn:E; cbn [fst snd s_wait s_fly s_dead]; rewrite ?app_nil_r; auto.
    rewrite <- app_assoc. apply Permutation_app_head.
    rewrite (Permutation_map dbody_of (perm_filter_split _ (fun d => d_id d =? id) (s_dead S))). rewrite map_app. reflexivity.
  - cbn [fst snd s_wait s_fly s_dead map]. rewrite ?app_nil_r. reflexivity.
Qed.

(** * Histories *)
Fixpoint a_outs (cfg : qconfig) (S : qspec) (h : list qop) : list qout :=
  match h with [] => [] | o :: h' => a_out cfg S o :: a_outs cfg (a_next cfg S o) h' end.
Definition fresh_from (S : qspec) (h : list qop) : Prop :=
  fresh h /\ forall x, In x (map body_id (pushed h)) -> ~ In x (all_ids S).

Lemma fresh_from_cons : forall cfg i S o h, RI i S -> fresh_from S (o :: h) ->
  op_fresh S o /\ fresh_from (a_next cfg S o) h.
Proof.
  intros cfg i S o h HR [Hf Hx]. unfold fresh, pushed in *. cbn [flat_map] in *. rewrite map_app in *.
  split.
  - destruct o; simpl; auto. specialize (Hx id (or_introl eq_refl)). unfold all_ids in Hx.
    rewrite in_app_iff in Hx. tauto.
  - apply NoDup_app_inv in Hf. destruct Hf as [Hf1 [Hf2 Hf3]]. split; auto.
    intros x Hin Ha. rewrite all_ids_bodies in Ha.
    assert (Hb : In x (map body_id (bodies S ++ push_of o))).
    { eapply Permutation_in; [apply Permutation_map; symmetry; apply (a_step_perm cfg S o (RI_SInv _ _ HR))|].
      rewrite map_app, in_app_iff. auto. }
    rewrite map_app, in_app_iff, <- all_ids_bodies in Hb. destruct Hb as [Hb|Hb].
    + apply (Hx x); auto. apply in_or_app; auto.
    + apply (Hf3 x Hb Hin).
Qed.
Lemma run_refines : forall cfg h i S, RI i S -> fresh_from S h ->
  RI (qrun cfg i h) (a_run cfg S h) /\ outs cfg i h = a_outs cfg S h.
Proof.
  intros cfg h; induction h as [|o h IH]; intros i S HR Hf; [simpl; auto|].
  destruct (fresh_from_cons cfg i S o h HR Hf) as [Ho Hf'].
  destruct (step_refines cfg i S o HR Ho) as [HR' Hout].
  destruct (IH _ _ HR' Hf') as [H1 H2]. cbn [outs a_outs]. rewrite Hout, H2. auto.
Qed.
Lemma fresh_from0 : forall h, fresh h -> fresh_from spec0 h.
Proof. intros h H; split; auto. Qed.
Lemma fresh_from_app : forall cfg h1 h2 i S, RI i S -> fresh_from S (h1 ++ h2) ->
  fresh_from S h1 /\ fresh_from (a_run cfg S h1) h2.
Proof.
  intros cfg h1; induction h1 as [|o h1 IH]; intros h2 i S HR Hf.
  - split; auto. split; [constructor|simpl; auto].
  - cbn [app] in Hf. destruct (fresh_from_cons cfg i S o _ HR Hf) as [Ho Hf'].
    destruct (step_refines cfg i S o HR Ho) as [HR' _]. destruct (IH _ _ _ HR' Hf') as [H1 H2]. split; [|exact H2].
    destruct Hf as [Hfa Hfb]. unfold fresh, pushed in *. rewrite app_comm_cons, flat_map_app, map_app in *. split.
    + apply NoDup_app_inv in Hfa; tauto.
    + intros x Hx; apply Hfb. apply in_or_app; auto.
Qed.
Lemma qrun_app : forall cfg h1 h2 i, qrun cfg i (h1 ++ h2) = qrun cfg (qrun cfg i h1) h2.
Proof. intros; apply fold_left_app. Qed.
Lemma a_run_app : forall cfg h1 h2 i, a_run cfg i (h1 ++ h2) = a_run cfg (a_run cfg i h1) h2.
Proof. intros; apply fold_left_app. Qed.
Lemma outs_app : forall cfg h1 h2 i, outs cfg i (h1 ++ h2) = outs cfg i h1 ++ outs cfg (qrun cfg i h1) h2.
Proof. intros cfg h1; induction h1 as [|o h1 IH]; intros h2 i; simpl; auto. rewrite IH; auto. Qed.

(** reachable states *)
Lemma reach : forall cfg h, fresh h -> RI (qrun cfg inner0 h) (a_run cfg spec0 h).
Proof. intros cfg h Hf. apply run_refines; [apply RI_empty|apply fresh_from0; auto]. Qed.
Lemma reach_app : forall cfg h1 h2, fresh (h1 ++ h2) ->
  RI (qrun cfg inner0 h1) (a_run cfg spec0 h1) /\ fresh_from (a_run cfg spec0 h1) h2.
Proof.
  intros cfg h1 h2 Hf. destruct (fresh_from_app cfg h1 h2 inner0 spec0 RI_empty (fresh_from0 _ Hf)) as [H1 H2].
  split; auto. apply run_refines; auto. apply RI_empty.
Qed.

Lemma gone_eq : forall cfg i S o, RI i S -> op_fresh S o -> Permutation (gone cfg i o) (a_gone cfg S o).
Proof.
  intros cfg i S o HR Ho. destruct (step_refines cfg i S o HR Ho) as [_ Hout]. unfold gone, a_gone.
  rewrite (obs_dead_eq _ _ HR), (obs_fly_eq _ _ HR).
  destruct o; auto; rewrite Hout; auto. destruct (a_out cfg S (QoAck id)) as [| | |[|]| | |]; auto.
  apply Permutation_map. apply Permutation_filter'. apply Permutation_app_tail. apply obs_wait_perm; auto.
Qed.
Lemma conservation : forall cfg h i S, RI i S -> fresh_from S h ->
  Permutation (bodies S ++ pushed h) (bodies (a_run cfg S h) ++ removed cfg i h).
Proof.
  intros cfg h; induction h as [|o h IH]; intros i S HR Hf; cbn [pushed flat_map removed a_run fold_left]; auto.
  destruct (fresh_from_cons cfg i S o h HR Hf) as [Ho Hf'].
  destruct (step_refines cfg i S o HR Ho) as [HR' _].
  specialize (IH _ _ HR' Hf'). fold (pushed h). rewrite app_assoc.
  rewrite (a_step_perm cfg S o (RI_SInv _ _ HR)). rewrite <- (gone_eq cfg i S o HR Ho).
  rewrite <- app_assoc. rewrite (Permutation_app_comm (gone cfg i o)). rewrite app_assoc. rewrite IH.
  rewrite <- app_assoc. apply Permutation_app_head. apply Permutation_app_comm.
Qed.
Lemma one_place : forall cfg h, fresh h ->
  let i := qrun cfg inner0 h in
  Permutation (pushed h)
    (map body_of (obs_wait i) ++ map body_of (obs_fly i) ++ map dbody_of (obs_dead i) ++ removed cfg inner0 h).
Proof.
  intros cfg h Hf i. pose proof (reach cfg h Hf) as HR. fold i in HR.
  pose proof (conservation cfg h inner0 spec0 RI_empty (fresh_from0 _ Hf)) as HC. simpl in HC. rewrite HC.
  unfold bodies. rewrite map_app. rewrite (obs_fly_eq _ _ HR), (obs_dead_eq _ _ HR).
  rewrite (Permutation_map body_of (obs_wait_perm _ _ HR)). rewrite <- !app_assoc. reflexivity.
Qed.
