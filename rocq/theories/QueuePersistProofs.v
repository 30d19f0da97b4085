(** Database and memory agree. *)
From Verif Require Import LibBase LibMap QueueModel QueueSpec QueueObs QueueProofs QueueRefine QueueTrace QueueFacts QueueFacts2 QueuePersistModel.

Notation cell := (option row * option dlqmsg)%type.
(** what the database / memory hold for one id *)
Definition db_at (x : N) (d : db) : cell := (aget N.eqb x (db_main d), aget N.eqb x (db_dead d)).
Definition mem_at (x : N) (i : inner) : cell := (option_map row_of (getr (i_state i) x), aget N.eqb x (i_dlq i)).
Definition sq_at (x : N) (s : qstate) (q : dlq) : cell := (option_map row_of (getr s x), aget N.eqb x q).
(** effect of one storage operation on one id *)
Definition or_ins {A} (o : option A) (v : A) : option A := match o with Some w => Some w | None => Some v end.
Definition loc (x : N) (c : cell) (op : storeop) : cell :=
  let (r, d) := c in
  match op with
  | SInsert m => (if x =? m_id m then or_ins r (row_of m) else r, d)
  | SDelete id => (if x =? id then None else r, d)
  | SUpdate id v a => (if x =? id then option_map (set_va v a) r else r, d)
  | SInsertDLQ e => (r, if x =? d_id e then or_ins d e else d)
  | SDeleteDLQ id => (r, if x =? id then None else d)
  | SMoveToDLQ id e => (if x =? id then None else r, if x =? d_id e then or_ins d e else d)
  | SMoveToMain id m =>
      (if x =? m_id m then or_ins r (mkRow (m_payload m) (m_prio m) 0 0 (m_created m)) else r, if x =? id then None else d)
  | SPurgeDLQ => (r, None)
  end.
Lemma Neqb_ok : forall a b, (a =? b) = true <-> a = b.
Proof. exact N.eqb_eq. Qed.
Lemma aget_ins : forall A x k (v : A) t, aget N.eqb x (ins k v t) = if x =? k then or_ins (aget N.eqb x t) v else aget N.eqb x t.
Proof.
  intros A x k v t. unfold ins. destruct (N.eqb_spec x k) as [->|Hn].
  - destruct (aget N.eqb k t) eqn:E; [rewrite E; reflexivity|]. rewrite aget_app, E. simpl. rewrite N.eqb_refl. reflexivity.
  - destruct (aget N.eqb k t); auto. rewrite aget_app. simpl. apply N.eqb_neq in Hn. rewrite Hn. destruct (aget N.eqb x t); auto.
Qed.
Lemma aget_adel : forall A x k (t : list (N * A)), aget N.eqb x (adel N.eqb k t) = if x =? k then None else aget N.eqb x t.
Proof.
  intros A x k t. destruct (N.eqb_spec x k) as [->|Hn]; [apply aget_adel_same|]. apply (aget_adel_other N.eqb Neqb_ok); auto.
Qed.
Lemma aget_upd : forall x k v a t, aget N.eqb x (upd_row k v a t) = if x =? k then option_map (set_va v a) (aget N.eqb x t) else aget N.eqb x t.
Proof.
  intros x k v a t. unfold upd_row. destruct (N.eqb_spec x k) as [->|Hn].
  - destruct (aget N.eqb k t) eqn:E; [|rewrite E; auto]. rewrite (aget_aset_same N.eqb Neqb_ok). reflexivity.
  - destruct (aget N.eqb k t); auto. apply (aget_aset_other N.eqb Neqb_ok); auto.
Qed.
Lemma exec_at : forall x o d, db_at x (exec_op d o) = loc x (db_at x d) o.
Proof.
  intros x o d; unfold db_at; destruct o; simpl; rewrite ?aget_ins, ?aget_adel, ?aget_upd; reflexivity.
Qed.
Lemma exec_all_at : forall x l d, db_at x (exec_all l d) = fold_left (loc x) l (db_at x d).
Proof. intros x l; induction l as [|o l IH]; intro d; simpl; auto. rewrite IH, exec_at. reflexivity. Qed.
Lemma exec_all_app : forall a b d, exec_all (a ++ b) d = exec_all b (exec_all a d).
Proof. intros; unfold exec_all. apply fold_left_app. Qed.

(** well-formed memory *)
Record J (s : qstate) (q : dlq) : Prop := {
  j_id : forall id m, getr s id = Some m -> m_id m = id;
  j_x : forall id d, aget N.eqb id q = Some d -> getr s id = None;
  j_d : forall id d, aget N.eqb id q = Some d -> d_id d = id }.
Lemma RI_J : forall i S, RI i S -> J (i_state i) (i_dlq i).
Proof.
  intros i S HR; constructor.
  - intros id m H. apply (r_id _ _ _ _ _ (ri_q _ _ HR) id m H).
  - intros id d H. apply (ri_x _ _ HR). apply (aget_Some_in N.eqb Neqb_ok). eauto.
  - intros id d H. apply (ri_k _ _ HR). apply (aget_In N.eqb Neqb_ok); auto.
Qed.
Lemma sq_set : forall x id m s q, sq_at x (reg_set id m s) q = if x =? id then (Some (row_of m), aget N.eqb x q) else sq_at x s q.
Proof.
  intros. unfold sq_at. rewrite getr_set. unfold upd. destruct (x =? id); reflexivity.
Qed.
Lemma mstate_eqb_eq : forall a b, mstate_eqb a b = true -> a = b.
Proof. intros [|x] [|y] H; simpl in H; try discriminate; auto. apply N.eqb_eq in H. congruence. Qed.
Lemma getr_index : forall st id p s x, getr (add_to_index st id p s) x = getr s x.
Proof. intros [|t] id p s x; reflexivity. Qed.
Lemma getr_unindex : forall st id p s x, getr (remove_from_index st id p s) x = getr s x.
Proof. intros [|t] id p s x; reflexivity. Qed.
Lemma transition_getr : forall id st s s' b, transition_to id st s = (s', b) ->
  match getr s id with
  | None => s' = s /\ b = false
  | Some m => b = true /\ forall x, getr s' x = upd (getr s) id (Some (set_state st m)) x
  end.
Proof.
  intros id st s s' b. unfold transition_to, reg_get. fold (getr s id). destruct (getr s id) as [m|] eqn:E; intro H.
  - destruct (mstate_eqb (m_state m) st) eqn:Es; inversion H; subst; split; auto; intro x.
    + apply mstate_eqb_eq in Es. unfold upd. destruct (N.eqb_spec x id); [subst x|auto]. rewrite E. f_equal.
      rewrite <- Es. destruct m; reflexivity.
    + rewrite getr_index, getr_set. unfold upd. destruct (x =? id); auto. apply getr_unindex.
  - inversion H; auto.
Qed.
Lemma upd_eq : forall A (g : N -> A) k v x, upd g k v x = if x =? k then v else g x.
Proof. reflexivity. Qed.

(** pop *)
Lemma pop_getr : forall now vt s s' m, pop_single now vt s = (s', m) ->
  match m with
  | None => forall x, getr s' x = getr s x
  | Some m => exists id m0, getr s id = Some m0 /\ m = delivered (deadline now vt) m0 /\ forall x, getr s' x = upd (getr s) id (Some m) x
  end.
Proof.
  intros now vt s s' m. unfold pop_single. destruct (first_front (rev (q_disp s))) as [id|]; [|intro H; inversion H; subst; auto].
  destruct (transition_to id (InFlight (deadline now vt)) s) as [s1 b] eqn:Et. cbn [fst].
  apply transition_getr in Et. unfold reg_get. fold (getr s1 id).
  destruct (getr s id) as [m0|] eqn:Eg.
  - destruct Et as [_ Et]. rewrite (Et id), upd_same. intro H; inversion H; subst.
    exists id, m0. split; auto. split.
    + unfold delivered, set_att, set_vis, set_state; simpl. reflexivity.
    + intro x. rewrite getr_set, !upd_eq. destruct (N.eqb_spec x id) as [He|He]; [reflexivity|].
      rewrite Et, upd_eq. destruct (N.eqb_spec x id); [contradiction|auto].
  - destruct Et as [-> _]. rewrite Eg. intro H; inversion H; subst. auto.
Qed.

(** one pop, seen by the database *)
Lemma J_ext : forall s s' q, (forall x, getr s' x = getr s x) -> J s q -> J s' q.
Proof.
  intros s s' q He [H1 H2 H3]; constructor; auto.
  - intros id m; rewrite He; auto.
  - intros id d Hd; rewrite He; eauto.
Qed.
Lemma J_upd : forall s s' q id m m0, J s q -> getr s id = Some m0 -> m_id m = m_id m0 ->
  (forall x, getr s' x = upd (getr s) id (Some m) x) -> J s' q.
Proof.
  intros s s' q id m m0 [H1 H2 H3] Hg Hm He; constructor; auto.
  - intros x y; rewrite He, upd_eq. destruct (N.eqb_spec x id) as [->|]; auto. intro H; inversion H; subst y. rewrite Hm; auto.
  - intros x d Hd; rewrite He, upd_eq. destruct (N.eqb_spec x id) as [->|]; [|eauto]. rewrite (H2 _ _ Hd) in Hg; discriminate.
Qed.
Lemma sq_upd : forall s s' q id m, (forall x, getr s' x = upd (getr s) id (Some m) x) ->
  forall x, sq_at x s' q = if x =? id then (Some (row_of m), aget N.eqb x q) else sq_at x s q.
Proof. intros s s' q id m He x. unfold sq_at. rewrite He, upd_eq. destruct (x =? id); reflexivity. Qed.
Lemma pop_store : forall now vt s s' m q, J s q -> pop_single now vt s = (s', Some m) ->
  J s' q /\ forall x, loc x (sq_at x s q) (upd_of m) = sq_at x s' q.
Proof.
  intros now vt s s' m q HJ Hp. apply pop_getr in Hp. destruct Hp as [id [m0 [Hg [Hm He]]]].
  assert (Hid : m_id m0 = id) by (apply (j_id _ _ HJ); auto).
  assert (Hmid : m_id m = id) by (rewrite Hm; exact Hid).
  split; [apply (J_upd s s' q id m m0); auto; congruence|].
  intro x. rewrite (sq_upd _ _ q _ _ He). unfold upd_of, sq_at. cbn [loc]. rewrite Hmid.
  destruct (N.eqb_spec x id) as [->|]; auto. rewrite Hg. cbn [option_map]. f_equal. f_equal. rewrite Hm. reflexivity.
Qed.
Lemma take_store : forall fuel i max clk vt s s' ms q, J s q -> take_loop fuel i max clk vt s = Some (s', ms) ->
  J s' q /\ forall x, fold_left (loc x) (map upd_of ms) (sq_at x s q) = sq_at x s' q.
Proof.
  induction fuel as [|fuel IH]; intros i max clk vt s s' ms q HJ H; simpl in H; [discriminate|].
  destruct (N.of_nat i <? max); [|inversion H; subst; auto].
  destruct (pop_single (clk i) vt s) as [s1 [m|]] eqn:Ep.
  - destruct (pop_store _ _ _ _ _ q HJ Ep) as [HJ1 Hx].
    destruct (take_loop fuel (S i) max clk vt s1) as [[s2 l]|] eqn:El; [|discriminate]. inversion H; subst.
    destruct (IH _ _ _ _ _ _ _ q HJ1 El) as [HJ2 Hx2]. split; auto. intro x. cbn [map fold_left]. rewrite Hx. apply Hx2.
  - apply pop_getr in Ep. inversion H; subst. split; [eapply J_ext; eauto|]. intro x. unfold sq_at. rewrite Ep. reflexivity.
Qed.
Lemma delete_getr : forall id s s' m, delete_message id s = (s', m) ->
  m = getr s id /\ forall x, getr s' x = upd (getr s) id None x.
Proof.
  intros id s s' m. unfold delete_message, reg_get. fold (getr s id). destruct (getr s id) as [m0|] eqn:E; intro H; inversion H; subst; split; auto; intro x.
  - rewrite getr_unindex. apply getr_del.
  - rewrite upd_eq. destruct (N.eqb_spec x id); subst; auto.
Qed.
Lemma J_del : forall s s' q id, J s q -> (forall x, getr s' x = upd (getr s) id None x) -> J s' q.
Proof.
  intros s s' q id [H1 H2 H3] He; constructor; auto.
  - intros x m; rewrite He, upd_eq. destruct (x =? id); [discriminate|auto].
  - intros x d Hd; rewrite He, upd_eq. destruct (x =? id); eauto.
Qed.
Lemma J_dpush : forall s q d, J s q -> getr s (d_id d) = None -> J s (dlq_push d q).
Proof.
  intros s q d [H1 H2 H3] Hn; constructor; auto; intros x e; unfold dlq_push;
    (destruct (N.eq_dec x (d_id d)) as [->|Hx]; [rewrite (aget_aput_same N.eqb Neqb_ok)|rewrite (aget_aput_other N.eqb Neqb_ok) by auto]); eauto.
  intro H; inversion H; auto.
Qed.
Lemma aget_dpush : forall x d q, aget N.eqb x (dlq_push d q) = if x =? d_id d then Some d else aget N.eqb x q.
Proof.
  intros x d q; unfold dlq_push. destruct (N.eqb_spec x (d_id d)) as [->|Hx]; [apply (aget_aput_same N.eqb Neqb_ok)|apply (aget_aput_other N.eqb Neqb_ok); auto].
Qed.
(** moving one message to the DLQ *)
Lemma dead_store : forall s s' q id d, J s q -> getr s id <> None -> d_id d = id ->
  (forall x, getr s' x = upd (getr s) id None x) ->
  J s' (dlq_push d q) /\ forall x, loc x (sq_at x s q) (SMoveToDLQ (d_id d) d) = sq_at x s' (dlq_push d q).
Proof.
  intros s s' q id d HJ Hg Hd He.
  assert (Hq : aget N.eqb id q = None).
  { destruct (aget N.eqb id q) eqn:E; auto. exfalso; apply Hg. eapply j_x; eauto. }
  split.
  - apply J_dpush; [eapply J_del; eauto|]. rewrite He, Hd. apply upd_same.
  - intro x. unfold sq_at. cbn [loc]. rewrite aget_dpush, He, upd_eq, Hd. destruct (N.eqb_spec x id) as [->|]; auto. rewrite Hq. reflexivity.
Qed.
Lemma nack_store : forall id reason maxr now s s' rq dq q, J s q -> q_nack id reason maxr now s = (s', rq, dq) ->
  match rq, dq with
  | Some m, _ => J s' q /\ forall x, loc x (sq_at x s q) (upd_of m) = sq_at x s' q
  | None, Some d => J s' (dlq_push d q) /\ forall x, loc x (sq_at x s q) (SMoveToDLQ (d_id d) d) = sq_at x s' (dlq_push d q)
  | None, None => forall x, getr s' x = getr s x
  end.
Proof.
  intros id reason maxr now s s' rq dq q HJ. unfold q_nack, reg_get. fold (getr s id).
  destruct (getr s id) as [m|] eqn:Eg; [|intro H; inversion H; subst; auto].
  set (m1 := set_reason (Some reason) m). set (s0 := reg_set id m1 s).
  assert (H0 : forall x, getr s0 x = upd (getr s) id (Some m1) x) by (intro x; apply getr_set).
  assert (HJ0 : J s0 q) by (apply (J_upd s s0 q id m1 m); auto).
  assert (H0id : getr s0 id = Some m1) by (rewrite H0; apply upd_same).
  assert (Hrow : forall x, sq_at x s0 q = sq_at x s q).
  { intro x. unfold sq_at. rewrite H0, upd_eq. destruct (N.eqb_spec x id) as [->|]; auto. rewrite Eg. reflexivity. }
  destruct (maxr <=? m_att m).
  - destruct (delete_message id s0) as [s1 o] eqn:Ed. apply delete_getr in Ed. rewrite H0id in Ed. destruct Ed as [-> Hd].
    intro H; inversion H; subst.
    destruct (dead_store s0 s' q id (from_message m1 reason now) HJ0) as [A B]; auto.
    + rewrite H0id; discriminate.
    + simpl. apply (j_id _ _ HJ); auto.
    + split; auto. intro x. rewrite <- Hrow. apply B.
  - destruct (transition_to id Ready s0) as [s1 b] eqn:Et. apply transition_getr in Et. rewrite H0id in Et. destruct Et as [-> Et].
    fold (getr s1 id). rewrite (Et id), upd_same. intro H; inversion H; subst.
    assert (Hu : forall x, getr (reg_set id (set_vis 0 (set_state Ready m1)) s1) x = upd (getr s0) id (Some (set_vis 0 (set_state Ready m1))) x).
    { intro x. rewrite getr_set, !upd_eq. destruct (N.eqb_spec x id); auto. rewrite Et, upd_eq. destruct (N.eqb_spec x id); [contradiction|auto]. }
    split; [apply (J_upd s0 _ q id (set_vis 0 (set_state Ready m1)) m1 HJ0 H0id eq_refl Hu)|].
    intro x. rewrite (sq_upd _ _ q _ _ Hu). rewrite <- Hrow. unfold sq_at, upd_of. cbn [loc].
    assert (Hid : m_id m = id) by (apply (j_id _ _ HJ); auto).
    change (m_id (set_vis 0 (set_state Ready m1))) with (m_id m). rewrite Hid.
    destruct (N.eqb_spec x id) as [->|]; auto. rewrite H0id. reflexivity.
Qed.

Lemma requeue_store : forall l s out q, J s q -> forall s' out', fold_left requeue_one l (s, out) = (s', out') ->
  exists new, out' = out ++ new /\ J s' q /\ forall x, fold_left (loc x) (map (fun m => SUpdate (m_id m) 0 (m_att m)) new) (sq_at x s q) = sq_at x s' q.
Proof.
  induction l as [|id l IH]; intros s out q HJ s' out' H; cbn [fold_left] in H.
  - inversion H; subst. exists []. rewrite app_nil_r. auto.
  - unfold requeue_one at 2 in H. destruct (transition_to id Ready s) as [s1 b] eqn:Et. apply transition_getr in Et.
    destruct (getr s id) as [m|] eqn:Eg.
    + destruct Et as [-> Et]. unfold reg_get in H. fold (getr s1 id) in H. rewrite (Et id), upd_same in H.
      set (m1 := set_vis 0 (set_state Ready m)) in *.
      assert (Hu : forall x, getr (reg_set id m1 s1) x = upd (getr s) id (Some m1) x).
      { intro x. rewrite getr_set, !upd_eq. destruct (N.eqb_spec x id); auto. rewrite Et, upd_eq. destruct (N.eqb_spec x id); [contradiction|auto]. }
      assert (HJ1 : J (reg_set id m1 s1) q) by (apply (J_upd s _ q id m1 m); auto).
      destruct (IH _ _ q HJ1 _ _ H) as [new [Ho [HJ2 Hx]]].
      exists (m1 :: new). split; [rewrite Ho, <- app_assoc; reflexivity|]. split; auto.
      intro x. cbn [map fold_left]. rewrite <- Hx. f_equal. rewrite (sq_upd _ _ q _ _ Hu).
      unfold sq_at. cbn [loc]. change (m_id m1) with (m_id m). rewrite (j_id _ _ HJ id m Eg).
      destruct (N.eqb_spec x id) as [->|]; auto. rewrite Eg. reflexivity.
    + destruct Et as [-> ->]. apply (IH s out q HJ); auto.
Qed.
Lemma dlq_one_store : forall now l s out q, J s q -> forall s' out', fold_left (dlq_one now) l (s, out) = (s', out') ->
  exists new, out' = out ++ new /\ J s' (fold_left (fun q d => dlq_push d q) new q) /\ forall x, fold_left (loc x) (map (fun d => SMoveToDLQ (d_id d) d) new) (sq_at x s q) =
              sq_at x s' (fold_left (fun q d => dlq_push d q) new q).
Proof.
  intro now; induction l as [|id l IH]; intros s out q HJ s' out' H; cbn [fold_left] in H.
  - inversion H; subst. exists []. rewrite app_nil_r. auto.
  - unfold dlq_one at 2 in H. unfold reg_get in H. fold (getr s id) in H. destruct (getr s id) as [m|] eqn:Eg; [|apply (IH s out q HJ); auto].
    set (s1 := match m_state m with Ready => _ | _ => _ end) in *.
    assert (Hu : forall x, getr s1 x = upd (getr s) id None x).
    { intro x. unfold s1. destruct (m_state m); apply getr_del. }
    set (d := from_message m timeout_reason now) in *.
    destruct (dead_store s s1 q id d HJ) as [HJ1 Hd]; auto.
    { rewrite Eg; discriminate. }
    { unfold d; simpl. apply (j_id _ _ HJ); auto. }
    destruct (IH _ _ _ HJ1 _ _ H) as [new [Ho [HJ2 Hx]]].
    exists (d :: new). split; [rewrite Ho, <- app_assoc; reflexivity|]. split; auto.
    intro x. cbn [map fold_left]. rewrite Hd. apply Hx.
Qed.

(** a request and its storage operations agree *)
Lemma push_getr : forall m s x, getr (q_push m s) x = upd (getr s) (m_id m) (Some m) x.
Proof. intros. unfold q_push. rewrite getr_index. apply getr_set. Qed.
Lemma step_store : forall cfg i S o, RI i S -> op_fresh S o ->
  forall x, fold_left (loc x) (qstore cfg i o) (mem_at x i) = mem_at x (qnext cfg i o).
Proof.
  intros cfg i S o HR Hf x. pose proof (RI_J _ _ HR) as HJ. unfold qstore, qnext.
  destruct i as [s q]; simpl in HJ.
  assert (HM : forall s q, mem_at x (mkInner s q) = sq_at x s q) by reflexivity. rewrite HM.
  destruct o as [id payload prio now|now|max clk|id|id reason now|now1 now2|id|id|]; cbn [qstep i_state i_dlq].
  - cbn [fst snd fold_left]. rewrite HM. unfold sq_at. cbn [loc]. rewrite push_getr, upd_eq. cbn [m_id new_message].
    destruct (N.eqb_spec x id) as [->|]; auto.
    assert (Hn : getr s id = None).
    { apply (getr_none_ids s (s_wait S) (s_fly S)); [apply (ri_q _ _ HR)|]. apply Hf. }
    rewrite Hn. reflexivity.
  - destruct (pop_single now (c_vt cfg) s) as [s' [m|]] eqn:Ep; cbn [fst snd fold_left]; rewrite HM.
    + apply (pop_store _ _ _ _ _ q HJ Ep).
    + apply pop_getr in Ep. unfold sq_at. rewrite Ep. auto.
  - destruct (take_batch max clk (c_vt cfg) s) as [[s' ms]|] eqn:Ep; cbn [fst snd fold_left]; rewrite ?HM; auto.
    apply (take_store _ _ _ _ _ _ _ _ q HJ Ep).
  - destruct (delete_message id s) as [s' [m|]] eqn:Ed; cbn [fst snd fold_left]; rewrite HM; apply delete_getr in Ed; destruct Ed as [Hg Hu];
      unfold sq_at; cbn [loc]; rewrite Hu, upd_eq; destruct (N.eqb_spec x id) as [->|]; auto. rewrite <- Hg. reflexivity.
  - destruct (q_nack id reason (c_max cfg) now s) as [[s' rq] dq] eqn:En. pose proof (nack_store _ _ _ _ _ _ _ _ q HJ En) as H.
    destruct rq as [m|]; [|destruct dq as [d|]]; cbn [fst snd fold_left]; rewrite HM.
    + apply H.
    + apply H.
    + unfold sq_at. rewrite H. auto.
  - destruct (next_inflight_timeout s) as [ts|]; [|reflexivity]. destruct (ts <=? now1); [|reflexivity].
    unfold process_expired.
    destruct (fold_left requeue_one _ (s, [])) as [s1 rqd] eqn:E1.
    destruct (fold_left (dlq_one now2) _ (s1, [])) as [s2 dead] eqn:E2. cbn [fst snd]. rewrite HM.
    destruct (requeue_store _ _ _ q HJ _ _ E1) as [n1 [-> [HJ1 H1]]].
    destruct (dlq_one_store _ _ _ _ q HJ1 _ _ E2) as [n2 [-> [HJ2 H2]]]. cbn [app].
    rewrite fold_left_app, H1. apply H2.
  - destruct (aget N.eqb id q) as [d|] eqn:Eg; [|reflexivity]. cbn [fst snd fold_left]. rewrite HM. unfold sq_at, dlq_remove. cbn [loc].
    rewrite push_getr, upd_eq, aget_adel. cbn [m_id to_message]. rewrite (j_d _ _ HJ id d Eg).
    destruct (N.eqb_spec x id) as [->|]; auto. rewrite (j_x _ _ HJ id d Eg). reflexivity.
  - destruct (aget N.eqb id q) as [d|] eqn:Eg; [|reflexivity]. cbn [fst snd fold_left]. rewrite HM. unfold sq_at, dlq_remove. cbn [loc].
    rewrite aget_adel. reflexivity.
  - cbn [fst snd fold_left]. rewrite HM. reflexivity.
Qed.
