(** Recovery and the invariant of the running, crashing and restarting server. *)
From Verif Require Import LibBase LibMap QueueModel QueueSpec QueueObs QueueProofs QueueRefine QueueTrace QueueFacts QueueFacts2 QueuePersistModel QueuePersistProofs.

Definition rbody (id : N) (r : row) : body := (id, w_payload r, w_prio r, w_created r).
(** well-formed database; [P]: the messages that were ever pushed *)
Record wfdb (P : body -> Prop) (d : db) : Prop := {
  wf_m : NoDup (akeys (db_main d));
  wf_d : NoDup (akeys (db_dead d));
  wf_x : forall id, In id (akeys (db_main d)) -> ~ In id (akeys (db_dead d));
  wf_k : forall id e, In (id, e) (db_dead d) -> d_id e = id;
  wf_pm : forall id r, In (id, r) (db_main d) -> P (rbody id r);
  wf_pd : forall id e, In (id, e) (db_dead d) -> P (dbody_of e) }.
Definition good (P : body -> Prop) (d : db) (o : storeop) : Prop :=
  match o with
  | SInsert m => P (body_of m) /\ ~ In (m_id m) (akeys (db_dead d))
  | SInsertDLQ e => False
  | SMoveToDLQ id e => id = d_id e /\ P (dbody_of e)
  | SMoveToMain id m => id = m_id m /\ P (body_of m)
  | _ => True
  end.
Lemma in_ins : forall A k (v : A) t x y, In (x, y) (ins k v t) -> In (x, y) t \/ (x = k /\ y = v).
Proof. intros A k v t x y. unfold ins. destruct (aget N.eqb k t); auto. rewrite in_app_iff. simpl. intros [H|[H|[]]]; auto. inversion H; auto. Qed.
Lemma keys_ins : forall A k (v : A) t x, In x (akeys (ins k v t)) -> In x (akeys t) \/ x = k.
Proof.
  intros A k v t x H. unfold akeys in *. apply in_map_iff in H. destruct H as [[a b] [<- H]]. apply in_ins in H. simpl.
  destruct H as [H|[-> _]]; auto. left. apply in_map_iff. exists (a, b); auto.
Qed.
Lemma nd_ins : forall A k (v : A) t, NoDup (akeys t) -> NoDup (akeys (ins k v t)).
Proof.
  intros A k v t H. unfold ins. destruct (aget N.eqb k t) eqn:E; auto. rewrite akeys_app. simpl. apply NoDup_app_intro; auto.
  - constructor; [intros []|constructor].
  - intros x Hx [<-|[]]. apply (aget_None_notin N.eqb Neqb_ok) in E. contradiction.
Qed.
Lemma in_adel : forall A k (t : list (N * A)) x y, In (x, y) (adel N.eqb k t) -> In (x, y) t /\ x <> k.
Proof.
  intros A k t x y; induction t as [|[a b] t IH]; simpl; [tauto|]. destruct (N.eqb_spec k a) as [->|Hn].
  - intro H. apply IH in H. tauto.
  - simpl. intros [H|H]; [inversion H; subst; auto|]. apply IH in H; tauto.
Qed.
Lemma keys_adel : forall A k (t : list (N * A)) x, In x (akeys (adel N.eqb k t)) -> In x (akeys t) /\ x <> k.
Proof.
  intros A k t x H. unfold akeys in *. apply in_map_iff in H. destruct H as [[a b] [<- H]]. apply in_adel in H. simpl. split; [|tauto].
  apply in_map_iff. exists (a, b); tauto.
Qed.
Lemma nd_adel : forall A k (t : list (N * A)), NoDup (akeys t) -> NoDup (akeys (adel N.eqb k t)).
Proof.
  intros A k t; induction t as [|[a b] t IH]; simpl; intro H; auto. inversion H as [|x l Hx Hn]; subst.
  destruct (k =? a); auto. simpl. constructor; auto. intro Hi. apply Hx. apply keys_adel in Hi. tauto.
Qed.
Lemma keys_aset : forall A k (v : A) t, aget N.eqb k t <> None -> akeys (aset N.eqb k v t) = akeys t.
Proof.
  intros A k v t; induction t as [|[a b] t IH]; simpl; intro H; [congruence|]. destruct (N.eqb_spec k a) as [->|Hn]; simpl; auto.
  rewrite IH; auto.
Qed.
Lemma in_aset : forall A k (v : A) t x y, NoDup (akeys t) -> In (x, y) (aset N.eqb k v t) -> (x = k /\ y = v) \/ In (x, y) t.
Proof.
  intros A k v t x y; induction t as [|[a b] t IH]; simpl; intros Hn H.
  - destruct H as [H|[]]; inversion H; auto.
  - inversion Hn; subst. destruct (N.eqb_spec k a) as [->|Hk]; simpl in H.
    + destruct H as [H|H]; [inversion H; auto|auto].
    + destruct H as [H|H]; [auto|]. apply IH in H; tauto.
Qed.
Lemma keys_upd : forall k v a t, akeys (upd_row k v a t) = akeys t.
Proof. intros k v a t; unfold upd_row. destruct (aget N.eqb k t) eqn:E; auto. apply keys_aset. congruence. Qed.
Lemma exec_wf : forall P d o, wfdb P d -> good P d o -> wfdb P (exec_op d o).
Proof.
  intros P d o [Hm Hd Hx Hk Hpm Hpd] Hg. destruct o as [m|id|id v a|e|id|id e|id m|]; simpl in Hg; try contradiction; constructor; simpl; auto;
    try (apply nd_ins; auto); try (apply nd_adel; auto).
  - intros id Hi. apply keys_ins in Hi. destruct Hi as [Hi| ->]; [auto|tauto].
  - intros id r Hi. apply in_ins in Hi. destruct Hi as [Hi|[-> ->]]; auto. tauto.
  - intros x Hi. apply keys_adel in Hi. apply Hx; tauto.
  - intros x r Hi. apply in_adel in Hi. apply Hpm; tauto.
  - rewrite keys_upd; auto.
  - intros x Hi. rewrite keys_upd in Hi. auto.
  - intros x r Hi. unfold upd_row in Hi. destruct (aget N.eqb id (db_main d)) as [r0|] eqn:E; auto.
    apply in_aset in Hi; auto. destruct Hi as [[-> ->]|Hi]; auto. apply (aget_In N.eqb Neqb_ok) in E. apply (Hpm _ _ E).
  - intros x Hi Hj. apply keys_adel in Hj. apply (Hx x); tauto.
  - intros x e Hi. apply in_adel in Hi. apply Hk; tauto.
  - intros x e Hi. apply in_adel in Hi. apply (Hpd x); tauto.
  - destruct Hg as [-> _]. intros x Hi Hj. apply keys_adel in Hi. apply keys_ins in Hj. destruct Hj as [Hj|Hj]; [apply (Hx x); tauto|tauto].
  - intros x e0 Hi. apply in_ins in Hi. destruct Hi as [Hi|[-> ->]]; auto.
  - intros x r Hi. apply in_adel in Hi. apply Hpm; tauto.
  - intros x e0 Hi. apply in_ins in Hi. destruct Hi as [Hi|[-> ->]]; [eauto|tauto].
  - destruct Hg as [-> _]. intros x Hi Hj. apply keys_adel in Hj. apply keys_ins in Hi. destruct Hi as [Hi|Hi]; [apply (Hx x); tauto|tauto].
  - intros x e Hi. apply in_adel in Hi. apply Hk; tauto.
  - intros x r Hi. apply in_ins in Hi. destruct Hi as [Hi|[-> ->]]; auto. tauto.
  - intros x e Hi. apply in_adel in Hi. apply (Hpd x); tauto.
  - constructor.
  - intros ? ? [].
  - intros ? ? [].
Qed.
Fixpoint opsok (P : body -> Prop) (d : db) (l : list storeop) : Prop :=
  match l with [] => True | o :: l' => good P d o /\ opsok P (exec_op d o) l' end.
Lemma opsok_app : forall P a b d, opsok P d (a ++ b) <-> opsok P d a /\ opsok P (exec_all a d) b.
Proof. intros P a; induction a as [|o a IH]; intros b d; simpl; [tauto|]. rewrite IH. tauto. Qed.
Lemma opsok_wf : forall P l d, wfdb P d -> opsok P d l -> wfdb P (exec_all l d).
Proof. intros P l; induction l as [|o l IH]; intros d Hw H; simpl; auto. destruct H. apply IH; auto. apply exec_wf; auto. Qed.
Lemma wf_mono : forall (P Q : body -> Prop) d, (forall b, P b -> Q b) -> wfdb P d -> wfdb Q d.
Proof. intros P Q d H [A B C D E F]; constructor; eauto. Qed.
Lemma opsok_mono : forall (P Q : body -> Prop) l d, (forall b, P b -> Q b) -> opsok P d l -> opsok Q d l.
Proof.
  intros P Q l; induction l as [|o l IH]; intros d H Ho; simpl in *; auto. destruct Ho as [Hg Ho]. split; auto.
  destruct o; simpl in *; intuition.
Qed.
Lemma opsok_easy : forall P l d, Forall (fun o => match o with SInsert _ => False | _ => good P d o end) l -> opsok P d l.
Proof.
  intros P l; induction l as [|o l IH]; intros d H; simpl; auto. inversion H; subst. split.
  - destruct o; simpl in *; tauto.
  - apply IH. eapply Forall_impl; [|eassumption]. intros [] ; simpl; tauto.
Qed.

(** * Recovery *)
Lemma load_ids : forall clk t i, ids (load_rows clk i t) = akeys t.
Proof. intros clk t; induction t as [|[id r] t IH]; intro i; simpl; auto. rewrite IH. reflexivity. Qed.
Lemma load_in : forall clk t i m, In m (load_rows clk i t) -> exists j id r, In (id, r) t /\ m = load_row (clk j) (id, r).
Proof.
  intros clk t; induction t as [|[id r] t IH]; intros i m; simpl; [tauto|]. intros [<-|H].
  - exists i, id, r. auto.
  - apply IH in H. destruct H as [j [id' [r' [H1 H2]]]]. exists j, id', r'. auto.
Qed.
Definition ready (m : message) : bool := match m_state m with Ready => true | _ => false end.
Definition fly_order (l : list message) : list message := fold_left (fun f m => ins_dl m f) (filter (fun m => negb (ready m)) l) [].
Lemma push_fly : forall s w f m t, RS s w f -> getr s (m_id m) = None -> m_state m = InFlight t -> RS (q_push m s) w (ins_dl m f).
Proof.
  intros s w f m t HR Hg Hm. unfold q_push, RS. rewrite Hm. cbn [add_to_index q_disp q_ack reg_set].
  eapply RQ_ext; [|eapply (RQ_add_f _ _ _ _ _ m t HR Hg Hm)]. intro x. symmetry. apply (getr_set (m_id m) m s).
Qed.
Lemma push_list : forall l s w f, RS s w f -> NoDup (ids l) -> (forall x, In x (ids l) -> getr s x = None) ->
  RS (fold_left (fun s m => q_push m s) l s) (w ++ filter ready l) (fold_left (fun f m => ins_dl m f) (filter (fun m => negb (ready m)) l) f) /\
  forall x, getr (fold_left (fun s m => q_push m s) l s) x = match find_id x l with Some m => Some m | None => getr s x end.
Proof.
  induction l as [|m l IH]; intros s w f HR Hn Hg; simpl; [rewrite app_nil_r; auto|].
  inversion Hn as [|a b Ha Hb]; subst. assert (Hm : getr s (m_id m) = None) by (apply Hg; simpl; auto).
  assert (Hf : forall x, In x (ids l) -> getr (q_push m s) x = None).
  { intros x Hx. rewrite push_getr, upd_eq. destruct (N.eqb_spec x (m_id m)) as [->|]; [contradiction|]. apply Hg; simpl; auto. }
  assert (H : RS (q_push m s) (if ready m then w ++ [m] else w) (if ready m then f else ins_dl m f)).
  { unfold ready. destruct (m_state m) as [|t] eqn:Es; [apply push_ok; auto|eapply push_fly; eauto]. }
  destruct (IH _ _ _ H Hb Hf) as [A B]. split.
  - destruct (ready m); simpl; [rewrite <- app_assoc in A; exact A|exact A].
  - intro x. rewrite B, push_getr, upd_eq. unfold find_id at 2. simpl. fold (find_id x l). rewrite (N.eqb_sym (m_id m)).
    destruct (N.eqb_spec x (m_id m)) as [->|]; auto.
    destruct (find_id (m_id m) l) as [y|] eqn:E; auto. apply find_id_some in E. destruct E as [E1 E2]. exfalso; apply Ha. rewrite <- E2. apply ids_In; auto.
Qed.
Lemma row_load : forall now id r, row_of (load_row now (id, r)) = r.
Proof. intros now id [p a b c d]. reflexivity. Qed.
Lemma find_load : forall clk x t i, option_map row_of (find_id x (load_rows clk i t)) = aget N.eqb x t.
Proof.
  intros clk x t; induction t as [|[id r] t IH]; intro i; [reflexivity|]. cbn [load_rows aget]. unfold find_id. cbn [find].
  change (m_id (load_row (clk i) (id, r))) with id. rewrite (N.eqb_sym id x). destruct (x =? id); [cbn [option_map]; rewrite row_load; auto|apply IH].
Qed.
Lemma aget_perm : forall A (a b : list (N * A)) x, NoDup (akeys b) -> Permutation a b -> aget N.eqb x a = aget N.eqb x b.
Proof.
  intros A a b x Hn Hp. assert (Ha : NoDup (akeys a)).
  { eapply Permutation_NoDup; [|exact Hn]. apply Permutation_map. symmetry; auto. }
  destruct (aget N.eqb x a) as [v|] eqn:E.
  - apply (aget_In N.eqb Neqb_ok) in E. symmetry. apply (In_aget N.eqb Neqb_ok); auto. eapply Permutation_in; eauto.
  - destruct (aget N.eqb x b) as [v|] eqn:E2; auto. apply (aget_In N.eqb Neqb_ok) in E2.
    apply (Permutation_in _ (Permutation_sym Hp)) in E2. apply (In_aget N.eqb Neqb_ok _ _ _ Ha) in E2. congruence.
Qed.
Lemma fold_ins_perm : forall l f, Permutation (fold_left (fun f m => ins_dl m f) l f) (l ++ f).
Proof.
  induction l as [|m l IH]; intro f; simpl; auto. rewrite IH. rewrite ins_dl_perm. symmetry. apply Permutation_middle.
Qed.
Definition recovered (clk : nat -> N) (main : list (N * row)) (dead : list (N * dlqmsg)) : qspec :=
  mkSpec (filter ready (load_rows clk 0 main)) (fly_order (load_rows clk 0 main)) (avals dead).
Lemma dlq_rebuild : forall dead, (forall id e, In (id, e) dead -> d_id e = id) -> NoDup (akeys dead) ->
  fold_left (fun q d => dlq_push d q) (avals dead) [] = dead.
Proof.
  intros dead Hk Hn. rewrite dlq_push_all.
  - simpl. unfold avals. rewrite map_map. rewrite <- (map_id dead) at 2. apply map_ext_in. intros [k d] H. simpl. rewrite (Hk _ _ H). auto.
  - simpl. rewrite <- akeys_dids; auto.
Qed.
Lemma recover_ok : forall P d clk main dead, wfdb P d -> Permutation main (db_main d) -> Permutation dead (db_dead d) ->
  RI (recover clk main dead) (recovered clk main dead) /\
  (forall x, mem_at x (recover clk main dead) = db_at x d) /\
  (forall b, In b (bodies (recovered clk main dead)) -> P b).
Proof.
  intros P d clk main dead [Wm Wd Wx Wk Wpm Wpd] Pm Pd.
  assert (Nm : NoDup (akeys main)) by (eapply Permutation_NoDup; [apply Permutation_map; symmetry; exact Pm|auto]).
  assert (Nd : NoDup (akeys dead)) by (eapply Permutation_NoDup; [apply Permutation_map; symmetry; exact Pd|auto]).
  assert (Kd : forall id e, In (id, e) dead -> d_id e = id) by (intros id e H; apply Wk; eapply Permutation_in; eauto).
  destruct (push_list (load_rows clk 0 main) q_empty [] [] RS_empty) as [HR Hg].
  { rewrite load_ids; auto. } { reflexivity. }
  cbn [app] in HR.
  assert (Hmem : forall x, mem_at x (recover clk main dead) = db_at x d).
  { intro x. unfold mem_at, recover, db_at. cbn [i_state i_dlq]. rewrite dlq_rebuild by auto. rewrite Hg.
    rewrite (aget_perm _ dead (db_dead d)) by auto. rewrite <- (aget_perm _ main (db_main d)) by auto.
    rewrite <- (find_load clk x main 0). destruct (find_id x (load_rows clk 0 main)); reflexivity. }
  split; [|split; [exact Hmem|]].
  - constructor; unfold recover, recovered; cbn [i_state i_dlq s_wait s_fly s_dead]; rewrite ?dlq_rebuild by auto; auto.
    intros id Hi. pose proof (Hmem id) as E. unfold mem_at, db_at, recover in E. cbn [i_state i_dlq] in E. inversion E as [[E1 E2]].
    assert (Hn : aget N.eqb id (db_main d) = None).
    { apply (aget_None_notin N.eqb Neqb_ok). intro Hk. apply (Wx _ Hk). eapply Permutation_in; [apply Permutation_map; exact Pd|exact Hi]. }
    rewrite Hn in E1. destruct (getr _ id); [discriminate|auto].
  - intros b Hb. unfold bodies, recovered in Hb. cbn [s_wait s_fly s_dead] in Hb. apply in_app_iff in Hb. destruct Hb as [Hb|Hb]; apply in_map_iff in Hb; destruct Hb as [m [<- Hm]].
    + assert (Hl : In m (load_rows clk 0 main)).
      { apply in_app_iff in Hm. destruct Hm as [Hm|Hm]; [apply filter_In in Hm; tauto|]. unfold fly_order in Hm.
        eapply Permutation_in in Hm; [|apply fold_ins_perm]. rewrite app_nil_r in Hm. apply filter_In in Hm; tauto. }
      apply load_in in Hl. destruct Hl as [j [id [r [Hr ->]]]]. apply (Wpm id r). eapply Permutation_in; eauto.
    + unfold avals in Hm. apply in_map_iff in Hm. destruct Hm as [[id e] [<- He]]. apply (Wpd id). eapply Permutation_in; eauto.
Qed.
