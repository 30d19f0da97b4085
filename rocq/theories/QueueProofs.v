(** The queue model refines the three-list specification. *)
From Verif Require Import LibBase LibMap QueueModel QueueSpec.

(** * Small list facts *)
Lemma filter_ext_in' : forall A (f g : A -> bool) l, (forall x, In x l -> f x = g x) -> filter f l = filter g l.
Proof.
  intros A f g l; induction l as [|x l IH]; intro H; auto. simpl.
  rewrite (H x) by (left; auto). rewrite IH; auto. intros y Hy; apply H; right; auto.
Qed.
Lemma filter_true_id : forall A (f : A -> bool) l, (forall x, In x l -> f x = true) -> filter f l = l.
Proof.
  intros A f l; induction l as [|x l IH]; intro H; auto. simpl.
  rewrite (H x) by (left; auto). f_equal; apply IH; intros y Hy; apply H; right; auto.
Qed.
Lemma filter_false_nil : forall A (f : A -> bool) l, (forall x, In x l -> f x = false) -> filter f l = [].
Proof.
  intros A f l; induction l as [|x l IH]; intro H; auto. simpl.
  rewrite (H x) by (left; auto). apply IH; intros y Hy; apply H; right; auto.
Qed.
Lemma filter_filter : forall A (f g : A -> bool) l, filter f (filter g l) = filter (fun x => f x && g x) l.
Proof.
  intros A f g l; induction l as [|x l IH]; auto. simpl.
  destruct (g x) eqn:E; simpl; rewrite ?IH; destruct (f x); simpl; auto.
Qed.
Lemma filter_comm : forall A (f g : A -> bool) l, filter f (filter g l) = filter g (filter f l).
Proof. intros; rewrite !filter_filter. apply filter_ext; intros; apply andb_comm. Qed.
Lemma NoDup_app_inv : forall A (a b : list A), NoDup (a ++ b) -> NoDup a /\ NoDup b /\ (forall x, In x a -> ~ In x b).
Proof.
  intros A a b; induction a as [|x a IH]; simpl; intro H.
  - split; [constructor|split; auto].
  - inversion H as [|y l Hx Hn]; subst. destruct (IH Hn) as [Ha [Hb Hd]]. split; [|split; auto].
    + constructor; auto. intro Hi; apply Hx; apply in_or_app; auto.
    + intros y [->|Hy]; auto. intro Hi; apply Hx; apply in_or_app; auto.
Qed.
Lemma NoDup_app_intro : forall A (a b : list A), NoDup a -> NoDup b -> (forall x, In x a -> ~ In x b) -> NoDup (a ++ b).
Proof.
  intros A a b Ha Hb; induction a as [|x a IH]; simpl; intro Hd; auto.
  inversion Ha as [|y l Hx Hn]; subst. constructor.
  - intro Hi; apply in_app_or in Hi; destruct Hi as [Hi|Hi]; auto. apply (Hd x); auto. 
  - apply IH; auto.
Qed.

(** * Indices *)
Definition bucket (k : N) (ix : index) : list N := match bget k ix with Some q => q | None => [] end.
Definition ix_ok (ix : index) : Prop := ksorted ix /\ Forall (fun e => snd e <> []) ix.

Lemma ix_ok_nil : ix_ok [].
Proof. split; constructor. Qed.
Lemma bucket_nil : forall k, bucket k [] = [].
Proof. reflexivity. Qed.
Lemma bucket_add : forall k' k id ix,
  bucket k' (idx_add k id ix) = if k' =? k then nins id (bucket k ix) else bucket k' ix.
Proof.
  intros k' k id ix. unfold idx_add. fold (bucket k ix). unfold bucket at 1.
  destruct (N.eqb_spec k' k) as [->|Hn].
  - rewrite bget_bput_same. reflexivity.
  - rewrite bget_bput_other by auto. reflexivity.
Qed.
Lemma ix_ok_add : forall k id ix, ix_ok ix -> ix_ok (idx_add k id ix).
Proof.
  intros k id ix [Hs Hne]. split; [apply ksorted_bput; auto|].
  apply Forall_forall. intros x Hx. apply bput_In in Hx. destruct Hx as [->|Hx].
  - simpl. unfold nins. intro H; apply app_eq_nil in H; destruct H; discriminate.
  - rewrite Forall_forall in Hne; auto.
Qed.
Lemma bucket_del : forall k' k id ix,
  bucket k' (idx_del k id ix) = if k' =? k then nrem id (bucket k ix) else bucket k' ix.
Proof.
  intros k' k id ix. unfold idx_del, bucket. destruct (bget k ix) as [q|] eqn:E.
  - destruct (nrem id q) as [|y q'] eqn:Eq.
    + destruct (N.eqb_spec k' k) as [->|Hn].
      * rewrite (aget_adel_same N.eqb). auto.
      * rewrite (aget_adel_other N.eqb N.eqb_eq) by auto. reflexivity.
    + destruct (N.eqb_spec k' k) as [->|Hn].
      * rewrite bget_bput_same; auto.
      * rewrite bget_bput_other by auto; reflexivity.
  - destruct (N.eqb_spec k' k) as [->|Hn]; [rewrite E|]; reflexivity.
Qed.
Lemma ix_ok_del : forall k id ix, ix_ok ix -> ix_ok (idx_del k id ix).
Proof.
  intros k id ix [Hs Hne]. unfold idx_del. destruct (bget k ix) as [q|]; [|split; auto].
  rewrite Forall_forall in Hne.
  destruct (nrem id q) as [|y q'] eqn:Eq; split.
  - apply ksorted_bdel; auto.
  - apply Forall_forall. intros [a b] Hx. apply (adel_In N.eqb N.eqb_eq) in Hx. apply Hne; tauto.
  - apply ksorted_bput; auto.
  - apply Forall_forall. intros x Hx. apply bput_In in Hx. destruct Hx as [->|Hx]; [discriminate|auto].
Qed.

(** an index agrees with a list of messages keyed by [f] *)
Definition ids (l : list message) : list N := map m_id l.
Definition keyed (f : message -> N) (ix : index) (l : list message) : Prop :=
  forall k, bucket k ix = ids (filter (fun m => f m =? k) l).

Lemma keyed_key_in : forall f ix l m, keyed f ix l -> In m l -> In (f m) (akeys ix).
Proof.
  intros f ix l m Hk Hin. apply (aget_Some_in N.eqb N.eqb_eq).
  specialize (Hk (f m)). unfold bucket in Hk. destruct (bget (f m) ix) as [q|]; eauto.
  exfalso. assert (Hi : In (m_id m) (ids (filter (fun m0 => f m0 =? f m) l))).
  { apply in_map. apply filter_In; split; auto. apply N.eqb_refl. }
  rewrite <- Hk in Hi. destruct Hi.
Qed.
Lemma bucket_cons_same : forall k q ix, bucket k ((k, q) :: ix) = q.
Proof. intros; unfold bucket; simpl; rewrite N.eqb_refl; reflexivity. Qed.
Lemma bucket_cons_other : forall k k' q ix, k <> k' -> bucket k ((k', q) :: ix) = bucket k ix.
Proof. intros; unfold bucket; simpl. destruct (N.eqb_spec k k'); [contradiction|reflexivity]. Qed.
Lemma ksorted_cons_notin : forall k (q : list N) ix, ksorted ((k, q) :: ix) -> ~ In k (akeys ix).
Proof.
  intros k q ix H. apply ksorted_NoDup in H. simpl in H. inversion H; auto.
Qed.
(** removing the first key *)
Lemma keyed_tail : forall f k q ix l, ksorted ((k, q) :: ix) -> keyed f ((k, q) :: ix) l ->
  keyed f ix (filter (fun m => negb (f m =? k)) l).
Proof.
  intros f k q ix l Hs Hk k'. rewrite filter_filter. destruct (N.eq_dec k' k) as [->|Hn].
  - replace (bucket k ix) with (@nil N).
    + rewrite filter_false_nil; auto. intros x _. destruct (f x =? k); auto.
    + unfold bucket. apply ksorted_cons_notin in Hs. apply (aget_None_notin N.eqb N.eqb_eq) in Hs. rewrite Hs; reflexivity.
  - specialize (Hk k'). rewrite bucket_cons_other in Hk by auto. rewrite Hk.
    f_equal. apply filter_ext. intros x. destruct (N.eqb_spec (f x) k'); simpl; auto.
    destruct (N.eqb_spec (f x) k); simpl; auto. lia.
Qed.
Definition fsorted (f : message -> N) (l : list message) : Prop := StronglySorted (fun a b => f a <= f b) l.
Lemma fsorted_filter : forall f g l, fsorted f l -> fsorted f (filter g l).
Proof.
  intros f g l; unfold fsorted; induction l as [|x l IH]; simpl; intro H; auto.
  inversion H as [|y l' Hs Hx]; subst. destruct (g x); auto. constructor; auto.
  rewrite Forall_forall in *. intros y Hy; apply filter_In in Hy; apply Hx; tauto.
Qed.
Lemma fsorted_split : forall f k l, fsorted f l -> (forall m, In m l -> k <= f m) ->
  l = filter (fun m => f m =? k) l ++ filter (fun m => negb (f m =? k)) l.
Proof.
  intros f k l; unfold fsorted; induction l as [|x l IH]; simpl; intros Hs Hm; auto.
  inversion Hs as [|y l' Hs' Hx]; subst.
  destruct (N.eqb_spec (f x) k) as [He|Hne]; simpl.
  - f_equal. apply IH; auto.
  - rewrite filter_false_nil.
    + simpl. f_equal. symmetry; apply filter_true_id. intros y Hy.
      rewrite Forall_forall in Hx. specialize (Hx y Hy). specialize (Hm x (or_introl eq_refl)). lia.
    + intros y Hy. rewrite Forall_forall in Hx. specialize (Hx y Hy). specialize (Hm x (or_introl eq_refl)). lia.
Qed.
Lemma keyed_min : forall f k q ix l m, ksorted ((k, q) :: ix) -> keyed f ((k, q) :: ix) l -> In m l -> k <= f m.
Proof.
  intros f k q ix l m Hs Hk Hin. pose proof (keyed_key_in _ _ _ _ Hk Hin) as H. simpl in H.
  destruct H as [<-|H]; [lia|]. inversion Hs as [|y l' _ Hx]; subst. rewrite Forall_forall in Hx.
  unfold akeys in H. apply in_map_iff in H. destruct H as [[a b] [Ha Hb]]. simpl in Ha; subst.
  apply Hx in Hb. simpl in Hb; lia.
Qed.
Lemma keyed_nil : forall f l, keyed f [] l -> l = [].
Proof.
  intros f l Hk. destruct l as [|m l]; auto. exfalso.
  pose proof (keyed_key_in f [] (m :: l) m Hk (or_introl eq_refl)) as H. destruct H.
Qed.
Lemma flat_keyed : forall f ix l, ksorted ix -> keyed f ix l -> fsorted f l -> flat ix = ids l.
Proof.
  intros f ix; induction ix as [|[k q] ix IH]; intros l Hs Hk Hf.
  - rewrite (keyed_nil _ _ Hk). reflexivity.
  - rewrite (fsorted_split f k l Hf) by (intros m Hm; eapply keyed_min; eauto).
    unfold ids; rewrite map_app. unfold flat; cbn [map concat snd]. f_equal.
    + specialize (Hk k). rewrite bucket_cons_same in Hk. exact Hk.
    + apply IH.
      * inversion Hs; auto.
      * eapply keyed_tail; eauto.
      * apply fsorted_filter; auto.
Qed.
Lemma overdue_keyed : forall f now ix l, ksorted ix -> keyed f ix l -> fsorted f l ->
  overdue_ids now ix = ids (filter (fun m => f m <=? now) l).
Proof.
  intros f now ix; induction ix as [|[k q] ix IH]; intros l Hs Hk Hf.
  - rewrite (keyed_nil _ _ Hk). reflexivity.
  - cbn [overdue_ids]. destruct (N.leb_spec k now) as [Hle|Hgt].
    + rewrite (fsorted_split f k l Hf) by (intros m Hm; eapply keyed_min; eauto).
      rewrite filter_app. unfold ids; rewrite map_app. f_equal.
      * specialize (Hk k). rewrite bucket_cons_same in Hk. rewrite Hk. unfold ids. f_equal.
        rewrite filter_filter. apply filter_ext. intros x. destruct (N.eqb_spec (f x) k); [|rewrite andb_false_r; auto].
        simpl. rewrite andb_true_r. symmetry. apply N.leb_le. lia.
      * apply IH.
        -- inversion Hs; auto.
        -- eapply keyed_tail; eauto.
        -- apply fsorted_filter; auto.
    + rewrite filter_false_nil; auto. intros m Hm. pose proof (keyed_min _ _ _ _ _ _ Hs Hk Hm). lia.
Qed.

(** * The refinement relation *)
Record RQ (g : N -> option message) (disp ack : index) (w f : list message) : Prop := {
  r_id : forall id m, g id = Some m -> m_id m = id /\ In m (w ++ f);
  r_w : forall m, In m w -> m_state m = Ready /\ g (m_id m) = Some m;
  r_f : forall m, In m f -> (exists t, m_state m = InFlight t) /\ g (m_id m) = Some m;
  r_nd : NoDup (ids (w ++ f));
  r_dok : ix_ok disp;
  r_aok : ix_ok ack;
  r_dk : keyed m_prio disp w;
  r_ak : keyed dl ack f;
  r_srt : fsorted dl f }.

Lemma RQ_ext : forall g g' d a w f, (forall id, g id = g' id) -> RQ g d a w f -> RQ g' d a w f.
Proof.
  intros g g' d a w f He [H1 H2 H3 H4 H5 H6 H7 H8 H9]. constructor; auto.
  - intros id m H; rewrite <- He in H; auto.
  - intros m Hm; rewrite <- He; auto.
  - intros m Hm; rewrite <- He; auto.
Qed.
Definition upd {A} (g : N -> A) (k : N) (v : A) : N -> A := fun x => if x =? k then v else g x.

Lemma ids_without : forall id l, ids (without id l) = nrem id (ids l).
Proof.
  intros id l; unfold ids, without, nrem. induction l as [|m l IH]; simpl; auto.
  destruct (m_id m =? id); simpl; rewrite IH; auto.
Qed.
Lemma without_In : forall id m l, In m (without id l) <-> In m l /\ m_id m <> id.
Proof. intros; unfold without; rewrite filter_In, negb_true_iff, N.eqb_neq; tauto. Qed.
Lemma without_notin : forall id l, ~ In id (ids l) -> without id l = l.
Proof.
  intros id l H. apply filter_true_id. intros x Hx. destruct (N.eqb_spec (m_id x) id) as [<-|]; auto.
  exfalso; apply H. apply in_map; auto.
Qed.
Lemma without_app : forall id a b, without id (a ++ b) = without id a ++ without id b.
Proof. intros; apply filter_app. Qed.
Lemma NoDup_ids_inj : forall l a b, NoDup (ids l) -> In a l -> In b l -> m_id a = m_id b -> a = b.
Proof.
  intros l; induction l as [|x l IH]; simpl; intros a b Hn Ha Hb He; [contradiction|].
  inversion Hn as [|y l' Hx Hn']; subst. destruct Ha as [->|Ha], Hb as [->|Hb]; auto.
  - exfalso; apply Hx. rewrite He. apply in_map; auto.
  - exfalso; apply Hx. rewrite <- He. apply in_map; auto.
Qed.
Lemma keyed_without : forall f ix l m, NoDup (ids l) -> In m l -> keyed f ix l ->
  keyed f (idx_del (f m) (m_id m) ix) (without (m_id m) l).
Proof.
  intros f ix l m Hn Hin Hk k. rewrite bucket_del. destruct (N.eqb_spec k (f m)) as [->|Hne].
  - rewrite Hk. rewrite <- ids_without. unfold without. rewrite filter_comm. reflexivity.
  - rewrite Hk. unfold without. rewrite filter_comm. f_equal. symmetry. apply filter_true_id.
    intros x Hx. apply filter_In in Hx. destruct Hx as [Hx Hf]. apply N.eqb_eq in Hf.
    destruct (N.eqb_spec (m_id x) (m_id m)) as [He|]; auto.
    assert (x = m) by (eapply NoDup_ids_inj; eauto). subst; contradiction.
Qed.
Lemma ids_In : forall m l, In m l -> In (m_id m) (ids l).
Proof. intros; apply in_map; auto. Qed.
Lemma ids_app : forall a b, ids (a ++ b) = ids a ++ ids b.
Proof. intros; apply map_app. Qed.
Lemma NoDup_ids_without : forall id l, NoDup (ids l) -> NoDup (ids (without id l)).
Proof. intros; rewrite ids_without; apply NoDup_nrem; auto. Qed.

(** remove a waiting message *)
Lemma RQ_del_w : forall g d a w f m, RQ g d a w f -> In m w ->
  RQ (upd g (m_id m) None) (idx_del (m_prio m) (m_id m) d) a (without (m_id m) w) f.
Proof.
  intros g d a w f m [H1 H2 H3 H4 H5 H6 H7 H8 H9] Hin.
  rewrite ids_app in H4. pose proof (NoDup_app_inv _ _ _ H4) as [Hnw [Hnf Hd]].
  constructor; auto.
  - intros id m' H. unfold upd in H. destruct (N.eqb_spec id (m_id m)) as [|Hne]; [discriminate|].
    destruct (H1 id m' H) as [Hi Hx]. split; auto. apply in_app_or in Hx. apply in_or_app.
    destruct Hx as [Hx|Hx]; auto. left; apply without_In; split; auto. congruence.
  - intros m' Hm'. apply without_In in Hm'. destruct Hm' as [Hm' Hne]. unfold upd.
    destruct (N.eqb_spec (m_id m') (m_id m)); [contradiction|]. auto.
  - intros m' Hm'. unfold upd. destruct (N.eqb_spec (m_id m') (m_id m)) as [He|]; auto.
    exfalso; apply (Hd (m_id m)); [apply ids_In; auto|]. rewrite <- He; apply ids_In; auto.
  - rewrite ids_app. apply NoDup_app_intro; auto.
    + apply NoDup_ids_without; auto.
    + intros x Hx. rewrite ids_without in Hx. apply nrem_In in Hx. apply Hd; tauto.
  - apply ix_ok_del; auto.
  - apply keyed_without; auto.
Qed.
(** remove an in-flight message *)
Lemma RQ_del_f : forall g d a w f m, RQ g d a w f -> In m f ->
  RQ (upd g (m_id m) None) d (idx_del (dl m) (m_id m) a) w (without (m_id m) f).
Proof.
  intros g d a w f m [H1 H2 H3 H4 H5 H6 H7 H8 H9] Hin.
  rewrite ids_app in H4. pose proof (NoDup_app_inv _ _ _ H4) as [Hnw [Hnf Hd]].
  constructor; auto.
  - intros id m' H. unfold upd in H. destruct (N.eqb_spec id (m_id m)) as [|Hne]; [discriminate|].
    destruct (H1 id m' H) as [Hi Hx]. split; auto. apply in_app_or in Hx. apply in_or_app.
    destruct Hx as [Hx|Hx]; auto. right; apply without_In; split; auto. congruence.
  - intros m' Hm'. unfold upd. destruct (N.eqb_spec (m_id m') (m_id m)) as [He|]; auto.
    exfalso; apply (Hd (m_id m)); [rewrite <- He|]; apply ids_In; auto.
  - intros m' Hm'. apply without_In in Hm'. destruct Hm' as [Hm' Hne]. unfold upd.
    destruct (N.eqb_spec (m_id m') (m_id m)); [contradiction|]. auto.
  - rewrite ids_app. apply NoDup_app_intro; auto.
    + apply NoDup_ids_without; auto.
    + intros x Hx. rewrite ids_without. intro Hx2. apply nrem_In in Hx2. apply (Hd x); tauto.
  - apply ix_ok_del; auto.
  - apply keyed_without; auto.
  - apply fsorted_filter; auto.
Qed.
(** add a waiting message at the back *)
Lemma RQ_add_w : forall g d a w f m, RQ g d a w f -> g (m_id m) = None -> m_state m = Ready ->
  RQ (upd g (m_id m) (Some m)) (idx_add (m_prio m) (m_id m) d) a (w ++ [m]) f.
Proof.
  intros g d a w f m [H1 H2 H3 H4 H5 H6 H7 H8 H9] Hg Hst.
  assert (Hfresh : ~ In (m_id m) (ids (w ++ f))).
  { intro Hi. unfold ids in Hi. apply in_map_iff in Hi. destruct Hi as [x [Hx Hi]].
    apply in_app_or in Hi. destruct Hi as [Hi|Hi]; [apply H2 in Hi|apply H3 in Hi]; destruct Hi as [_ Hi];
      rewrite Hx, Hg in Hi; discriminate. }
  rewrite ids_app in H4, Hfresh. pose proof (NoDup_app_inv _ _ _ H4) as [Hnw [Hnf Hd]].
  constructor; auto.
  - intros id m' H. unfold upd in H. destruct (N.eqb_spec id (m_id m)) as [->|Hne].
    + inversion H; subst. split; auto. rewrite <- app_assoc. apply in_or_app; right; left; auto.
    + destruct (H1 id m' H) as [Hi Hx]. split; auto. apply in_app_or in Hx. rewrite !in_app_iff. tauto.
  - intros m' Hm'. apply in_app_or in Hm'. unfold upd. destruct Hm' as [Hm'|[<-|[]]].
    + destruct (N.eqb_spec (m_id m') (m_id m)) as [He|]; auto.
      exfalso; apply Hfresh; apply in_or_app; left; rewrite <- He; apply ids_In; auto.
    + rewrite N.eqb_refl; auto.
  - intros m' Hm'. unfold upd. destruct (N.eqb_spec (m_id m') (m_id m)) as [He|]; auto.
    exfalso; apply Hfresh; apply in_or_app; right; rewrite <- He; apply ids_In; auto.
  - rewrite <- app_assoc. rewrite !ids_app. simpl. apply NoDup_Add with (a := m_id m) (l := ids w ++ ids f).
    + apply Add_app.
    + split; auto.
  - apply ix_ok_add; auto.
  - intros k. rewrite bucket_add, filter_app. simpl. rewrite N.eqb_sym. destruct (N.eqb_spec (m_prio m) k) as [->|Hne].
    + rewrite ids_app. simpl. rewrite H7. apply nins_notin. intro Hi. apply Hfresh. apply in_or_app; left.
      unfold ids in *. apply in_map_iff in Hi. destruct Hi as [x [Hx Hi]]. apply filter_In in Hi.
      apply in_map_iff; exists x; tauto.
    + rewrite app_nil_r. apply H7.
Qed.
Lemma ins_dl_In : forall m x l, In x (ins_dl m l) <-> x = m \/ In x l.
Proof.
  intros m x l; induction l as [|y l IH]; simpl; [intuition|].
  destruct (dl y <=? dl m); simpl; rewrite ?IH; intuition.
Qed.
Lemma ins_dl_perm : forall m l, Permutation (ins_dl m l) (m :: l).
Proof.
  intros m l; induction l as [|y l IH]; simpl; auto.
  destruct (dl y <=? dl m); auto. rewrite IH. apply perm_swap.
Qed.
Lemma ins_dl_sorted : forall m l, fsorted dl l -> fsorted dl (ins_dl m l).
Proof.
  intros m l; unfold fsorted; induction l as [|y l IH]; simpl; intro H.
  - repeat constructor.
  - inversion H as [|y' l' Hs Hx]; subst. destruct (N.leb_spec (dl y) (dl m)) as [Hle|Hgt].
    + constructor; auto. apply Forall_forall. intros x Hx2. apply ins_dl_In in Hx2.
      destruct Hx2 as [->|Hx2]; auto. rewrite Forall_forall in Hx; auto.
    + constructor; auto. constructor; [lia|]. eapply Forall_impl; [|exact Hx]. simpl; intros; lia.
Qed.
Lemma ins_dl_filter : forall k m l, fsorted dl l ->
  filter (fun x => dl x =? k) (ins_dl m l) = filter (fun x => dl x =? k) l ++ (if dl m =? k then [m] else []).
Proof.
  intros k m l Hs; unfold fsorted in Hs; induction l as [|y l IH]; cbn [ins_dl filter].
  - destruct (dl m =? k); auto.
  - inversion Hs as [|y' l' Hs' Hx]; subst. destruct (N.leb_spec (dl y) (dl m)) as [Hle|Hgt]; cbn [filter].
    + rewrite IH by auto. destruct (dl y =? k); auto.
    + destruct (N.eqb_spec (dl m) k) as [He|Hne].
      * assert (Hn : filter (fun x => dl x =? k) (y :: l) = []).
        { apply filter_false_nil. intros x [<-|Hx2]; [lia|]. rewrite Forall_forall in Hx.
          specialize (Hx x Hx2). simpl in Hx. lia. }
        cbn [filter] in Hn. rewrite Hn. reflexivity.
      * rewrite app_nil_r; reflexivity.
Qed.
(** add an in-flight message *)
Lemma RQ_add_f : forall g d a w f m t, RQ g d a w f -> g (m_id m) = None -> m_state m = InFlight t ->
  RQ (upd g (m_id m) (Some m)) d (idx_add t (m_id m) a) w (ins_dl m f).
Proof.
  intros g d a w f m t [H1 H2 H3 H4 H5 H6 H7 H8 H9] Hg Hst.
  assert (Hdl : dl m = t) by (unfold dl; rewrite Hst; auto).
  assert (Hfresh : ~ In (m_id m) (ids (w ++ f))).
  { intro Hi. unfold ids in Hi. apply in_map_iff in Hi. destruct Hi as [x [Hx Hi]].
    apply in_app_or in Hi. destruct Hi as [Hi|Hi]; [apply H2 in Hi|apply H3 in Hi]; destruct Hi as [_ Hi];
      rewrite Hx, Hg in Hi; discriminate. }
  rewrite ids_app in H4, Hfresh. pose proof (NoDup_app_inv _ _ _ H4) as [Hnw [Hnf Hd]].
  constructor; auto.
  - intros id m' H. unfold upd in H. destruct (N.eqb_spec id (m_id m)) as [->|Hne].
    + inversion H; subst. split; auto. apply in_or_app; right; apply ins_dl_In; auto.
    + destruct (H1 id m' H) as [Hi Hx]. split; auto. apply in_app_or in Hx. apply in_or_app. rewrite ins_dl_In. tauto.
  - intros m' Hm'. unfold upd. destruct (N.eqb_spec (m_id m') (m_id m)) as [He|]; auto.
    exfalso; apply Hfresh; apply in_or_app; left; rewrite <- He; apply ids_In; auto.
  - intros m' Hm'. apply ins_dl_In in Hm'. unfold upd. destruct Hm' as [->|Hm'].
    + rewrite N.eqb_refl; split; eauto.
    + destruct (N.eqb_spec (m_id m') (m_id m)) as [He|]; auto.
      exfalso; apply Hfresh; apply in_or_app; right; rewrite <- He; apply ids_In; auto.
  - apply (Permutation_NoDup (l := m_id m :: ids w ++ ids f)).
    + rewrite <- ids_app. unfold ids. change (m_id m :: map m_id (w ++ f)) with (map m_id (m :: w ++ f)).
      apply Permutation_map. rewrite ins_dl_perm. apply Permutation_middle.
    + constructor; auto.
  - apply ix_ok_add; auto.
  - intros k. rewrite bucket_add, ins_dl_filter by auto. rewrite Hdl, N.eqb_sym.
    destruct (N.eqb_spec t k) as [->|Hne].
    + rewrite ids_app. simpl. rewrite H8. apply nins_notin. intro Hi. apply Hfresh. apply in_or_app; right.
      unfold ids in *. apply in_map_iff in Hi. destruct Hi as [x [Hx Hi]]. apply filter_In in Hi.
      apply in_map_iff; exists x; tauto.
    + rewrite app_nil_r. apply H8.
  - apply ins_dl_sorted; auto.
Qed.
(** change a waiting message in place *)
Lemma ids_map_upd : forall id (m' : message) l, m_id m' = id ->
  ids (map (fun x => if m_id x =? id then m' else x) l) = ids l.
Proof.
  intros id m' l He; induction l as [|x l IH]; simpl; auto.
  destruct (N.eqb_spec (m_id x) id); rewrite IH; congruence.
Qed.
Lemma RQ_set_w : forall g d a w f m m', RQ g d a w f -> In m w -> m_id m' = m_id m ->
  m_prio m' = m_prio m -> m_state m' = Ready ->
  RQ (upd g (m_id m) (Some m')) d a (map (fun x => if m_id x =? m_id m then m' else x) w) f.
Proof.
  intros g d a w f m m' [H1 H2 H3 H4 H5 H6 H7 H8 H9] Hin Hid Hp Hst.
  rewrite ids_app in H4. pose proof (NoDup_app_inv _ _ _ H4) as [Hnw [Hnf Hd]].
  constructor; auto.
  - intros id x H. unfold upd in H. destruct (N.eqb_spec id (m_id m)) as [->|Hne].
    + inversion H; subst. split; auto. apply in_or_app; left. apply in_map_iff. exists m.
      rewrite N.eqb_refl; auto.
    + destruct (H1 id x H) as [Hi Hx]. split; auto. apply in_app_or in Hx. apply in_or_app.
      destruct Hx as [Hx|Hx]; auto. left. apply in_map_iff. exists x.
      destruct (N.eqb_spec (m_id x) (m_id m)); [congruence|auto].
  - intros x Hx. apply in_map_iff in Hx. destruct Hx as [y [Hy Hx]]. unfold upd.
    destruct (N.eqb_spec (m_id y) (m_id m)) as [He|Hne].
    + subst x. rewrite Hid, N.eqb_refl. auto.
    + subst x. destruct (N.eqb_spec (m_id y) (m_id m)); [contradiction|auto].
  - intros x Hx. unfold upd. destruct (N.eqb_spec (m_id x) (m_id m)) as [He|]; auto.
    exfalso; apply (Hd (m_id m)); [apply ids_In; auto|]. rewrite <- He; apply ids_In; auto.
  - rewrite ids_app, ids_map_upd by auto. auto.
  - intros k. rewrite H7.
    assert (HG : forall l, (forall x, In x l -> m_id x = m_id m -> m_prio x = m_prio m) ->
      ids (filter (fun x => m_prio x =? k) l) =
      ids (filter (fun x => m_prio x =? k) (map (fun x => if m_id x =? m_id m then m' else x) l))).
    { intro l; induction l as [|x l IH]; simpl; intro Hl; auto.
      destruct (N.eqb_spec (m_id x) (m_id m)) as [He|Hne].
      - rewrite Hp. rewrite <- (Hl x (or_introl eq_refl) He).
        destruct (m_prio x =? k); simpl; rewrite IH; auto. congruence.
      - destruct (m_prio x =? k); simpl; rewrite IH; auto. }
    apply HG. intros x Hx He. assert (x = m) by (eapply (NoDup_ids_inj w); eauto). subst; auto.
Qed.

(** * Facts about a related state *)
Lemma RQ_find : forall g d a w f id, RQ g d a w f -> g id = find_id id (w ++ f).
Proof.
  intros g d a w f id [H1 H2 H3 H4 H5 H6 H7 H8 H9]. unfold find_id.
  destruct (find (fun m => m_id m =? id) (w ++ f)) as [m|] eqn:E.
  - apply find_some in E. destruct E as [Hi He]. apply N.eqb_eq in He; subst.
    apply in_app_or in Hi. destruct Hi as [Hi|Hi]; [apply H2|apply H3]; auto.
  - destruct (g id) as [m|] eqn:Eg; auto. destruct (H1 id m Eg) as [Hid Hi].
    apply (find_none _ _ E) in Hi. rewrite Hid, N.eqb_refl in Hi. discriminate.
Qed.
Lemma best_spec : forall l b, best l = Some b ->
  In b l /\ (forall m, In m l -> m_prio m <= m_prio b) /\
  hd_error (filter (fun m => m_prio m =? m_prio b) l) = Some b.
Proof.
  intros l; induction l as [|x l IH]; simpl; intros b H; [discriminate|].
  destruct (best l) as [c|] eqn:E.
  - destruct (IH c eq_refl) as [Hi [Hm Hh]]. destruct (N.ltb_spec (m_prio x) (m_prio c)) as [Hl|Hl].
    + inversion H; subst. split; auto. split.
      * intros m [<-|Hx]; [lia|auto].
      * destruct (N.eqb_spec (m_prio x) (m_prio b)); [lia|auto].
    + inversion H; subst. split; auto. split.
      * intros m [<-|Hx]; [lia|]. specialize (Hm m Hx). lia.
      * rewrite N.eqb_refl. reflexivity.
  - inversion H; subst. destruct l as [|y l].
    + split; auto. split; [intros m [<-|[]]; lia|]. rewrite N.eqb_refl; reflexivity.
    + simpl in E. destruct (best l); [destruct (m_prio y <? m_prio m)|]; discriminate.
Qed.
Lemma best_none : forall l, best l = None -> l = [].
Proof.
  intros [|x l] H; auto. simpl in H. destruct (best l) as [c|]; [destruct (m_prio x <? m_prio c)|]; discriminate.
Qed.
Lemma first_front_best : forall g d a w f, RQ g d a w f -> first_front (rev d) = option_map m_id (best w).
Proof.
  intros g d a w f [H1 H2 H3 H4 [H5s H5n] H6 H7 H8 H9].
  destruct d as [|e d'] using rev_ind; [|clear IHd'].
  - rewrite (keyed_nil _ _ H7). reflexivity.
  - rewrite rev_app_distr. destruct e as [p q]. simpl.
    apply Forall_app in H5n. destruct H5n as [_ Hq]. apply Forall_cons_iff in Hq. destruct Hq as [Hq _].
    destruct q as [|x q]; [contradiction Hq; reflexivity|].
    assert (Hb : bucket p (d' ++ [(p, x :: q)]) = x :: q).
    { unfold bucket. rewrite (aget_app N.eqb).
      destruct (bget p d') as [z|] eqn:Ez.
      - exfalso. apply ksorted_NoDup in H5s. rewrite akeys_app in H5s. simpl in H5s.
        apply NoDup_app_inv in H5s. destruct H5s as [_ [_ Hd]]. apply (Hd p).
        + apply (aget_Some_in N.eqb N.eqb_eq). eauto.
        + left; auto.
      - simpl. rewrite N.eqb_refl. reflexivity. }
    assert (Hmax : forall m, In m w -> m_prio m <= p).
    { intros m Hm. pose proof (keyed_key_in _ _ _ _ H7 Hm) as Hk.
      rewrite akeys_app, in_app_iff in Hk. simpl in Hk. destruct Hk as [Hk|[Hk|[]]]; [|lia].
      unfold akeys in Hk. apply in_map_iff in Hk. destruct Hk as [[k v] [Hk1 Hk2]]. simpl in Hk1; subst.
      clear - H5s Hk2. unfold ksorted in H5s. induction d' as [|e d' IH]; [contradiction|].
      simpl in H5s. inversion H5s as [|e' l Hs Hf]; subst. destruct Hk2 as [->|Hk2]; auto.
      rewrite Forall_forall in Hf. specialize (Hf (p, x :: q)). simpl in Hf.
      assert (In (p, x :: q) (d' ++ [(p, x :: q)])) as Hin by (apply in_or_app; right; left; auto).
      specialize (Hf Hin). lia. }
    rewrite H7 in Hb.
    destruct (best w) as [b|] eqn:Eb.
    + destruct (best_spec _ _ Eb) as [Hi [Hm Hh]].
      assert (Hpb : m_prio b = p).
      { specialize (Hmax b Hi). destruct (filter (fun m => m_prio m =? p) w) as [|y l] eqn:Ef; [discriminate|].
        assert (Hy : In y (filter (fun m => m_prio m =? p) w)) by (rewrite Ef; left; auto).
        apply filter_In in Hy. destruct Hy as [Hy He]. apply N.eqb_eq in He. specialize (Hm y Hy). lia. }
      rewrite Hpb in Hh. destruct (filter (fun m => m_prio m =? p) w) as [|y l] eqn:Ef; [discriminate|].
      simpl in Hh. inversion Hh; subst y. simpl in Hb. inversion Hb. reflexivity.
    + apply best_none in Eb. subst w. discriminate.
Qed.

(** * Concrete operations *)
Definition getr (s : qstate) : N -> option message := fun id => aget N.eqb id (q_reg s).
Definition RS (s : qstate) (w f : list message) : Prop := RQ (getr s) (q_disp s) (q_ack s) w f.

Lemma getr_set : forall id m s x, getr (reg_set id m s) x = upd (getr s) id (Some m) x.
Proof.
  intros; unfold getr, reg_set, upd; simpl. destruct (N.eqb_spec x id) as [->|Hn].
  - apply (aget_aset_same N.eqb N.eqb_eq).
  - apply (aget_aset_other N.eqb N.eqb_eq); auto.
Qed.
Lemma getr_del : forall id s d a x, getr (mkQ (adel N.eqb id (q_reg s)) d a) x = upd (getr s) id None x.
Proof.
  intros; unfold getr, upd; simpl. destruct (N.eqb_spec x id) as [->|Hn].
  - apply (aget_adel_same N.eqb).
  - apply (aget_adel_other N.eqb N.eqb_eq); auto.
Qed.
Lemma upd_upd : forall A (g : N -> A) k a b x, upd (upd g k a) k b x = upd g k b x.
Proof. intros; unfold upd; destruct (x =? k); auto. Qed.
Lemma upd_same : forall A (g : N -> A) k a, upd g k a k = a.
Proof. intros; unfold upd; rewrite N.eqb_refl; auto. Qed.

Lemma push_ok : forall s w f m, RS s w f -> getr s (m_id m) = None -> m_state m = Ready ->
  RS (q_push m s) (w ++ [m]) f.
Proof.
  intros s w f m HR Hg Hst. unfold q_push, add_to_index. rewrite Hst. unfold RS; simpl.
  eapply RQ_ext; [|apply RQ_add_w; eauto]. intro id. symmetry. apply (getr_set (m_id m) m s).
Qed.
Lemma RS_cases : forall s w f id m, RS s w f -> getr s id = Some m ->
  m_id m = id /\ ((In m w /\ m_state m = Ready) \/ (In m f /\ exists t, m_state m = InFlight t)).
Proof.
  intros s w f id m HR Hg. destruct (r_id _ _ _ _ _ HR _ _ Hg) as [Hid Hi]. split; auto.
  apply in_app_or in Hi. destruct Hi as [Hi|Hi].
  - left; split; auto. apply (r_w _ _ _ _ _ HR); auto.
  - right; split; auto. apply (r_f _ _ _ _ _ HR); auto.
Qed.
Lemma RS_w_not_f : forall s w f m, RS s w f -> In m w -> ~ In (m_id m) (ids f).
Proof.
  intros s w f m HR Hi. pose proof (r_nd _ _ _ _ _ HR) as Hn. rewrite ids_app in Hn.
  apply NoDup_app_inv in Hn. destruct Hn as [_ [_ Hd]]. apply Hd. apply ids_In; auto.
Qed.
Lemma RS_f_not_w : forall s w f m, RS s w f -> In m f -> ~ In (m_id m) (ids w).
Proof.
  intros s w f m HR Hi Hw. pose proof (r_nd _ _ _ _ _ HR) as Hn. rewrite ids_app in Hn.
  apply NoDup_app_inv in Hn. destruct Hn as [_ [_ Hd]]. apply (Hd _ Hw). apply ids_In; auto.
Qed.

Lemma delete_ok : forall s w f id, RS s w f ->
  match getr s id with
  | Some m => snd (delete_message id s) = Some m /\ RS (fst (delete_message id s)) (without id w) (without id f)
  | None => delete_message id s = (s, None)
  end.
Proof.
  intros s w f id HR. unfold delete_message, reg_get. fold (getr s id).
  destruct (getr s id) as [m|] eqn:Eg; auto. split; auto.
  destruct (RS_cases _ _ _ _ _ HR Eg) as [Hid [[Hi Hst]|[Hi [t Hst]]]]; subst id; unfold remove_from_index; rewrite Hst; simpl.
  - rewrite (without_notin (m_id m) f) by (eapply RS_w_not_f; eauto).
    unfold RS; simpl. eapply RQ_ext; [|apply RQ_del_w; eauto]. intro x; symmetry; apply getr_del.
  - rewrite (without_notin (m_id m) w) by (eapply RS_f_not_w; eauto).
    unfold RS; simpl. pose proof (RQ_del_f _ _ _ _ _ m HR Hi) as H. unfold dl in H; rewrite Hst in H.
    eapply RQ_ext; [|exact H]. intro x; symmetry; apply getr_del.
Qed.

(** waiting -> in flight, then the fields are set *)
Lemma deliver_ok : forall s w f m t, RS s w f -> In m w ->
  let s1 := fst (transition_to (m_id m) (InFlight t) s) in
  reg_get (m_id m) s1 = Some (set_state (InFlight t) m) /\
  RS (reg_set (m_id m) (delivered t m) s1) (without (m_id m) w) (ins_dl (delivered t m) f).
Proof.
  intros s w f m t HR Hi. destruct (r_w _ _ _ _ _ HR _ Hi) as [Hst Hg].
  unfold transition_to, reg_get. fold (getr s (m_id m)). rewrite Hg, Hst. simpl. split.
  - unfold remove_from_index; simpl. apply (aget_aset_same N.eqb N.eqb_eq).
  - unfold RS; simpl.
    pose proof (RQ_del_w _ _ _ _ _ m HR Hi) as H1.
    pose proof (RQ_add_f _ _ _ _ _ (delivered t m) t H1 (upd_same _ _ _ _) eq_refl) as H2.
    eapply RQ_ext; [|exact H2]. intro x. cbn [m_id delivered set_att set_vis set_state].
    symmetry. rewrite getr_set, upd_upd. unfold upd. destruct (N.eqb_spec x (m_id m)); auto.
    unfold getr; simpl. apply (aget_aset_other N.eqb N.eqb_eq); auto.
Qed.
Lemma pop_ok : forall cfg s w f dd now, RS s w f ->
  let r := pop_single now (c_vt cfg) s in
  let r' := a_pop cfg now (mkSpec w f dd) in
  snd r = snd r' /\ RS (fst r) (s_wait (fst r')) (s_fly (fst r')) /\ s_dead (fst r') = dd.
Proof.
  intros cfg s w f dd now HR. unfold pop_single, a_pop. cbn [s_wait s_fly s_dead].
  rewrite (first_front_best _ _ _ _ _ HR). destruct (best w) as [m|] eqn:E; simpl; [|auto].
  destruct (best_spec _ _ E) as [Hi _].
  destruct (deliver_ok s w f m (deadline now (c_vt cfg)) HR Hi) as [H1 H2]. rewrite H1.
  simpl. split; [reflexivity|split; [exact H2|reflexivity]].
Qed.
Lemma RS_wait_le : forall s w f, RS s w f -> (length w <= length (q_reg s))%nat.
Proof.
  intros s w f HR. replace (length w) with (length (ids w)) by apply map_length.
  replace (length (q_reg s)) with (length (akeys (q_reg s))) by apply map_length.
  apply NoDup_incl_length.
  - pose proof (r_nd _ _ _ _ _ HR) as Hn. rewrite ids_app in Hn. apply NoDup_app_inv in Hn; tauto.
  - intros id Hid. unfold ids in Hid. apply in_map_iff in Hid. destruct Hid as [m [<- Hm]].
    apply (aget_Some_in N.eqb N.eqb_eq). exists m. apply (r_w _ _ _ _ _ HR m Hm).
Qed.
Lemma without_length : forall m l, NoDup (ids l) -> In m l -> S (length (without (m_id m) l)) = length l.
Proof.
  intros m l; induction l as [|x l IH]; simpl; intros Hn Hi; [contradiction|].
  inversion Hn as [|y l' Hx Hn']; subst. destruct Hi as [->|Hi].
  - rewrite N.eqb_refl. simpl. fold (without (m_id m) l). rewrite without_notin by auto. reflexivity.
  - destruct (N.eqb_spec (m_id x) (m_id m)) as [He|].
    + exfalso; apply Hx; rewrite He; apply ids_In; auto.
    + simpl. fold (without (m_id m) l). rewrite IH; auto.
Qed.
Lemma take_loop_ok : forall cfg clk max fuel i s w f dd, RS s w f -> (length w < fuel)%nat ->
  exists s' ms, take_loop fuel i max clk (c_vt cfg) s = Some (s', ms) /\
    let r := a_take cfg (N.to_nat (N.min (max - N.of_nat i) (lenN w))) i clk (mkSpec w f dd) in
    ms = snd r /\ RS s' (s_wait (fst r)) (s_fly (fst r)) /\ s_dead (fst r) = dd.
Proof.
  intros cfg clk max fuel; induction fuel as [|fuel IH]; intros i s w f dd HR Hf; [lia|].
  cbn [take_loop]. destruct (N.ltb_spec (N.of_nat i) max) as [Hlt|Hge].
  - pose proof (pop_ok cfg s w f dd (clk i) HR) as HP. cbn zeta in HP. destruct HP as [HP1 [HP2 HP3]].
    unfold a_pop in *. cbn [s_wait s_fly s_dead] in *.
    destruct (best w) as [m|] eqn:E.
    + destruct (best_spec _ _ E) as [Hi _]. destruct (pop_single (clk i) (c_vt cfg) s) as [s1 [m1|]]; simpl in *; [|discriminate].
      inversion HP1; subst m1.
      assert (Hlen : S (length (without (m_id m) w)) = length w).
      { apply without_length; auto. pose proof (r_nd _ _ _ _ _ HR) as Hn. rewrite ids_app in Hn.
        apply NoDup_app_inv in Hn; tauto. }
      destruct (IH (S i) s1 (without (m_id m) w) (ins_dl (delivered (deadline (clk i) (c_vt cfg)) m) f) dd HP2) as [s' [ms [H1 [H2 [H3 H4]]]]]; [lia|].
      rewrite H1. eexists; eexists; split; [reflexivity|].
      replace (N.to_nat (N.min (max - N.of_nat i) (lenN w)))
        with (S (N.to_nat (N.min (max - N.of_nat (S i)) (lenN (without (m_id m) w))))) by (unfold lenN; lia).
      cbn [a_take]. unfold a_pop. cbn [s_wait s_fly s_dead]. rewrite E.
      destruct (a_take cfg _ (S i) clk _) as [S2 ms2] eqn:Et. simpl in *. subst. auto.
    + apply best_none in E. subst w. destruct (pop_single (clk i) (c_vt cfg) s) as [s1 [m1|]]; simpl in *; [discriminate|].
      eexists; eexists; split; [reflexivity|]. replace (N.to_nat (N.min (max - N.of_nat i) (lenN (@nil message)))) with O by (unfold lenN; simpl; lia).
      simpl. auto.
  - eexists; eexists; split; [reflexivity|]. replace (N.to_nat (N.min (max - N.of_nat i) (lenN w))) with O by lia.
    simpl; auto.
Qed.
Lemma take_batch_ok : forall cfg clk max s w f dd, RS s w f ->
  exists s' ms, take_batch max clk (c_vt cfg) s = Some (s', ms) /\
    let r := a_take cfg (N.to_nat (N.min max (lenN w))) 0 clk (mkSpec w f dd) in
    ms = snd r /\ RS s' (s_wait (fst r)) (s_fly (fst r)) /\ s_dead (fst r) = dd.
Proof.
  intros cfg clk max s w f dd HR. pose proof (RS_wait_le _ _ _ HR) as Hl.
  destruct (take_loop_ok cfg clk max (S (length (q_reg s))) 0 s w f dd HR) as [s' [ms H]]; [lia|].
  exists s', ms. unfold take_batch. replace (max - N.of_nat 0) with max in H by lia. exact H.
Qed.

(** in flight -> waiting, then visible_at is reset *)
Lemma requeue_ok : forall s w f m, RS s w f -> In m f ->
  exists s1, transition_to (m_id m) Ready s = (s1, true) /\
    reg_get (m_id m) s1 = Some (set_state Ready m) /\
    RS (reg_set (m_id m) (requeued m) s1) (w ++ [requeued m]) (without (m_id m) f).
Proof.
  intros s w f m HR Hi. destruct (r_f _ _ _ _ _ HR _ Hi) as [[t Hst] Hg].
  unfold transition_to, reg_get. fold (getr s (m_id m)). rewrite Hg, Hst. simpl.
  eexists; split; [reflexivity|]. split.
  - simpl. apply (aget_aset_same N.eqb N.eqb_eq).
  - unfold RS; simpl.
    pose proof (RQ_del_f _ _ _ _ _ m HR Hi) as H1. unfold dl in H1; rewrite Hst in H1.
    pose proof (RQ_add_w _ _ _ _ _ (requeued m) H1 (upd_same _ _ _ _) eq_refl) as H2.
    eapply RQ_ext; [|exact H2]. intro x. cbn [m_id requeued set_vis set_state].
    symmetry. rewrite getr_set, upd_upd. unfold upd. destruct (N.eqb_spec x (m_id m)); auto.
    unfold getr; simpl. apply (aget_aset_other N.eqb N.eqb_eq); auto.
Qed.
Lemma reg_set_f_ok : forall s w f m m', RS s w f -> In m f -> m_id m' = m_id m -> m_state m' = m_state m ->
  RS (reg_set (m_id m) m' s) w (map (fun x => if m_id x =? m_id m then m' else x) f).
Proof.
  intros s w f m m' HR Hin Hid Hst. unfold RS; simpl.
  destruct HR as [H1 H2 H3 H4 H5 H6 H7 H8 H9].
  assert (Hdl : dl m' = dl m) by (unfold dl; rewrite Hst; auto).
  rewrite ids_app in H4. pose proof (NoDup_app_inv _ _ _ H4) as [Hnw [Hnf Hd]].
  apply (RQ_ext (upd (getr s) (m_id m) (Some m'))); [intro; symmetry; apply getr_set|].
  assert (Hdlx : forall x, In x f -> m_id x = m_id m -> dl x = dl m').
  { intros x Hx He. assert (x = m) by (eapply (NoDup_ids_inj f); eauto). subst; auto. }
  constructor; auto.
  - intros id x H. unfold upd in H. destruct (N.eqb_spec id (m_id m)) as [->|Hne].
    + inversion H; subst. split; auto. apply in_or_app; right. apply in_map_iff. exists m.
      rewrite N.eqb_refl; auto.
    + destruct (H1 id x H) as [Hi Hx]. split; auto. apply in_app_or in Hx. apply in_or_app.
      destruct Hx as [Hx|Hx]; auto. right. apply in_map_iff. exists x.
      destruct (N.eqb_spec (m_id x) (m_id m)); [congruence|auto].
  - intros x Hx. unfold upd. destruct (N.eqb_spec (m_id x) (m_id m)) as [He|]; auto.
    exfalso; apply (Hd (m_id m)); [rewrite <- He|]; apply ids_In; auto.
  - intros x Hx. apply in_map_iff in Hx. destruct Hx as [y [Hy Hx]]. unfold upd.
    destruct (N.eqb_spec (m_id y) (m_id m)) as [He|Hne].
    + subst x. rewrite Hid, N.eqb_refl. split; auto. rewrite Hst. apply (H3 m Hin).
    + subst x. destruct (N.eqb_spec (m_id y) (m_id m)); [contradiction|auto].
  - rewrite ids_app, ids_map_upd by auto. auto.
  - intros k. rewrite H8. clear - Hdlx Hid. induction f as [|x f IH]; simpl; auto.
    assert (Hr : forall z, In z f -> m_id z = m_id m -> dl z = dl m') by (intros z Hz; apply Hdlx; right; exact Hz).
    specialize (IH Hr).
    destruct (N.eqb_spec (m_id x) (m_id m)) as [He|Hne].
    + rewrite <- (Hdlx x (or_introl eq_refl) He).
      destruct (dl x =? k); simpl; rewrite IH; congruence.
    + destruct (dl x =? k); simpl; rewrite IH; auto.
  - clear - Hdlx H9. unfold fsorted in *. induction f as [|x f IH]; simpl; [constructor|].
    inversion H9 as [|y l Hs Hx]; subst.
    assert (Hall : Forall (fun b => dl x <= dl b) (map (fun x0 => if m_id x0 =? m_id m then m' else x0) f)).
    { apply Forall_forall. intros z Hz. apply in_map_iff in Hz. destruct Hz as [y [Hy Hz]].
      rewrite Forall_forall in Hx. specialize (Hx y Hz).
      destruct (N.eqb_spec (m_id y) (m_id m)) as [He|]; subst z; auto.
      rewrite <- (Hdlx y (or_intror Hz) He). auto. }
    assert (HIH : StronglySorted (fun a b => dl a <= dl b) (map (fun x0 => if m_id x0 =? m_id m then m' else x0) f))
      by (apply IH; auto; intros z Hz; apply Hdlx; right; exact Hz).
    destruct (N.eqb_spec (m_id x) (m_id m)) as [He|Hne]; constructor; auto.
    rewrite <- (Hdlx x (or_introl eq_refl) He). auto.
Qed.
Lemma reg_set_w_ok : forall s w f m m', RS s w f -> In m w -> m_id m' = m_id m -> m_prio m' = m_prio m ->
  m_state m' = Ready -> RS (reg_set (m_id m) m' s) (map (fun x => if m_id x =? m_id m then m' else x) w) f.
Proof.
  intros s w f m m' HR Hin Hid Hp Hst. unfold RS; simpl.
  eapply RQ_ext; [intro; symmetry; apply getr_set|]. apply RQ_set_w; auto.
Qed.
Lemma without_map_upd : forall id m' l, m_id m' = id ->
  without id (map (fun x => if m_id x =? id then m' else x) l) = without id l.
Proof.
  intros id m' l He; induction l as [|x l IH]; simpl; auto.
  destruct (N.eqb_spec (m_id x) id) as [Hx|Hx]; simpl.
  - rewrite He, N.eqb_refl. simpl. exact IH.
  - destruct (N.eqb_spec (m_id x) id); [contradiction|]. simpl. f_equal; exact IH.
Qed.
Lemma map_upd_ext : forall id (m' : message) (h : message -> message) m l, NoDup (ids l) -> In m l -> m_id m = id -> m' = h m ->
  map (fun x => if m_id x =? id then m' else x) l = map (fun x => if m_id x =? id then h x else x) l.
Proof.
  intros id m' h m l Hn Hi Hid Hm'. apply map_ext_in. intros x Hx. destruct (N.eqb_spec (m_id x) id) as [He|]; auto.
  assert (x = m) by (eapply (NoDup_ids_inj l); eauto; congruence). subst; auto.
Qed.
