(** Lemmas about the store model. *)
From Verif Require Import LibBase LibMap StoreModel.

Definition beqb_ok : forall a b, beqb a b = true <-> a = b := beqb_eq.

(** Independent specification: scan the history backwards for the newest
    operation on the key that matters. [e] is the expiry of a set. *)
Section Spec.
  Variables (ticks default_ttl inst_max : N).
  Notation exp := (expiry ticks default_ttl inst_max).
  (** [hr] is the history, newest operation first *)
  Fixpoint spec_get (now : N) (k : bytes) (hr : list sop) : option bytes :=
    match hr with
    | [] => None
    | OSet t k' v ttl :: hr' =>
        if beqb k k' then
          match exp t ttl with
          | Some e => if now <=? e then Some v else None
          | None => spec_get now k hr'       (* the set panicked: nothing happened *)
          end
        else spec_get now k hr'
    | ODel k' :: hr' => if beqb k k' then None else spec_get now k hr'
    | _ :: hr' => spec_get now k hr'
    end.
  (** clock readings of the sweeper in a history *)
  Fixpoint sweeps (h : list sop) : list N :=
    match h with
    | [] => []
    | OSweep c :: h' => c :: sweeps h'
    | OSweepKey c _ :: h' => c :: sweeps h'
    | _ :: h' => sweeps h'
    end.
  Notation run := (srun ticks default_ttl inst_max).
  Notation step := (sstep ticks default_ttl inst_max).

  Lemma run_snoc : forall h o, run (h ++ [o]) = fst (step (run h) o).
  Proof. intros; unfold srun; rewrite fold_left_app; reflexivity. Qed.

  Lemma sget_filter : forall (f : bytes * sentry -> bool) k s, NoDup (akeys s) ->
    sget k (filter f s) = match sget k s with Some e => if f (k, e) then Some e else None | None => None end.
  Proof.
    intros f k; unfold sget; induction s as [|[k' e] s IH]; intro Hn; [reflexivity|].
    inv Hn. cbn [filter aget]. destruct (beqb k k') eqn:E.
    - apply beqb_eq in E; subst k'. destruct (f (k, e)) eqn:Ef.
      + cbn [aget]. rewrite beqb_refl; reflexivity.
      + destruct (aget beqb k (filter f s)) eqn:G; auto. exfalso. apply H1.
        apply (aget_In beqb beqb_ok) in G. apply filter_In in G. destruct G as [G _].
        apply in_map_iff; exists (k, s0); auto.
    - destruct (f (k', e)); cbn [aget]; rewrite ?E; apply IH; auto.
  Qed.
  Lemma NoDup_filter_keys : forall (f : bytes * sentry -> bool) s, NoDup (akeys s) -> NoDup (akeys (filter f s)).
  Proof.
    intros f; induction s as [|[k e] s IH]; intro H; [constructor|]. inv H. cbn [filter].
    destruct (f (k, e)); auto. cbn [akeys map fst]. constructor; auto.
    intro Hin. apply H2. unfold akeys in *. apply in_map_iff in Hin. destruct Hin as [x [E Hx]].
    apply filter_In in Hx. apply in_map_iff; exists x; tauto.
  Qed.
  Lemma step_NoDup : forall s o, NoDup (akeys s) -> NoDup (akeys (fst (step s o))).
  Proof.
    intros s [now k v ttl|now k|k|now|now k] H; cbn [sstep fst]; auto.
    - destruct (exp now ttl); cbn [fst]; auto. apply (NoDup_aput beqb beqb_ok); auto.
    - apply (NoDup_adel beqb beqb_ok); auto.
    - apply NoDup_filter_keys; auto.
    - apply NoDup_filter_keys; auto.
  Qed.
  Lemma run_NoDup : forall h, NoDup (akeys (run h)).
  Proof.
    intro h; induction h as [|o h IH] using rev_ind; [constructor|].
    rewrite run_snoc. apply step_NoDup; auto.
  Qed.

  (** main refinement: a get strictly after all sweeps so far *)
  Lemma get_correct : forall h now k, Forall (fun c => c < now) (sweeps h) ->
    do_get now k (run h) = spec_get now k (rev h).
  Proof.
    intro h; induction h as [|o h IH] using rev_ind; intros now k Hs; [reflexivity|].
    rewrite run_snoc, rev_app_distr. cbn [rev app].
    assert (Hsw : forall o', sweeps (h ++ [o']) = sweeps h ++ sweeps [o']).
    { intro o'. clear. induction h as [|x h IH]; [reflexivity|]. destruct x; cbn; rewrite IH; reflexivity. }
    rewrite Hsw in Hs. apply Forall_app in Hs. destruct Hs as [Hs Ho]. specialize (IH now k Hs).
    pose proof (run_NoDup h) as Hn.
    destruct o as [t k' v ttl|t k'|k'|c|c k']; cbn [sstep fst spec_get].
    - destruct (beqb k k') eqn:E.
      + apply beqb_eq in E; subst k'. destruct (exp t ttl) as [e|]; cbn [fst]; auto.
        unfold do_get, do_set, sget. rewrite (aget_aput_same beqb beqb_ok). cbn [e_exp e_val].
        destruct (N.ltb_spec e now), (N.leb_spec now e); auto; lia.
      + assert (Hk : k <> k') by (intro; subst; rewrite beqb_refl in E; discriminate).
        destruct (exp t ttl) as [e|]; cbn [fst]; auto.
        unfold do_get, do_set, sget in *. rewrite (aget_aput_other beqb beqb_ok) by auto. exact IH.
    - exact IH.
    - destruct (beqb k k') eqn:E.
      + apply beqb_eq in E; subst k'. unfold do_get, do_del, sget. rewrite (aget_adel_same beqb); reflexivity.
      + assert (Hk : k <> k') by (intro; subst; rewrite beqb_refl in E; discriminate).
        unfold do_get, do_del, sget in *. rewrite (aget_adel_other beqb beqb_ok) by auto. exact IH.
    - rewrite <- IH. unfold do_get, do_sweep. rewrite sget_filter by auto.
      destruct (sget k (run h)) as [en|]; auto. unfold kept; cbn [snd].
      destruct (e_exp en) as [x|] eqn:Ex; [|rewrite Ex; reflexivity]. cbn in Ho. inv Ho.
      destruct (N.ltb_spec c x); [rewrite Ex; reflexivity|].
      destruct (N.ltb_spec x now); auto; lia.
    - rewrite <- IH. unfold do_get. rewrite sget_filter by auto.
      destruct (sget k (run h)) as [en|]; auto. unfold kept; cbn [fst snd].
      destruct (beqb k' k); cbn [negb orb]; [|reflexivity].
      destruct (e_exp en) as [x|] eqn:Ex; [|rewrite Ex; reflexivity]. cbn in Ho. inv Ho.
      destruct (N.ltb_spec c x); [rewrite Ex; reflexivity|].
      destruct (N.ltb_spec x now); auto; lia.
  Qed.

  (** The newest set that counts: value and expiry. *)
  Fixpoint spec_last (k : bytes) (hr : list sop) : option (bytes * N) :=
    match hr with
    | [] => None
    | OSet t k' v ttl :: hr' =>
        if beqb k k' then match exp t ttl with Some e => Some (v, e) | None => spec_last k hr' end else spec_last k hr'
    | ODel k' :: hr' => if beqb k k' then None else spec_last k hr'
    | _ :: hr' => spec_last k hr'
    end.
  Lemma sweeps_snoc : forall h o, sweeps (h ++ [o]) = sweeps h ++ sweeps [o].
  Proof. intros h o. induction h as [|x h IH]; [reflexivity|]. destruct x; cbn; rewrite IH; reflexivity. Qed.
  Lemma held : forall h k, match spec_last k (rev h) with
    | None => sget k (run h) = None
    | Some (v, e) => sget k (run h) = Some (mkEntry v (Some e)) \/ sget k (run h) = None /\ exists c, In c (sweeps h) /\ e <= c
    end.
  Proof.
    intro h; induction h as [|o h IH] using rev_ind; intros k; [reflexivity|]. specialize (IH k).
    rewrite run_snoc, rev_app_distr, sweeps_snoc. cbn [rev app]. pose proof (run_NoDup h) as Hn.
    assert (KEEP : match spec_last k (rev h) with None => sget k (run h) = None
      | Some (v, e) => sget k (run h) = Some (mkEntry v (Some e)) \/ sget k (run h) = None /\ exists c, In c (sweeps h ++ sweeps [o]) /\ e <= c end).
    { destruct (spec_last k (rev h)) as [[v e]|]; auto. destruct IH as [IH|(IH & c & I & L)]; auto. right. split; auto. exists c. split; auto. apply in_or_app; auto. }
    clear IH. destruct o as [t k' v ttl|t k'|k'|c|c k']; cbn [sstep fst spec_last].
    - destruct (beqb k k') eqn:E.
      + apply beqb_eq in E; subst k'. destruct (exp t ttl) as [e|]; cbn [fst]; auto. left. unfold do_set, sget. apply (aget_aput_same beqb beqb_ok).
      + assert (Hk : k <> k') by (intro; subst; rewrite beqb_refl in E; discriminate).
        destruct (exp t ttl) as [e|]; cbn [fst]; auto. unfold do_set, sget in *. rewrite (aget_aput_other beqb beqb_ok) by auto. exact KEEP.
    - exact KEEP.
    - destruct (beqb k k') eqn:E.
      + apply beqb_eq in E; subst k'. unfold do_del, sget. apply (aget_adel_same beqb).
      + assert (Hk : k <> k') by (intro; subst; rewrite beqb_refl in E; discriminate).
        unfold do_del, sget in *. rewrite (aget_adel_other beqb beqb_ok) by auto. exact KEEP.
    - unfold do_sweep. rewrite sget_filter by auto. destruct (spec_last k (rev h)) as [[v e]|]; [|rewrite KEEP; auto].
      destruct KEEP as [K|(K & Z)]; rewrite K; [|auto]. unfold kept; cbn [snd e_exp]. destruct (N.ltb_spec c e); auto.
      right. split; auto. exists c. split; auto. apply in_or_app; right; left; auto.
    - rewrite sget_filter by auto. destruct (spec_last k (rev h)) as [[v e]|]; [|rewrite KEEP; auto].
      destruct KEEP as [K|(K & Z)]; rewrite K; [|auto]. unfold kept; cbn [fst snd e_exp]. destruct (beqb k' k); cbn [negb orb]; auto. destruct (N.ltb_spec c e); auto.
      right. split; auto. exists c. split; auto. apply in_or_app; right; left; auto.
  Qed.
  (** GET at any clock reading not before the sweeper's readings *)
  Lemma get_answer : forall h now k, Forall (fun c => c <= now) (sweeps h) ->
    match spec_last k (rev h) with
    | None => snd (step (run h) (OGet now k)) = SNull
    | Some (v, e) => (now < e -> snd (step (run h) (OGet now k)) = SData v) /\ (e < now -> snd (step (run h) (OGet now k)) = SNull) /\
        (now = e -> snd (step (run h) (OGet now k)) = SData v \/ snd (step (run h) (OGet now k)) = SNull /\ In e (sweeps h))
    end.
  Proof.
    intros h now k S. pose proof (held h k) as H. cbn [sstep snd]. unfold do_get. destruct (spec_last k (rev h)) as [[v e]|]; [|rewrite H; auto].
    rewrite Forall_forall in S. destruct H as [H|(H & c & I & L)]; rewrite H; cbn [e_exp e_val].
    - repeat split; intros; destruct (N.ltb_spec e now); auto; lia.
    - pose proof (S c I). repeat split; intros; auto; try lia. right. split; auto. replace e with c by lia. auto.
  Qed.

  (** sweeps do not matter to the specification *)
  Definition is_sweep (o : sop) : bool := match o with OSweep _ | OSweepKey _ _ => true | _ => false end.
  Lemma spec_ignores_sweeps : forall hr now k,
    spec_get now k (filter (fun o => negb (is_sweep o)) hr) = spec_get now k hr.
  Proof.
    induction hr as [|o hr IH]; intros now k; [reflexivity|].
    destruct o; cbn [filter is_sweep negb spec_get]; rewrite ?IH; auto.
  Qed.
  Lemma filter_rev' : forall A (f : A -> bool) l, filter f (rev l) = rev (filter f l).
  Proof.
    intros A f; induction l as [|x l IH]; [reflexivity|]. cbn [rev filter].
    rewrite filter_app, IH. cbn [filter]. destruct (f x); cbn [rev]; [reflexivity|apply app_nil_r].
  Qed.
  Lemma sweeps_filtered : forall h, sweeps (filter (fun o => negb (is_sweep o)) h) = [].
  Proof. induction h as [|o h IH]; [reflexivity|]. destruct o; cbn; auto. Qed.
  Lemma sweep_invisible : forall h now k, Forall (fun c => c < now) (sweeps h) ->
    do_get now k (run h) = do_get now k (run (filter (fun o => negb (is_sweep o)) h)).
  Proof.
    intros h now k H. rewrite get_correct by auto. rewrite get_correct.
    - rewrite <- filter_rev', spec_ignores_sweeps; reflexivity.
    - rewrite sweeps_filtered; constructor.
  Qed.

  (** keys are independent (also without the clock hypothesis) *)
  Definition concerns (k : bytes) (o : sop) : bool :=
    match o with
    | OSet _ k' _ _ => beqb k k' | OGet _ k' => beqb k k' | ODel k' => beqb k k'
    | OSweep _ => true | OSweepKey _ k' => beqb k k'
    end.
  Lemma beqb_sym' : forall a b, beqb a b = beqb b a.
  Proof.
    intros a b. destruct (beqb a b) eqn:E; destruct (beqb b a) eqn:F; auto.
    - apply beqb_eq in E; subst. rewrite beqb_refl in F; discriminate.
    - apply beqb_eq in F; subst. rewrite beqb_refl in E; discriminate.
  Qed.
  Lemma sget_independent : forall h k, sget k (run h) = sget k (run (filter (concerns k) h)).
  Proof.
    intro h; induction h as [|o h IH] using rev_ind; intro k; [reflexivity|].
    rewrite filter_app. cbn [filter]. specialize (IH k).
    destruct (concerns k o) eqn:C.
    - rewrite !run_snoc. pose proof (run_NoDup h) as N1. pose proof (run_NoDup (filter (concerns k) h)) as N2.
      destruct o as [t k' v ttl|t k'|k'|c|c k']; cbn [sstep fst concerns] in *; auto.
      + apply beqb_eq in C; subst. destruct (exp t ttl); cbn [fst]; auto.
        unfold sget, do_set. rewrite !(aget_aput_same beqb beqb_ok); reflexivity.
      + apply beqb_eq in C; subst. unfold sget, do_del. rewrite !(aget_adel_same beqb); reflexivity.
      + unfold do_sweep. rewrite !sget_filter, IH by auto. reflexivity.
      + rewrite !sget_filter, IH by auto. reflexivity.
    - rewrite app_nil_r, run_snoc, <- IH. clear IH. pose proof (run_NoDup h) as N1.
      destruct o as [t k' v ttl|t k'|k'|c|c k']; cbn [sstep fst concerns] in *; auto; try discriminate.
      + assert (Hk : k <> k') by (intro; subst; rewrite beqb_refl in C; discriminate).
        destruct (exp t ttl); cbn [fst]; auto.
        unfold sget, do_set. rewrite (aget_aput_other beqb beqb_ok) by auto; reflexivity.
      + assert (Hk : k <> k') by (intro; subst; rewrite beqb_refl in C; discriminate).
        unfold sget, do_del. rewrite (aget_adel_other beqb beqb_ok) by auto; reflexivity.
      + rewrite sget_filter by auto. cbn [fst]. rewrite beqb_sym', C. cbn [negb orb].
        destruct (sget k (run h)); reflexivity.
  Qed.
  Lemma keys_independent : forall h now k,
    do_get now k (run h) = do_get now k (run (filter (concerns k) h)).
  Proof. intros; unfold do_get. rewrite sget_independent; reflexivity. Qed.

  (** a single value: set at [t] with expiry [e], then operations that neither
      set nor delete the key *)
  Definition leaves (k : bytes) (o : sop) : Prop :=
    match o with OSet t' k' _ ttl' => k' <> k \/ exp t' ttl' = None | ODel k' => k' <> k | _ => True end.
  Lemma ttl_exact : forall h1 t k v ttl e h2 now,
    exp t ttl = Some e -> Forall (leaves k) h2 -> Forall (fun c => c < now) (sweeps (h1 ++ OSet t k v ttl :: h2)) ->
    do_get now k (run (h1 ++ OSet t k v ttl :: h2)) = if now <=? e then Some v else None.
  Proof.
    intros h1 t k v ttl e h2 now He Hl Hs. rewrite get_correct by auto.
    rewrite rev_app_distr. cbn [rev]. rewrite <- app_assoc. cbn [app].
    assert (G : forall hr r, Forall (leaves k) hr -> spec_get now k (hr ++ r) = spec_get now k r).
    { clear. induction hr as [|o hr IH]; intros r H; [reflexivity|]. apply Forall_cons_iff in H. destruct H as [Ho Hr]. cbn [app].
      destruct o as [t' k' v' ttl'| |k'| |]; cbn [spec_get leaves] in *; auto.
      - destruct (beqb k k') eqn:E; auto. apply beqb_eq in E; subst k'.
        destruct Ho as [Ho|Ho]; [contradiction|]. rewrite Ho. auto.
      - destruct (beqb k k') eqn:E; auto. apply beqb_eq in E; subst k'. contradiction. }
    rewrite G.
    - cbn [spec_get]. rewrite beqb_refl, He. reflexivity.
    - apply Forall_rev; auto.
  Qed.
  (** never returned after its expiry, no clock hypothesis at all *)
  Lemma sget_origin : forall h k en, sget k (run h) = Some en ->
    exists h1 t ttl e h2, h = h1 ++ OSet t k (e_val en) ttl :: h2 /\ exp t ttl = Some e /\ e_exp en = Some e /\
      Forall (leaves k) h2.
  Proof.
    intro h; induction h as [|o h IH] using rev_ind; intros k en H; [discriminate|].
    rewrite run_snoc in H. pose proof (run_NoDup h) as Hn.
    assert (Old : sget k (run h) = Some en -> leaves k o ->
       exists h1 t ttl e h2, h ++ [o] = h1 ++ OSet t k (e_val en) ttl :: h2 /\ exp t ttl = Some e /\ e_exp en = Some e /\
         Forall (leaves k) h2).
    { intros G L. apply IH in G. destruct G as (h1 & t & ttl & e & h2 & -> & A & B & C).
      exists h1, t, ttl, e, (h2 ++ [o]). repeat split; auto.
      - rewrite <- app_assoc. reflexivity.
      - apply Forall_app; split; auto. }
    destruct o as [t k' v ttl|t k'|k'|c|c k']; cbn [sstep fst] in H.
    - destruct (exp t ttl) as [e|] eqn:E; cbn [fst] in H.
      + unfold sget, do_set in H. destruct (beqb k k') eqn:Ek.
        * apply beqb_eq in Ek; subst k'. rewrite (aget_aput_same beqb beqb_ok) in H. inv H.
          exists h, t, ttl, e, []. repeat split; auto.
        * assert (Hk : k <> k') by (intro; subst; rewrite beqb_refl in Ek; discriminate).
          rewrite (aget_aput_other beqb beqb_ok) in H by auto. apply Old; cbn; auto.
      + apply Old; cbn; auto.
    - apply Old; cbn; auto.
    - unfold sget, do_del in H. destruct (beqb k k') eqn:Ek.
      + apply beqb_eq in Ek; subst k'. rewrite (aget_adel_same beqb) in H. discriminate.
      + assert (Hk : k <> k') by (intro; subst; rewrite beqb_refl in Ek; discriminate).
        rewrite (aget_adel_other beqb beqb_ok) in H by auto. apply Old; cbn; auto.
    - unfold do_sweep in H. rewrite sget_filter in H by auto.
      destruct (sget k (run h)) as [en'|] eqn:G; [|discriminate].
      destruct (kept c (k, en')); inv H. apply Old; cbn; auto.
    - rewrite sget_filter in H by auto.
      destruct (sget k (run h)) as [en'|] eqn:G; [|discriminate].
      destruct (_ || _); inv H. apply Old; cbn; auto.
  Qed.
  Lemma get_sound : forall h now k v, do_get now k (run h) = Some v ->
    exists h1 t ttl e h2, h = h1 ++ OSet t k v ttl :: h2 /\ exp t ttl = Some e /\ now <= e /\
      Forall (leaves k) h2.
  Proof.
    intros h now k v H. unfold do_get in H. destruct (sget k (run h)) as [en|] eqn:G; [|discriminate].
    apply sget_origin in G. destruct G as (h1 & t & ttl & e & h2 & A & B & C & D).
    rewrite C in H. destruct (N.ltb_spec e now); inv H. exists h1, t, ttl, e, h2; auto.
  Qed.
End Spec.

(** sweeper and reader disagree at the exact expiry instant *)
Lemma sweep_boundary : exists h1 h2 now k v,
  h2 = h1 ++ [OSweep now] /\ do_get now k (srun 1 10 1000 h1) = Some v /\ do_get now k (srun 1 10 1000 h2) = None.
Proof.
  exists [OSet 5 [107] [1; 2] (Some 3)], [OSet 5 [107] [1; 2] (Some 3); OSweep 8], 8, [107], [1; 2].
  vm_compute; auto.
Qed.

(** listing *)
Lemma scan_sound : forall now limit offset f it s k en,
  Permutation it s -> NoDup (akeys s) -> In (k, en) (fst (scan now limit offset f it)) ->
  aget beqb k s = Some en /\ matches f (k, en) = true /\ live now (k, en) = true.
Proof.
  intros now limit offset f it s k en Hp Hn H. unfold scan in H; cbn [fst] in H.
  apply filter_In in H. destruct H as [H Hl].
  assert (Hi : In (k, en) (filter (matches f) it)).
  { rewrite <- (takeN_dropN _ offset). apply in_or_app; right.
    rewrite <- (takeN_dropN _ limit). apply in_or_app; left; exact H. }
  apply filter_In in Hi. destruct Hi as [Hi Hm]. split; [|tauto].
  apply (In_aget beqb beqb_ok); auto. eapply Permutation_in; eauto.
Qed.
Lemma live_get : forall now k en s, aget beqb k s = Some en -> live now (k, en) = true ->
  do_get now k s = Some (e_val en).
Proof.
  intros now k en s G L. unfold do_get, sget. rewrite G. unfold live in L; cbn [snd] in L.
  destruct (e_exp en) as [x|]; auto. destruct (N.leb_spec x now); [discriminate|].
  destruct (N.ltb_spec x now); auto; lia.
Qed.
Lemma NoDup_map_filter : forall A B (g : A -> B) f l, NoDup (map g l) -> NoDup (map g (filter f l)).
Proof.
  intros A B g f; induction l as [|x l IH]; intro H; [constructor|]. inv H. cbn [filter].
  destruct (f x); auto. cbn [map]. constructor; auto. intro Hin. apply H2.
  apply in_map_iff in Hin. destruct Hin as [y [E Hy]]. apply filter_In in Hy. apply in_map_iff; exists y; tauto.
Qed.
Lemma NoDup_app_l : forall A (a b : list A), NoDup (a ++ b) -> NoDup a.
Proof. intros A a b; induction a as [|x a IH]; intro H; [constructor|]. inv H. constructor; auto. intro; apply H2; apply in_or_app; auto. Qed.
Lemma NoDup_app_r : forall A (a b : list A), NoDup (a ++ b) -> NoDup b.
Proof. intros A a b; induction a as [|x a IH]; intro H; auto. inv H. auto. Qed.
Lemma scan_NoDup : forall now limit offset f it s, Permutation it s -> NoDup (akeys s) ->
  NoDup (akeys (fst (scan now limit offset f it))).
Proof.
  intros now limit offset f it s Hp Hn. unfold scan; cbn [fst]. unfold akeys. apply NoDup_map_filter.
  assert (H : NoDup (map fst (filter (matches f) it))).
  { apply NoDup_map_filter. eapply Permutation_NoDup; [|exact Hn]. apply Permutation_map. symmetry; exact Hp. }
  rewrite <- (takeN_dropN _ offset (filter (matches f) it)), map_app in H. apply NoDup_app_r in H.
  rewrite <- (takeN_dropN _ limit (dropN offset (filter (matches f) it))), map_app in H.
  apply NoDup_app_l in H. exact H.
Qed.
Lemma filter_length_le' : forall A (f : A -> bool) l, (length (filter f l) <= length l)%nat.
Proof. intros A f; induction l as [|x l IH]; simpl; auto. destruct (f x); simpl; lia. Qed.
Lemma scan_limit : forall now limit offset f it, lenN (fst (scan now limit offset f it)) <= limit.
Proof.
  intros now limit offset f it. unfold scan; cbn [fst]. unfold lenN.
  pose proof (filter_length_le' _ (live now) (takeN limit (dropN offset (filter (matches f) it)))) as H.
  pose proof (lenN_takeN _ limit (dropN offset (filter (matches f) it))) as H2. unfold lenN in H2. lia.
Qed.
(** the n pages of size [limit] starting at offset 0 *)
Fixpoint pages (now limit : N) (f : option bytes) (it : store) (n : nat) : list (bytes * sentry) :=
  match n with
  | O => []
  | S m => pages now limit f it m ++ fst (scan now limit (N.of_nat m * limit) f it)
  end.
Lemma pages_prefix : forall now limit f it n,
  pages now limit f it n = filter (live now) (takeN (N.of_nat n * limit) (filter (matches f) it)).
Proof.
  intros now limit f it n; induction n as [|n IH].
  - rewrite N.mul_0_l. reflexivity.
  - cbn [pages]. rewrite IH. unfold scan; cbn [fst]. rewrite <- filter_app. f_equal.
    unfold takeN, dropN.
    replace (N.to_nat (N.of_nat (S n) * limit)) with (N.to_nat (N.of_nat n * limit) + N.to_nat limit)%nat by lia.
    generalize (N.to_nat (N.of_nat n * limit)) (N.to_nat limit) (filter (matches f) it). clear. intros a b.
    induction a as [|a IH]; intro l; [reflexivity|]. destruct l as [|x l]; cbn [firstn skipn Nat.add app].
    + rewrite firstn_nil; reflexivity.
    + f_equal. apply IH.
Qed.
Lemma pages_complete : forall now limit f it n, lenN it <= N.of_nat n * limit ->
  pages now limit f it n = filter (live now) (filter (matches f) it).
Proof.
  intros now limit f it n H. rewrite pages_prefix. rewrite takeN_all; auto.
  unfold lenN in *. pose proof (filter_length_le' _ (matches f) it). lia.
Qed.
Lemma scan_short_refuted : exists now limit offset f it kv,
  NoDup (akeys it) /\ In kv (dropN (offset + limit) (filter (matches f) it)) /\ live now kv = true /\
  lenN (fst (scan now limit offset f it)) < limit.
Proof.
  exists 10, 2, 0, None, [([1], mkEntry [1] (Some 5)); ([2], mkEntry [2] (Some 50)); ([3], mkEntry [3] (Some 60))],
    ([3], mkEntry [3] (Some 60)).
  repeat split; try (vm_compute; reflexivity); [repeat constructor; cbn; intuition discriminate|left; reflexivity].
Qed.
Lemma contains_spec : forall n h, contains n h = true <-> exists a b, h = a ++ n ++ b.
Proof.
  assert (P : forall n h, prefixb n h = true <-> exists b, h = n ++ b).
  { induction n as [|x n IH]; intro h; cbn [prefixb].
    - split; [intros _; exists h; reflexivity|reflexivity].
    - destruct h as [|y h]; [split; [discriminate|intros [b H]; discriminate]|].
      rewrite andb_true_iff, N.eqb_eq, IH. split.
      + intros [-> [b ->]]. exists b; reflexivity.
      + intros [b H]. inv H. split; eauto. }
  intros n h; induction h as [|y h IH]; cbn [contains]; rewrite orb_true_iff, P.
  - split; [intros [[b H]|H]; [exists [], b; exact H|discriminate]|].
    intros (a & b & H). left. destruct a; [exists b; exact H|discriminate].
  - rewrite IH. split.
    + intros [[b H]|(a & b & ->)]; [exists [], b; exact H|exists (y :: a), b; reflexivity].
    + intros (a & b & H). destruct a as [|z a]; [left; exists b; exact H|].
      right. inv H. exists a, b; reflexivity.
Qed.
Lemma get_response : forall ticks dttl imax h now k,
  Forall (fun c => c < now) (sweeps h) ->
  snd (sstep ticks dttl imax (srun ticks dttl imax h) (OGet now k))
  = match spec_get ticks dttl imax now k (rev h) with Some v => SData v | None => SNull end.
Proof. intros. cbn [sstep snd]. rewrite get_correct by assumption. reflexivity. Qed.
Lemma expiry_value : forall ticks dttl imax t ttl e, expiry ticks dttl imax t ttl = Some e ->
  e = t + (match ttl with Some 0 => dttl | Some n => n | None => dttl end) * ticks.
Proof.
  intros ticks dttl imax t ttl e H. unfold expiry in H.
  destruct (_ <=? imax); inv H. destruct ttl as [[|n]|]; reflexivity.
Qed.
Lemma never_after : forall ticks dttl imax h1 t k v ttl e h2 now,
  expiry ticks dttl imax t ttl = Some e -> Forall (leaves ticks dttl imax k) h2 -> e < now ->
  do_get now k (srun ticks dttl imax (h1 ++ OSet t k v ttl :: h2)) = None.
Proof.
  intros ticks dttl imax h1 t k v ttl e h2 now He Hl Hlt.
  set (h := h1 ++ OSet t k v ttl :: h2).
  assert (Inv : match sget k (srun ticks dttl imax h) with Some en => e_exp en = Some e | None => True end).
  { subst h. induction h2 as [|o h2 IH] using rev_ind.
    - rewrite run_snoc. cbn [sstep]. rewrite He. cbn [fst]. unfold sget, do_set.
      rewrite (aget_aput_same beqb beqb_ok). reflexivity.
    - apply Forall_app in Hl. destruct Hl as [Hl Ho]. apply Forall_cons_iff in Ho. destruct Ho as [Ho _].
      specialize (IH Hl). rewrite app_comm_cons, app_assoc, run_snoc.
      pose proof (run_NoDup ticks dttl imax (h1 ++ OSet t k v ttl :: h2)) as Hn.
      set (s := srun ticks dttl imax (h1 ++ OSet t k v ttl :: h2)) in *.
      destruct o as [t' k' v' ttl'|t' k'|k'|c|c k']; cbn [sstep fst leaves] in *; auto.
      + destruct (expiry ticks dttl imax t' ttl') as [e'|] eqn:E; cbn [fst]; auto.
        destruct Ho as [Ho|Ho]; [|discriminate].
        unfold sget, do_set in *. rewrite (aget_aput_other beqb beqb_ok) by auto. exact IH.
      + unfold sget, do_del in *. rewrite (aget_adel_other beqb beqb_ok) by auto. exact IH.
      + unfold do_sweep. rewrite sget_filter by auto. destruct (sget k s); auto. destruct (kept _ _); auto.
      + rewrite sget_filter by auto. destruct (sget k s); auto. destruct (_ || _); auto. }
  unfold do_get. destruct (sget k (srun ticks dttl imax h)) as [en|]; auto. rewrite Inv.
  destruct (N.ltb_spec e now); auto; lia.
Qed.
Lemma huge_ttl : exists now ttl, snd (sstep 1000000000 3600 (2 ^ 63 * 1000000000) [] (OSet now [107] [1] (Some ttl))) = SPanic
  /\ ttl < 2 ^ 64.
Proof. exists 5, (2 ^ 64 - 1). vm_compute; auto. Qed.
Lemma scan_sound_full : forall now limit offset f it s k en,
  Permutation it s -> NoDup (akeys s) -> In (k, en) (fst (scan now limit offset f it)) ->
  do_get now k s = Some (e_val en) /\ (forall n, f = Some n -> exists a b, k = a ++ n ++ b) /\
  lenN (fst (scan now limit offset f it)) <= limit.
Proof.
  intros now limit offset f it s k en Hp Hn H. pose proof (scan_sound _ _ _ _ _ _ _ _ Hp Hn H) as (G & M & L).
  repeat split.
  - apply live_get; auto.
  - intros n ->. apply contains_spec. exact M.
  - apply scan_limit.
Qed.
