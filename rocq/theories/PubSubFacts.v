(** Consequences for clients. *)
From Verif Require Import LibBase LibMap PubSubModel PubSubSpec PubSubTree PubSubProofs.

Lemma reads_valid : forall p, valid_pattern p -> reads p = split p.
Proof.
  intros p. unfold valid_pattern, reads. generalize (split p). induction l as [|x l IH]; intro H; auto. cbn. destruct (beqb x lhash) eqn:E.
  - apply beqb_eq in E. subst x. rewrite (H [] l); auto.
  - f_equal. apply IH. intros a b E2. apply (H (x :: a) b). rewrite E2. auto.
Qed.
Definition all_valid (h : list pop) : Prop := forall p, In p (patterns h) -> valid_pattern p.

Lemma holds_subscribed : forall h c q, all_valid h -> holds c q h <-> exists p, subscribed c p h /\ split p = q.
Proof.
  intros h c q V. split.
  - intros [h1 [p [now [h2 [-> [E [C [H1 [H2 H3]]]]]]]]]. exists p. split.
    + exists h1, now, h2. repeat (split; auto). intro Hi. apply (H3 p); auto.
    + rewrite <- E. symmetry. apply reads_valid. apply V. unfold patterns. rewrite flat_map_app, in_app_iff. right. left. auto.
  - intros [p [[h1 [now [h2 [-> [C [H1 [H2 H3]]]]]]] E]].
    assert (Vp : valid_pattern p) by (apply V; unfold patterns; rewrite flat_map_app, in_app_iff; right; left; auto).
    exists h1, p, now, h2. rewrite reads_valid by auto. repeat (split; auto). intros p' Hi E2. apply H3.
    assert (Vp' : valid_pattern p').
    { apply V. unfold patterns. apply in_flat_map. exists (PUnsub c p'). split; [|left; auto]. apply in_app_iff. right. right. auto. }
    rewrite reads_valid in E2 by auto. rewrite <- E in E2. apply split_inj in E2. subst. auto.
Qed.

Lemma shown_iff : forall t, shown_as t = t <-> forall t', t <> slash :: t'.
Proof.
  intros [|b t]; cbn; [split; auto; discriminate|]. destruct (b =? slash) eqn:E.
  - apply N.eqb_eq in E. subst b. split.
    + intros H. exfalso. assert (L : forall u, (length (shown_as u) <= length u)%nat) by (induction u as [|x u IH]; cbn; auto; destruct (x =? slash); cbn; auto).
      specialize (L t). rewrite H in L. cbn in L. lia.
    + intro H. destruct (H t). auto.
  - apply N.eqb_neq in E. split; auto. intros _ t' H. congruence.
Qed.

Section Sys.
  Variables (ticks inst_max default_ttl : N).
  Notation kept := (kept ticks inst_max default_ttl).
  Notation prun := (prun ticks inst_max default_ttl).
  Notation pstep1 := (pstep1 ticks inst_max default_ttl).

  (** the answer to request [o] after history [h]: the pushes queued *)
  Definition answer (h : list pop) (o : pop) : option (list (N * push)) := snd (pstep1 o (prun h ps0)).
  (** client [c] gets a message published to [t] after [h] *)
  Definition gets (h : list pop) (c : N) (t : bytes) : Prop :=
    forall data now, exists l, answer h (PPub t data false None now) = Some l /\ In (c, (t, data)) l.

  Lemma pub_ans : forall h t data rt ttl now, fresh_clients h ->
    (rt = true -> data <> [] -> now + eff_ttl default_ttl ttl * ticks <= inst_max) ->
    exists cs, answer h (PPub t data rt ttl now) = Some (map (fun c => (c, (t, data))) cs) /\ NoDup cs /\
      forall c, In c cs <-> exists q, holds c q h /\ mqtt q (split t).
  Proof.
    intros h t data rt ttl now F Hf. unfold answer. cbn [PubSubModel.pstep1].
    destruct (snd (publish ticks inst_max default_ttl now t data rt ttl (prun h ps0))) as [l|] eqn:E.
    - destruct (publish_out _ _ _ _ _ _ _ _ _ _ _ (inv_run ticks inst_max default_ttl h F) E) as [cs [-> K]]. eauto.
    - apply publish_panic in E. destruct E as [-> [E1 E2]]. specialize (Hf eq_refl E1). lia.
  Qed.
  Lemma pub_panics : forall h t data rt ttl now,
    answer h (PPub t data rt ttl now) = None <-> rt = true /\ data <> [] /\ inst_max < now + eff_ttl default_ttl ttl * ticks.
  Proof. intros. apply publish_panic. Qed.
  Lemma pub_panic_nop : forall h t data rt ttl now, answer h (PPub t data rt ttl now) = None -> prun (h ++ [PPub t data rt ttl now]) ps0 = prun h ps0.
  Proof.
    intros h t data rt ttl now H. unfold PubSubModel.prun. rewrite fold_left_app. cbn [fold_left]. fold (prun h ps0). unfold answer in H. cbn [PubSubModel.pstep1] in *.
    unfold publish in *. destruct (retain_step ticks inst_max default_ttl now t data rt ttl (prun h ps0)); [discriminate|reflexivity].
  Qed.
  Lemma pub_exact : forall h t data rt ttl now, fresh_clients h -> all_valid h ->
    (rt = true -> data <> [] -> now + eff_ttl default_ttl ttl * ticks <= inst_max) ->
    exists cs, answer h (PPub t data rt ttl now) = Some (map (fun c => (c, (t, data))) cs) /\ NoDup cs /\
      forall c, In c cs <-> exists p, subscribed c p h /\ mqtt (split p) (split t).
  Proof.
    intros h t data rt ttl now F V Hf. destruct (pub_ans h t data rt ttl now F Hf) as [cs [E [Hn K]]]. exists cs. split; auto. split; auto. intro c. rewrite K. split.
    - intros [q [H1 H2]]. apply holds_subscribed in H1; auto. destruct H1 as [p [H1 <-]]. eauto.
    - intros [p [H1 H2]]. exists (split p). split; auto. apply holds_subscribed; eauto.
  Qed.
  Lemma gets_holds : forall h c t, fresh_clients h -> gets h c t <-> exists q, holds c q h /\ mqtt q (split t).
  Proof.
    intros h c t F. split.
    - intro H. destruct (H [] 0) as [l [E Hi]]. destruct (pub_ans h t [] false None 0 F) as [cs [E2 [_ K]]]; [discriminate|]. rewrite E2 in E. injection E as <-.
      apply in_map_iff in Hi. destruct Hi as [c' [E3 Hi]]. injection E3 as ->. apply K; auto.
    - intros H data now. destruct (pub_ans h t data false None now F) as [cs [E2 [_ K]]]; [discriminate|]. eexists. split; [exact E2|]. apply in_map_iff. exists c. split; auto. apply K; auto.
  Qed.
  Lemma gets_iff : forall h c t, fresh_clients h -> all_valid h -> gets h c t <-> exists p, subscribed c p h /\ mqtt (split p) (split t).
  Proof.
    intros h c t F V. rewrite gets_holds by auto. split.
    - intros [q [H1 H2]]. apply holds_subscribed in H1; auto. destruct H1 as [p [H1 <-]]. eauto.
    - intros [p [H1 H2]]. exists (split p). split; auto. apply holds_subscribed; eauto.
  Qed.
  (** every pattern, valid or not *)
  Lemma gets_one : forall h c p now t, fresh_clients h -> connected c h -> (forall q, ~ holds c q h) ->
    gets (h ++ [PSub c p now]) c t <-> mqtt (reads p) (split t).
  Proof.
    intros h c p now t F C H0. assert (F' : fresh_clients (h ++ [PSub c p now])) by (unfold fresh_clients; rewrite connects_snoc, app_nil_r; auto).
    rewrite gets_holds by auto. split.
    - intros [q [H1 H2]]. apply holds_snoc in H1. cbn in H1. destruct H1 as [[_ [<- _]]|H1]; auto. destruct (H0 q H1).
    - intro H. exists (reads p). split; auto. apply holds_snoc. cbn. auto.
  Qed.

  Lemma gets_unsub : forall h c p c' t, fresh_clients h -> all_valid (h ++ [PUnsub c p]) ->
    gets (h ++ [PUnsub c p]) c' t <-> exists p', subscribed c' p' h /\ mqtt (split p') (split t) /\ ~ (c' = c /\ p' = p).
  Proof.
    intros h c p c' t F V. assert (F' : fresh_clients (h ++ [PUnsub c p])) by (unfold fresh_clients; rewrite connects_snoc, app_nil_r; auto).
    assert (V1 : all_valid h) by (intros x Hx; apply V; unfold patterns in *; rewrite flat_map_app, in_app_iff; auto).
    assert (Vp : valid_pattern p) by (apply V; unfold patterns; rewrite flat_map_app, in_app_iff; right; cbn; auto).
    rewrite gets_holds by auto. split.
    - intros [q [H1 H2]]. apply holds_snoc in H1. cbn in H1. destruct H1 as [H1 H3]. apply holds_subscribed in H1; auto. destruct H1 as [p' [H1 <-]]. exists p'. split; auto. split; auto.
      intros [-> ->]. apply H3. split; auto. apply reads_valid; auto.
    - intros [p' [H1 [H2 H3]]]. exists (split p'). split; auto. apply holds_snoc. cbn. split; [apply holds_subscribed; eauto|]. intros [-> E]. apply H3. split; auto.
      rewrite reads_valid in E by auto. apply split_inj in E. auto.
  Qed.
  Lemma gets_disconnect : forall h c c' t o, fresh_clients h -> o = PDisconnect c \/ o = PClose c -> gets (h ++ [o]) c' t <-> gets h c' t /\ c' <> c.
  Proof.
    intros h c c' t o F Ho. assert (F' : fresh_clients (h ++ [o])) by (unfold fresh_clients; rewrite connects_snoc; destruct Ho; subst o; rewrite app_nil_r; auto).
    rewrite !gets_holds by auto. split.
    - intros [q [H1 H2]]. apply holds_snoc in H1. destruct Ho; subst o; cbn in H1; destruct H1 as [H1 H3]; split; eauto.
    - intros [[q [H1 H2]] H3]. exists q. split; auto. apply holds_snoc. destruct Ho; subst o; cbn; auto.
  Qed.

  (** * Retained messages *)
  Lemma sub_ans : forall h c pat now, fresh_clients h -> connected c h ->
    exists l, NoDup (map fst l) /\ answer h (PSub c pat now) = Some (map (fun x => (c, (shown_as (fst x), rt_data (snd x)))) l) /\
      forall t v, In (t, v) l <-> kept t h = Some v /\ is_expired now v = false /\ mqtt (reads pat) (split t).
  Proof.
    intros h c pat now F C. destruct (sub_out _ _ _ _ _ now c pat (inv_run ticks inst_max default_ttl h F) C) as [l [H1 [H2 H3]]]. exists l. split; auto. split; auto.
    unfold answer. cbn [PubSubModel.pstep1]. destruct (subscribe now c pat (prun h ps0)) as [s' l']. cbn [snd] in *. f_equal. exact H2.
  Qed.
  Lemma sub_ans_none : forall h c pat now, fresh_clients h -> ~ connected c h -> answer h (PSub c pat now) = Some [].
  Proof.
    intros h c pat now F C. pose proof (inv_run ticks inst_max default_ttl h F) as I. unfold answer. cbn [PubSubModel.pstep1]. unfold subscribe.
    destruct (cget c (ps_cl (prun h ps0))) as [i|] eqn:E; auto. destruct (ci_open i) eqn:O; auto. destruct C. apply (I_conn _ _ _ _ _ I). eauto.
  Qed.

  (** topics of retained publishes, none beginning with '/' *)
  Definition plain_topics (h : list pop) : Prop := forall t d ttl now, In (PPub t d true ttl now) h -> forall t', t <> slash :: t'.
  Lemma kept_plain : forall h t v, plain_topics h -> kept t h = Some v -> forall t', t <> slash :: t'.
  Proof.
    induction h as [|o h IH] using rev_ind; intros t v P H; [discriminate|]. rewrite kept_snoc in H.
    assert (P' : plain_topics h) by (intros a d ttl now Hi; apply (P a d ttl now); apply in_app_iff; auto).
    destruct o; cbn in H; eauto.
    - destruct retain; eauto. destruct (beqb t topic) eqn:E; eauto. apply beqb_eq in E. subst t. apply (P topic data ttl now). apply in_app_iff. right. left. auto.
    - destruct (kept t h) as [r|] eqn:E; [|discriminate]. eapply IH; eauto.
  Qed.
  Lemma shown_sub : forall h c pat now t d l, fresh_clients h -> connected c h -> plain_topics h -> answer h (PSub c pat now) = Some l ->
    In (c, (t, d)) l <-> exists v, kept t h = Some v /\ rt_data v = d /\ is_expired now v = false /\ mqtt (reads pat) (split t).
  Proof.
    intros h c pat now t d l F C P E. destruct (sub_ans h c pat now F C) as [l' [_ [E2 H]]]. rewrite E in E2. injection E2 as ->. rewrite in_map_iff. split.
    - intros [[t' v] [E3 Hi]]. cbn in E3. injection E3 as E3 E4. apply H in Hi. destruct Hi as [H1 [H2 H3]].
      assert (St : shown_as t' = t') by (apply shown_iff; eapply kept_plain; eauto). rewrite St in E3. subst t'. eauto.
    - intros [v [H1 [H2 [H3 H4]]]]. exists (t, v). cbn. split; [|apply H; auto]. subst d. f_equal. f_equal. apply shown_iff. eapply kept_plain; eauto.
  Qed.

  Lemma kept_over : forall h2 v t, (forall d ttl now, ~ In (PPub t d true ttl now) h2) -> (forall n, In (PClean n) h2 -> is_expired n v = false) ->
    fold_left (kept_step ticks inst_max default_ttl t) h2 (Some v) = Some v.
  Proof.
    induction h2 as [|o h2 IH]; intros v t H1 H2; auto. cbn [fold_left].
    assert (E : kept_step ticks inst_max default_ttl t (Some v) o = Some v).
    { destruct o; cbn; auto.
      - destruct retain; auto. destruct (beqb t topic) eqn:E; auto. apply beqb_eq in E. subst topic. destruct (H1 data ttl now). left; auto.
      - rewrite H2 by (left; auto). auto. }
    rewrite E. apply IH; [intros d ttl now Hi; apply (H1 d ttl now); right; auto|intros n Hi; apply H2; right; auto].
  Qed.
  Lemma kept_none : forall h2 t, (forall d ttl now, ~ In (PPub t d true ttl now) h2) -> fold_left (kept_step ticks inst_max default_ttl t) h2 None = None.
  Proof.
    induction h2 as [|o h2 IH]; intros t H1; auto. cbn [fold_left].
    assert (E : kept_step ticks inst_max default_ttl t None o = None).
    { destruct o; cbn; auto. destruct retain; auto. destruct (beqb t topic) eqn:E; auto. apply beqb_eq in E. subst topic. destruct (H1 data ttl now). left; auto. }
    rewrite E. apply IH. intros d ttl now Hi; apply (H1 d ttl now); right; auto.
  Qed.
  (** the clean-up leaves a value that a later reader would still see *)
  Lemma kept_over' : forall h2 v t now', (forall d ttl now, ~ In (PPub t d true ttl now) h2) -> (forall n, In (PClean n) h2 -> n <= now') ->
    let r := fold_left (kept_step ticks inst_max default_ttl t) h2 (Some v) in
    (is_expired now' v = false -> r = Some v) /\ (is_expired now' v = true -> r = Some v \/ r = None).
  Proof.
    intros h2 v t now' H1 H2. split.
    - intro E. apply kept_over; auto. intros n Hi. specialize (H2 n Hi). unfold is_expired in *. destruct (rt_exp v) as [e|]; auto. lia.
    - intros _. clear H2. revert H1. revert v. induction h2 as [|o h2 IH]; intros v H1; [left; reflexivity|].
      assert (E : kept_step ticks inst_max default_ttl t (Some v) o = Some v \/ kept_step ticks inst_max default_ttl t (Some v) o = None).
      { destruct o; cbn; auto.
        - destruct retain; auto. destruct (beqb t topic) eqn:E; auto. apply beqb_eq in E. subst topic. destruct (H1 data ttl now). left; auto.
        - destruct (is_expired now v); auto. }
      assert (H1' : forall d ttl now, ~ In (PPub t d true ttl now) h2) by (intros d ttl now Hi; apply (H1 d ttl now); right; auto).
      cbn zeta in *. cbn [fold_left]. destruct E as [->| ->]; [apply IH; auto|right; apply kept_none; auto].
  Qed.

  Lemma retained_last : forall h t d ttl now h2 c pat now' l x, let h' := h ++ PPub t d true ttl now :: h2 in
    d <> [] -> now + eff_ttl default_ttl ttl * ticks <= inst_max ->
    (forall d ttl now, ~ In (PPub t d true ttl now) h2) -> (forall n, In (PClean n) h2 -> n <= now') ->
    fresh_clients h' -> plain_topics h' -> connected c h' -> mqtt (reads pat) (split t) ->
    answer h' (PSub c pat now') = Some l ->
    (In (c, (t, x)) l <-> x = d /\ now' < now + eff_ttl default_ttl ttl * ticks).
  Proof.
    intros h t d ttl now h2 c pat now' l x h' Hd Hfit H1 H2 F P C M E. rewrite (shown_sub h' c pat now' t x l F C P E).
    set (v := mkRet d (Some (now + eff_ttl default_ttl ttl * ticks)) (Some (now / ticks + eff_ttl default_ttl ttl))).
    assert (K : kept t h' = fold_left (kept_step ticks inst_max default_ttl t) h2 (Some v)).
    { unfold h', PubSubSpec.kept. rewrite fold_left_app. cbn [fold_left]. f_equal. cbn [kept_step]. rewrite beqb_refl. destruct d as [|b d0]; [congruence|].
      unfold ret_new. replace (now + eff_ttl default_ttl ttl * ticks <=? inst_max) with true by lia. reflexivity. }
    destruct (kept_over' h2 v t now' H1 H2) as [K1 K2]. rewrite K.
    assert (X : is_expired now' v = (now + eff_ttl default_ttl ttl * ticks <=? now')) by reflexivity.
    destruct (is_expired now' v) eqn:Ev.
    - split; [|lia]. intros [w [E1 [E2 [E3 _]]]]. destruct (K2 eq_refl) as [K3|K3]; rewrite K3 in E1; [|discriminate]. injection E1 as <-. congruence.
    - rewrite (K1 eq_refl). split.
      + intros [w [E1 [E2 _]]]. injection E1 as <-. cbn in E2. split; [congruence|lia].
      + intros [-> L]. exists v. auto.
  Qed.
  Lemma retained_cleared : forall h t ttl now h2 c pat now' l x, let h' := h ++ PPub t [] true ttl now :: h2 in
    (forall d ttl now, ~ In (PPub t d true ttl now) h2) ->
    fresh_clients h' -> plain_topics h' -> connected c h' -> answer h' (PSub c pat now') = Some l -> ~ In (c, (t, x)) l.
  Proof.
    intros h t ttl now h2 c pat now' l x h' H1 F P C E. rewrite (shown_sub h' c pat now' t x l F C P E). intros [w [E1 _]].
    unfold h', PubSubSpec.kept in E1. rewrite fold_left_app in E1. cbn [fold_left] in E1. cbn [kept_step] in E1. rewrite beqb_refl in E1. rewrite kept_none in E1 by auto. discriminate.
  Qed.
  (** any other request leaves what subscribers of [t] are shown *)
  Lemma retained_other : forall h o c pat now' l l' t x, fresh_clients (h ++ [o]) -> plain_topics (h ++ [o]) -> connected c h -> connected c (h ++ [o]) ->
    (forall d ttl now, o <> PPub t d true ttl now) -> (forall n, o = PClean n -> n <= now') ->
    answer h (PSub c pat now') = Some l -> answer (h ++ [o]) (PSub c pat now') = Some l' -> (In (c, (t, x)) l' <-> In (c, (t, x)) l).
  Proof.
    intros h o c pat now' l l' t x F P C C' H1 H2 E E'.
    assert (P0 : plain_topics h) by (intros a d ttl now Hi; apply (P a d ttl now); apply in_app_iff; auto).
    assert (F0 : fresh_clients h) by (eapply fresh_snoc; eauto).
    rewrite (shown_sub _ _ _ _ _ _ _ F C' P E'), (shown_sub _ _ _ _ _ _ _ F0 C P0 E). rewrite kept_snoc.
    assert (K : forall v, is_expired now' v = false -> (kept_step ticks inst_max default_ttl t (kept t h) o = Some v <-> kept t h = Some v)).
    { intros v Hv. destruct o; cbn; try tauto.
      - destruct retain; [|tauto]. destruct (beqb t topic) eqn:Eb; [|tauto]. apply beqb_eq in Eb. subst topic. destruct (H1 data ttl now). auto.
      - destruct (kept t h) as [r|]; [|tauto]. destruct (is_expired now r) eqn:Er; [|tauto]. split; [discriminate|]. intro Eq. injection Eq as ->.
        specialize (H2 now eq_refl). unfold is_expired in *. destruct (rt_exp v); [lia|discriminate]. }
    split; intros [v [A [B [D G]]]]; exists v; (split; [apply K; auto|auto]).
  Qed.
End Sys.
