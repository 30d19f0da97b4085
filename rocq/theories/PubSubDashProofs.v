(** The pub/sub page of the dashboard against the history of requests. *)
From Verif Require Import LibBase LibMap StoreModel PubSubModel PubSubSpec PubSubTree PubSubProofs PubSubFacts PubSubDashModel PubSubDashSpec PubSubDashTree.

(** * Sorting and paging *)
Lemma ble_total : forall a b, ble a b = false -> ble b a = true.
Proof.
  induction a as [|x a IH]; intros [|y b] H; auto; cbn in *. destruct (x <? y) eqn:E1; [discriminate|]. destruct (y <? x) eqn:E2; auto.
Qed.
Lemma ble_trans : forall a b c, ble a b = true -> ble b c = true -> ble a c = true.
Proof.
  induction a as [|x a IH]; intros [|y b] [|z c] H1 H2; auto; cbn in *; try discriminate.
  destruct (x <? y) eqn:E1.
  - destruct (y <? z) eqn:E3; [|destruct (z <? y) eqn:E4; [discriminate|]]; assert (E : x <? z = true) by lia; rewrite E; auto.
  - destruct (y <? x) eqn:E2; [discriminate|]. destruct (y <? z) eqn:E3; [assert (E : x <? z = true) by lia; rewrite E; auto|].
    destruct (z <? y) eqn:E4; [discriminate|]. assert (E : x <? z = false) by lia. assert (E' : z <? x = false) by lia. rewrite E, E'. eauto.
Qed.
Lemma ble_antisym : forall a b, ble a b = true -> ble b a = true -> a = b.
Proof.
  induction a as [|x a IH]; intros [|y b] H1 H2; auto; cbn in *; try discriminate.
  destruct (x <? y) eqn:E1.
  - assert (E : y <? x = false) by lia. rewrite E in H2. discriminate.
  - destruct (y <? x) eqn:E2; [discriminate|]. assert (x = y) by lia. subst y. f_equal. auto.
Qed.
Lemma row_insert_perm : forall x l, Permutation (row_insert x l) (x :: l).
Proof. induction l as [|y l IH]; cbn; auto. destruct (ble _ _); auto. rewrite IH. apply perm_swap. Qed.
Lemma row_sort_perm : forall l, Permutation (row_sort l) l.
Proof. induction l as [|x l IH]; cbn; auto. rewrite row_insert_perm. auto. Qed.
Lemma row_insert_ord : forall x l, ordered ble (map r_name l) -> ordered ble (map r_name (row_insert x l)).
Proof.
  induction l as [|y l IH]; intro H; cbn [row_insert].
  - cbn. constructor; [intros y []|constructor].
  - cbn [map] in H. inversion H as [|a b H1 H2]; subst. destruct (ble (r_name x) (r_name y)) eqn:E.
    + cbn [map]. constructor; auto. intros z [<-|Hz]; auto. eapply ble_trans; eauto.
    + cbn [map]. constructor; auto. intros z Hz. apply in_map_iff in Hz. destruct Hz as [w [<- Hw]].
      apply (Permutation_in _ (row_insert_perm x l)) in Hw. destruct Hw as [<-|Hw]; [apply ble_total; auto|]. apply H1. apply in_map. auto.
Qed.
Lemma row_sort_ord : forall l, ordered ble (map r_name (row_sort l)).
Proof. induction l as [|x l IH]; cbn; [constructor|]. apply row_insert_ord. auto. Qed.

Lemma page_cut : forall A limit offset (l : list A), page limit offset l = takeN limit (dropN offset l).
Proof.
  intros A limit offset l. unfold page. destruct (offset <? lenN l) eqn:E.
  - destruct (N.le_gt_cases (offset + limit) (lenN l)) as [H|H].
    + rewrite N.min_l by auto. f_equal. lia.
    + rewrite N.min_r by lia. rewrite !takeN_all; auto; rewrite lenN_dropN; lia.
  - rewrite dropN_all by lia. rewrite takeN_nil. auto.
Qed.

(** * The registry *)
Definition subd_step (c : N) (p : bytes) (h : list pop) (o : pop) : Prop :=
  match o with
  | PSub c' p' _ => (c' = c /\ p' = p /\ connected c h) \/ subscribed c p h
  | PUnsub c' p' => subscribed c p h /\ ~ (c' = c /\ p' = p)
  | PDisconnect c' => subscribed c p h /\ c' <> c
  | PClose c' => subscribed c p h /\ c' <> c
  | _ => subscribed c p h
  end.
Lemma subscribed_snoc : forall c p h o, subscribed c p (h ++ [o]) <-> subd_step c p h o.
Proof.
  intros c p h o. split.
  - intros [h1 [now [h2 [E [Hc [H1 [H2 H3]]]]]]]. apply snoc_mid in E. destruct E as [[-> [-> ->]]|[h3 [-> ->]]]; [cbn; auto|].
    rewrite notin_snoc in H1, H2, H3. assert (C : subscribed c p (h1 ++ PSub c p now :: h3)) by (exists h1, now, h3; intuition).
    destruct o; cbn; auto; try (split; auto; intros ->; intuition).
    split; auto. intros [-> ->]. intuition.
  - assert (K : subscribed c p h -> o <> PDisconnect c -> o <> PClose c -> o <> PUnsub c p -> subscribed c p (h ++ [o])).
    { intros [h1 [now [h2 [-> [Hc [H1 [H2 H3]]]]]]] N1 N2 N3. exists h1, now, (h2 ++ [o]). rewrite <- app_assoc. rewrite !notin_snoc. repeat (split; auto). }
    destruct o; cbn; intro H; try (apply K; auto; discriminate).
    + destruct H as [H N1]. apply K; auto; try discriminate. congruence.
    + destruct H as [H N1]. apply K; auto; try discriminate. congruence.
    + destruct H as [[-> [-> H]]|H]; [|apply K; auto; discriminate]. exists h, now, []. cbn. intuition.
    + destruct H as [H N1]. apply K; auto; try discriminate. intro E. injection E as -> ->. auto.
Qed.
Lemma subscribed_connected : forall c p h, subscribed c p h -> connected c h.
Proof.
  intros c p h [h1 [now [h2 [-> [Hc [H1 [H2 _]]]]]]]. destruct Hc as [a [b [-> [A B]]]]. exists a, (b ++ PSub c p now :: h2).
  rewrite <- app_assoc. split; auto. rewrite !in_app_iff. cbn. intuition discriminate.
Qed.
Lemma subscribed_pattern : forall c p h, subscribed c p h -> In p (patterns h).
Proof. intros c p h [h1 [now [h2 [-> _]]]]. unfold patterns. rewrite flat_map_app, in_app_iff. right. left. auto. Qed.

Definition gone (c : N) (h : list pop) : Prop := exists h1 h2, h = h1 ++ PClose c :: h2 /\ ~ In (PDisconnect c) h2.
Lemma gone_snoc : forall c h o, gone c h -> o <> PDisconnect c -> gone c (h ++ [o]).
Proof. intros c h o [h1 [h2 [-> H]]] N1. exists h1, (h2 ++ [o]). rewrite <- app_assoc, notin_snoc. auto. Qed.
Lemma settled_gone : forall c h, settled h -> ~ gone c h.
Proof. intros c h S [h1 [h2 [E H]]]. apply H. eapply S; eauto. Qed.

Lemma NoDup_bins : forall x l, NoDup l -> NoDup (bins x l).
Proof.
  intros x l H. unfold bins. destruct (existsb (beqb x) l) eqn:E; auto. apply NoDup_snoc; auto. intro Hi.
  assert (existsb (beqb x) l = true) by (apply existsb_exists; exists x; split; auto; apply beqb_eq; auto). congruence.
Qed.

Section Sys.
  Variables (ticks inst_max default_ttl : N).
  Notation kept := (kept ticks inst_max default_ttl).
  Notation prun := (prun ticks inst_max default_ttl).
  Notation pstep1 := (pstep1 ticks inst_max default_ttl).
  Notation Inv := (Inv ticks inst_max default_ttl).

  Record D (h : list pop) (cl : list (N * cinfo)) : Prop := {
    D_keys : NoDup (akeys cl);
    D_nd : forall c i, cget c cl = Some i -> NoDup (ci_subs i);
    D_open : forall c i, cget c cl = Some i -> ci_open i = true \/ gone c h;
    D_subs : forall c i p, cget c cl = Some i -> ci_open i = true -> (In p (ci_subs i) <-> subscribed c p h) }.

  Lemma D_same : forall h cl o, D h cl -> (forall c, o <> PDisconnect c) -> (forall c p, subd_step c p h o <-> subscribed c p h) -> D (h ++ [o]) cl.
  Proof.
    intros h cl o [A B C E] N1 S. constructor; auto.
    - intros c i H. destruct (C c i H) as [K|K]; auto. right. apply gone_snoc; auto.
    - intros c i p H1 H2. rewrite subscribed_snoc, S. eauto.
  Qed.
  Lemma D_drop : forall h cl c, D h cl -> D h (adel N.eqb c cl).
  Proof.
    intros h cl c [A B C E]. constructor.
    - apply (NoDup_adel N.eqb N.eqb_eq); auto.
    - intros d i H. rewrite cget_adel in H. destruct (d =? c); [discriminate|eauto].
    - intros d i H. rewrite cget_adel in H. destruct (d =? c); [discriminate|eauto].
    - intros d i p H. rewrite cget_adel in H. destruct (d =? c); [discriminate|eauto].
  Qed.
  Lemma D_disc : forall h s c, D h (ps_cl s) -> D h (ps_cl (disconnect c s)).
  Proof. intros h s c H. unfold disconnect. destruct (cget c (ps_cl s)); auto. cbn. apply D_drop; auto. Qed.
  Lemma D_discs : forall h zs s, D h (ps_cl s) -> D h (ps_cl (fold_left (fun s c => disconnect c s) zs s)).
  Proof. intros h. induction zs as [|c zs IH]; intros s H; cbn [fold_left]; auto. apply IH. apply D_disc; auto. Qed.
  Lemma retain_cl : forall now t d rt ttl s s1, retain_step ticks inst_max default_ttl now t d rt ttl s = Some s1 -> ps_cl s1 = ps_cl s.
  Proof.
    intros now t d rt ttl s s1 E. unfold retain_step in E. destruct rt; [|congruence]. destruct d; [injection E as <-; auto|].
    destruct (ret_new _ _ _ _ _); [|discriminate]. injection E as <-. auto.
  Qed.

  Lemma prun_snoc : forall h o, prun (h ++ [o]) ps0 = fst (pstep1 o (prun h ps0)).
  Proof. intros h o. unfold PubSubModel.prun. rewrite fold_left_app. reflexivity. Qed.

  Lemma D_run : forall h, fresh_clients h -> D h (ps_cl (prun h ps0)).
  Proof.
    induction h as [|o h IH] using rev_ind; intro F; [constructor; cbn; [constructor|discriminate|discriminate|discriminate]|].
    pose proof (IH (fresh_snoc _ _ F)) as K. pose proof (inv_run ticks inst_max default_ttl h (fresh_snoc _ _ F)) as I. rewrite prun_snoc.
    clear IH. revert K I. generalize (prun h ps0). intros s K I. pose proof K as [A B C E]. destruct o as [c|c|c|c pat now|c pat|t d rt ttl now|now]; cbn [PubSubModel.pstep1 fst].
    - (* connect *)
      assert (Hn : ~ In c (connects h)).
      { unfold fresh_clients in F. rewrite connects_snoc in F. intro Hi. apply NoDup_remove_2 in F. rewrite app_nil_r in F. auto. }
      cbn [connect ps_cl]. constructor.
      + apply (NoDup_aset N.eqb N.eqb_eq); auto.
      + intros e i H. rewrite cget_aset in H. destruct (e =? c); [injection H as <-; constructor|eauto].
      + intros e i H. rewrite cget_aset in H. destruct (e =? c); [injection H as <-; auto|]. destruct (C e i H) as [K1|K1]; auto. right. apply gone_snoc; auto. discriminate.
      + intros e i p H O. rewrite subscribed_snoc. cbn [subd_step]. rewrite cget_aset in H. destruct (e =? c) eqn:Ec; [|eauto]. injection H as <-. apply N.eqb_eq in Ec. subst e. cbn.
        split; [intros []|]. intro H. apply Hn. apply connected_connects. eapply subscribed_connected; eauto.
    - (* disconnect *)
      unfold disconnect. destruct (cget c (ps_cl s)) as [i0|] eqn:Ec; cbn [ps_cl].
      + constructor.
        * apply (NoDup_adel N.eqb N.eqb_eq); auto.
        * intros e i H. rewrite cget_adel in H. destruct (e =? c); [discriminate|eauto].
        * intros e i H. rewrite cget_adel in H. destruct (e =? c) eqn:E2; [discriminate|]. destruct (C e i H) as [K1|K1]; auto. right. apply gone_snoc; auto. apply N.eqb_neq in E2. congruence.
        * intros e i p H O. rewrite cget_adel in H. destruct (e =? c) eqn:E2; [discriminate|]. apply N.eqb_neq in E2. rewrite subscribed_snoc. cbn. rewrite (E e i p H O). intuition.
      + assert (N1 : forall e i, cget e (ps_cl s) = Some i -> c <> e) by (intros e i H ->; congruence). constructor; auto.
        * intros e i H. destruct (C e i H) as [K1|K1]; auto. right. apply gone_snoc; auto. pose proof (N1 e i H). congruence.
        * intros e i p H O. rewrite subscribed_snoc. cbn. rewrite (E e i p H O). pose proof (N1 e i H). intuition.
    - (* close *)
      cbn [ps_cl]. destruct (cget c (ps_cl s)) as [i0|] eqn:Ec.
      + constructor.
        * apply (NoDup_aset N.eqb N.eqb_eq); auto.
        * intros e i H. rewrite cget_aset in H. destruct (e =? c); [injection H as <-; cbn; eauto|eauto].
        * intros e i H. rewrite cget_aset in H. destruct (e =? c) eqn:E2.
          -- right. exists h, []. apply N.eqb_eq in E2. subst e. auto.
          -- destruct (C e i H) as [K1|K1]; auto. right. apply gone_snoc; auto. discriminate.
        * intros e i p H O. rewrite cget_aset in H. destruct (e =? c) eqn:E2; [injection H as <-; discriminate|]. apply N.eqb_neq in E2. rewrite subscribed_snoc. cbn. rewrite (E e i p H O). intuition.
      + assert (N1 : forall e i, cget e (ps_cl s) = Some i -> c <> e) by (intros e i H ->; congruence). constructor; auto.
        * intros e i H. destruct (C e i H) as [K1|K1]; auto. right. apply gone_snoc; auto. discriminate.
        * intros e i p H O. rewrite subscribed_snoc. cbn. rewrite (E e i p H O). pose proof (N1 e i H). intuition.
    - (* subscribe *)
      unfold subscribe. destruct (cget c (ps_cl s)) as [i0|] eqn:Ec; cbn [fst ps_cl].
      + constructor.
        * apply (NoDup_aset N.eqb N.eqb_eq); auto.
        * intros e i H. rewrite cget_aset in H. destruct (e =? c); [injection H as <-; cbn; apply NoDup_bins; eauto|eauto].
        * intros e i H. rewrite cget_aset in H. destruct (e =? c) eqn:E2.
          -- apply N.eqb_eq in E2. subst e. injection H as <-. cbn. destruct (C c i0 Ec) as [K1|K1]; auto. right. apply gone_snoc; auto. discriminate.
          -- destruct (C e i H) as [K1|K1]; auto. right. apply gone_snoc; auto. discriminate.
        * intros e i p H O. rewrite cget_aset in H. rewrite subscribed_snoc. cbn [subd_step]. destruct (e =? c) eqn:E2.
          -- apply N.eqb_eq in E2. subst e. injection H as <-. cbn in *. rewrite bins_In, (E c i0 p Ec O).
             assert (Cc : connected c h) by (apply (I_conn _ _ _ _ _ I); eauto). intuition.
          -- apply N.eqb_neq in E2. rewrite (E e i p H O). intuition congruence.
      + constructor; auto.
        * intros e i H. destruct (C e i H) as [K1|K1]; auto. right. apply gone_snoc; auto. discriminate.
        * intros e i p H O. rewrite subscribed_snoc. cbn [subd_step]. rewrite (E e i p H O). split; auto. intros [[-> _]|H1]; auto. congruence.
    - (* unsubscribe *)
      unfold unsubscribe. cbn [ps_cl]. destruct (cget c (ps_cl s)) as [i0|] eqn:Ec.
      + constructor.
        * apply (NoDup_aset N.eqb N.eqb_eq); auto.
        * intros e i H. rewrite cget_aset in H. destruct (e =? c); [injection H as <-; cbn; apply NoDup_filter'; eauto|eauto].
        * intros e i H. rewrite cget_aset in H. destruct (e =? c) eqn:E2.
          -- apply N.eqb_eq in E2. subst e. injection H as <-. cbn. destruct (C c i0 Ec) as [K1|K1]; auto. right. apply gone_snoc; auto. discriminate.
          -- destruct (C e i H) as [K1|K1]; auto. right. apply gone_snoc; auto. discriminate.
        * intros e i p H O. rewrite cget_aset in H. rewrite subscribed_snoc. cbn [subd_step]. destruct (e =? c) eqn:E2.
          -- apply N.eqb_eq in E2. subst e. injection H as <-. cbn in *. rewrite brem_In, (E c i0 p Ec O). intuition.
          -- apply N.eqb_neq in E2. rewrite (E e i p H O). intuition.
      + assert (N1 : forall e i, cget e (ps_cl s) = Some i -> c <> e) by (intros e i H ->; congruence). constructor; auto.
        * intros e i H. destruct (C e i H) as [K1|K1]; auto. right. apply gone_snoc; auto. discriminate.
        * intros e i p H O. rewrite subscribed_snoc. cbn. rewrite (E e i p H O). pose proof (N1 e i H). intuition.
    - (* publish *)
      unfold publish. destruct (retain_step ticks inst_max default_ttl now t d rt ttl s) as [s1|] eqn:Er; cbn [fst].
      + apply D_discs. rewrite (retain_cl _ _ _ _ _ _ _ Er). apply D_same; auto; [discriminate|cbn; tauto].
      + apply D_same; auto; [discriminate|cbn; tauto].
    - (* clean-up *)
      cbn [ps_cl]. apply D_same; auto; [discriminate|cbn; tauto].
  Qed.

  (** the tree has the walked shape *)
  Lemma wd_unsub_all : forall c pats t, wd true t -> wd true (unsub_all c pats t).
  Proof. intros c pats. unfold unsub_all. induction pats as [|p pats IH]; intros t W; cbn [fold_left]; auto. apply IH. apply wd_rem. auto. Qed.
  Lemma wd_disc : forall s c, wd true (ps_tree s) -> wd true (ps_tree (disconnect c s)).
  Proof. intros s c W. unfold disconnect. destruct (cget c (ps_cl s)); auto. cbn. apply wd_unsub_all; auto. Qed.
  Lemma wd_discs : forall zs s, wd true (ps_tree s) -> wd true (ps_tree (fold_left (fun s c => disconnect c s) zs s)).
  Proof. induction zs as [|c zs IH]; intros s H; cbn [fold_left]; auto. apply IH. apply wd_disc; auto. Qed.
  Lemma named_lit : forall l, ~ In lplus l -> ~ In lhash l -> Forall hlit l.
  Proof.
    intros l H1 H2. apply Forall_forall. intros x Hx. destruct (level_cases x) as [->|[->|H]]; auto; contradiction.
  Qed.
  Lemma named_snoc : forall h o, named_topics (h ++ [o]) -> named_topics h.
  Proof. intros h o H t d ttl now Hi. eapply H. apply in_app_iff. left. eauto. Qed.
  Lemma wd_run : forall h, named_topics h -> wd true (ps_tree (prun h ps0)).
  Proof.
    induction h as [|o h IH] using rev_ind; intro F; [apply wd_node0|]. pose proof (IH (named_snoc _ _ F)) as W. rewrite prun_snoc.
    clear IH. revert W. generalize (prun h ps0). intros s W. destruct o as [c|c|c|c pat now|c pat|t d rt ttl now|now]; cbn [PubSubModel.pstep1 fst]; auto.
    - apply wd_disc; auto.
    - unfold subscribe. destruct (cget c (ps_cl s)); cbn; auto. apply wd_insert; auto.
    - cbn. apply wd_rem; auto.
    - unfold publish. destruct (retain_step ticks inst_max default_ttl now t d rt ttl s) as [s1|] eqn:Er; cbn [fst]; auto. apply wd_discs.
      unfold retain_step in Er. destruct rt; [|congruence]. assert (L : Forall hlit (split t)).
      { destruct (F t d ttl now) as [F1 F2]; [apply in_app_iff; right; left; auto|]. apply named_lit; auto. }
      destruct d; [injection Er as <-; cbn; apply wd_set; auto|]. destruct (ret_new _ _ _ _ _); [|discriminate]. injection Er as <-. cbn. apply wd_set; auto.
    - cbn. apply wd_cleanup; auto.
  Qed.
  Lemma kept_pub : forall h t, kept t h <> None -> exists d ttl now, In (PPub t d true ttl now) h.
  Proof.
    induction h as [|o h IH] using rev_ind; intros t H; [cbn in H; congruence|]. rewrite kept_snoc in H.
    assert (K : kept t h <> None -> exists d ttl now, In (PPub t d true ttl now) (h ++ [o])).
    { intro H1. destruct (IH t H1) as (d & ttl & now & H2). exists d, ttl, now. apply in_app_iff; auto. }
    destruct o; cbn [kept_step] in H; auto.
    - destruct retain; auto. destruct (beqb t topic) eqn:E; auto. apply beqb_eq in E. subst topic. exists data, ttl, now. apply in_app_iff. right. left. auto.
    - destruct (kept t h) as [r|]; auto. apply K. discriminate.
  Qed.

  (** * The rows *)
  Definition unsplit (q : list level) : bytes := match q with [] => [] | w :: ws => w ++ joinr ws end.
  Lemma unsplit_split : forall p, unsplit (split p) = p.
  Proof. intro p. pose proof (split_join p) as H. destruct (split p); [destruct H|exact H]. Qed.
  Definition entry := (bytes * (N * option retained))%type.
  Definition to_entry (x : cell) : entry := (unsplit (fst x), (lenN (fst (snd x)), snd (snd x))).
  Definition entries (h : list pop) : list entry := map to_entry (filter busy (dump (ps_tree (prun h ps0)))).
  Definition show (now : N) (e : entry) : trow := (shown_as (fst e), fst (snd e), visible now (snd (snd e))).

  Section Hist.
    Variable h : list pop.
    Hypothesis FC : fresh_clients h.
    Hypothesis AV : all_valid h.
    Hypothesis ST : settled h.
    Hypothesis NT : named_topics h.
    Notation T := (ps_tree (prun h ps0)).
    Let I : Inv h (prun h ps0) := inv_run ticks inst_max default_ttl h FC.
    Let K : D h (ps_cl (prun h ps0)) := D_run h FC.
    Let W : wd true T := wd_run h NT.

    Lemma all_open : forall c i, cget c (ps_cl (prun h ps0)) = Some i -> ci_open i = true /\ connected c h.
    Proof.
      intros c i H. destruct (D_open _ _ K c i H) as [O|G]; [|destruct (settled_gone _ _ ST G)]. split; auto. apply (I_conn _ _ _ _ _ I). eauto.
    Qed.
    Lemma subs_iff : forall c p, trunc (split p) = split p -> In c (subs_at (split p) T) <-> subscribed c p h.
    Proof.
      intros c p E. split.
      - intro H. destruct (I_reg _ _ _ _ _ I c _ H) as [i [Hi _]]. destruct (all_open _ _ Hi) as [_ Cc].
        apply (I_subs _ _ _ _ _ I c _ Cc) in H. rewrite E in H. apply holds_subscribed in H; auto. destruct H as [p' [H E2]]. apply split_inj in E2. subst. auto.
      - intro H. pose proof (subscribed_connected _ _ _ H) as Cc. apply (I_subs _ _ _ _ _ I c _ Cc). rewrite E. apply holds_subscribed; auto. eauto.
    Qed.
    Lemma valid_trunc : forall c p, subscribed c p h -> trunc (split p) = split p.
    Proof. intros c p H. change (reads p = split p). apply reads_valid. apply AV. eapply subscribed_pattern; eauto. Qed.
    Lemma kept_trunc : forall p, kept p h <> None -> trunc (split p) = split p.
    Proof.
      intros p H. destruct (kept_pub _ _ H) as (d & ttl & now & Hi). destruct (NT _ _ _ _ Hi) as [_ N1]. revert N1. generalize (split p).
      induction l as [|x l IH]; intro N1; auto. cbn [trunc]. destruct (beqb x lhash) eqn:E.
      - apply beqb_eq in E. subst x. destruct N1. left; auto.
      - f_equal. apply IH. intro; apply N1; right; auto.
    Qed.
    Lemma busy_split : forall q ss r, In (q, (ss, r)) (dump T) -> busy (q, (ss, r)) = true -> exists p, q = split p.
    Proof.
      intros q ss r H B. destruct (dump_in _ _ W _ _ _ H) as [E1 [E2 [E3 N1]]]. subst ss r. unfold busy in B. cbn [fst snd] in B. apply orb_true_iff in B. destruct B as [B|B].
      - destruct (subs_at q T) as [|c l] eqn:E; [discriminate|]. assert (Hc : In c (subs_at q T)) by (rewrite E; left; auto).
        destruct (I_reg _ _ _ _ _ I c _ Hc) as [i [Hi [pat [Hp Er]]]]. destruct (all_open _ _ Hi) as [O _]. apply (D_subs _ _ K c i pat Hi O) in Hp.
        apply valid_trunc in Hp. exists pat. rewrite <- E1, <- Er. exact Hp.
      - destruct (ret_at q T) as [v|] eqn:E; [|discriminate]. eapply (I_ret2 _ _ _ _ _ I); eauto.
    Qed.
    Lemma busy_iff : forall ss r q, busy (q, (ss, r)) = true <-> lenN ss <> 0 \/ r <> None.
    Proof.
      intros ss r q. unfold busy. cbn [fst snd]. rewrite orb_true_iff, !negb_true_iff. destruct ss as [|x ss]; destruct r as [v|]; cbn [is_nil is_none]; rewrite ?lenN_cons, ?lenN_nil; intuition (try discriminate; try lia; try congruence).
    Qed.
    Lemma entries_iff : forall p n v, In (p, (n, v)) (entries h) <-> counts n (fun c => subscribed c p h) /\ v = kept p h /\ (n <> 0 \/ v <> None).
    Proof.
      intros p n v. unfold entries. rewrite in_map_iff. split.
      - intros [[q [ss r]] [E H]]. apply filter_In in H. destruct H as [H B]. destruct (busy_split _ _ _ H B) as [p0 ->]. unfold to_entry in E. cbn [fst snd] in E. rewrite unsplit_split in E. injection E as -> <- <-.
        destruct (dump_in _ _ W _ _ _ H) as [E1 [E2 [E3 N1]]]. apply busy_iff in B. split; [|split; auto].
        + exists ss. split; auto. split; auto. intro c. rewrite E2. apply subs_iff; auto.
        + rewrite E3. apply I.
      - intros [[cs [N1 [Hc <-]]] [-> B]].
        assert (E : trunc (split p) = split p).
        { destruct B as [B|B]; [|apply kept_trunc; auto]. destruct cs as [|c cs]; [rewrite lenN_nil in B; congruence|]. apply (valid_trunc c). apply Hc. left; auto. }
        assert (N2 : NoDup (subs_at (split p) T)).
        { destruct (subs_at (split p) T) as [|c l] eqn:Es; [constructor|]. assert (Hd : In (split p, (subs_at (split p) T, ret_at (split p) T)) (dump T)) by (apply (dump_has _ _ _ W E); left; rewrite Es; discriminate).
          apply (dump_in _ _ W) in Hd. rewrite Es in Hd. apply Hd. }
        assert (P : Permutation (subs_at (split p) T) cs) by (apply NoDup_Permutation; auto; intro c; rewrite Hc; apply subs_iff; auto).
        assert (L : lenN (subs_at (split p) T) = lenN cs) by (unfold lenN; rewrite (Permutation_length P); auto).
        exists (split p, (subs_at (split p) T, ret_at (split p) T)). split.
        + unfold to_entry. cbn [fst snd]. rewrite unsplit_split, L, (I_ret _ _ _ _ _ I). reflexivity.
        + assert (B' : busy (split p, (subs_at (split p) T, ret_at (split p) T)) = true) by (apply busy_iff; rewrite L, (I_ret _ _ _ _ _ I); auto).
          apply filter_In. split; auto. apply (dump_has _ _ _ W E). apply busy_iff in B'. destruct B' as [B'|B']; auto. left. intro E0. rewrite E0 in B'. apply B'. reflexivity.
    Qed.
    Lemma NoDup_map_on : forall A B (f : A -> B) l, NoDup l -> (forall x y, In x l -> In y l -> f x = f y -> x = y) -> NoDup (map f l).
    Proof.
      induction l as [|x l IH]; intros N1 H; cbn; [constructor|]. inversion N1 as [|x0 l0 N2 N3]; subst. constructor.
      - intro Hi. apply in_map_iff in Hi. destruct Hi as [y [E Hy]]. rewrite (H x y) in N2; [auto|left; auto|right; auto|auto].
      - apply IH; auto. intros a b Ha Hb. apply H; right; auto.
    Qed.
    Lemma entries_NoDup : NoDup (map fst (entries h)).
    Proof.
      unfold entries. rewrite map_map. unfold to_entry. cbn [fst]. apply (NoDup_map_on _ _ (fun x : cell => unsplit (fst x))).
      - apply NoDup_filter'. pose proof (dump_NoDup _ _ W) as N1. revert N1. generalize (dump T). intro l. apply NoDup_map_inv.
      - intros [q1 [s1 r1]] [q2 [s2 r2]] H1 H2 E. cbn [fst] in E. apply filter_In in H1. apply filter_In in H2. destruct H1 as [H1 B1]. destruct H2 as [H2 B2].
        destruct (busy_split _ _ _ H1 B1) as [p1 ->]. destruct (busy_split _ _ _ H2 B2) as [p2 ->]. rewrite !unsplit_split in E. subst p2.
        destruct (dump_in _ _ W _ _ _ H1) as [_ [-> [-> _]]]. destruct (dump_in _ _ W _ _ _ H2) as [_ [-> [-> _]]]. auto.
    Qed.
    Definition keep (search : option bytes) (e : entry) : bool := negb (is_nil (shown_as (fst e))) && hits search (shown_as (fst e)).
    Lemma collect_entries : forall now search, collect_filtered now search [] T = map (show now) (filter (keep search) (entries h)).
    Proof.
      intros now search. rewrite collect_rows. unfold entries.
      assert (H : forall l, (forall q ss r, In (q, (ss, r)) l -> busy (q, (ss, r)) = true -> exists p, q = split p) ->
        flat_map (row now search []) l = map (show now) (filter (keep search) (map to_entry (filter busy l)))).
      { induction l as [|[q [ss r]] l IH]; intro Hl; auto. assert (IH' := IH (fun q ss r Hi => Hl q ss r (or_intror Hi))). cbn [flat_map filter]. destruct (busy (q, (ss, r))) eqn:B.
        - destruct (Hl q ss r (or_introl eq_refl) B) as [p ->].
          assert (R : row now search [] (split p, (ss, r)) = if keep search (to_entry (split p, (ss, r))) then [show now (to_entry (split p, (ss, r)))] else []).
          { unfold row, keep, show, to_entry. cbn [fst snd]. rewrite path_shown, unsplit_split, B, andb_true_r. destruct (shown_as p) as [|b t] eqn:E; cbn [is_nil negb andb]; auto. }
          rewrite R. cbn [map filter]. destruct (keep search (to_entry (split p, (ss, r)))); cbn [app map]; rewrite IH'; auto.
        - assert (R : row now search [] (q, (ss, r)) = []) by (unfold row; rewrite B, andb_false_r; destruct (fold_left join1 (fst (q, (ss, r))) []); auto).
          rewrite R. exact IH'. }
      apply H. apply busy_split.
    Qed.

    (** * The page *)
    Lemma rows_spec : forall now search, let R := row_sort (collect_filtered now search [] T) in
      ordered ble (map r_name R) /\ Permutation R (map (show now) (filter (keep search) (entries h))).
    Proof. intros now search R. split; [apply row_sort_ord|]. unfold R. rewrite collect_entries. apply row_sort_perm. Qed.

    Lemma active_spec : counts (lenN (ps_cl (prun h ps0))) (fun c => connected c h).
    Proof.
      exists (akeys (ps_cl (prun h ps0))). split; [apply K|]. split.
      - intro c. rewrite <- (aget_Some_in N.eqb N.eqb_eq). split.
        + intros [i H]. eapply all_open; eauto.
        + intro Cc. apply (I_conn _ _ _ _ _ I) in Cc. destruct Cc as [i [H _]]. exists i. exact H.
      - unfold akeys, lenN. rewrite map_length. auto.
    Qed.
    Lemma wild_gen : forall (f : bytes -> bool), let rows := flat_map (fun e : N * cinfo => flat_map (fun sub => if f sub then [(sub, fst e)] else []) (ci_subs (snd e))) (ps_cl (prun h ps0)) in
      NoDup rows /\ forall p c, In (p, c) rows <-> subscribed c p h /\ f p = true.
    Proof.
      intros f rows. pose proof (D_keys _ _ K) as N1. pose proof (D_nd _ _ K) as N2. split.
      - unfold rows. assert (N3 : forall c i, In (c, i) (ps_cl (prun h ps0)) -> NoDup (ci_subs i)) by (intros c i H; apply (N2 c); apply (In_aget N.eqb N.eqb_eq); auto).
        revert N1 N3. generalize (ps_cl (prun h ps0)). induction l as [|[c i] l IH]; intros N1 N3; cbn [flat_map]; [constructor|].
        cbn in N1. inversion N1 as [|c0 l0 N4 N5]; subst. apply NoDup_app_intro.
        + pose proof (N3 c i (or_introl eq_refl)) as Ns. cbn [fst snd]. revert Ns. generalize (ci_subs i). induction l0 as [|p l0 IH2]; intro Ns; cbn [flat_map]; [constructor|].
          inversion Ns as [|p0 l1 N6 N7]; subst. destruct (f p); cbn [app]; auto. constructor; auto. intro Hi. apply in_flat_map in Hi. destruct Hi as [q [Hq Hq2]]. destruct (f q); [|destruct Hq2]. destruct Hq2 as [E|[]]. injection E as ->. auto.
        + apply IH; auto. intros e j H. apply (N3 e). right; auto.
        + intros [p e] H1 H2. apply in_flat_map in H1. destruct H1 as [q [_ H1]]. destruct (f q); [|destruct H1]. destruct H1 as [E|[]]. injection E as _ <-.
          apply in_flat_map in H2. destruct H2 as [[e j] [H2 H3]]. apply in_flat_map in H3. destruct H3 as [q2 [_ H3]]. destruct (f q2); [|destruct H3]. destruct H3 as [E|[]]. injection E as _ ->.
          apply N4. apply in_map_iff. exists (c, j). auto.
      - intros p c. unfold rows. rewrite in_flat_map. split.
        + intros [[e i] [H1 H2]]. apply in_flat_map in H2. destruct H2 as [q [Hq H2]]. destruct (f q) eqn:Ef; [|destruct H2]. destruct H2 as [E|[]]. injection E as <- <-. cbn [fst snd] in *.
          apply (In_aget N.eqb N.eqb_eq) in H1; auto. split; auto. destruct (all_open _ _ H1) as [O _]. apply (D_subs _ _ K e i q H1 O). auto.
        + intros [H Ef]. pose proof (subscribed_connected _ _ _ H) as Cc. apply (I_conn _ _ _ _ _ I) in Cc. destruct Cc as [i [Hi O]]. exists (c, i).
          split; [apply (aget_In N.eqb N.eqb_eq); exact Hi|]. apply in_flat_map. exists p. cbn [fst snd]. split; [apply (D_subs _ _ K c i p Hi O); auto|]. rewrite Ef. left. auto.
    Qed.
  End Hist.
End Sys.
