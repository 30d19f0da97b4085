(** Property of the pub/sub page of the dashboard (C98). *)
From Verif Require Import LibBase LibMap StoreModel StoreProofs PubSubModel PubSubSpec PubSubTree PubSubProofs PubSubFacts PubSubDashModel PubSubDashSpec PubSubDashTree PubSubDashProofs.

Definition pubsub_page (ticks inst_max default_ttl : N) (h : list pop) (now : N) (limit offset : option N) (search : option bytes) : psnap :=
  get_pubsub now limit offset search (prun ticks inst_max default_ttl h ps0).
Definition cut (limit offset : option N) {A} (l : list A) : list A :=
  takeN (N.min (match limit with Some l => l | None => 50 end) 500) (dropN (match offset with Some o => o | None => 0 end) l).

Lemma hits_found : forall search p, hits search p = true <-> found search p.
Proof.
  intros search p. unfold found, hits. destruct search as [s|]; [|split; auto; discriminate]. rewrite contains_spec. split.
  - intros H s0 E. injection E as <-. auto.
  - intro H. apply H. auto.
Qed.

Lemma NoDup_keep : forall A B (f : A * B -> bool) l, NoDup (map fst l) -> NoDup (map fst (filter f l)).
Proof.
  induction l as [|e l IH]; cbn; intro N1; auto. inversion N1 as [|a b N2 N3]; subst.
  destruct (f e); cbn; auto. constructor; auto. intro Hi. apply N2. apply in_map_iff in Hi. destruct Hi as [y [<- Hy]]. apply filter_In in Hy. apply in_map. tauto.
Qed.
(** C98: any patterns and topics (no retained topic with a level "+" or "#"): [L] lists
    every pattern or topic with a subscriber or a retained message that the search
    finds, with the number of its subscribers and the message; the page shows it in the
    order of the names, each under its name without leading slashes, an expired message
    without value. *)
Theorem C98_rows_partial : forall ticks inst_max default_ttl h now search, fresh_clients h -> all_valid h -> settled h -> named_topics h ->
  exists L R, NoDup (map fst L) /\
    (forall p n v, In (p, (n, v)) L <-> counts n (fun c => subscribed c p h) /\ v = kept ticks inst_max default_ttl p h /\ (n <> 0 \/ v <> None) /\
       shown_as p <> [] /\ found search (shown_as p)) /\
    Permutation R (map (fun e => (shown_as (fst e), fst (snd e), visible now (snd (snd e)))) L) /\ ordered ble (map r_name R) /\
    forall limit offset, sn_total (pubsub_page ticks inst_max default_ttl h now limit offset search) = lenN R /\
      sn_topics (pubsub_page ticks inst_max default_ttl h now limit offset search) = cut limit offset R.
Proof.
  intros ticks im dt h now search FC AV ST NT. exists (filter (keep search) (entries ticks im dt h)), (row_sort (collect_filtered now search [] (ps_tree (prun ticks im dt h ps0)))).
  destruct (rows_spec ticks im dt h FC AV ST NT now search) as [O P].
  split; [apply NoDup_keep; apply entries_NoDup; auto|]. split; [|split; [exact P|split; [auto|]]].
  - intros p n v. rewrite filter_In, entries_iff by auto. unfold keep. rewrite andb_true_iff, hits_found. cbn [fst]. destruct (shown_as p); cbn; intuition (try discriminate; try congruence).
  - intros limit offset. unfold pubsub_page, get_pubsub, scan_topics, cut. cbn [sn_total sn_topics]. split; auto. apply page_cut.
Qed.
Print Assumptions C98_rows_partial.

(** names without a leading slash: one row per pattern or topic, under its own name *)
Theorem C98_plain_partial : forall ticks inst_max default_ttl h now search, fresh_clients h -> all_valid h -> settled h -> named_topics h -> plain_names h ->
  exists R, NoDup (map r_name R) /\ ordered ble (map r_name R) /\
    (forall p n x, In (p, n, x) R <-> found search p /\ counts n (fun c => subscribed c p h) /\
       x = visible now (kept ticks inst_max default_ttl p h) /\ (n <> 0 \/ kept ticks inst_max default_ttl p h <> None)) /\
    forall limit offset, sn_total (pubsub_page ticks inst_max default_ttl h now limit offset search) = lenN R /\
      sn_topics (pubsub_page ticks inst_max default_ttl h now limit offset search) = cut limit offset R.
Proof.
  intros ticks im dt h now search FC AV ST NT [PN1 PN2]. exists (row_sort (collect_filtered now search [] (ps_tree (prun ticks im dt h ps0)))).
  destruct (rows_spec ticks im dt h FC AV ST NT now search) as [O P].
  assert (PL : forall p n v, In (p, (n, v)) (entries ticks im dt h) -> shown_as p = p /\ p <> []).
  { intros p n v H. apply entries_iff in H; auto. destruct H as [[cs [_ [Hc <-]]] [-> H]]. assert (K : plain_name p).
    { destruct H as [H|H].
      - destruct cs as [|c cs]; [rewrite lenN_nil in H; congruence|]. apply PN2. apply (subscribed_pattern c). apply Hc. left; auto.
      - destruct (kept_pub _ _ _ _ _ H) as (d & ttl & t & Hi). eapply PN1; eauto. }
    destruct K as [K1 K2]. split; auto. apply shown_iff; auto. }
  split; [|split; [auto|split]].
  - apply (Permutation_NoDup (Permutation_map r_name (Permutation_sym P))). rewrite map_map. cbn.
    pose proof (NoDup_keep _ _ (fun e => keep search e) _ (entries_NoDup ticks im dt h FC AV ST NT)) as N1.
    erewrite map_ext_in; [exact N1|]. intros [p [n v]] H. apply filter_In in H. destruct H as [H _]. destruct (PL _ _ _ H) as [E _]. exact E.
  - intros p n x. split.
    + intro H. apply (Permutation_in _ P) in H. apply in_map_iff in H. destruct H as [[p' [n' v]] [E H]]. apply filter_In in H. destruct H as [H K]. apply andb_true_iff in K. destruct K as [K1 K2].
      destruct (PL _ _ _ H) as [E1 _]. unfold show in E. cbn [fst snd] in *. rewrite E1 in *. injection E as -> -> <-. apply hits_found in K2. apply entries_iff in H; auto. destruct H as [H1 [-> H2]]. auto.
    + intros (F & C & -> & B). assert (H : In (p, (n, kept ticks im dt p h)) (entries ticks im dt h)) by (apply entries_iff; auto). destruct (PL _ _ _ H) as [E N1].
      apply (Permutation_in _ (Permutation_sym P)). apply in_map_iff. exists (p, (n, kept ticks im dt p h)). unfold show. cbn [fst snd]. rewrite E. split; auto. apply filter_In. split; auto.
      apply andb_true_iff. cbn [fst]. rewrite E. split; [destruct p; auto; congruence|]. apply hits_found; auto.
  - intros limit offset. unfold pubsub_page, get_pubsub, scan_topics, cut. cbn [sn_total sn_topics]. split; auto. apply page_cut.
Qed.
Print Assumptions C98_plain_partial.

(** clients and wildcard subscriptions *)
Theorem C98_clients : forall ticks inst_max default_ttl h now limit offset search, fresh_clients h -> settled h ->
  let sn := pubsub_page ticks inst_max default_ttl h now limit offset search in
  counts (sn_active sn) (fun c => connected c h) /\ NoDup (sn_multi sn) /\ NoDup (sn_single sn) /\
  (forall p c, In (p, c) (sn_multi sn) <-> subscribed c p h /\ In 35 p /\ found search p) /\
  (forall p c, In (p, c) (sn_single sn) <-> subscribed c p h /\ In 43 p /\ ~ In 35 p /\ found search p).
Proof.
  intros ticks im dt h now limit offset search FC ST sn. split; [apply active_spec; auto|].
  destruct (wild_gen ticks im dt h FC ST (fun sub => existsb (N.eqb hashc) sub && hits search sub)) as [N1 H1].
  destruct (wild_gen ticks im dt h FC ST (fun sub => negb (existsb (N.eqb hashc) sub) && existsb (N.eqb plusc) sub && hits search sub)) as [N2 H2].
  assert (X : forall k (l : bytes), existsb (N.eqb k) l = true <-> In k l).
  { intros k l. rewrite existsb_exists. split; [intros [y [Hy E]]; apply N.eqb_eq in E; subst; auto|]. intro Hy. exists k. split; auto. apply N.eqb_refl. }
  assert (X0 : forall k (l : bytes), negb (existsb (N.eqb k) l) = true <-> ~ In k l).
  { intros k l. rewrite negb_true_iff, <- X. destruct (existsb (N.eqb k) l); intuition congruence. }
  split; [exact N1|]. split; [exact N2|]. split.
  - intros p c. unfold sn, pubsub_page, get_pubsub, scan_topics. cbn [sn_multi]. unfold multi_rows. rewrite H1, andb_true_iff, X, hits_found. reflexivity.
  - intros p c. unfold sn, pubsub_page, get_pubsub, scan_topics. cbn [sn_single]. unfold single_rows. rewrite H2, !andb_true_iff, X, X0, hits_found. unfold hashc, plusc. tauto.
Qed.
Print Assumptions C98_clients.

(** Non-vacuity: clients 1 and 2, subscriptions "a/+", "b", "a/#", a retained "b" that has
    expired and a retained "c". *)
Definition dh : list pop :=
  [PConnect 1; PConnect 2; PConnect 3; PSub 1 [97; 47; 43] 0; PSub 2 [98] 0; PSub 1 [98] 0; PSub 3 [98] 0; PClose 3; PSub 2 [97; 47; 35] 0; PDisconnect 3;
   PPub [98] [7] true (Some 1) 1000; PPub [99] [8] true (Some 9) 1000; PUnsub 1 [120]].
Ltac nodup := unfold fresh_clients; vm_compute; repeat (apply NoDup_cons; [simpl; intuition discriminate|]); apply NoDup_nil.
Lemma valid_dec : forall p, (fix ok (l : list level) : bool := match l with [] => true | x :: r => if beqb x lhash then (match r with [] => true | _ => false end) else ok r end) (split p) = true -> valid_pattern p.
Proof.
  intros p. unfold valid_pattern. generalize (split p). induction l as [|x l IH]; intros H a b E; [destruct a; discriminate|]. destruct a as [|y a]; cbn in E; injection E as -> E.
  - subst l. cbn in H. destruct b; auto. discriminate.
  - destruct (beqb y lhash) eqn:Eb; [destruct l; [|discriminate]; destruct a; discriminate|]. eapply IH; eauto.
Qed.
Fixpoint settledb (h : list pop) : bool :=
  match h with
  | [] => true
  | PClose c :: h' => existsb (fun o => match o with PDisconnect c' => c =? c' | _ => false end) h' && settledb h'
  | _ :: h' => settledb h'
  end.
Lemma settled_dec : forall h, settledb h = true -> settled h.
Proof.
  induction h as [|o h IH]; intros H c h1 h2 E; [destruct h1; discriminate|]. destruct h1 as [|o' h1]; cbn in E.
  - injection E as -> ->. cbn in H. apply andb_true_iff in H. destruct H as [H _]. apply existsb_exists in H. destruct H as [o [H1 H2]]. destruct o; try discriminate. apply N.eqb_eq in H2. subst. auto.
  - injection E as <- E. apply (IH) with (h1 := h1); auto. destruct o; cbn in H; auto. apply andb_true_iff in H. tauto.
Qed.
Example C98_example : fresh_clients dh /\ all_valid dh /\ settled dh /\ named_topics dh /\ plain_names dh /\
  pubsub_page 1000 1000000000 3600 dh 3000 None None None =
    mkSnap 2 4 [([97; 47; 35], 1, None); ([97; 47; 43], 1, None); ([98], 2, None); ([99], 0, Some [8])] [([97; 47; 35], 2)] [([97; 47; 43], 1)] /\
  sn_topics (pubsub_page 1000 1000000000 3600 dh 1500 (Some 1) (Some 1) (Some [98])) = [] /\
  sn_topics (pubsub_page 1000 1000000000 3600 dh 1500 (Some 2) (Some 1) None) = [([97; 47; 43], 1, None); ([98], 2, Some [7])].
Proof.
  split; [nodup|]. split; [|split; [apply settled_dec; reflexivity|split; [|split; [|vm_compute; auto]]]].
  - intros p H. apply valid_dec. cbn in H. repeat (destruct H as [<-|H]; [reflexivity|]). destruct H.
  - intros t d ttl now H. cbn in H. repeat (destruct H as [H|H]; [try discriminate; injection H as <- <- <- <-; vm_compute; intuition discriminate|]). destruct H.
  - split.
    + intros t d ttl now H. cbn in H. repeat (destruct H as [H|H]; [try discriminate; injection H as <- <- <- <-; split; discriminate|]). destruct H.
    + intros p H. cbn in H. repeat (destruct H as [<-|H]; [split; discriminate|]). destruct H.
Qed.

(** the topics "a" and "/a" are shown as two rows called "a" *)
Theorem C98_same_name_refuted : exists h, fresh_clients h /\ all_valid h /\ settled h /\ named_topics h /\
  sn_topics (pubsub_page 1000 1000000000 3600 h 1000 None None None) = [([97], 0, Some [1]); ([97], 0, Some [2])].
Proof.
  exists [PPub [97] [1] true None 0; PPub [47; 97] [2] true None 0]. split; [nodup|]. split; [intros p []|]. split; [apply settled_dec; reflexivity|]. split; [|vm_compute; reflexivity].
  intros t d ttl now H. cbn in H. repeat (destruct H as [H|H]; [try discriminate; injection H as <- <- <- <-; vm_compute; intuition discriminate|]). destruct H.
Qed.
Print Assumptions C98_same_name_refuted.
(** a subscription to "/" is not shown at all *)
Theorem C98_hidden_refuted : exists h c p, fresh_clients h /\ all_valid h /\ settled h /\ subscribed c p h /\
  sn_total (pubsub_page 1000 1000000000 3600 h 1000 None None None) = 0.
Proof.
  exists [PConnect 1; PSub 1 [47] 0], 1, [47]. split; [nodup|]. split; [intros p [<-|[]]; apply valid_dec; reflexivity|]. split; [apply settled_dec; reflexivity|]. split; [|vm_compute; reflexivity].
  exists [PConnect 1], 0, []. split; [reflexivity|]. split; [exists [], []|]; cbn; intuition discriminate.
Qed.
Print Assumptions C98_hidden_refuted.
(** a retained message for a topic called "+" makes a second row "+" beside the one of
    the subscription *)
Theorem C98_wild_topic_refuted : exists h, fresh_clients h /\ all_valid h /\ settled h /\ plain_names h /\
  sn_topics (pubsub_page 1000 1000000000 3600 h 1000 None None None) = [([43], 0, Some [1]); ([43], 1, None)].
Proof.
  exists [PConnect 1; PSub 1 [43] 0; PPub [43] [1] true None 0]. split; [nodup|]. split; [intros p [<-|[]]; apply valid_dec; reflexivity|]. split; [apply settled_dec; reflexivity|]. split; [|vm_compute; reflexivity].
  split; [intros t d ttl now H; cbn in H; repeat (destruct H as [H|H]; [try discriminate; injection H as <- <- <- <-; split; discriminate|]); destruct H|intros p [<-|[]]; split; discriminate].
Qed.
Print Assumptions C98_wild_topic_refuted.
(** the literal topic "C#" is listed as a multi-level wildcard *)
Theorem C98_literal_refuted : exists h c p, fresh_clients h /\ settled h /\ subscribed c p h /\ ~ In lhash (split p) /\
  sn_multi (pubsub_page 1000 1000000000 3600 h 1000 None None None) = [(p, c)].
Proof.
  exists [PConnect 1; PSub 1 [67; 35] 0], 1, [67; 35]. split; [nodup|]. split; [apply settled_dec; reflexivity|]. split; [|split; [vm_compute; intuition discriminate|vm_compute; reflexivity]].
  exists [PConnect 1], 0, []. split; [reflexivity|]. split; [exists [], []|]; cbn; intuition discriminate.
Qed.
Print Assumptions C98_literal_refuted.
