(** Facts about consumer groups over whole histories. *)
From Verif Require Import LibBase LibMap StreamTopicModel StreamGroupModel StreamGroupSpec StreamGroupProofs StreamGroupSteps StreamGroupFetch StreamGroupHist.

Section G.
  Variable cfg : gcfg.
  Hypothesis MD : 1 <= max_del cfg.

  Lemma out_false st h g op o s : hist cfg st ((op, o) :: h) g ->
    (forall n, status_of cfg st h s <> Waiting n) -> status_of cfg st h s <> Fresh -> delivers_msg (op, o) s = false.
  Proof.
    intros H W F. unfold delivers_msg; simpl. destruct o as [|e|ms]; auto.
    destruct (in_out s ms) eqn:E; auto. apply in_out_In in E.
    destruct (out_status cfg MD st h g op ms H) as (_ & O). destruct (O s E) as ([A|(n & A & _)] & _); [contradiction|].
    exfalso; eapply W; eauto.
  Qed.
  Lemma given_none s c now ms x : in_out s ms = false -> given s c now ms x = x.
  Proof. unfold given. intros ->. reflexivity. Qed.

  Lemma held_step st h g e s c t n : hist cfg st (e :: h) g -> status_of cfg st h s = Held c t n ->
    takes_back cfg e c t = false ->
    delivers_msg e s = false /\ (status_of cfg st (e :: h) s = Held c t n \/ status_of cfg st (e :: h) s = Done).
  Proof.
    intros H HS TB. destruct e as [op o].
    assert (DM : delivers_msg (op, o) s = false) by (apply (out_false st h g); auto; intros; rewrite HS; discriminate).
    split; auto. unfold delivers_msg in DM; simpl in DM. unfold takes_back in TB; simpl in TB.
    assert (BE : forall head, below head s (Held c t n) = Held c t n \/ below head s (Held c t n) = Done).
    { intro head. unfold below. destruct (s <? head); auto. }
    simpl. rewrite HS.
    destruct op as [c' conn|ord c'|c' gen limit now log ram head|c' gen now ms' head|c' gen s'|ord now|head|last|head|b]; auto.
    - rewrite N.eqb_sym, TB. auto.
    - destruct o; auto. rewrite given_none by auto. apply BE.
    - destruct o; auto. rewrite given_none by auto. apply BE.
    - destruct o; auto. destruct (s =? s'); auto.
    - rewrite TB. auto.
    - discriminate.
    - discriminate.
  Qed.
  Lemma done_step st h g e s : hist cfg st (e :: h) g -> (status_of cfg st h s = Done \/ status_of cfg st h s = Parked) ->
    is_seek (fst e) = false ->
    delivers_msg e s = false /\ (status_of cfg st (e :: h) s = status_of cfg st h s \/ status_of cfg st (e :: h) s = Done).
  Proof.
    intros H HS NS. destruct e as [op o].
    assert (DM : delivers_msg (op, o) s = false) by (apply (out_false st h g); auto; intros; destruct HS as [-> | ->]; discriminate).
    split; auto. unfold delivers_msg in DM; simpl in DM. simpl in NS.
    assert (BE : forall head, below head s (status_of cfg st h s) = status_of cfg st h s \/ below head s (status_of cfg st h s) = Done).
    { intro head. unfold below. destruct (s <? head); auto. }
    simpl.
    destruct op as [c' conn|ord c'|c' gen limit now log ram head|c' gen now ms' head|c' gen s'|ord now|head|last|head|b]; auto.
    - destruct HS as [-> | ->]; auto.
    - destruct o; auto. rewrite given_none by auto. apply BE.
    - destruct o; auto. rewrite given_none by auto. apply BE.
    - destruct o; auto. destruct (s =? s'); auto.
    - destruct HS as [-> | ->]; auto.
    - discriminate.
    - discriminate.
  Qed.

  Lemma hist_suffix st : forall h2 h1 g, hist cfg st (h2 ++ h1) g -> exists g1, hist cfg st h1 g1.
  Proof.
    induction h2 as [|e h2 IH]; intros h1 g H; [eauto|]. simpl in H. apply hist_tail in H. destruct H as (g0 & H & _). eapply IH; eauto.
  Qed.

  Lemma takes_back_seek e c t : takes_back cfg e c t = false -> is_seek (fst e) = false.
  Proof. unfold takes_back. destruct (fst e); simpl; auto. Qed.

  Lemma delivered_status st h g op o s c t : hist cfg st ((op, o) :: h) g -> delivers_to (op, o) s c t ->
    exists n, status_of cfg st ((op, o) :: h) s = Held c t n.
  Proof.
    intros H (ms & A & B & C). simpl in A, C. apply in_out_In in B.
    destruct C as [(gen & lim & log & ram & head & E)|(gen & ms' & head & E)]; subst; simpl; unfold given; rewrite B; eauto.
  Qed.

  (** C52 *)
  Theorem one_owner st h2 e h1 g s c t :
    hist cfg st (h2 ++ e :: h1) g -> delivers_to e s c t -> Forall (fun e' => takes_back cfg e' c t = false) h2 ->
    Forall (fun e' => delivers_msg e' s = false) h2.
  Proof.
    intros H D F.
    assert (HH : Forall (fun e' => delivers_msg e' s = false) h2 /\
      ((exists n, status_of cfg st (h2 ++ e :: h1) s = Held c t n) \/ status_of cfg st (h2 ++ e :: h1) s = Done)); [|tauto].
    revert g H F. induction h2 as [|e2 h2 IH]; intros g H F.
    - split; [constructor|]. left. simpl. destruct e as [op o]. eapply delivered_status; eauto.
    - inversion F as [|? ? F1 F2]; subst. simpl in H. pose proof (hist_tail _ _ _ _ _ H) as (g0 & H0 & _).
      destruct (IH g0 H0 F2) as (A & B). simpl app. destruct B as [(n & B)|B].
      + destruct (held_step st _ g e2 s c t n H B F1) as (X & Y). split; [constructor; auto|].
        destruct Y as [Y|Y]; [left; eauto|right; auto].
      + destruct (done_step st _ g e2 s H (or_introl B) (takes_back_seek _ _ _ F1)) as (X & Y). split; [constructor; auto|].
        right. rewrite B in Y. destruct Y; auto.
  Qed.

  (** C53 *)
  Theorem pending_bound st h g l : hist cfg st h g -> NoDup l ->
    (forall s, In s l -> exists c t n, status_of cfg st h s = Held c t n) -> lenN l <= max_pend cfg.
  Proof.
    intros H ND HL. destruct (hist_agrees cfg MD _ _ _ H) as [I S _ _].
    assert (IN : incl l (akeys (g_pend g))).
    { intros s Hs. destruct (HL s Hs) as (c & t & n & E). rewrite S in E. unfold abs in E.
      destruct (pget s (g_pend g)) as [p|] eqn:EP; [eapply aget_in_keys; eauto|].
      destruct (nmem s (g_red g)); [discriminate|]. destruct (nmem s (g_park g)); [discriminate|]. destruct (s <? g_next g); discriminate. }
    pose proof (NoDup_incl_length ND IN) as L. unfold akeys in L. rewrite map_length in L.
    pose proof (i_len _ _ (proj1 I)). unfold lenN in *. lia.
  Qed.

  Theorem answer_bound st h g op ms : hist cfg st ((op, OMsgs ms) :: h) g ->
    match op with GFetch _ _ limit _ _ _ _ => lenN ms <= limit | GCold _ _ _ ms' _ => lenN ms <= lenN ms' | _ => True end.
  Proof.
    intro H. pose proof (out_status cfg MD _ _ _ _ _ H) as (ND & _). apply hist_tail in H. destruct H as (g0 & H & OK & X). simpl in OK, X.
    destruct (hist_agrees cfg MD _ _ _ H) as [I S _ _].
    destruct op as [c conn|ord c|c gen limit now log ram head|c gen now ms' head|c gen s|ord now|head|last|head|b]; auto; simpl in X.
    - destruct (ensure_active c gen g0) as [e|] eqn:EA.
      + rewrite (fetch_err cfg _ _ _ _ _ _ _ _ _ EA) in X. inversion X.
      + destruct (fetch_exact cfg MD c gen limit now log ram head g0 I OK EA) as (g2 & X2 & _).
        rewrite X2 in X. inversion X; subst; clear X. rewrite lenN_app, !lenN_takeN. lia.
    - destruct (ensure_active c gen g0) as [e|] eqn:EA.
      + rewrite (cold_err cfg _ _ _ _ _ _ _ EA) in X. inversion X.
      + destruct (cold_ok cfg MD c gen now ms' head g0 I EA) as (g2 & out & X2 & _ & _ & _ & C & _).
        rewrite X2 in X. inversion X; subst; clear X.
        assert (incl ms ms') as IN by (intros m Hm; apply C; auto).
        apply NoDup_map_inv in ND. pose proof (NoDup_incl_length ND IN). unfold lenN; lia.
  Qed.

  (** C54 *)
  Theorem handed_count st h g s : hist cfg st h g ->
    match status_of cfg st h s with
    | Fresh => handed h s = 0
    | Held _ _ n => handed h s = n /\ n <= max_del cfg
    | Waiting n => handed h s = n /\ n < max_del cfg
    | Parked => handed h s = max_del cfg
    | Done => handed h s <= max_del cfg
    end.
  Proof.
    revert g. induction h as [|[op o] h IH]; intros g H.
    - simpl. destruct (s <? st); lia.
    - pose proof (hist_tail _ _ _ _ _ H) as (g0 & H0 & _). specialize (IH g0 H0).
      assert (REL : forall n, n <= max_del cfg -> handed h s = n -> match released cfg n with
          | Fresh => handed h s = 0 | Held _ _ n => handed h s = n /\ n <= max_del cfg | Waiting n => handed h s = n /\ n < max_del cfg
          | Parked => handed h s = max_del cfg | Done => handed h s <= max_del cfg end).
      { intros n L E. unfold released. destruct (N.leb_spec (max_del cfg) n); lia. }
      simpl handed. unfold delivers_msg; simpl snd; simpl fst.
      assert (OUT : forall ms, o = OMsgs ms -> in_out s ms = true -> status_of cfg st h s = Fresh \/ exists n, status_of cfg st h s = Waiting n /\ n < max_del cfg).
      { intros ms E B. subst o. apply in_out_In in B. apply (out_status cfg MD _ _ _ _ _ H) in B. tauto. }
      simpl status_of. 
      destruct op as [c conn|ord c|c gen limit now log ram head|c gen now ms' head|c gen s'|ord now|head|last|head|b]; simpl is_seek; cbv iota.
      + pose proof (hist_tail _ _ _ _ _ H) as (g1 & _ & _ & X). simpl in X. inversion X; subst. exact IH.
      + pose proof (hist_tail _ _ _ _ _ H) as (g1 & _ & _ & X). simpl in X. inversion X; subst. simpl.
        destruct (status_of cfg st h s); auto. destruct (c0 =? c); auto. apply REL; lia.
      + destruct o as [|e|ms]; try exact IH. unfold given.
        assert (NB : in_out s ms = true -> s <? head = false).
        { intro B. apply in_out_In in B. destruct (N.ltb_spec s head) as [L|L]; auto. exfalso.
          pose proof (hist_tail _ _ _ _ _ H) as (g1 & H1 & OK & X). simpl in OK, X.
          destruct (hist_agrees cfg MD _ _ _ H) as [I2 S2 _ _]. destruct (hist_agrees cfg MD _ _ _ H1) as [I1 _ _ _].
          destruct (ensure_active c gen g1) as [e|] eqn:EA.
          - rewrite (fetch_err cfg _ _ _ _ _ _ _ _ _ EA) in X. inversion X.
          - destruct (fetch_exact cfg MD c gen limit now log ram head g1 I1 OK EA) as (g2 & X2 & _).
            rewrite X2 in X. inversion X; subst; clear X.
            destruct (clamp_head_low cfg MD head g1 (proj1 I1)) as (P1 & P2).
            unfold seqs in B. rewrite map_app, in_app_iff in B. destruct B as [B|B].
            + change (map m_seq) with seqs in B. rewrite red_part_seqs in B by auto.
              assert (In s (g_red (fst (clamp_head head g1)))) as B2.
              { match type of B with In _ (takeN ?n ?l) => rewrite <- (takeN_dropN _ n l) end. apply in_app_iff; left; exact B. }
              apply P2 in B2. lia.
            + apply (log_ok_ge _ (g_next (fst (clamp_head head g1)))) in B; [lia|]. apply log_ok_takeN, new_part_ok; auto. }
        destruct (in_out s ms) eqn:E.
        * unfold below. rewrite NB by auto. destruct (OUT ms eq_refl E) as [Q|(n & Q & L)]; rewrite Q in *; simpl; lia.
        * unfold below. destruct (s <? head).
          -- destruct (status_of cfg st h s); lia.
          -- destruct (status_of cfg st h s); auto.
      + destruct o as [|e|ms]; try exact IH. unfold given.
        assert (NB : in_out s ms = true -> s <? head = false).
        { intro B. apply in_out_In in B. destruct (N.ltb_spec s head) as [L|L]; auto. exfalso.
          pose proof (hist_tail _ _ _ _ _ H) as (g1 & H1 & OK & X). simpl in OK, X.
          destruct (hist_agrees cfg MD _ _ _ H1) as [I1 _ _ _].
          destruct (ensure_active c gen g1) as [e|] eqn:EA.
          - rewrite (cold_err cfg _ _ _ _ _ _ _ EA) in X. inversion X.
          - destruct (cold_ok cfg MD c gen now ms' head g1 I1 EA) as (g2 & out & X2 & _ & _ & _ & C & _).
            rewrite X2 in X. inversion X; subst; clear X.
            destruct (clamp_head_low cfg MD head g1 (proj1 I1)) as (P1 & P2).
            apply in_map_iff in B. destruct B as (m & <- & Hm). destruct (C _ Hm) as (_ & [C1|C1]); [apply P2 in C1; lia|lia]. }
        destruct (in_out s ms) eqn:E.
        * unfold below. rewrite NB by auto. destruct (OUT ms eq_refl E) as [Q|(n & Q & L)]; rewrite Q in *; simpl; lia.
        * unfold below. destruct (s <? head).
          -- destruct (status_of cfg st h s); lia.
          -- destruct (status_of cfg st h s); auto.
      + pose proof (hist_tail _ _ _ _ _ H) as (g1 & _ & _ & X). simpl in X. destruct (ack c gen s' g1) as [g2 [e|]]; inversion X; subst; [exact IH|].
        rewrite N.add_0_l. destruct (s =? s'); [|exact IH]. destruct (status_of cfg st h s); lia.
      + pose proof (hist_tail _ _ _ _ _ H) as (g1 & _ & _ & X). simpl in X. inversion X; subst. simpl.
        destruct (status_of cfg st h s); auto. destruct (ack_wait cfg <? now - at_); auto. apply REL; lia.
      + destruct (s <? N.max head 1); lia.
      + destruct (s <=? last); lia.
      + pose proof (hist_tail _ _ _ _ _ H) as (g1 & _ & _ & X). simpl in X. inversion X; subst. rewrite N.add_0_l.
        unfold below. destruct (s <? head); [|exact IH]. destruct (status_of cfg st h s); lia.
      + pose proof (hist_tail _ _ _ _ _ H) as (g1 & _ & _ & X). simpl in X. inversion X; subst. exact IH.
  Qed.
  Theorem handed_max st h g s : hist cfg st h g -> handed h s <= max_del cfg.
  Proof. intro H. pose proof (handed_count st h g s H) as C. destruct (status_of cfg st h s); lia. Qed.

  (** a parked message is not delivered until a seek *)
  Theorem parked_final st h2 h1 g s : hist cfg st (h2 ++ h1) g -> status_of cfg st h1 s = Parked ->
    Forall (fun e => is_seek (fst e) = false) h2 -> Forall (fun e => delivers_msg e s = false) h2.
  Proof.
    intros H P F.
    assert (HH : Forall (fun e => delivers_msg e s = false) h2 /\ (status_of cfg st (h2 ++ h1) s = Done \/ status_of cfg st (h2 ++ h1) s = Parked)); [|tauto].
    revert g H F. induction h2 as [|e2 h2 IH]; intros g H F; [split; [constructor|auto]|].
    inversion F as [|? ? F1 F2]; subst. simpl in H. pose proof (hist_tail _ _ _ _ _ H) as (g0 & H0 & _).
    destruct (IH g0 H0 F2) as (A & B). destruct (done_step st _ g e2 s H B F1) as (X & Y). split; [constructor; auto|].
    simpl app. destruct Y as [-> | ->]; auto.
  Qed.

  (** C55 *)
  Theorem floor_settled st h g s : hist cfg st h g -> s <= g_floor g -> status_of cfg st h s = Done \/ status_of cfg st h s = Parked.
  Proof.
    intros H L. destruct (hist_agrees cfg MD _ _ _ H) as [I S _ _]. rewrite S. unfold abs. pose proof (i_fl _ _ (proj1 I)).
    destruct (pget s (g_pend g)) eqn:E; [apply (i_prange _ _ (proj1 I)) in E; lia|].
    destruct (nmem s (g_red g)) eqn:E1; [apply nmem_In, (i_rrange _ _ (proj1 I)) in E1; lia|].
    destruct (nmem s (g_park g)); auto. destruct (N.ltb_spec s (g_next g)); [auto|lia].
  Qed.
  Theorem floor_maximal st h g : hist cfg st h g ->
    let x := status_of cfg st h (g_floor g + 1) in x = Fresh \/ (exists c t n, x = Held c t n) \/ (exists n, x = Waiting n).
  Proof.
    intros H. cbv zeta. destruct (hist_agrees cfg MD _ _ _ H) as [I S _ _]. rewrite S.
    destruct (proj2 I) as [M|[M|M]].
    - left. apply (abs_fresh cfg MD); [apply I|lia].
    - right; left. unfold abs. destruct (pget (g_floor g + 1) (g_pend g)); [eauto|congruence].
    - right; right. destruct (abs_waiting cfg g _ (proj1 I) M) as (n & E & _). eauto.
  Qed.
  Lemma clamp_floor head g : inv cfg g -> g_floor g <= g_floor (fst (clamp_head head g)).
  Proof.
    intros I. pose proof (clamped_inv0 cfg (N.max head 1) g ltac:(lia) (proj1 I)) as I1.
    assert (A : g_floor g <= g_floor (clamped (N.max head 1) g)).
    { simpl. destruct (N.ltb_spec (g_floor g) (N.max head 1 - 1)); lia. }
    destruct (clamp_head_eq head g) as [E|(E & _)]; rewrite E; auto.
    pose proof (advance_inv cfg _ (inv0_cold cfg false _ I1)) as (_ & B). simpl in *. lia.
  Qed.
  Theorem floor_monotone st h g op g' o : hist cfg st h g -> gop_ok op -> gstep cfg g op = (g', o) -> is_seek op = false ->
    g_floor g <= g_floor g'.
  Proof.
    intros H OK X NS. destruct (hist_agrees cfg MD _ _ _ H) as [I S _ _].
    destruct op as [c conn|ord c|c gen limit now log ram head|c gen now ms' head|c gen s|ord now|head|last|head|b]; simpl in X; try discriminate.
    - inversion X; subst; simpl; lia.
    - inversion X; subst. apply (leave_ok cfg ord c g I).
    - destruct (ensure_active c gen g) as [e|] eqn:EA.
      + rewrite (fetch_err cfg _ _ _ _ _ _ _ _ _ EA) in X. inversion X; subst; lia.
      + destruct (fetch_exact cfg MD c gen limit now log ram head g I OK EA) as (g2 & X2 & _ & _ & _ & _ & _ & _ & _ & F & _).
        rewrite X2 in X. inversion X; subst. rewrite F. apply clamp_floor; auto.
    - destruct (ensure_active c gen g) as [e|] eqn:EA.
      + rewrite (cold_err cfg _ _ _ _ _ _ _ EA) in X. inversion X; subst; lia.
      + destruct (cold_ok cfg MD c gen now ms' head g I EA) as (g2 & out & X2 & _ & _ & _ & _ & _ & _ & F).
        rewrite X2 in X. inversion X; subst. rewrite F. apply clamp_floor; auto.
    - destruct (ack_ok cfg c gen s g I) as (_ & _ & _ & _ & _ & _ & F). destruct (ack c gen s g) as [g2 [e|]]; inversion X; subst; exact F.
    - inversion X; subst. apply (tick_ok cfg ord now g I).
    - inversion X; subst. apply clamp_floor; auto.
    - inversion X; subst; simpl; lia.
  Qed.

  (** Done only for a reason *)
  Theorem done_reason st h g s : hist cfg st h g -> status_of cfg st h s = Done ->
    settled_by h s = true \/ (sought h = false /\ s < st).
  Proof.
    revert g. induction h as [|[op o] h IH]; intros g H D.
    - simpl in *. destruct (N.ltb_spec s st); [right; auto|discriminate].
    - pose proof (hist_tail _ _ _ _ _ H) as (g0 & H0 & _ & X). simpl in X.
      assert (IH' : status_of cfg st h s = Done -> settled_by h s = true \/ (sought h = false /\ s < st)) by (intro Q; apply (IH g0 H0 Q)).
      simpl settled_by. simpl sought.
      assert (REL : forall n, released cfg n <> Done) by (intro n; unfold released; destruct (max_del cfg <=? n); discriminate).
      simpl in D. destruct op as [c conn|ord c|c gen limit now log ram head|c gen now ms' head|c gen s'|ord now|head|last|head|b]; simpl is_seek; simpl negb; rewrite ?orb_false_l.
      + auto.
      + simpl. destruct (status_of cfg st h s); auto; try discriminate. destruct (c0 =? c); [exfalso; eapply REL; eauto|auto].
      + destruct o as [|e|ms]; simpl; auto. unfold given in D. destruct (in_out s ms); [discriminate|]. unfold below in D.
        destruct (s <? head); simpl; auto.
      + destruct o as [|e|ms]; simpl; auto. unfold given in D. destruct (in_out s ms); [discriminate|]. unfold below in D.
        destruct (s <? head); simpl; auto.
      + destruct o as [|e|ms]; simpl; auto. destruct (s =? s'); simpl; auto.
      + simpl. destruct (status_of cfg st h s); auto; try discriminate. destruct (ack_wait cfg <? now - at_); [exfalso; eapply REL; eauto|auto].
      + simpl. destruct (s <? N.max head 1); [auto|discriminate].
      + simpl. destruct (s <=? last); [auto|discriminate].
      + simpl. unfold below in D. destruct (s <? head); simpl; auto.
      + auto.
  Qed.

  (** C56 *)
  Theorem never_lost st h g s : hist cfg st h g -> (sought h = true \/ st <= s) -> settled_by h s = false -> handed h s < max_del cfg ->
    status_of cfg st h s = Fresh \/ (exists c t n, status_of cfg st h s = Held c t n) \/ (exists n, status_of cfg st h s = Waiting n).
  Proof.
    intros H Hs Hn Hd. pose proof (handed_count st h g s H) as C. destruct (status_of cfg st h s) eqn:E; eauto 6.
    - lia.
    - destruct (done_reason st h g s H E) as [D|(D & L)]; [congruence|]. destruct Hs; [congruence|lia].
  Qed.
  Theorem where_it_is st h g s : hist cfg st h g ->
    match status_of cfg st h s with
    | Fresh => g_next g <= s /\ pget s (g_pend g) = None /\ ~ In s (g_red g) /\ ~ In s (g_park g)
    | Held c t n => pget s (g_pend g) = Some (mkP c t n) /\ s < g_next g /\ ~ In s (g_red g) /\ ~ In s (g_park g)
    | Waiting n => In s (g_red g) /\ s < g_next g /\ pget s (g_pend g) = None /\ ~ In s (g_park g)
    | Parked => In s (g_park g) /\ s < g_next g /\ pget s (g_pend g) = None /\ ~ In s (g_red g)
    | Done => s < g_next g /\ pget s (g_pend g) = None /\ ~ In s (g_red g) /\ ~ In s (g_park g)
    end.
  Proof.
    intro H. destruct (hist_agrees cfg MD _ _ _ H) as [I S _ _]. rewrite S. destruct I as (I & _).
    unfold abs. destruct (pget s (g_pend g)) as [p|] eqn:EP.
    - destruct (i_prange _ _ I _ _ EP). split; [destruct p; reflexivity|]. split; auto. split; intro Hi.
      + apply (i_dis _ _ I) in Hi. congruence.
      + apply (i_park _ _ I) in Hi. destruct Hi as (_ & Hi & _). congruence.
    - destruct (nmem s (g_red g)) eqn:ER.
      + apply nmem_In in ER. split; auto. destruct (i_rrange _ _ I _ ER). split; auto. split; auto.
        intro Hi. apply (i_park _ _ I) in Hi. tauto.
      + apply nmem_false in ER. destruct (nmem s (g_park g)) eqn:EK.
        * apply nmem_In in EK. destruct (i_park _ _ I _ EK). split; auto. split; [lia|auto].
        * apply nmem_false in EK. destruct (N.ltb_spec s (g_next g)); auto.
  Qed.

  (** C57 *)
  Theorem ack_iff st h g c gen s : hist cfg st h g ->
    (snd (gstep cfg g (GAck c gen s)) = OUnit <-> gen = gen_of h /\ member_of h c = true /\ exists t n, status_of cfg st h s = Held c t n)
    /\ (snd (gstep cfg g (GAck c gen s)) <> OUnit -> fst (gstep cfg g (GAck c gen s)) = g).
  Proof.
    intro H. destruct (hist_agrees cfg MD _ _ _ H) as [I S G M]. rewrite M, S, <- G. simpl. unfold ack.
    destruct (ensure_active c gen g) as [e|] eqn:EA.
    - simpl. split; auto. split; [discriminate|]. intros (A & B & _). exfalso.
      assert (ensure_active c gen g = None) by (apply ensure_None; split; auto; apply isSome_neq; auto). congruence.
    - apply ensure_None in EA. destruct EA as (EA & EM). unfold abs. destruct (pget s (g_pend g)) as [p|] eqn:EP.
      + destruct (N.eqb_spec (p_cons p) c) as [E|E]; simpl.
        * split; [|congruence]. split; auto. intros _. split; auto. split; [apply isSome_neq; auto|]. subst. eauto.
        * split; auto. split; [discriminate|]. intros (_ & _ & t & n & X). inversion X; congruence.
      + simpl. split; auto. split; [discriminate|]. intros (_ & _ & t & n & X).
        destruct (nmem s (g_red g)); [discriminate|]. destruct (nmem s (g_park g)); [discriminate|]. destruct (s <? g_next g); discriminate.
  Qed.

  (** C58, C59: what a release does to the queues *)
  Lemma release_one_lists g s p : ~ In s (g_red g) ->
    g_red (release_one cfg g (s, p)) = g_red g ++ (if p_cnt p <? max_del cfg then [s] else []) /\
    (forall x, In x (g_park (release_one cfg g (s, p))) <-> In x (g_park g) \/ (x = s /\ max_del cfg <= p_cnt p)).
  Proof.
    intro NR. apply nmem_false in NR. unfold release_one, release_seq. simpl fst; simpl snd.
    destruct (N.leb_spec (max_del cfg) (p_cnt p)) as [L|L]; destruct (N.ltb_spec (p_cnt p) (max_del cfg)); try lia; simpl.
    - split; [rewrite app_nil_r; reflexivity|]. intro x. rewrite nins_In. intuition.
    - rewrite NR. simpl. split; auto. intro x. intuition lia.
  Qed.
  Lemma release_lists l : forall g, NoDup (akeys l) -> (forall s, In s (akeys l) -> ~ In s (g_red g)) ->
    let g' := fold_left (release_one cfg) l g in
    g_red g' = g_red g ++ map fst (filter (fun kv => p_cnt (snd kv) <? max_del cfg) l) /\
    (forall x, In x (g_park g') <-> In x (g_park g) \/ exists p, In (x, p) l /\ max_del cfg <= p_cnt p).
  Proof.
    induction l as [|[s p] l IH]; intros g ND NR; simpl.
    - split; [rewrite app_nil_r; reflexivity|]. intro x. split; [auto|]. intros [?|(p & [] & _)]; auto.
    - simpl in ND; apply NoDup_cons_iff in ND; destruct ND as (N1 & N2).
      destruct (release_one_lists g s p) as (A & B); [apply NR; left; auto|].
      destruct (IH (release_one cfg g (s, p))) as (C & D); auto.
      { intros x Hx. rewrite A, in_app_iff. intros [Hr|Hr]; [apply (NR x); [right; auto|auto]|].
        destruct (p_cnt p <? max_del cfg); [|contradiction]. destruct Hr as [->|[]]. contradiction. }
      simpl in C, D. rewrite C, A. split.
      + rewrite <- app_assoc. destruct (p_cnt p <? max_del cfg); reflexivity.
      + intro x. rewrite D, B. split.
        * intros [[Hx|(-> & L)]|(q & Hq & L)]; auto; right; [exists p|exists q]; auto.
        * intros [Hx|(q & [Hq|Hq] & L)]; auto; [inversion Hq; subst; auto|right; eauto].
  Qed.

  Theorem leave_exact st h g ord c conn g' r : hist cfg st h g -> agetN c (g_mem g) = Some conn ->
    remove_member cfg ord c g = (g', r) ->
    r = Some conn /\ agetN c (g_mem g') = None /\ (forall c', c' <> c -> agetN c' (g_mem g') = agetN c' (g_mem g)) /\
    (forall s, pget s (g_pend g') = match pget s (g_pend g) with Some p => if p_cons p =? c then None else Some p | None => None end) /\
    (exists l, g_red g' = g_red g ++ l /\ forall s, In s l <-> exists p, pget s (g_pend g) = Some p /\ p_cons p = c /\ p_cnt p < max_del cfg) /\
    (forall s, In s (g_park g') <-> In s (g_park g) \/ exists p, pget s (g_pend g) = Some p /\ p_cons p = c /\ max_del cfg <= p_cnt p).
  Proof.
    intros H EM X. destruct (hist_agrees cfg MD _ _ _ H) as [I S G M].
    pose proof (leave_ok cfg ord c g I) as (_ & _ & LM & _). unfold remove_member in *. rewrite EM in *. inversion X; subst; clear X.
    simpl fst in LM. split; [reflexivity|]. split; [rewrite LM, N.eqb_refl; reflexivity|].
    split; [intros c' Hc; rewrite LM; destruct (N.eqb_spec c' c); [contradiction|reflexivity]|].
    unfold release_consumer. set (ex := filter _ _). change (g_pend (set_mem (adel N.eqb c (g_mem g)) g)) with (g_pend g) in ex.
    destruct I as (I & _).
    assert (ND : NoDup (akeys ex)) by (apply nodup_filter_keys, (i_pnd _ _ I)).
    assert (PG : forall s, pget s ex = match pget s (g_pend g) with Some p => if p_cons p =? c then Some p else None | None => None end).
    { intro s. unfold ex. rewrite pget_filter by apply (i_pnd _ _ I). reflexivity. }
    assert (PI : forall s p, In (s, p) ex <-> pget s (g_pend g) = Some p /\ p_cons p = c).
    { intros s p. split.
      - intro Hi. apply in_pget in Hi; auto. rewrite PG in Hi. destruct (pget s (g_pend g)) as [q|]; [|discriminate].
        destruct (N.eqb_spec (p_cons q) c); [inversion Hi; subst; auto|discriminate].
      - intros (A & B). apply pget_in. rewrite PG, A, B, N.eqb_refl. reflexivity. }
    rewrite release_all_mem.
    destruct (release_all cfg (in_order_of ord ex) g I) as (_ & _ & C & _).
    { apply in_order_nodup; auto. } { intros s p Hi. apply in_order_In in Hi; auto. apply PI in Hi. tauto. }
    destruct (release_lists (in_order_of ord ex) g) as (R & K).
    { apply in_order_nodup; auto. }
    { intros s Hi Hr. apply (i_dis _ _ I) in Hr. unfold akeys in Hi. apply in_map_iff in Hi. destruct Hi as ([s' p] & E & Hi). simpl in E; subst.
      apply in_order_In in Hi; auto. apply PI in Hi. destruct Hi; congruence. }
    split; [|split].
    - intro s. simpl. rewrite C, in_order_pget, PG by auto. destruct (pget s (g_pend g)) as [p|]; auto. destruct (p_cons p =? c); auto.
    - eexists. split; [simpl; exact R|]. intro s. rewrite in_map_iff. split.
      + intros ([s' p] & E & Hi). simpl in E; subst. apply filter_In in Hi. destruct Hi as (Hi & L). apply in_order_In, PI in Hi; auto.
        exists p. simpl in L. apply N.ltb_lt in L. tauto.
      + intros (p & A & B & L). exists (s, p). split; auto. apply filter_In. split; [|simpl; apply N.ltb_lt; auto].
        apply in_order_In; auto. apply PI; auto.
    - intro s. simpl. rewrite K. split; (intros [A|(p & A & B)]; [auto|right; exists p]).
      + apply in_order_In, PI in A; auto. tauto.
      + destruct B. split; auto. apply in_order_In; auto. apply PI; auto.
  Qed.

  Theorem tick_exact st h g ord now g' b : hist cfg st h g -> check_redelivery cfg ord now g = (g', b) ->
    (b = true <-> exists s p, pget s (g_pend g) = Some p /\ ack_wait cfg < now - p_at p) /\ g_mem g' = g_mem g /\
    (forall s, pget s (g_pend g') = match pget s (g_pend g) with Some p => if ack_wait cfg <? now - p_at p then None else Some p | None => None end) /\
    (exists l, g_red g' = g_red g ++ l /\ forall s, In s l <-> exists p, pget s (g_pend g) = Some p /\ ack_wait cfg < now - p_at p /\ p_cnt p < max_del cfg) /\
    (forall s, In s (g_park g') <-> In s (g_park g) \/ exists p, pget s (g_pend g) = Some p /\ ack_wait cfg < now - p_at p /\ max_del cfg <= p_cnt p).
  Proof.
    intros H X. destruct (hist_agrees cfg MD _ _ _ H) as [I S G M].
    pose proof (tick_ok cfg ord now g I) as (_ & _ & LM & _). rewrite X in LM. simpl in LM.
    unfold check_redelivery in X. set (ex := filter _ _) in X. destruct I as (I & _).
    assert (ND : NoDup (akeys ex)) by (apply nodup_filter_keys, (i_pnd _ _ I)).
    assert (PG : forall s, pget s ex = match pget s (g_pend g) with Some p => if ack_wait cfg <? now - p_at p then Some p else None | None => None end).
    { intro s. unfold ex. rewrite pget_filter by apply (i_pnd _ _ I). reflexivity. }
    assert (PI : forall s p, In (s, p) ex <-> pget s (g_pend g) = Some p /\ ack_wait cfg < now - p_at p).
    { intros s p. split.
      - intro Hi. apply in_pget in Hi; auto. rewrite PG in Hi. destruct (pget s (g_pend g)) as [q|]; [|discriminate].
        destruct (N.ltb_spec (ack_wait cfg) (now - p_at q)); [inversion Hi; subst; auto|discriminate].
      - intros (A & B). apply pget_in. rewrite PG, A. destruct (N.ltb_spec (ack_wait cfg) (now - p_at p)); [auto|lia]. }
    destruct ex as [|kv ex'] eqn:EX.
    - inversion X; subst; clear X.
      assert (NO : forall s p, pget s (g_pend g') = Some p -> ~ ack_wait cfg < now - p_at p) by (intros s p A B; destruct (proj2 (PI s p) (conj A B))).
      split; [split; [discriminate|intros (s & p & A & B); exfalso; eapply NO; eauto]|].
      split; auto. split.
      { intro s. destruct (pget s (g_pend g')) as [p|] eqn:EP; auto. apply NO in EP. destruct (N.ltb_spec (ack_wait cfg) (now - p_at p)); [lia|auto]. }
      split; [exists []; rewrite app_nil_r; split; auto|].
      + intro s. split; [contradiction|]. intros (p & A & B & _). eapply NO; eauto.
      + intro s. split; auto. intros [A|(p & A & B & _)]; auto. exfalso; eapply NO; eauto.
    - rewrite <- EX in *.
      assert (b = true /\ g' = try_advance_floor (fold_left (release_one cfg) (in_order_of ord ex) g)) as (-> & ->) by (inversion X; auto).
      split.
      { split; auto. intros _. destruct kv as [s p]. exists s, p. apply PI. rewrite EX. left; auto. }
      split; auto.
      destruct (release_all cfg (in_order_of ord ex) g I) as (_ & _ & C & _).
      { apply in_order_nodup; auto. } { intros s p Hi. apply in_order_In in Hi; auto. apply PI in Hi. tauto. }
      destruct (release_lists (in_order_of ord ex) g) as (R & K).
      { apply in_order_nodup; auto. }
      { intros s Hi Hr. apply (i_dis _ _ I) in Hr. unfold akeys in Hi. apply in_map_iff in Hi. destruct Hi as ([s' p] & E & Hi). simpl in E; subst.
        apply in_order_In in Hi; auto. apply PI in Hi. destruct Hi; congruence. }
      split; [|split].
      + intro s. simpl. rewrite C, in_order_pget, PG by auto. destruct (pget s (g_pend g)) as [p|]; auto. destruct (ack_wait cfg <? now - p_at p); auto.
      + eexists. split; [simpl; exact R|]. intro s. rewrite in_map_iff. split.
        * intros ([s' p] & E & Hi). simpl in E; subst. apply filter_In in Hi. destruct Hi as (Hi & L). apply in_order_In, PI in Hi; auto.
          exists p. simpl in L. apply N.ltb_lt in L. tauto.
        * intros (p & A & B & L). exists (s, p). split; auto. apply filter_In. split; [|simpl; apply N.ltb_lt; auto].
          apply in_order_In; auto. apply PI; auto.
      + intro s. simpl. rewrite K. split; (intros [A|(p & A & B)]; [auto|right; exists p]).
        * apply in_order_In, PI in A; auto. tauto.
        * destruct B. split; auto. apply in_order_In; auto. apply PI; auto.
  Qed.

  (** C60: fencing. A consumer that was a member before a seek and has not joined since is refused. *)
  Theorem seek_fences st h g c gen op : hist cfg st h g ->
    (gen <> gen_of h -> (exists limit now log ram head, op = GFetch c gen limit now log ram head) \/ (exists now ms head, op = GCold c gen now ms head) \/ (exists s, op = GAck c gen s) ->
       gstep cfg g op = (g, OErr Fenced)) /\
    (gen = gen_of h -> member_of h c = false -> (exists limit now log ram head, op = GFetch c gen limit now log ram head) \/ (exists now ms head, op = GCold c gen now ms head) \/ (exists s, op = GAck c gen s) ->
       gstep cfg g op = (g, OErr NotMember)).
  Proof.
    intro H. destruct (hist_agrees cfg MD _ _ _ H) as [I S G M]. split.
    - intros Hg Ho. assert (EA : ensure_active c gen g = Some Fenced).
      { unfold ensure_active. destruct (N.eqb_spec gen (g_gen g)); [congruence|reflexivity]. }
      destruct Ho as [(limit & now & log & ram & head & ->)|[(now & ms & head & ->)|(s & ->)]]; simpl.
      + rewrite (fetch_err cfg _ _ _ _ _ _ _ _ _ EA). reflexivity.
      + rewrite (cold_err cfg _ _ _ _ _ _ _ EA). reflexivity.
      + unfold ack. rewrite EA. reflexivity.
    - intros Hg Hm Ho. assert (EA : ensure_active c gen g = Some NotMember).
      { unfold ensure_active. rewrite Hg, <- G, N.eqb_refl. simpl. rewrite M in Hm. rewrite Hm. reflexivity. }
      destruct Ho as [(limit & now & log & ram & head & ->)|[(now & ms & head & ->)|(s & ->)]]; simpl.
      + rewrite (fetch_err cfg _ _ _ _ _ _ _ _ _ EA). reflexivity.
      + rewrite (cold_err cfg _ _ _ _ _ _ _ EA). reflexivity.
      + unfold ack. rewrite EA. reflexivity.
  Qed.

  Lemma gen_grows st : forall h2 h1 g, hist cfg st (h2 ++ h1) g -> gen_of h1 <= gen_of (h2 ++ h1).
  Proof.
    induction h2 as [|e h2 IH]; intros h1 g H; simpl; [lia|]. simpl in H. pose proof (hist_tail _ _ _ _ _ H) as (g0 & H0 & _).
    specialize (IH _ _ H0). destruct e as [op o]. destruct (is_seek op); lia.
  Qed.
  (** the generation obtained by a join before a seek is refused ever after *)
  Theorem old_generation_refused st h2 op o h1 g c s : hist cfg st (h2 ++ (op, o) :: h1) g -> is_seek op = true ->
    forall gen limit now log ram head, gen <= gen_of h1 ->
    gstep cfg g (GAck c gen s) = (g, OErr Fenced) /\ gstep cfg g (GFetch c gen limit now log ram head) = (g, OErr Fenced).
  Proof.
    intros H SK gen limit now log ram head L.
    pose proof (gen_grows st h2 _ g H) as GG. simpl in GG. rewrite SK in GG.
    assert (NE : gen <> gen_of (h2 ++ (op, o) :: h1)) by (unfold gev in *; lia).
    split; apply (proj1 (seek_fences st _ g c gen _ H) NE); eauto 10.
  Qed.

  (** C60: what is delivered after a seek *)
  Lemma clamp_noop head g : N.max head 1 <= g_floor g + 1 -> N.max head 1 <= g_next g -> g_pend g = [] -> g_red g = [] -> g_park g = [] -> g_att g = [] ->
    fst (clamp_head head g) = g.
  Proof.
    intros F L P R K A. unfold clamp_head. rewrite P, R, K, A.
    destruct (N.ltb_spec (g_floor g) (N.max head 1 - 1)); [lia|]. destruct (N.ltb_spec (g_next g) (N.max head 1)); [lia|].
    simpl. destruct g; simpl in *; subst; reflexivity.
  Qed.
  Theorem seek_delivers st h g sk start c conn limit now log ram head g' o : hist cfg st h g ->
    (sk = GSeekB head /\ start = N.max head 1 \/ exists last, sk = GSeekE last /\ start = last + 1 /\ head <= last + 1) ->
    log_ok log ram ->
    let g1 := fst (gstep cfg (fst (gstep cfg g sk)) (GJoin c conn)) in
    gstep cfg g1 (GFetch c (gen_of h + 1) limit now log ram head) = (g', o) ->
    o = OMsgs (takeN (N.min limit (max_pend cfg)) (new_part log ram start)).
  Proof.
    intros H SK LO. cbv zeta. intro X. destruct (hist_agrees cfg MD _ _ _ H) as [I S G M].
    set (g1 := fst (gstep cfg (fst (gstep cfg g sk)) (GJoin c conn))) in *.
    assert (HS : exists a b, hist cfg st ((GJoin c conn, b) :: (sk, a) :: h) g1).
    { eexists; eexists. eapply hist_step; [eapply hist_step; [exact H| |]| |].
      - destruct SK as [(-> & _)|(l & -> & _)]; exact Logic.I.
      - apply surjective_pairing.
      - exact Logic.I.
      - apply surjective_pairing. }
    destruct HS as (a & b & HS). destruct (hist_agrees cfg MD _ _ _ HS) as [I1 S1 G1 M1].
    assert (GE : g_gen g1 = gen_of h + 1). { rewrite G1. simpl. destruct SK as [(-> & _)|(l & -> & _)]; reflexivity. }
    assert (EA : ensure_active c (gen_of h + 1) g1 = None).
    { apply ensure_None. split; auto. apply isSome_neq. rewrite <- M1. simpl. rewrite N.eqb_refl. reflexivity. }
    simpl in X. destruct (fetch_exact cfg MD c (gen_of h + 1) limit now log ram head g1 I1 LO EA) as (g2 & X2 & _).
    rewrite X2 in X. inversion X; subst; clear X.
    assert (CN : fst (clamp_head head g1) = g1 /\ g_pend g1 = [] /\ g_red g1 = [] /\ g_next g1 = start).
    { destruct SK as [(-> & ->)|(l & -> & -> & L)]; (split; [apply clamp_noop; simpl; auto; lia|simpl; auto]). }
    destruct CN as (-> & P & R & E). rewrite P, R, E. simpl red_part. rewrite takeN_nil, lenN_nil, !N.sub_0_r. reflexivity.
  Qed.
End G.

(** Running a list of operations, for examples. *)
Fixpoint grun (cfg : gcfg) (g : group) (h : list gev) (ops : list gop) : list gev * group :=
  match ops with
  | [] => (h, g)
  | op :: r => let (g', o) := gstep cfg g op in grun cfg g' ((op, o) :: h) r
  end.
Lemma grun_hist cfg st : forall ops g h, hist cfg st h g -> Forall gop_ok ops -> hist cfg st (fst (grun cfg g h ops)) (snd (grun cfg g h ops)).
Proof.
  induction ops as [|op ops IH]; intros g h H F; simpl; auto. inversion F; subst.
  destruct (gstep cfg g op) as [g' o] eqn:E. apply IH; auto. eapply hist_step; eauto.
Qed.
