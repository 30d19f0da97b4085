(** The group agrees with its history; consequences over whole histories. *)
From Verif Require Import LibBase LibMap StreamTopicModel StreamGroupModel StreamGroupSpec StreamGroupProofs StreamGroupSteps StreamGroupFetch.

Lemma ensure_None c gen g : ensure_active c gen g = None <-> gen = g_gen g /\ agetN c (g_mem g) <> None.
Proof.
  unfold ensure_active. destruct (N.eqb_spec gen (g_gen g)); simpl; [|split; [discriminate|tauto]].
  destruct (agetN c (g_mem g)); simpl; split; intros; auto; try discriminate; try tauto. split; auto; discriminate.
Qed.

Lemma isSome_neq A (o : option A) : isSome o = true <-> o <> None.
Proof. destruct o; simpl; split; congruence. Qed.

Section G.
  Variable cfg : gcfg.
  Hypothesis MD : 1 <= max_del cfg.
  Let inv := inv cfg.

  Lemma new_inv head : inv (group_new head).
  Proof.
    split; [|left; simpl; lia]. constructor; simpl; try (intros; contradiction || discriminate); try constructor; try lia. unfold lenN; simpl; lia.
  Qed.
  Lemma restore_inv fl head : inv (group_restore fl head).
  Proof.
    split; [|left; simpl; lia]. constructor; simpl; try (intros; contradiction || discriminate); try constructor; try lia. unfold lenN; simpl; lia.
  Qed.

  (** One step: the invariant, the statuses, generation, members and what is handed out. *)
  Record agrees (st : N) (h : list gev) (g : group) : Prop := {
    a_inv : inv g;
    a_st : forall s, status_of cfg st h s = abs g s;
    a_gen : g_gen g = gen_of h;
    a_mem : forall c, member_of h c = isSome (agetN c (g_mem g))
  }.

  Lemma fetch_err c gen limit now log ram head g e : ensure_active c gen g = Some e -> fetch cfg c gen limit now log ram head g = (g, inl e).
  Proof. unfold fetch. intros ->. reflexivity. Qed.
  Lemma cold_err c gen now ms head g e : ensure_active c gen g = Some e -> register_cold cfg c gen now ms head g = (g, inl e).
  Proof. unfold register_cold. intros ->. reflexivity. Qed.

  Lemma step_agrees st h g op g' o : agrees st h g -> gop_ok op -> gstep cfg g op = (g', o) -> agrees st ((op, o) :: h) g'.
  Proof.
    intros [I S G M] OK X. destruct op as [c conn|ord c|c gen limit now log ram head|c gen now ms head|c gen s|ord now|head|last|head|b]; simpl in X.
    - inversion X; subst; clear X. constructor; simpl; auto.
      + apply join_inv; auto.
      + intro c'. rewrite agetN_aset. destruct (c' =? c); simpl; auto.
    - destruct (leave_ok cfg ord c g I) as (A & B & C & D & _). inversion X; subst; clear X. constructor; simpl; auto.
      + intro s. rewrite B, S. destruct (abs g s); auto.
      + congruence.
      + intro c'. rewrite C, M. destruct (c' =? c); reflexivity.
    - destruct (ensure_active c gen g) as [e|] eqn:EA.
      + rewrite (fetch_err _ _ _ _ _ _ _ _ _ EA) in X. inversion X; subst; clear X. constructor; simpl; auto.
      + destruct (fetch_exact cfg MD c gen limit now log ram head g I OK EA) as (g2 & X2 & I2 & D & _ & _ & _ & M2 & G2 & _).
        rewrite X2 in X. inversion X; subst; clear X. constructor; auto.
        * intro s. simpl. rewrite D, (clamp_abs cfg) by apply I. rewrite S. reflexivity.
        * simpl. congruence.
        * simpl. rewrite M2. auto.
    - destruct (ensure_active c gen g) as [e|] eqn:EA.
      + rewrite (cold_err _ _ _ _ _ _ _ EA) in X. inversion X; subst; clear X. constructor; simpl; auto.
      + destruct (cold_ok cfg MD c gen now ms head g I EA) as (g2 & out & X2 & I2 & D & _ & _ & M2 & G2 & _).
        rewrite X2 in X. inversion X; subst; clear X. constructor; auto.
        * intro s. simpl. rewrite D, (clamp_abs cfg) by apply I. rewrite S. reflexivity.
        * simpl. congruence.
        * simpl. rewrite M2. auto.
    - destruct (ack_ok cfg c gen s g I) as (A & B & C & D & E & _). destruct (ack c gen s g) as [g1 r]. simpl in *.
      inversion X; subst; clear X. destruct r as [e|].
      + rewrite B in * by discriminate. constructor; simpl; auto.
      + constructor.
        * exact A.
        * intro s'. simpl. rewrite C by auto. rewrite S. reflexivity.
        * simpl. congruence.
        * intro c'. simpl. rewrite D. auto.
    - destruct (tick_ok cfg ord now g I) as (A & B & C & D & _). inversion X; subst; clear X. constructor; simpl; auto.
      + intro s. rewrite B, S. destruct (abs g s); auto.
      + congruence.
      + intro c. rewrite C. auto.
    - inversion X; subst; clear X. constructor.
      + apply seekb_inv.
      + intro s. reflexivity.
      + simpl. congruence.
      + intro c. reflexivity.
    - inversion X; subst; clear X. constructor.
      + apply seeke_inv.
      + intro s. simpl status_of. rewrite (seeke_abs cfg). reflexivity.
      + simpl. congruence.
      + intro c. reflexivity.
    - inversion X; subst; clear X. destruct (clamp_fields head g) as (_ & _ & _ & _ & _ & HM & HG). constructor; auto.
      + apply clamp_inv; auto.
      + intro s. simpl status_of. rewrite (clamp_abs cfg) by apply I. rewrite S. reflexivity.
      + simpl. congruence.
      + intro c. simpl. rewrite HM. auto.
    - inversion X; subst; clear X. constructor; auto. apply flag_inv; auto.
  Qed.

  Theorem hist_agrees st h g : hist cfg st h g -> agrees st h g.
  Proof.
    induction 1 as [head E|fl head E|h g op g' o H IH OK X]; [subst|subst|eapply step_agrees; eauto].
    - constructor; auto; try reflexivity. apply new_inv.
    - constructor; auto; try reflexivity. apply restore_inv.
  Qed.

  Lemma hist_tail st e h g : hist cfg st (e :: h) g -> exists g0, hist cfg st h g0 /\ gop_ok (fst e) /\ gstep cfg g0 (fst e) = (g, snd e).
  Proof. intro H. inversion H; subst. eexists; simpl; eauto. Qed.

  (** Only messages waiting or fresh are handed out, none twice in one answer. *)
  Theorem out_status st h g op ms : hist cfg st ((op, OMsgs ms) :: h) g ->
    NoDup (map m_seq ms) /\
    forall s, In s (map m_seq ms) -> (status_of cfg st h s = Fresh \/ exists n, status_of cfg st h s = Waiting n /\ n < max_del cfg) /\
       exists c t, delivers_to (op, OMsgs ms) s c t.
  Proof.
    intro H. apply hist_tail in H. destruct H as (g0 & H & OK & X). simpl in OK, X.
    destruct (hist_agrees _ _ _ H) as [I S _ _].
    assert (CL : forall head s, In s (g_red (fst (clamp_head head g0))) \/ g_next (fst (clamp_head head g0)) <= s ->
      status_of cfg st h s = Fresh \/ exists n, status_of cfg st h s = Waiting n /\ n < max_del cfg).
    { intros head s Hs. rewrite S. pose proof (clamp_abs cfg head g0 s (proj1 I)) as CA.
      pose proof (clamp_inv cfg head g0 I) as I1.
      destruct Hs as [Hs|Hs].
      - destruct (abs_waiting cfg _ s (proj1 I1) Hs) as (n & E & L). rewrite E in CA. unfold below in CA.
        destruct (s <? head); [discriminate|]. right. exists n. split; [auto|lia].
      - apply (abs_fresh cfg MD _ s (proj1 I1)) in Hs. rewrite Hs in CA. unfold below in CA.
        destruct (s <? head); [discriminate|]. auto. }
    destruct op as [c conn|ord c|c gen limit now log ram head|c gen now ms' head|c gen s|ord now|head|last|head|b]; simpl in X; try (inversion X; fail).
    - destruct (ensure_active c gen g0) as [e|] eqn:EA.
      + rewrite (fetch_err _ _ _ _ _ _ _ _ _ EA) in X. inversion X.
      + destruct (fetch_exact cfg MD c gen limit now log ram head g0 I OK EA) as (g2 & X2 & I2 & D & _ & _ & _ & M2 & G2 & _ & DIS & ND1).
        rewrite X2 in X. inversion X; subst; clear X.
        pose proof (clamp_inv cfg head g0 I) as I1.
        set (g1 := fst (clamp_head head g0)) in *.
        set (r1 := takeN _ (red_part log ram (g_red g1))) in *. set (r2 := takeN _ (new_part log ram (g_next g1))) in *.
        assert (LO2 : log_ok r2 (g_next g1)) by (apply log_ok_takeN, new_part_ok; auto).
        split.
        * rewrite map_app. apply nodup_app_intro; auto.
          clear - LO2. revert LO2. generalize (g_next g1). generalize r2 as l. induction l as [|m l IH]; intros n LO; simpl; constructor.
          -- intro Hi. apply (log_ok_ge l (n + 1)) in Hi.
             ++ pose proof (LO 0%nat m eq_refl). simpl in *. lia.
             ++ intros i x Hx. specialize (LO (S i) x Hx). lia.
          -- apply (IH (n + 1)). intros i x Hx. specialize (LO (S i) x Hx). lia.
        * intros s Hs. split.
          -- apply (CL head). rewrite map_app, in_app_iff in Hs. destruct Hs as [Hs|Hs].
             ++ left. unfold r1 in Hs. change (map m_seq) with seqs in Hs. rewrite red_part_seqs in Hs by auto.
                change (In s (g_red g1)). match type of Hs with In _ (takeN ?n ?l) => rewrite <- (takeN_dropN _ n l) end. apply in_app_iff; left; exact Hs.
             ++ right. apply (log_ok_ge r2); auto.
          -- exists c, now. eexists. split; [reflexivity|]. split; [exact Hs|]. left. simpl. do 5 eexists. reflexivity.
    - destruct (ensure_active c gen g0) as [e|] eqn:EA.
      + rewrite (cold_err _ _ _ _ _ _ _ EA) in X. inversion X.
      + destruct (cold_ok cfg MD c gen now ms' head g0 I EA) as (g2 & out & X2 & I2 & D & ND & C & M2 & G2 & _).
        rewrite X2 in X. inversion X; subst; clear X. split; auto. intros s Hs. split.
        * apply in_map_iff in Hs. destruct Hs as (m & <- & Hm). destruct (C m Hm) as (_ & C1). eapply CL; exact C1.
        * exists c, now. eexists. split; [reflexivity|]. split; [exact Hs|]. right. simpl. do 3 eexists. reflexivity.
    - destruct (ack c gen s g0) as [g1 [e|]]; inversion X.
  Qed.
End G.
