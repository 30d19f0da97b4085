(** The calls are answered: proofs. *)
From Verif Require Import LibBase LibMap PubSubModel PubSubSpec PubSubProofs SdkDispatch SdkSubModel SdkSubSpec SdkSubProofs.
Local Open Scope nat_scope.

Definition grows (s s' : subst) : Prop :=
  b_up s' = b_up s /\ incl (b_pend s) (b_pend s') /\ incl (b_wire s) (b_wire s') /\ incl (b_ready s) (b_ready s') /\ b_served s' = b_served s.
Lemma grows_refl : forall s, grows s s.
Proof. intro s. repeat split; apply incl_refl. Qed.
Lemma grows_send : forall k t s, grows s (fst (send1 k t s)).
Proof.
  intros k t s. unfold send1. destruct (b_up s) eqn:E; cbn [fst]; unfold grows; cbn [b_up b_pend b_wire b_ready b_served];
    (split; [congruence|]); repeat split; try apply incl_refl; apply incl_appl; apply incl_refl.
Qed.
Lemma grows_call : forall o s, is_call o = true -> grows s (fst (sstep s o)).
Proof.
  intros o s H. destruct o as [t|t| | | | | | | |]; try discriminate; cbn [sstep].
  - unfold do_sub. destruct (aget beqb t (b_h s)); [repeat split; apply incl_refl|].
    pose proof (grows_send (KSub (b_calls s)) t (with_h (b_h s ++ [(t, b_calls s)]) (next_call s))) as K.
    destruct (send1 _ _ _) as [s' l]. exact K.
  - unfold do_unsub. destruct (aget beqb t (b_h s)); [|repeat split; apply incl_refl].
    pose proof (grows_send (KUnsub (b_calls s)) t (next_call s)) as K.
    destruct (send1 _ _ _) as [s' l]. exact K.
Qed.

Section Request.
  Variable q : ureq.
  Variable n : nat.
  Hypothesis Hq : k_call (q_kind q) = [n].

  Definition stC (s : subst) (log : list subev) : Prop := In (q, true) (b_ready s) \/ In (VDone n true) log.
  Definition stB (s : subst) (log : list subev) : Prop := (b_up s <> None /\ In q (b_pend s) /\ In (q_id q) (b_served s)) \/ stC s log.
  Definition stA (s : subst) (log : list subev) : Prop :=
    (b_up s <> None /\ In q (b_pend s) /\ (In q (b_wire s) \/ In (q_id q) (b_served s))) \/ stC s log.
  (** settled, one way or the other *)
  Definition stE (s : subst) (log : list subev) : Prop := (exists ok, In (q, ok) (b_ready s)) \/ exists ok, In (VDone n ok) log.
  Definition stF (s : subst) (log : list subev) : Prop := (b_up s <> None /\ In q (b_pend s)) \/ stE s log.

  Lemma find_pend : forall s log q', ginv s log -> q_find (q_id q) (b_pend s) = Some q' -> In q (b_pend s) -> q' = q.
  Proof.
    intros s log q' G F I. apply find_some in F. destruct F as [F1 F2]. apply Nat.eqb_eq in F2.
    pose proof (g_pids _ _ G) as N. clear -N F1 F2 I. induction (b_pend s) as [|x l IH]; [destruct I|]. cbn in N. inversion N; subst.
    destruct F1 as [->|F1], I as [->|I]; auto.
    - exfalso. apply H1. rewrite F2. apply in_map. exact I.
    - exfalso. apply H1. rewrite <- F2. apply in_map. exact F1.
  Qed.
  Lemma find_wire : forall s log q', ginv s log -> q_find (q_id q) (b_wire s) = Some q' -> In q (b_wire s) -> q' = q.
  Proof.
    intros s log q' G F I. apply find_some in F. destruct F as [F1 F2]. apply Nat.eqb_eq in F2.
    pose proof (g_wid _ _ G) as N. clear -N F1 F2 I. induction (b_wire s) as [|x l IH]; [destruct I|]. cbn in N. inversion N; subst.
    destruct F1 as [->|F1], I as [->|I]; auto.
    - exfalso. apply H1. rewrite F2. apply in_map. exact I.
    - exfalso. apply H1. rewrite <- F2. apply in_map. exact F1.
  Qed.
  Lemma find_none : forall r l, q_find r l = None -> ~ In r (map q_id l).
  Proof.
    intros r l F I. apply in_map_iff in I. destruct I as (x & <- & I). pose proof (find_none _ _ F x I) as K. cbn in K. rewrite Nat.eqb_refl in K. discriminate.
  Qed.
  Lemma find_ready : forall s log q' ok' ok, ginv s log -> find (fun y => Nat.eqb (q_id (fst y)) (q_id q)) (b_ready s) = Some (q', ok') ->
    In (q, ok) (b_ready s) -> q' = q /\ ok' = ok.
  Proof.
    intros s log q' ok' ok G F I. apply find_some in F. destruct F as [F1 F2]. apply Nat.eqb_eq in F2. cbn in F2.
    pose proof (g_rids _ _ G) as N. rewrite map_map in N. clear -N F1 F2 I. induction (b_ready s) as [|x l IH]; [destruct I|]. cbn in N. inversion N; subst.
    destruct F1 as [->|F1], I as [K|I]; auto.
    - injection K as -> ->. auto.
    - exfalso. apply H1. cbn. rewrite F2. apply (in_map (fun x => q_id (fst x)) _ _ I).
    - subst x. exfalso. apply H1. cbn. rewrite <- F2. apply (in_map (fun x => q_id (fst x)) _ _ F1).
  Qed.
  Lemma in_del : forall r l x, In x l -> q_id x <> r -> In x (q_del r l).
  Proof. intros r l x H K. apply filter_In. split; auto. apply negb_true_iff. apply Nat.eqb_neq. auto. Qed.

  (** what every step keeps of one pending or ready request *)
  Lemma keep_ready : forall s log o ok, ginv s log -> In (q, ok) (b_ready s) ->
    In (q, ok) (b_ready (fst (sstep s o))) \/ In (VDone n ok) (snd (sstep s o)).
  Proof.
    intros s log o ok G H. destruct o as [t|t|r now|r|r|r| |c|t d|o].
    - left. apply (grows_call (XSub t) s eq_refl). exact H.
    - left. apply (grows_call (XUnsub t) s eq_refl). exact H.
    - left. cbn [sstep]. destruct (b_up s); [|exact H]. destruct (q_find r (b_wire s)); exact H.
    - left. cbn [sstep]. destruct (q_find r (b_pend s)); [|exact H]. destruct (existsb _ _); [|exact H]. cbn. apply in_or_app. auto.
    - left. cbn [sstep]. destruct (q_find r (b_pend s)); [|exact H]. cbn. apply in_or_app. auto.
    - cbn [sstep]. destruct (find _ (b_ready s)) as [[q' ok']|] eqn:F; [|left; exact H].
      destruct (Nat.eq_dec (q_id q) r) as [<-|Hr].
      + destruct (find_ready _ _ _ _ _ G F H) as [-> ->]. right. unfold run_cont. destruct (q_kind q); cbn in Hq; try discriminate; injection Hq as ->; left; reflexivity.
      + left. assert (K : In (q, ok) (filter (fun y => negb (Nat.eqb (q_id (fst y)) r)) (b_ready s))).
        { apply filter_In. split; auto. apply negb_true_iff. apply Nat.eqb_neq. auto. }
        unfold run_cont. destruct (q_kind q'); [destruct ok'|destruct ok'|]; exact K.
    - left. cbn [sstep]. destruct (b_up s); [|exact H]. cbn. apply in_or_app. auto.
    - left. cbn [sstep]. destruct (b_up s); [exact H|]. destruct (b_ready s) eqn:Er; [destruct H|cbn; rewrite Er; exact H].
    - left. cbn [sstep]. destruct (b_up s); exact H.
    - left. cbn [sstep]. destruct (foreign _ _); exact H.
  Qed.
  Lemma keepC : forall s log o, ginv s log -> stC s log -> stC (fst (sstep s o)) (log ++ snd (sstep s o)).
  Proof.
    intros s log o G [H|H]; [|right; apply in_or_app; auto]. destruct (keep_ready s log o true G H); [left; auto|right; apply in_or_app; auto].
  Qed.
  Lemma keepE : forall s log o, ginv s log -> stE s log -> stE (fst (sstep s o)) (log ++ snd (sstep s o)).
  Proof.
    intros s log o G [[ok H]|[ok H]]; [|right; exists ok; apply in_or_app; auto].
    destruct (keep_ready s log o ok G H); [left; exists ok; auto|right; exists ok; apply in_or_app; auto].
  Qed.
  (** pending: stays, is answered, or fails *)
  Lemma keep_pend : forall s log o, ginv s log -> b_up s <> None -> In q (b_pend s) ->
    (b_up (fst (sstep s o)) <> None /\ In q (b_pend (fst (sstep s o))) /\
      (In q (b_wire s) -> In q (b_wire (fst (sstep s o))) \/ In (q_id q) (b_served (fst (sstep s o)))) /\
      (In (q_id q) (b_served s) -> In (q_id q) (b_served (fst (sstep s o))) /\ o <> XReply (q_id q)) /\
      o <> XLost /\ o <> XFail (q_id q) /\ (forall now, o = XServe (q_id q) now -> In q (b_wire s) -> In (q_id q) (b_served (fst (sstep s o))))) \/
    (In (q, true) (b_ready (fst (sstep s o))) /\ o = XReply (q_id q)) \/
    (In (q, false) (b_ready (fst (sstep s o))) /\ (o = XLost \/ o = XFail (q_id q))).
  Proof.
    intros s log o G Hu H.
    assert (Grow : forall s', b_up s' = b_up s -> In q (b_pend s') -> (In q (b_wire s) -> In q (b_wire s')) -> b_served s' = b_served s ->
      fst (sstep s o) = s' -> (forall r now, o <> XServe r now) -> o <> XReply (q_id q) -> o <> XLost -> o <> XFail (q_id q) ->
      (b_up (fst (sstep s o)) <> None /\ In q (b_pend (fst (sstep s o))) /\
      (In q (b_wire s) -> In q (b_wire (fst (sstep s o))) \/ In (q_id q) (b_served (fst (sstep s o)))) /\
      (In (q_id q) (b_served s) -> In (q_id q) (b_served (fst (sstep s o))) /\ o <> XReply (q_id q)) /\
      o <> XLost /\ o <> XFail (q_id q) /\ (forall now, o = XServe (q_id q) now -> In q (b_wire s) -> In (q_id q) (b_served (fst (sstep s o)))))).
    { intros s' G1 G2 G3 G5 -> N1 N2 N3 N4. rewrite G1, G5. split; [exact Hu|]. split; [auto|]. split; [intro K; left; auto|]. split; [auto|].
      split; [auto|]. split; [auto|]. intros now E. destruct (N1 _ _ E). }
    destruct o as [t|t|r now|r|r|r| |c|t d|o].
    - left. destruct (grows_call (XSub t) s eq_refl) as (G1 & G2 & G3 & _ & G5). apply (Grow _ G1 (G2 _ H) (G3 _) G5 eq_refl); discriminate.
    - left. destruct (grows_call (XUnsub t) s eq_refl) as (G1 & G2 & G3 & _ & G5). apply (Grow _ G1 (G2 _ H) (G3 _) G5 eq_refl); discriminate.
    - left. cbn [sstep]. destruct (b_up s) as [c|] eqn:Eu; [|congruence]. destruct (q_find r (b_wire s)) as [q'|] eqn:F.
      + cbn. split; [discriminate|]. split; [exact H|]. split; [|split; [|split; [discriminate|split; [discriminate|]]]].
        * intro K. destruct (Nat.eq_dec (q_id q) r) as [<-|Hr]; [right; left; reflexivity|left; apply in_del; auto].
        * intro K. split; [right; auto|discriminate].
        * intros now' E _. injection E as -> ->. left. reflexivity.
      + cbn. split; [congruence|]. split; [exact H|]. split; [left; auto|]. split; [split; [auto|discriminate]|]. split; [discriminate|]. split; [discriminate|].
        intros now' E K. injection E as -> ->. exfalso. apply (find_none _ _ F). apply in_map. exact K.
    - cbn [sstep]. destruct (Nat.eq_dec (q_id q) r) as [<-|Hr].
      + destruct (q_find (q_id q) (b_pend s)) as [q'|] eqn:F; [|exfalso; apply (find_none _ _ F); apply in_map; exact H].
        pose proof (find_pend _ _ _ G F H) as ->. destruct (existsb (Nat.eqb (q_id q)) (b_served s)) eqn:E.
        * right. left. split; [|reflexivity]. cbn. apply in_or_app. right. left. reflexivity.
        * left. cbn. split; [exact Hu|]. split; [exact H|]. split; [left; auto|]. split; [|split; [discriminate|split; [discriminate|intros ? K; discriminate K]]].
          intro K. exfalso. rewrite <- not_true_iff_false in E. apply E. apply existsb_exists. exists (q_id q). split; [exact K|apply Nat.eqb_refl].
      + left. assert (X : fst (sstep s (XReply r)) = s \/ exists q', fst (sstep s (XReply r)) = settle1 r q' true s).
        { cbn [sstep]. destruct (q_find r (b_pend s)) as [q'|]; [|auto]. destruct (existsb _ _); [right; exists q'; reflexivity|auto]. }
        destruct X as [X|[q' X]]; (eapply Grow; [..|exact X|discriminate|congruence|discriminate|discriminate]); auto. cbn. apply in_del; auto.
    - destruct (Nat.eq_dec (q_id q) r) as [<-|Hr].
      + right. right. cbn [sstep]. destruct (q_find (q_id q) (b_pend s)) as [q'|] eqn:F; [|exfalso; apply (find_none _ _ F); apply in_map; exact H].
        pose proof (find_pend _ _ _ G F H) as ->. split; [|auto]. cbn. apply in_or_app. right. left. reflexivity.
      + left. assert (X : fst (sstep s (XFail r)) = s \/ exists q', fst (sstep s (XFail r)) = settle1 r q' false s).
        { cbn [sstep]. destruct (q_find r (b_pend s)) as [q'|]; [|auto]. right. exists q'. reflexivity. }
        destruct X as [X|[q' X]]; (eapply Grow; [..|exact X|discriminate|discriminate|discriminate|congruence]); auto. cbn. apply in_del; auto.
    - left. eapply Grow; [..|reflexivity|discriminate|discriminate|discriminate|discriminate]; cbn [sstep];
        destruct (find _ (b_ready s)) as [[q' ok']|]; auto; unfold run_cont; destruct (q_kind q'); try destruct ok'; auto.
    - right. right. cbn [sstep]. destruct (b_up s); [|congruence]. cbn. split; [|auto]. apply in_or_app. right. apply in_map_iff. exists q. auto.
    - left. eapply Grow; [..|reflexivity|discriminate|discriminate|discriminate|discriminate]; cbn [sstep]; (destruct (b_up s) eqn:Eu; [|congruence]); auto.
    - left. eapply Grow; [..|reflexivity|discriminate|discriminate|discriminate|discriminate]; cbn [sstep]; destruct (b_up s) eqn:Eu; auto.
    - left. eapply Grow; [..|reflexivity|discriminate|discriminate|discriminate|discriminate]; cbn [sstep]; destruct (foreign _ _); auto.
  Qed.

  Lemma keepA : forall s log o, ginv s log -> stA s log -> o <> XLost -> o <> XFail (q_id q) -> stA (fst (sstep s o)) (log ++ snd (sstep s o)).
  Proof.
    intros s log o G [(H1 & H2 & H3)|H] N1 N2; [|right; apply keepC; auto].
    destruct (keep_pend s log o G H1 H2) as [(K1 & K2 & K3 & K4 & _)|[[K _]|[_ [K|K]]]]; [| |destruct (N1 K)|destruct (N2 K)].
    - left. split; [exact K1|]. split; [exact K2|]. destruct H3 as [H3|H3]; [auto|right; apply K4; auto].
    - right. left. exact K.
  Qed.
  Lemma keepB : forall s log o, ginv s log -> stB s log -> o <> XLost -> o <> XFail (q_id q) -> stB (fst (sstep s o)) (log ++ snd (sstep s o)).
  Proof.
    intros s log o G [(H1 & H2 & H3)|H] N1 N2; [|right; apply keepC; auto].
    destruct (keep_pend s log o G H1 H2) as [(K1 & K2 & K3 & K4 & _)|[[K _]|[_ [K|K]]]]; [| |destruct (N1 K)|destruct (N2 K)].
    - left. split; [exact K1|]. split; [exact K2|]. apply K4; auto.
    - right. left. exact K.
  Qed.
  Lemma servedB : forall s log now, ginv s log -> stA s log -> stB (fst (sstep s (XServe (q_id q) now))) (log ++ snd (sstep s (XServe (q_id q) now))).
  Proof.
    intros s log now G [(H1 & H2 & H3)|H]; [|right; apply keepC; auto].
    destruct (keep_pend s log (XServe (q_id q) now) G H1 H2) as [(K1 & K2 & K3 & K4 & _ & _ & K5)|[[K K']|[_ [K|K]]]]; try discriminate.
    left. split; [exact K1|]. split; [exact K2|]. destruct H3 as [H3|H3]; [eapply K5; eauto|apply K4; auto].
  Qed.
  Lemma repliedC : forall s log, ginv s log -> stB s log -> stC (fst (sstep s (XReply (q_id q)))) (log ++ snd (sstep s (XReply (q_id q)))).
  Proof.
    intros s log G [(H1 & H2 & H3)|H]; [|apply keepC; auto].
    destruct (keep_pend s log (XReply (q_id q)) G H1 H2) as [(K1 & K2 & K3 & K4 & _)|[[K K']|[_ [K|K]]]]; try discriminate.
    - destruct (K4 H3) as [_ K]. congruence.
    - left. exact K.
  Qed.
  Lemma run_done : forall s log ok, ginv s log -> In (q, ok) (b_ready s) -> In (VDone n ok) (snd (sstep s (XRun (q_id q)))).
  Proof.
    intros s log ok G H. cbn [sstep]. destruct (find _ (b_ready s)) as [[q' ok']|] eqn:F.
    - destruct (find_ready _ _ _ _ _ G F H) as [-> ->]. unfold run_cont. destruct (q_kind q); cbn in Hq; try discriminate; injection Hq as ->; left; reflexivity.
    - exfalso. pose proof (List.find_none _ _ F _ H) as K. cbn in K. rewrite Nat.eqb_refl in K. discriminate.
  Qed.
  Lemma keepF : forall s log o, ginv s log -> stF s log -> stF (fst (sstep s o)) (log ++ snd (sstep s o)).
  Proof.
    intros s log o G [(H1 & H2)|H]; [|right; apply keepE; auto].
    destruct (keep_pend s log o G H1 H2) as [(K1 & K2 & _)|[[K _]|[K _]]]; [left; auto|right; left; eexists; exact K|right; left; eexists; exact K].
  Qed.
  Lemma failedE : forall s log o, ginv s log -> stF s log -> o = XLost \/ o = XFail (q_id q) -> stE (fst (sstep s o)) (log ++ snd (sstep s o)).
  Proof.
    intros s log o G [(H1 & H2)|H] Ho; [|apply keepE; auto].
    destruct (keep_pend s log o G H1 H2) as [(K1 & K2 & _ & _ & N1 & N2 & _)|[[K _]|[K _]]]; [destruct Ho; contradiction|left; eexists; exact K|left; eexists; exact K].
  Qed.

  Lemma along : forall (P : subst -> list subev -> Prop) (ok : subop -> Prop),
    (forall s log o, ginv s log -> P s log -> ok o -> P (fst (sstep s o)) (log ++ snd (sstep s o))) ->
    forall xs ys, (forall o, In o ys -> ok o) -> P (sst xs) (slog xs) -> P (sst (xs ++ ys)) (slog (xs ++ ys)).
  Proof.
    intros P ok K xs ys. induction ys as [|o ys IH] using rev_ind; intros H H0; [rewrite app_nil_r; exact H0|].
    rewrite app_assoc, sst_snoc, slog_snoc. apply K; [apply ginv_all| |apply H; apply in_or_app; right; left; reflexivity].
    apply IH; [|exact H0]. intros x Hx. apply H. apply in_or_app. auto.
  Qed.
  Lemma step_at : forall (P Q : subst -> list subev -> Prop) o,
    (forall s log, ginv s log -> P s log -> Q (fst (sstep s o)) (log ++ snd (sstep s o))) ->
    forall xs, P (sst xs) (slog xs) -> Q (sst (xs ++ [o])) (slog (xs ++ [o])).
  Proof. intros P Q o K xs H. rewrite sst_snoc, slog_snoc. apply K; [apply ginv_all|exact H]. Qed.

  Lemma resolves_at : forall xs y1 now y2 y3 y4, stA (sst xs) (slog xs) ->
    (forall o, In o (y1 ++ y2) -> o <> XLost /\ o <> XFail (q_id q)) ->
    In (VDone n true) (slog (xs ++ y1 ++ XServe (q_id q) now :: y2 ++ XReply (q_id q) :: y3 ++ XRun (q_id q) :: y4)).
  Proof.
    intros xs y1 now y2 y3 y4 H Ho.
    assert (A : stA (sst (xs ++ y1)) (slog (xs ++ y1))).
    { apply (along stA (fun o => o <> XLost /\ o <> XFail (q_id q))); [|intros o Hi; apply Ho; apply in_or_app; auto|exact H].
      intros s log o G Hs [N1 N2]. apply keepA; auto. }
    apply (step_at stA stB (XServe (q_id q) now)) in A; [|intros; apply servedB; auto].
    assert (B : stB (sst (((xs ++ y1) ++ [XServe (q_id q) now]) ++ y2)) (slog (((xs ++ y1) ++ [XServe (q_id q) now]) ++ y2))).
    { apply (along stB (fun o => o <> XLost /\ o <> XFail (q_id q))); [|intros o Hi; apply Ho; apply in_or_app; auto|exact A].
      intros s log o G Hs [N1 N2]. apply keepB; auto. }
    apply (step_at stB stC (XReply (q_id q))) in B; [|intros; apply repliedC; auto].
    apply (along stC (fun _ => True) (fun s log o G Hs _ => keepC s log o G Hs) _ y3) in B; [|auto].
    apply (step_at stC (fun _ log => In (VDone n true) log) (XRun (q_id q))) in B.
    - apply (along (fun _ log => In (VDone n true) log) (fun _ => True)) with (ys := y4) in B; [|intros; apply in_or_app; auto|auto].
      rewrite <- !app_assoc in B. exact B.
    - intros s log G [K|K]; apply in_or_app; [right; eapply run_done; eauto|left; auto].
  Qed.
  Lemma settles_at : forall xs y1 e y2 y3, stF (sst xs) (slog xs) -> e = XLost \/ e = XFail (q_id q) ->
    exists ok, In (VDone n ok) (slog (xs ++ y1 ++ e :: y2 ++ XRun (q_id q) :: y3)).
  Proof.
    intros xs y1 e y2 y3 H He.
    apply (along stF (fun _ => True) (fun s log o G Hs _ => keepF s log o G Hs) _ y1) in H; [|auto].
    apply (step_at stF stE e) in H; [|intros; apply failedE; auto].
    apply (along stE (fun _ => True) (fun s log o G Hs _ => keepE s log o G Hs) _ y2) in H; [|auto].
    apply (step_at stE (fun _ log => exists ok, In (VDone n ok) log) (XRun (q_id q))) in H.
    - apply (along (fun _ log => exists ok, In (VDone n ok) log) (fun _ => True)) with (ys := y3) in H;
        [|intros s log o _ [ok K] _; exists ok; apply in_or_app; auto|auto].
      rewrite <- !app_assoc in H. exact H.
    - intros s log G [[ok K]|[ok K]]; exists ok; apply in_or_app; [right; eapply run_done; eauto|left; auto].
  Qed.
End Request.

(** the request a call has written *)
Lemma call_sent : forall xs sub t r, let n := call_no xs in
  slog (xs ++ [the_call sub t]) = slog xs ++ [VCall n sub t; VSent r sub t] ->
  exists q, q_id q = r /\ k_call (q_kind q) = [n] /\ b_up (sst (xs ++ [the_call sub t])) <> None /\
    In q (b_pend (sst (xs ++ [the_call sub t]))) /\ In q (b_wire (sst (xs ++ [the_call sub t]))).
Proof.
  intros xs sub t r n. rewrite slog_snoc, sst_snoc. intro E. apply app_inv_head in E.
  destruct sub; cbn [the_call sstep] in *.
  - unfold do_sub in *. destruct (aget beqb t (b_h (sst xs))); [discriminate|]. unfold send1 in *. cbn [b_up with_h next_call] in *.
    destruct (b_up (sst xs)) eqn:Eu; [|discriminate]. cbn in E. injection E as E1 E2. eexists. split; [|split; [|split; [|split]]]; cycle 3.
    + cbn. apply in_or_app. right. left. reflexivity.
    + cbn. apply in_or_app. right. left. reflexivity.
    + exact E2.
    + cbn. f_equal. exact E1.
    + cbn. discriminate.
  - unfold do_unsub in *. destruct (aget beqb t (b_h (sst xs))); [|discriminate]. unfold send1 in *. cbn [b_up with_h next_call] in *.
    destruct (b_up (sst xs)) eqn:Eu; [|discriminate]. cbn in E. injection E as E1 E2. eexists. split; [|split; [|split; [|split]]]; cycle 3.
    + cbn. apply in_or_app. right. left. reflexivity.
    + cbn. apply in_or_app. right. left. reflexivity.
    + exact E2.
    + cbn. f_equal. exact E1.
    + cbn. discriminate.
Qed.
Lemma call_resolves : forall xs sub t r y1 now y2 y3 y4, let n := call_no xs in
  slog (xs ++ [the_call sub t]) = slog xs ++ [VCall n sub t; VSent r sub t] ->
  (forall o, In o (y1 ++ y2) -> o <> XLost /\ o <> XFail r) ->
  In (VDone n true) (slog (xs ++ the_call sub t :: y1 ++ XServe r now :: y2 ++ XReply r :: y3 ++ XRun r :: y4)).
Proof.
  intros xs sub t r y1 now y2 y3 y4 n E H. destruct (call_sent _ _ _ _ E) as (q & <- & Hq & Hu & Hp & Hw).
  change (the_call sub t :: ?l) with ([the_call sub t] ++ l). rewrite app_assoc. apply resolves_at; auto. left. auto.
Qed.
Lemma call_settles : forall xs sub t r y1 e y2 y3, let n := call_no xs in
  slog (xs ++ [the_call sub t]) = slog xs ++ [VCall n sub t; VSent r sub t] -> e = XLost \/ e = XFail r ->
  exists ok, In (VDone n ok) (slog (xs ++ the_call sub t :: y1 ++ e :: y2 ++ XRun r :: y3)).
Proof.
  intros xs sub t r y1 e y2 y3 n E H. destruct (call_sent _ _ _ _ E) as (q & <- & Hq & Hu & Hp & Hw).
  change (the_call sub t :: ?l) with ([the_call sub t] ++ l). rewrite app_assoc. apply settles_at; auto. left. auto.
Qed.

(** at most one settlement *)
Lemma dones_app : forall n a b, dones n (a ++ b) = dones n a + dones n b.
Proof. intros. unfold dones. rewrite filter_app, app_length. reflexivity. Qed.
Lemma dones_none : forall n l, (forall ok, ~ In (VDone n ok) l) -> dones n l = 0.
Proof.
  intros n l. induction l as [|e l IH]; cbn; intro H; [reflexivity|]. unfold dones in *. cbn. destruct e; try (apply IH; intros ok K; apply (H ok); auto).
  destruct (Nat.eqb n0 n) eqn:E; [|apply IH; intros ok' K; apply (H ok'); auto]. apply Nat.eqb_eq in E. subst. exfalso. apply (H ok). auto.
Qed.
Lemma settled_once : forall xs n, dones n (slog xs) <= 1.
Proof.
  intros xs n. induction xs as [|o xs IH] using rev_ind; [cbn; lia|]. rewrite slog_snoc, dones_app.
  pose proof (ginv_all xs) as G. set (s := sst xs) in *. set (log := slog xs) in *.
  assert (X : dones n (snd (sstep s o)) = 0 \/ (dones n (snd (sstep s o)) = 1 /\ forall ok, ~ In (VDone n ok) log)).
  { assert (F : forall m l, (m = n -> forall ok, ~ In (VDone n ok) log) -> (forall ok, ~ In (VDone n ok) l) -> forall ok,
        dones n (l ++ [VDone m ok]) = 0 \/ (dones n (l ++ [VDone m ok]) = 1 /\ forall ok, ~ In (VDone n ok) log)).
    { intros m l H1 H2 ok. rewrite dones_app, (dones_none n l H2). unfold dones. cbn. destruct (Nat.eqb m n) eqn:E; cbn; [right|left; reflexivity].
      apply Nat.eqb_eq in E. auto. }
    assert (Fresh : b_calls s = n -> forall ok, ~ In (VDone n ok) log).
    { intros <- ok K. apply (g_dones _ _ G) in K. lia. }
    assert (Snd : forall k t s', forall ok, ~ In (VDone n ok) (snd (send1 k t s'))).
    { intros k t s' ok. unfold send1. destruct (b_up s'); cbn; intuition discriminate. }
    destruct o as [t|t|r now|r|r|r| |c|t d|o]; cbn [sstep].
    - unfold do_sub. destruct (aget beqb t (b_h s)); [apply (F (b_calls s) [VCall (b_calls s) true t]); auto; cbn; intuition discriminate|].
      left. destruct (send1 _ _ _) as [s' l] eqn:E. cbn [snd]. apply dones_none. intros ok [K|K]; [discriminate|]. eapply Snd. rewrite E. exact K.
    - unfold do_unsub. destruct (aget beqb t (b_h s)); [|apply (F (b_calls s) [VCall (b_calls s) false t]); auto; cbn; intuition discriminate].
      left. destruct (send1 _ _ _) as [s' l] eqn:E. cbn [snd]. apply dones_none. intros ok [K|K]; [discriminate|]. eapply Snd. rewrite E. exact K.
    - left. destruct (b_up s); [|reflexivity]. destruct (q_find r (b_wire s)); reflexivity.
    - left. destruct (q_find r (b_pend s)); [|reflexivity]. destruct (existsb _ _); reflexivity.
    - left. destruct (q_find r (b_pend s)); reflexivity.
    - destruct (find _ (b_ready s)) as [[q ok]|] eqn:E; [|left; reflexivity].
      assert (Q : forall m, In m (k_call (q_kind q)) -> forall ok, ~ In (VDone m ok) log).
      { intros m Hm. apply find_some in E. destruct E as [E _]. apply (g_fly _ _ G q m); auto. apply in_or_app. right. apply in_map_iff. exists (q, ok). auto. }
      unfold run_cont. destruct (q_kind q); cbn [snd]; [apply (F n0 []); [intros ->; apply Q; left; reflexivity|cbn; tauto]|apply (F n0 []); [intros ->; apply Q; left; reflexivity|cbn; tauto]|left; reflexivity].
    - left. destruct (b_up s); reflexivity.
    - left. destruct (b_up s); [reflexivity|]. destruct (b_ready s); [|reflexivity].
      assert (R : forall ks s' l, dones n l = 0 -> dones n (snd (fold_left restore1 ks (s', l))) = 0).
      { intros ks. induction ks as [|k ks IH']; intros s' l H; [exact H|]. cbn [fold_left]. unfold restore1 at 2. cbn [fst snd].
        destruct (send1 KRestore k s') as [s2 l2] eqn:E2. apply IH'. rewrite dones_app, H. apply dones_none. intros ok K. apply (Snd KRestore k s' ok). rewrite E2. exact K. }
      unfold restore. specialize (R (restore_keys (b_h s)) (mkSub (Some c) (b_h s) [] [] [] [] (b_next s) (b_calls s) (b_srv s ++ [PConnect c])) [] eq_refl).
      destruct (fold_left _ _ _) as [s2 l2]. exact R.
    - left. destruct (b_up s); reflexivity.
    - left. destruct (foreign _ _); reflexivity. }
  destruct X as [->|[-> X]]; [lia|]. rewrite (dones_none n log X). lia.
Qed.
