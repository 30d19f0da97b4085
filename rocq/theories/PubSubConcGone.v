(** What stays of a client that left. *)
From Verif Require Import LibBase LibMap PubSubModel PubSubSpec PubSubTree PubSubProofs PubSubConcModel PubSubConcProofs.

Section P.
  Variables (ticks inst_max default_ttl : N).
  Notation exec1 := (exec1 ticks inst_max default_ttl).
  Notation xstep := (xstep ticks inst_max default_ttl).
  Notation xrun := (xrun ticks inst_max default_ttl).
  Variable c : N.

  (** * Nothing is queued to a closed connection *)
  Lemma exec_gone : forall i p s, In c (h_gone s) -> In c (h_gone (fst (exec1 i p s))) /\
    exists l, h_log (fst (exec1 i p s)) = h_log s ++ l /\ (forall x, In x l -> fst (snd x) <> c).
  Proof.
    intros i p s G. assert (N0 : exists l, h_log s = h_log s ++ l /\ (forall x : nat * (N * push), In x l -> fst (snd x) <> c)) by (exists []; rewrite app_nil_r; split; auto; intros x []).
    destruct p; cbn [PubSubConcModel.exec1]; auto.
    - cbn [fst h_gone h_log]. rewrite nins_In. auto.
    - destruct (regget c0 (h_cl s)); auto.
    - cbn [fst h_log h_gone]. split; auto. unfold queue_to. destruct (nmem c0 (h_gone s)) eqn:E; auto. eexists. split; [reflexivity|]. intros x H. apply in_map_iff in H. destruct H as [m [<- _]]. cbn. intros ->. apply nmem_false in E. auto.
    - destruct (regget c0 (h_cl s)); auto.
    - destruct (regget c0 (h_cl s)); auto.
    - destruct rt; auto. destruct data; auto. destruct (ret_new ticks inst_max now (n :: data) (eff_ttl default_ttl ttl)); auto.
    - destruct todo as [|c' todo]; auto. destruct (regget c' (h_cl s)); auto. destruct (nmem c' (h_gone s)) eqn:E; auto. cbn [fst h_log h_gone]. split; auto. eexists. split; [reflexivity|]. intros x [<-|[]]. cbn. intros ->. apply nmem_false in E. auto.
    - destruct zombies as [|c' z]; auto. destruct (regget c' (h_cl s)); auto.
  Qed.
  Lemma gone_quiet : forall evs s, In c (h_gone (x_sh s)) ->
    exists l, h_log (x_sh (xrun evs s)) = h_log (x_sh s) ++ l /\ forall x, In x l -> fst (snd x) <> c.
  Proof.
    induction evs as [|e evs IH]; intros s G; [exists []; rewrite app_nil_r; split; auto; intros x []|].
    assert (A : In c (h_gone (x_sh (xstep s e))) /\ exists l, h_log (x_sh (xstep s e)) = h_log (x_sh s) ++ l /\ (forall x, In x l -> fst (snd x) <> c)).
    { destruct e as [p|k]; cbn [PubSubConcModel.xstep]; [split; auto; exists []; rewrite app_nil_r; split; auto; intros x []|].
      destruct (nth_error (x_th s) k) as [p|]; [|split; auto; exists []; rewrite app_nil_r; split; auto; intros x []].
      pose proof (exec_gone k p (x_sh s) G) as X. destruct (exec1 k p (x_sh s)). exact X. }
    destruct A as [A1 [l1 [A2 A3]]]. destruct (IH _ A1) as [l2 [B1 B2]]. exists (l1 ++ l2). cbn [PubSubConcModel.xrun fold_left]. unfold PubSubConcModel.xrun in B1. rewrite B1, A2, app_assoc. split; auto.
    intros x Hx. apply in_app_iff in Hx. destruct Hx; auto.
  Qed.

  (** * Once unregistered with no subscribe in flight, nothing more is queued *)
  Definition away (p : pc) : Prop := match p with QConn c' => c' <> c | QSub1 c' _ _ => c' <> c | _ => True end.
  Lemma exec_away : forall i p s, regget c (h_cl s) = None -> away p ->
    regget c (h_cl (fst (exec1 i p s))) = None /\ away (snd (exec1 i p s)) /\ exists l, h_log (fst (exec1 i p s)) = h_log s ++ l /\ (forall x, In x l -> fst (snd x) <> c).
  Proof.
    intros i p s G A. assert (N0 : exists l, h_log s = h_log s ++ l /\ (forall x : nat * (N * push), In x l -> fst (snd x) <> c)) by (exists []; rewrite app_nil_r; split; auto; intros x []).
    destruct p; cbn [PubSubConcModel.exec1 fst snd away] in *; auto.
    - cbn [h_cl h_log]. rewrite regget_aset. destruct (c =? c0) eqn:E; [apply N.eqb_eq in E; congruence|]. auto.
    - destruct (regget c0 (h_cl s)) eqn:E; cbn [fst snd h_cl h_log away]; auto. rewrite regget_aset. assert (c0 <> c) by congruence. destruct (c =? c0) eqn:E2; [apply N.eqb_eq in E2; congruence|]. auto.
    - cbn [h_cl h_log]. split; auto. split; auto. unfold queue_to. destruct (nmem c0 (h_gone s)) eqn:E; auto. eexists. split; [reflexivity|]. intros x H. apply in_map_iff in H. destruct H as [m [<- _]]. auto.
    - destruct (regget c0 (h_cl s)) eqn:E; cbn [fst snd h_cl h_log]; auto. rewrite regget_aset. destruct (c =? c0) eqn:E2; [apply N.eqb_eq in E2; congruence|]. auto.
    - destruct (regget c0 (h_cl s)) eqn:E; cbn [fst snd h_cl h_log away]; auto. rewrite regget_adel. destruct (c =? c0); auto.
    - destruct rt; cbn [fst snd h_cl h_log away]; auto. destruct data; cbn [fst snd h_cl h_log away]; auto. destruct (ret_new ticks inst_max now (n :: data) (eff_ttl default_ttl ttl)); cbn [fst snd h_cl h_log away]; auto.
    - destruct todo as [|c' todo]; cbn [fst snd h_cl h_log away]; auto. destruct (regget c' (h_cl s)) eqn:E; cbn [fst snd h_cl h_log away]; auto. destruct (nmem c' (h_gone s)); cbn [fst snd h_cl h_log away]; auto. split; auto. split; auto. eexists. split; [reflexivity|]. intros x [<-|[]]. cbn. congruence.
    - destruct zombies as [|c' z]; cbn [fst snd h_cl h_log away]; auto. destruct (regget c' (h_cl s)) eqn:E; cbn [fst snd h_cl h_log away]; auto. rewrite regget_adel. destruct (c =? c'); auto.
  Qed.
  Lemma away_quiet : forall evs s, regget c (h_cl (x_sh s)) = None -> (forall p, In p (x_th s) -> away p) -> (forall p, In (XSpawn p) evs -> away p) ->
    exists l, h_log (x_sh (xrun evs s)) = h_log (x_sh s) ++ l /\ forall x, In x l -> fst (snd x) <> c.
  Proof.
    induction evs as [|e evs IH]; intros s G T He; [exists []; rewrite app_nil_r; split; auto; intros x []|].
    assert (A : regget c (h_cl (x_sh (xstep s e))) = None /\ (forall p, In p (x_th (xstep s e)) -> away p) /\ exists l, h_log (x_sh (xstep s e)) = h_log (x_sh s) ++ l /\ (forall x, In x l -> fst (snd x) <> c)).
    { assert (N0 : exists l, h_log (x_sh s) = h_log (x_sh s) ++ l /\ (forall x : nat * (N * push), In x l -> fst (snd x) <> c)) by (exists []; rewrite app_nil_r; split; auto; intros x []).
      destruct e as [p|k]; cbn [PubSubConcModel.xstep].
      - split; auto. split; auto. intros q Hq. apply in_app_iff in Hq. destruct Hq as [Hq|[<-|[]]]; auto. apply He. left; auto.
      - destruct (nth_error (x_th s) k) as [p|] eqn:Ek; auto. pose proof (exec_away k p (x_sh s) G (T p (nth_error_In _ _ Ek))) as X. destruct (exec1 k p (x_sh s)) as [sh p']. destruct X as [X1 [X2 X3]].
        cbn [x_sh x_th]. split; auto. split; auto. intros q Hq. apply In_nth_error in Hq. destruct Hq as [m Hm]. destruct (Nat.eq_dec k m) as [->|Hn].
        + rewrite (setn_same _ _ _ _ _ Ek) in Hm. injection Hm as <-. exact X2.
        + rewrite setn_other in Hm by auto. apply T. eapply nth_error_In; eauto. }
    destruct A as [A1 [A2 [l1 [A3 A4]]]]. destruct (IH _ A1 A2) as [l2 [B1 B2]]; [intros; apply He; right; auto|]. exists (l1 ++ l2). cbn [PubSubConcModel.xrun fold_left]. unfold PubSubConcModel.xrun in B1. rewrite B1, A3, app_assoc. split; auto.
    intros x Hx. apply in_app_iff in Hx. destruct Hx; auto.
  Qed.

  (** * Nothing of it stays in the tree, unless a subscribe was overtaken *)
  Definition pend (p : pc) (q : bytes) : Prop :=
    match p with QUnsub1 c' q' => c' = c /\ q' = q | QDisc1 c' ps => c' = c /\ In q ps | QPub4 c' ps _ => c' = c /\ In q ps | _ => False end.
  Definition Cov (s : xsys) : Prop := forall p, In c (subs_at p (h_tree (x_sh s))) -> exists q, reads q = trunc p /\
    ((exists ps, regget c (h_cl (x_sh s)) = Some ps /\ In q ps) \/ exists k y, nth_error (x_th s) k = Some y /\ pend y q).
  (** no disconnect or unsubscribe ran between the two sections of a subscribe *)
  Definition in_order (s : xsys) (e : xev) : Prop :=
    match e with
    | XSpawn p => p <> QConn c
    | XRun k => forall pat n, nth_error (x_th s) k = Some (QSub1 c pat n) -> exists ps, regget c (h_cl (x_sh s)) = Some ps /\ In pat ps
    end.
  Fixpoint orderly (evs : list xev) (s : xsys) : Prop :=
    match evs with [] => True | e :: r => in_order s e /\ orderly r (xstep s e) end.

  Lemma cov_step : forall s e, ~ In (QConn c) (x_th s) -> in_order s e -> Cov s -> Cov (xstep s e) /\ ~ In (QConn c) (x_th (xstep s e)).
  Proof.
    intros s [p|k] NC O H; cbn [PubSubConcModel.xstep].
    - cbn [in_order] in O. split.
      + intros q Hq. cbn [x_sh x_th] in *. destruct (H q Hq) as [q' [E [A|[k [y [A B]]]]]]; exists q'; split; auto. right. exists k, y. split; auto. rewrite nth_error_app1; auto. apply nth_error_Some. congruence.
      + cbn. rewrite in_app_iff. cbn. intuition.
    - destruct (nth_error (x_th s) k) as [p|] eqn:Ek; [|auto].
      assert (Other : forall sh p' q, (exists m y, nth_error (x_th s) m = Some y /\ pend y q) -> (pend p q -> pend p' q \/ exists ps, regget c (h_cl sh) = Some ps /\ In q ps) ->
        (exists ps, regget c (h_cl sh) = Some ps /\ In q ps) \/ exists m y, nth_error (setn k p' (x_th s)) m = Some y /\ pend y q).
      { intros sh p' q [m [y [A B]]] F. destruct (Nat.eq_dec k m) as [->|Hn].
        - rewrite Ek in A. injection A as <-. destruct (F B) as [F'|F']; auto. right. exists m, p'. split; auto. eapply setn_same; eauto.
        - right. exists m, y. split; auto. rewrite setn_other; auto. }
      assert (NC' : forall sh p', p' <> QConn c -> ~ In (QConn c) (x_th (mkX sh (setn k p' (x_th s))))).
      { intros sh p' Hp' Hq. cbn in Hq. apply In_nth_error in Hq. destruct Hq as [m Hm]. destruct (Nat.eq_dec k m) as [->|Hn].
        - rewrite (setn_same _ _ _ _ _ Ek) in Hm. congruence.
        - rewrite setn_other in Hm by auto. apply NC. eapply nth_error_In; eauto. }
      (* tree unchanged for c, registry entry of c unchanged *)
      assert (Same : forall sh p', (forall q, In c (subs_at q (h_tree sh)) -> In c (subs_at q (h_tree (x_sh s)))) -> regget c (h_cl sh) = regget c (h_cl (x_sh s)) -> (forall q, pend p q -> pend p' q) -> Cov (mkX sh (setn k p' (x_th s)))).
      { intros sh p' H1 H2 H3 q Hq. cbn [x_sh x_th] in *. destruct (H q (H1 q Hq)) as [q' [E [A|A]]]; exists q'; (split; [exact E|]); [rewrite H2; auto|apply Other; auto]. }
      destruct p as [c'|c'|n|c' p n|c' p n|c' p|c' p|c'|c' ps|t' d' rt ttl' n|t' d'|t' d' todo z|z|c' ps z|]; cbn [PubSubConcModel.exec1].
      + assert (c' <> c) by (intros ->; apply NC; eapply nth_error_In; eauto). split; [|apply NC'; discriminate]. apply Same; auto. cbn [h_cl]. rewrite regget_aset. destruct (c =? c') eqn:E; auto. apply N.eqb_eq in E. congruence.
      + split; [|apply NC'; discriminate]. apply Same; auto.
      + split; [|apply NC'; discriminate]. apply Same; auto. cbn [h_tree]. intro q. rewrite subs_at_cleanup. auto.
      + destruct (regget c' (h_cl (x_sh s))) as [ps|] eqn:E; (split; [|apply NC'; discriminate]); [|apply Same; auto].
        destruct (N.eq_dec c' c) as [->|Hn].
        * intros q Hq. cbn [x_sh x_th h_tree h_cl] in *. destruct (H q Hq) as [q' [E' [[ps' [A B]]|A]]]; exists q'; (split; [exact E'|]).
          -- left. rewrite regget_aset, N.eqb_refl. eexists. split; [reflexivity|]. rewrite bins_In. rewrite E in A. injection A as <-. auto.
          -- apply (Other (mkSh (h_tree (x_sh s)) (aset N.eqb c (bins p ps) (h_cl (x_sh s))) (h_gone (x_sh s)) (h_log (x_sh s)))); auto. 
        * apply Same; auto. cbn [h_cl]. rewrite regget_aset. destruct (c =? c') eqn:E2; auto. apply N.eqb_eq in E2. congruence.
      + split; [|apply NC'; discriminate]. intros q Hq. cbn [x_sh x_th h_tree h_cl] in *. rewrite subs_at_insert in Hq. destruct Hq as [Hq|[<- Hq]].
        * destruct (H q Hq) as [q' [E' [A|A]]]; exists q'; (split; [exact E'|]); [left; exact A|]. apply (Other (x_sh s)); auto. 
        * destruct (O p n Ek) as [ps [A B]]. exists p. split; auto. left. eauto.
      + split; [|apply NC'; discriminate]. destruct (regget c' (h_cl (x_sh s))) as [ps|] eqn:E; [|apply Same; auto; cbn; tauto].
        destruct (N.eq_dec c' c) as [->|Hn].
        * intros q Hq. cbn [x_sh x_th h_tree h_cl] in *. destruct (H q Hq) as [q' [E' [[ps' [A B]]|A]]]; exists q'; (split; [exact E'|]).
          -- rewrite E in A. injection A as <-. destruct (list_eq_dec N.eq_dec q' p) as [->|Hp].
             ++ right. exists k, (QUnsub1 c p). split; [eapply setn_same; eauto|cbn; auto].
             ++ left. rewrite regget_aset, N.eqb_refl. eexists. split; [reflexivity|]. rewrite brem_In. auto.
          -- apply (Other (mkSh (h_tree (x_sh s)) (aset N.eqb c (brem p ps) (h_cl (x_sh s))) (h_gone (x_sh s)) (h_log (x_sh s)))); auto. cbn. tauto.
        * apply Same; auto; [|cbn; tauto]. cbn [h_cl]. rewrite regget_aset. destruct (c =? c') eqn:E2; auto. apply N.eqb_eq in E2. congruence.
      + split; [|apply NC'; discriminate]. fold (rem (split p) c' (h_tree (x_sh s))). intros q Hq. cbn [x_sh x_th h_tree h_cl] in *. apply subs_at_rem in Hq. destruct Hq as [Hq Hn].
        destruct (H q Hq) as [q' [E' [A|A]]]; exists q'; (split; [exact E'|]); [left; exact A|]. apply (Other (x_sh s)); auto. cbn. intros [-> ->]. destruct Hn. auto.
      + destruct (regget c' (h_cl (x_sh s))) as [ps|] eqn:E; (split; [|apply NC'; discriminate]); [|apply Same; auto; cbn; tauto].
        destruct (N.eq_dec c' c) as [->|Hn].
        * intros q Hq. cbn [x_sh x_th h_tree h_cl] in *. destruct (H q Hq) as [q' [E' [[ps' [A B]]|A]]]; exists q'; (split; [exact E'|]).
          -- rewrite E in A. injection A as <-. right. exists k, (QDisc1 c ps). split; [eapply setn_same; eauto|cbn; auto].
          -- apply (Other (mkSh (h_tree (x_sh s)) (adel N.eqb c (h_cl (x_sh s))) (h_gone (x_sh s)) (h_log (x_sh s)))); auto. cbn. tauto.
        * apply Same; auto; [|cbn; tauto]. cbn [h_cl]. rewrite regget_adel. destruct (c =? c') eqn:E2; auto. apply N.eqb_eq in E2. congruence.
      + split; [|apply NC'; discriminate]. intros q Hq. cbn [x_sh x_th h_tree h_cl] in *. apply unsub_all_subs in Hq. destruct Hq as [Hq Hn].
        destruct (H q Hq) as [q' [E' [A|A]]]; exists q'; (split; [exact E'|]); [left; exact A|]. apply (Other (x_sh s)); auto. cbn. intros [-> B]. destruct Hn. split; eauto.
      + destruct rt; [|split; [|apply NC'; discriminate]; apply Same; auto]. destruct d' as [|b d']; [|destruct (ret_new ticks inst_max n (b :: d') (eff_ttl default_ttl ttl'))]; (split; [|apply NC'; discriminate]); apply Same; auto; cbn [h_tree]; intro q; rewrite subs_at_set; auto.
      + split; [|apply NC'; discriminate]. apply Same; auto; cbn; tauto.
      + destruct todo as [|c' todo]; [|destruct (regget c' (h_cl (x_sh s))); [destruct (nmem c' (h_gone (x_sh s)))|]]; (split; [|apply NC'; discriminate]); apply Same; auto; cbn; tauto.
      + destruct z as [|c' z]; [split; [|apply NC'; discriminate]; apply Same; auto; cbn; tauto|].
        destruct (regget c' (h_cl (x_sh s))) as [ps|] eqn:E; (split; [|apply NC'; discriminate]); [|apply Same; auto; cbn; tauto].
        destruct (N.eq_dec c' c) as [->|Hn].
        * intros q Hq. cbn [x_sh x_th h_tree h_cl] in *. destruct (H q Hq) as [q' [E' [[ps' [A B]]|A]]]; exists q'; (split; [exact E'|]).
          -- rewrite E in A. injection A as <-. right. exists k, (QPub4 c ps z). split; [eapply setn_same; eauto|cbn; auto].
          -- apply (Other (mkSh (h_tree (x_sh s)) (adel N.eqb c (h_cl (x_sh s))) (h_gone (x_sh s)) (h_log (x_sh s)))); auto. cbn. tauto.
        * apply Same; auto; [|cbn; tauto]. cbn [h_cl]. rewrite regget_adel. destruct (c =? c') eqn:E2; auto. apply N.eqb_eq in E2. congruence.
      + split; [|apply NC'; discriminate]. intros q Hq. cbn [x_sh x_th h_tree h_cl] in *. apply unsub_all_subs in Hq. destruct Hq as [Hq Hn].
        destruct (H q Hq) as [q' [E' [A|A]]]; exists q'; (split; [exact E'|]); [left; exact A|]. apply (Other (x_sh s)); auto. cbn. intros [-> B]. destruct Hn. split; eauto.
      + split; [|apply NC'; discriminate]. apply Same; auto.
  Qed.
  Lemma cov_run : forall evs s, ~ In (QConn c) (x_th s) -> orderly evs s -> Cov s -> Cov (xrun evs s).
  Proof.
    induction evs as [|e evs IH]; intros s NC O H; auto. destruct O as [O1 O2]. destruct (cov_step s e NC O1 H) as [A B]. cbn. apply IH; auto.
  Qed.
  Lemma left_clean : forall evs s, ~ In (QConn c) (x_th s) -> orderly evs s -> (forall p, ~ In c (subs_at p (h_tree (x_sh s)))) ->
    let s' := xrun evs s in regget c (h_cl (x_sh s')) = None -> (forall p, In p (x_th s') -> p = QDone) -> forall p, ~ In c (subs_at p (h_tree (x_sh s'))).
  Proof.
    intros evs s NC O H0 s' Hr Hd p Hp. assert (C : Cov s) by (intros q Hq; destruct (H0 q Hq)). destruct (cov_run evs s NC O C p Hp) as [q [E [[ps [A _]]|[k [y [A B]]]]]].
    - unfold s' in Hr. congruence.
    - apply nth_error_In in A. apply Hd in A. subst y. destruct B.
  Qed.
End P.
