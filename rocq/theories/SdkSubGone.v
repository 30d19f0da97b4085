(** A confirmed unsubscription: the handler never runs again, and the broker has
    dropped the subscription. *)
From Coq Require Import Permutation.
From Verif Require Import LibBase LibMap PubSubModel PubSubSpec PubSubProofs SdkDispatch SdkSubModel SdkSubSpec SdkSubProofs SdkSubKept.
Local Open Scope nat_scope.

(** ** the handler *)
Lemma no_handler_step : forall s o t, aget beqb t (b_h s) = None -> o <> XSub t -> aget beqb t (b_h (fst (sstep s o))) = None.
Proof.
  intros s o t Ha Ho.
  assert (Hdel : forall t', aget beqb t (h_del t' (b_h s)) = None).
  { intro t'. apply (aget_None_notin beqb beqb_eq). unfold h_del. rewrite (akeys_adel_in beqb beqb_eq). apply (aget_None_notin beqb beqb_eq) in Ha. tauto. }
  destruct o as [t'|t'|r now|r|r|r| |c|t' d|o]; cbn [sstep].
  - unfold do_sub. destruct (aget beqb t' (b_h s)) eqn:E; [exact Ha|].
    assert (K : aget beqb t (b_h s ++ [(t', b_calls s)]) = None).
    { rewrite (aget_app beqb), Ha. cbn. destruct (beqb t t') eqn:E2; [|reflexivity]. apply beqb_eq in E2. congruence. }
    unfold send1. cbn. destruct (b_up s); exact K.
  - unfold do_unsub. destruct (aget beqb t' (b_h s)) eqn:E; [|exact Ha]. unfold send1. cbn. destruct (b_up s); exact Ha.
  - destruct (b_up s); [|exact Ha]. destruct (q_find r (b_wire s)); exact Ha.
  - destruct (q_find r (b_pend s)); [|exact Ha]. destruct (existsb (Nat.eqb r) (b_served s)); exact Ha.
  - destruct (q_find r (b_pend s)); exact Ha.
  - destruct (find (fun y => Nat.eqb (q_id (fst y)) r) (b_ready s)) as [[q ok]|]; [|exact Ha]. unfold run_cont. destruct (q_kind q), ok; cbn; auto.
  - destruct (b_up s); exact Ha.
  - destruct (b_up s) eqn:Eu; [exact Ha|]. destruct (b_ready s) eqn:Er; [|exact Ha].
    pose proof (up_facts s c Eu Er) as U. cbv zeta in U. cbn [sstep] in U. rewrite Eu, Er in U. destruct U as (_ & U & _). rewrite U. exact Ha.
  - destruct (b_up s); exact Ha.
  - destruct (foreign (b_up s) o); exact Ha.
Qed.
(** the step at which an unsubscribe is confirmed removes the handler *)
Lemma unsub_done : forall s log o n t, ginv s log -> In (VCall n false t) (log ++ snd (sstep s o)) ->
  ~ In (VDone n true) log -> In (VDone n true) (log ++ snd (sstep s o)) -> aget beqb t (b_h (fst (sstep s o))) = None.
Proof.
  intros s log o n t G Hc Hn Hd. pose proof (ginv_step s log o G) as G'.
  apply in_app_or in Hd. destruct Hd as [Hd|Hd]; [contradiction|].
  destruct o as [t'|t'|r now|r|r|r| |c|t' d|o]; cbn [sstep] in *.
  - exfalso. unfold do_sub in Hd. destruct (aget beqb t' (b_h s)); [cbn in Hd; intuition discriminate|]. unfold send1 in Hd. cbn in Hd. destruct (b_up s); cbn in Hd; intuition discriminate.
  - unfold do_unsub in *. destruct (aget beqb t' (b_h s)) eqn:E.
    + exfalso. unfold send1 in Hd. cbn in Hd. destruct (b_up s); cbn in Hd; intuition discriminate.
    + cbn [fst snd] in *. destruct Hd as [Hd|[Hd|[]]]; [discriminate|]. injection Hd as Hd. subst n.
      assert (H : In (VCall (b_calls s) false t') (log ++ [VCall (b_calls s) false t'; VDone (b_calls s) true])) by (apply in_or_app; right; left; reflexivity).
      destruct (g_one _ _ G' _ _ _ _ _ Hc H) as [_ ->]. exact E.
  - exfalso. destruct (b_up s); [|exact Hd]. destruct (q_find r (b_wire s)); cbn in Hd; intuition discriminate.
  - exfalso. destruct (q_find r (b_pend s)); [|exact Hd]. destruct (existsb (Nat.eqb r) (b_served s)); exact Hd.
  - exfalso. destruct (q_find r (b_pend s)); exact Hd.
  - destruct (find (fun y => Nat.eqb (q_id (fst y)) r) (b_ready s)) as [[q ok]|] eqn:Ef; [|destruct Hd].
    assert (Hq : In q (fly s)).
    { unfold fly. apply in_or_app. right. apply in_map_iff. exists (q, ok). split; [reflexivity|]. eapply find_ready; eauto. }
    unfold run_cont in *. destruct (q_kind q) as [m|m|] eqn:Ek; cbn [fst snd] in *; [| |destruct Hd].
    + exfalso. destruct Hd as [Hd|[]]. injection Hd as -> _. destruct (g_fly _ _ G q n Hq) as [A _]; [rewrite Ek; left; reflexivity|].
      apply in_app_or in Hc. destruct Hc as [Hc|[Hc|[]]]; [|discriminate]. destruct (g_one _ _ G _ _ _ _ _ Hc A) as [E _]. rewrite Ek in E. discriminate.
    + destruct Hd as [Hd|[]]. injection Hd as -> ->. destruct (g_fly _ _ G q n Hq) as [A _]; [rewrite Ek; left; reflexivity|].
      apply in_app_or in Hc. destruct Hc as [Hc|[Hc|[]]]; [|discriminate]. destruct (g_one _ _ G _ _ _ _ _ Hc A) as [_ ->].
      cbn. apply (aget_adel_same beqb).
  - exfalso. destruct (b_up s); cbn in Hd; intuition discriminate.
  - exfalso. destruct (b_up s) eqn:Eu; [exact Hd|]. destruct (b_ready s) eqn:Er; [|exact Hd].
    pose proof (up_facts s c Eu Er) as U. cbv zeta in U. cbn [sstep] in U. rewrite Eu, Er in U.
    destruct U as (_ & _ & _ & _ & _ & _ & _ & _ & l' & U1 & _ & U2 & _). rewrite U1 in Hd. destruct Hd as [Hd|Hd]; [discriminate|exact (U2 _ _ Hd)].
  - exfalso. destruct (b_up s); cbn in Hd; intuition discriminate.
  - exfalso. destruct (foreign (b_up s) o); exact Hd.
Qed.
Lemma silent : forall xs o ys n t, In (VCall n false t) (slog (xs ++ [o])) -> ~ In (VDone n true) (slog xs) -> In (VDone n true) (slog (xs ++ [o])) ->
  ~ In (XSub t) ys -> forall tau d, let zs := xs ++ o :: ys in
  up_as (slog zs) <> None -> exists ns, slog (zs ++ [XPush tau d]) = slog zs ++ [VHandled tau d ns] /\
    forall m, In m ns -> ~ In (VCall m true t) (slog zs).
Proof.
  intros xs o ys n t Hc Hn Hd Hy tau d zs Hu. pose proof (ginv_all zs) as G.
  assert (Ha : aget beqb t (b_h (sst zs)) = None).
  { unfold zs. change (o :: ys) with ([o] ++ ys). rewrite app_assoc. clear G Hu zs.
    induction ys as [|p ys IH] using rev_ind.
    - rewrite app_nil_r, sst_snoc. rewrite slog_snoc in Hc, Hd. apply (unsub_done (sst xs) (slog xs) o n t (ginv_all xs)); auto.
    - rewrite app_assoc, sst_snoc. apply no_handler_step.
      + apply IH. intro H. apply Hy. apply in_or_app. auto.
      + intros ->. apply Hy. apply in_or_app. right. left. reflexivity. }
  rewrite slog_snoc. cbn [sstep]. rewrite (g_up _ _ G) in Hu. destruct (b_up (sst zs)) as [c|] eqn:Eu; [|congruence]. cbn [snd].
  exists (ran (sst zs) tau). split; [reflexivity|]. intros m Hm Hc'. apply (ran_in _ (slog zs)) in Hm; [|exact G].
  destruct Hm as (t' & H1 & H2 & H3). destruct (g_one _ _ G _ _ _ _ _ Hc' H3) as [_ ->]. congruence.
Qed.

(** ** the broker *)
Lemma srv_step : forall s o, exists l, b_srv (fst (sstep s o)) = b_srv s ++ l.
Proof.
  intros s o. assert (H0 : exists l, b_srv s = b_srv s ++ l) by (exists []; rewrite app_nil_r; reflexivity).
  destruct o as [t'|t'|r now|r|r|r| |c|t' d|o]; cbn [sstep].
  - unfold do_sub. destruct (aget beqb t' (b_h s)); [exact H0|]. unfold send1. cbn. destruct (b_up s); exact H0.
  - unfold do_unsub. destruct (aget beqb t' (b_h s)); [|exact H0]. unfold send1. cbn. destruct (b_up s); exact H0.
  - destruct (b_up s); [|exact H0]. destruct (q_find r (b_wire s)); [|exact H0]. cbn. eauto.
  - destruct (q_find r (b_pend s)); [|exact H0]. destruct (existsb (Nat.eqb r) (b_served s)); exact H0.
  - destruct (q_find r (b_pend s)); exact H0.
  - destruct (find (fun y => Nat.eqb (q_id (fst y)) r) (b_ready s)) as [[q ok]|]; [|exact H0]. unfold run_cont. destruct (q_kind q), ok; exact H0.
  - destruct (b_up s); exact H0.
  - destruct (b_up s) eqn:Eu; [exact H0|]. destruct (b_ready s) eqn:Er; [|exact H0].
    pose proof (up_facts s c Eu Er) as U. cbv zeta in U. cbn [sstep] in U. rewrite Eu, Er in U. destruct U as (_ & _ & U & _). rewrite U. eauto.
  - destruct (b_up s); exact H0.
  - destruct (foreign (b_up s) o); [cbn; eauto|exact H0].
Qed.
Lemma fresh_prefix : forall h l, fresh_clients (h ++ l) -> fresh_clients h.
Proof. intros h l H. unfold fresh_clients, connects in *. rewrite flat_map_app in H. apply NoDup_app_iff in H. apply H. Qed.

Section Gone.
  Variables (n : nat) (t : bytes).
  Definition nohold (s : subst) : Prop := forall c, b_up s = Some c -> ~ holds c (reads t) (b_srv s).
  Record ebb (s : subst) : Prop := mkEbb {
    e_keys : forall t', In t' (map fst (b_h s)) -> reads t' = reads t -> t' = t;
    e_wire : forall q, In q (b_wire s) -> is_unsub (q_kind q) = false -> reads (q_topic q) <> reads t }.
  Definition leaving (s : subst) (q : ureq) : Prop :=
    q_kind q = KUnsub n /\ q_topic q = t /\
    ((In q (b_pend s) /\ (In q (b_wire s) \/ (~ In (q_id q) (map q_id (b_wire s)) /\ nohold s))) \/
     (In (q, true) (b_ready s) /\ nohold s) \/ In (q, false) (b_ready s)).
  Definition phase2 (s : subst) (log : list subev) : Prop :=
    n < b_calls s /\
    ((In (VDone n false) log /\ ~ In (VDone n true) log) \/
     (ebb s /\ In (VDone n true) log /\ nohold s /\ ~ In t (map fst (b_h s))) \/
     (ebb s /\ ~ In (VDone n true) log /\ exists q, leaving s q)).

  Lemma phase2_more : forall s log s' l, phase2 s log -> b_calls s <= b_calls s' ->
    (forall m ok, In (VDone m ok) l -> m <> n) -> (ebb s -> ebb s') -> (nohold s -> nohold s') ->
    (~ In t (map fst (b_h s)) -> ~ In t (map fst (b_h s'))) ->
    (forall q, leaving s q -> leaving s' q) -> phase2 s' (log ++ l).
  Proof.
    intros s log s' l [Hn P] Hc Hd He Hh Ht Hl. split; [lia|].
    assert (D : forall ok, In (VDone n ok) (log ++ l) -> In (VDone n ok) log).
    { intros ok H. apply in_app_or in H. destruct H as [H|H]; [exact H|]. apply Hd in H. congruence. }
    destruct P as [[P1 P2]|[(P1 & P2 & P3 & P4)|(P1 & P2 & q & P3)]].
    - left. split; [apply in_or_app; left; exact P1|]. intro H. apply P2. auto.
    - right. left. split; [auto|]. split; [apply in_or_app; left; exact P2|]. split; auto.
    - right. right. split; [auto|]. split; [intro H; apply P2; auto|]. exists q. auto.
  Qed.
  (** only new requests, handlers and log *)
  Lemma phase2_send : forall s log k t' s0 l0, ginv s0 log -> phase2 s0 log ->
    b_pend s = b_pend s0 -> b_ready s = b_ready s0 -> b_next s = b_next s0 -> b_up s = b_up s0 -> b_wire s = b_wire s0 -> b_srv s = b_srv s0 ->
    b_calls s0 <= b_calls s -> (forall m ok, ~ In (VDone m ok) l0) ->
    (forall x, In x (map fst (b_h s)) -> In x (map fst (b_h s0)) \/ reads x <> reads t) ->
    (is_unsub k = false -> reads t' <> reads t) ->
    phase2 (fst (send1 k t' s)) (log ++ l0 ++ snd (send1 k t' s)).
  Proof.
    intros s log k t' s0 l0 G P E1 E2 En E3 E4 E5 E6 D0 Hh Hk.
    destruct (b_up s) as [c|] eqn:Eu.
    - rewrite (send_up k t' s c Eu). cbn [fst snd]. set (q := mkUreq (b_next s) k t'). set (s' := mkSub _ _ _ _ _ _ _ _ _).
      assert (Hno : nohold s0 -> nohold s') by (intros H c' Hc; unfold s' in *; cbn in *; rewrite E5; apply H; congruence).
      apply (phase2_more s0); auto.
      + intros m ok H. apply in_app_or in H. destruct H as [H|[H|[]]]; [destruct (D0 _ _ H)|discriminate].
      + intros [K1 K2]. constructor; unfold s'; cbn.
        * intros x Hx Hr. destruct (Hh x Hx); [auto|congruence].
        * intros x Hx. apply in_app_or in Hx. rewrite E4 in Hx. destruct Hx as [Hx|[<-|[]]]; [auto|exact Hk].
      + intros H Hx. destruct (Hh t Hx); [auto|congruence].
      + intros x (L1 & L2 & L3). split; [exact L1|]. split; [exact L2|]. unfold s' at 1 2 3 5 6. cbn. rewrite E1, E2, E4.
        destruct L3 as [[L3 L4]|[[L3 L4]|L3]]; auto. left. split; [apply in_or_app; auto|].
        destruct L4 as [L4|[L4 L5]]; [left; apply in_or_app; auto|]. right. split; [|auto]. rewrite map_app. intro H. apply in_app_or in H.
        destruct H as [H|[H|[]]]; [auto|]. cbn in H. assert (Hlt : q_id x < b_next s0) by (apply (g_lt _ _ G); left; unfold fly; apply in_or_app; auto). lia.
    - rewrite (send_down k t' s Eu). cbn [fst snd]. rewrite app_nil_r. set (q := mkUreq (b_next s) k t'). set (s' := mkSub _ _ _ _ _ _ _ _ _).
      assert (Hno : nohold s0 -> nohold s') by (intros H c' Hc; unfold s' in *; cbn in *; discriminate).
      apply (phase2_more s0); auto.
      + intros m ok H. destruct (D0 _ _ H).
      + intros [K1 K2]. constructor; unfold s'; cbn.
        * intros x Hx Hr. destruct (Hh x Hx); [auto|congruence].
        * rewrite E4. exact K2.
      + intros H Hx. destruct (Hh t Hx); [auto|congruence].
      + intros x (L1 & L2 & L3). split; [exact L1|]. split; [exact L2|]. unfold s' at 1 2 3 5 6. cbn. rewrite E1, E2, E4.
        destruct L3 as [[L3 L4]|[[L3 L4]|L3]].
        * left. split; [exact L3|]. destruct L4 as [L4|[L4 L5]]; auto.
        * right. left. split; [apply in_or_app; auto|auto].
        * right. right. apply in_or_app; auto.
  Qed.
  Lemma nohold_serve : forall c h o, ~ holds c (reads t) h ->
    match o with PSub c' p _ => c' = c -> reads p <> reads t | _ => True end -> ~ holds c (reads t) (h ++ [o]).
  Proof. intros c h o H Ho. rewrite holds_snoc. destruct o; cbn in *; tauto. Qed.

  Lemma phase2_step : forall s log o, ginv s log -> phase2 s log -> (forall t', o = XSub t' -> reads t' <> reads t) ->
    fresh_clients (b_srv (fst (sstep s o))) ->
    phase2 (fst (sstep s o)) (log ++ snd (sstep s o)).
  Proof.
    intros s log o G P Ho Hfr.
    assert (Hstay : phase2 (fst (s, @nil subev)) (log ++ snd (s, @nil subev))) by (cbn; rewrite app_nil_r; exact P).
    assert (Hn : n < b_calls s) by apply P.
    assert (Hdone : forall b t' ok, phase2 (next_call s) (log ++ [VCall (b_calls s) b t'; VDone (b_calls s) ok])).
    { intros b t' ok. apply (phase2_more s); auto.
      - cbn; lia.
      - intros m ok' [H|[H|[]]]; [discriminate|]. injection H as <- _. lia.
      - intros [K1 K2]. constructor; auto. }
    destruct o as [t'|t'|r now|r|r|r| |c|t' d|o]; cbn [sstep] in *.
    - unfold do_sub. destruct (aget beqb t' (b_h s)) eqn:Ea; [cbn [fst snd]; apply Hdone|].
      match goal with |- context [send1 ?k ?t ?x] => pose proof (phase2_send x log k t s [VCall (b_calls s) true t'] G P) as H;
        destruct (send1 k t x) as [s' l] end. cbn [fst snd] in *.
      apply H; auto.
      + cbn. lia.
      + intros m ok [K|[]]; discriminate.
      + cbn. intros x Hx. rewrite map_app in Hx. apply in_app_or in Hx. destruct Hx as [Hx|[<-|[]]]; [auto|right; apply Ho; reflexivity].
    - unfold do_unsub. destruct (aget beqb t' (b_h s)) eqn:Ea; [|cbn [fst snd]; apply Hdone].
      match goal with |- context [send1 ?k ?t ?x] => pose proof (phase2_send x log k t s [VCall (b_calls s) false t'] G P) as H;
        destruct (send1 k t x) as [s' l] end. cbn [fst snd] in *.
      apply H; auto.
      + cbn. lia.
      + intros m ok [K|[]]; discriminate.
      + discriminate.
    - destruct (b_up s) as [c|] eqn:Eu; [|exact Hstay]. destruct (q_find r (b_wire s)) as [q|] eqn:Ef; [|exact Hstay].
      cbn [fst snd]. destruct (find_pend _ _ _ Ef) as [Hq Hr].
      destruct P as [_ P]. split; [exact Hn|].
      assert (D : forall ok, In (VDone n ok) (log ++ [VServed r]) -> In (VDone n ok) log).
      { intros ok H. apply in_app_or in H. destruct H as [H|[H|[]]]; [exact H|discriminate]. }
      set (s' := mkSub _ _ _ _ _ _ _ _ _).
      assert (He : ebb s -> ebb s').
      { intros [K1 K2]. constructor; unfold s'; cbn; auto. intros x Hx. apply K2. unfold q_del in Hx. apply filter_In in Hx. apply Hx. }
      assert (Hno : ebb s -> nohold s -> nohold s').
      { intros K H c' Hc. unfold s' in *. cbn in *. injection Hc as <-. apply nohold_serve; [apply H; exact Eu|].
        destruct (is_unsub (q_kind q)) eqn:Ek; [exact I|]. intros _. apply (e_wire _ K); auto. }
      destruct P as [[P1 P2]|[(P1 & P2 & P3 & P4)|(P1 & P2 & q' & L1 & L2 & L3)]].
      + left. split; [apply in_or_app; left; exact P1|]. intro H. apply P2. auto.
      + right. left. split; [auto|]. split; [apply in_or_app; left; exact P2|]. split; auto.
      + right. right. split; [auto|]. split; [intro H; apply P2; auto|]. exists q'. split; [exact L1|]. split; [exact L2|].
        destruct L3 as [[L3 L4]|[[L3 L4]|L3]]; [left|right; left; split; [exact L3|auto]|right; right; exact L3].
        split; [exact L3|]. unfold s' at 1 2. cbn. destruct L4 as [L4|[L4 L5]].
        * destruct (Nat.eq_dec (q_id q') r) as [Er|Hne].
          -- right. split.
             ++ intro H. apply in_map_iff in H. destruct H as (x & Ex & Hx). unfold q_del in Hx. apply filter_In in Hx. destruct Hx as [_ Hx].
                apply negb_true_iff, Nat.eqb_neq in Hx. congruence.
             ++ assert (q' = q) by (apply (NoDup_map_inv' q_id (b_wire s)); [apply G|exact L4|exact Hq|congruence]). subst q'.
                intros c' Hc. unfold s' in *. cbn in *. injection Hc as <-. rewrite L1. cbn. rewrite L2, holds_snoc. cbn. intros [_ H]. apply H. auto.
          -- left. unfold q_del. apply filter_In. split; [exact L4|]. apply negb_true_iff, Nat.eqb_neq. exact Hne.
        * right. split; [|auto]. intro H. apply L4. apply in_map_iff in H. destruct H as (x & Ex & Hx). rewrite <- Ex. apply in_map. unfold q_del in Hx. apply filter_In in Hx. apply Hx.
    - destruct (q_find r (b_pend s)) as [q|] eqn:Ef; [|exact Hstay]. destruct (existsb (Nat.eqb r) (b_served s)) eqn:Esv; [|exact Hstay].
      cbn [fst snd]. destruct (find_pend _ _ _ Ef) as [Hq Hr]. apply (phase2_more s); auto.
      + intros [K1 K2]. constructor; auto.
      + intros x (L1 & L2 & L3). split; [exact L1|]. split; [exact L2|]. cbn [b_pend b_ready b_wire].
        destruct L3 as [[L3 L4]|[[L3 L4]|L3]].
        * destruct (Nat.eq_dec (q_id x) r) as [Er|Hne].
          -- assert (x = q) by (apply (NoDup_map_inv' q_id (b_pend s)); [apply (g_pids _ _ G)|exact L3|exact Hq|congruence]). subst x.
             right. left. split; [apply in_or_app; right; left; reflexivity|]. destruct L4 as [L4|[_ L4]]; [|exact L4].
             exfalso. apply existsb_exists in Esv. destruct Esv as (r' & Hs & Er'). apply Nat.eqb_eq in Er'. subst r'.
             destruct (g_disj s log G q L4). rewrite Hr. exact Hs.
          -- left. split; [|exact L4]. unfold q_del. apply filter_In. split; [exact L3|]. apply negb_true_iff, Nat.eqb_neq. exact Hne.
        * right. left. split; [apply in_or_app; auto|exact L4].
        * right. right. apply in_or_app; auto.
    - destruct (q_find r (b_pend s)) as [q|] eqn:Ef; [|exact Hstay].
      cbn [fst snd]. destruct (find_pend _ _ _ Ef) as [Hq Hr]. apply (phase2_more s); auto.
      + intros [K1 K2]. constructor; auto.
      + intros x (L1 & L2 & L3). split; [exact L1|]. split; [exact L2|]. cbn [b_pend b_ready b_wire].
        destruct L3 as [[L3 L4]|[[L3 L4]|L3]].
        * destruct (Nat.eq_dec (q_id x) r) as [Er|Hne].
          -- assert (x = q) by (apply (NoDup_map_inv' q_id (b_pend s)); [apply (g_pids _ _ G)|exact L3|exact Hq|congruence]). subst x.
             right. right. apply in_or_app; right; left; reflexivity.
          -- left. split; [|exact L4]. unfold q_del. apply filter_In. split; [exact L3|]. apply negb_true_iff, Nat.eqb_neq. exact Hne.
        * right. left. split; [apply in_or_app; auto|exact L4].
        * right. right. apply in_or_app; auto.
    - destruct (find (fun y => Nat.eqb (q_id (fst y)) r) (b_ready s)) as [[q ok]|] eqn:Ef; [|exact Hstay].
      set (s1 := with_ready _ s).
      destruct (y_split r _ _ Ef (g_rids _ _ G)) as (a & b & E1 & E2 & E3). cbn [fst] in E2.
      assert (Hq : In q (fly s)) by (unfold fly; rewrite E1, map_app; apply in_or_app; right; apply in_or_app; right; left; reflexivity).
      assert (Hsub : forall h x, In x (map fst (b_h (with_h (h_del h (b_h s1)) s1))) -> In x (map fst (b_h s))).
      { intros h x Hx. cbn in Hx. apply (akeys_adel_in beqb beqb_eq) in Hx. apply Hx. }
      (* the phase after the continuation of another call *)
      assert (Hoth : forall s2 l, (s2 = s1 \/ s2 = with_h (h_del (q_topic q) (b_h s1)) s1) -> (forall m ok, In (VDone m ok) l -> m <> n) ->
         q_kind q <> KUnsub n -> phase2 s2 (log ++ l)).
      { intros s2 l Es Hd Hk2. apply (phase2_more s); auto.
        - destruct Es as [-> | ->]; reflexivity.
        - intros [K1 K2]. destruct Es as [-> | ->]; constructor; auto. intros x Hx. apply K1. eapply Hsub; eauto.
        - intros H c' Hc. destruct Es as [-> | ->]; apply H; exact Hc.
        - intros H Hx. apply H. destruct Es as [-> | ->]; [exact Hx|eapply Hsub; eauto].
        - intros x (L1 & L2 & L3). split; [exact L1|]. split; [exact L2|].
          assert (Hns : nohold s -> nohold s2) by (intros H c' Hc; destruct Es as [-> | ->]; apply H; exact Hc).
          assert (Hrd : forall bb, In (x, bb) (b_ready s) -> In (x, bb) (b_ready s2)).
          { intros bb Hb. assert (In (x, bb) (b_ready s1)); [|destruct Es as [-> | ->]; auto]. unfold s1. cbn. rewrite E3. rewrite E1 in Hb.
            apply in_app_or in Hb. apply in_or_app. destruct Hb as [Hb|[Hb|Hb]]; auto. injection Hb as -> _. congruence. }
          assert (Ep : b_pend s2 = b_pend s) by (destruct Es as [-> | ->]; reflexivity).
          assert (Ew : b_wire s2 = b_wire s) by (destruct Es as [-> | ->]; reflexivity).
          rewrite Ep, Ew. destruct L3 as [[L3 L4]|[[L3 L4]|L3]]; [left; split; [exact L3|destruct L4 as [L4|[L4 L5]]; auto]|right; left; auto|right; right; auto]. }
      unfold run_cont. destruct (q_kind q) as [m|m|] eqn:Ek.
      + assert (Hmn : m <> n \/ (In (VDone n false) log /\ ~ In (VDone n true) log) \/ In (VDone n true) log \/ exists q', leaving s q') by
          (destruct P as [_ [P|[(_ & P & _)|(_ & _ & P)]]]; auto).
        assert (Hmn' : m <> n).
        { intros ->. assert (Hm : In n (k_call (q_kind q))) by (rewrite Ek; left; reflexivity). destruct (g_fly _ _ G q n Hq Hm) as [A B].
          destruct Hmn as [H|[[H _]|[H|(q' & L1 & L2 & L3)]]]; [congruence|exact (B _ H)|exact (B _ H)|].
          assert (Hq' : In q' (fly s)).
          { unfold fly. apply in_or_app. destruct L3 as [[L3 _]|[[L3 _]|L3]]; [left; exact L3|right|right]; apply in_map_iff; eexists; (split; [|exact L3]); reflexivity. }
          assert (Hm' : In n (k_call (q_kind q'))) by (rewrite L1; left; reflexivity).
          destruct (g_fly _ _ G q' n Hq' Hm') as [A' _]. destruct (g_one _ _ G _ _ _ _ _ A A') as [E _]. rewrite Ek, L1 in E. discriminate. }
        assert (Hd : forall m' ok', In (VDone m' ok') [VDone m ok] -> m' <> n) by (intros m' ok' [H|[]]; injection H as <- _; exact Hmn').
        destruct ok; cbn [fst snd]; apply Hoth; auto; try congruence.
      + destruct (Nat.eq_dec m n) as [->|Hmn].
        * (* the call itself *)
          assert (Hm : In n (k_call (q_kind q))) by (rewrite Ek; left; reflexivity).
          destruct (g_fly _ _ G q n Hq Hm) as [A Hnd].
          destruct P as [_ P]. destruct P as [[P1 _]|[(_ & P1 & _)|(P1 & P2 & q' & L1 & L2 & L3)]]; [destruct (Hnd _ P1)|destruct (Hnd _ P1)|].
          assert (Hq' : In q' (fly s)).
          { unfold fly. apply in_or_app. destruct L3 as [[L3 _]|[[L3 _]|L3]]; [left; exact L3|right|right]; apply in_map_iff; eexists; (split; [|exact L3]); reflexivity. }
          assert (q' = q).
          { destruct (in_split _ _ Hq) as (u & v & Eu). pose proof (g_fc _ _ G) as N. rewrite Eu, fly_calls_app in N. cbn in N. rewrite Ek in N. cbn in N.
            rewrite Eu in Hq'. apply in_app_or in Hq'. assert (Hn' : ~ In n (fly_calls u ++ fly_calls v)) by (apply NoDup_remove_2; exact N).
            destruct Hq' as [K|[K|K]]; [|auto|]; exfalso; apply Hn'; apply in_or_app; [left|right]; unfold fly_calls; apply in_flat_map; exists q'; rewrite L1; cbn; auto. }
          subst q'.
          assert (Hok : ok = true -> nohold s).
          { intros ->. pose proof (g_ids _ _ G) as N. unfold fly in N. rewrite map_app in N.
            assert (Hin : In (q, true) (b_ready s)) by (eapply find_ready; eauto).
            destruct L3 as [[L3 _]|[[_ L3]|L3]]; [|exact L3|].
            - exfalso. apply NoDup_app_iff in N. destruct N as (_ & _ & N). apply (N (q_id q)); [apply in_map; exact L3|].
              apply in_map. apply in_map_iff. exists (q, true). auto.
            - exfalso. pose proof (NoDup_map_inv' (fun y => q_id (fst y)) (b_ready s) (q, true) (q, false)) as K.
              rewrite <- map_map in K. specialize (K (g_rids _ _ G) Hin L3 eq_refl). discriminate. }
          destruct ok; cbn [fst snd].
          -- split; [exact Hn|]. right. left. split; [|split; [|split]].
             ++ destruct P1 as [K1 K2]. constructor; auto. intros x Hx. apply K1. eapply Hsub; eauto.
             ++ apply in_or_app; right; left; reflexivity.
             ++ intros c' Hc. apply Hok; auto.
             ++ cbn. rewrite L2. intro H. apply (akeys_adel_in beqb beqb_eq) in H. destruct H as [_ H]. congruence.
          -- split; [exact Hn|]. left. split; [apply in_or_app; right; left; reflexivity|]. intro H. apply in_app_or in H.
             destruct H as [H|[H|[]]]; [exact (P2 H)|discriminate].
        * assert (Hd : forall m' ok', In (VDone m' ok') [VDone m ok] -> m' <> n) by (intros m' ok' [H|[]]; injection H as <- _; exact Hmn).
          destruct ok; cbn [fst snd]; apply Hoth; auto; try congruence.
      + cbn [fst snd]. apply Hoth; auto; try congruence.
    - destruct (b_up s) as [c|] eqn:Eu; [|exact Hstay]. cbn [fst snd]. apply (phase2_more s); auto.
      + intros m ok [H|[]]; discriminate.
      + intros [K1 K2]. constructor; [exact K1|intros q []].
      + intros _ c' Hc. discriminate.
      + intros q (L1 & L2 & L3). split; [exact L1|]. split; [exact L2|]. right. cbn [b_ready].
        destruct L3 as [[L3 _]|[[L3 _]|L3]].
        * right. apply in_or_app. right. apply in_map_iff. eauto.
        * left. split; [apply in_or_app; auto|]. intros c' Hc. discriminate.
        * right. apply in_or_app. auto.
    - destruct (b_up s) eqn:Eu; [exact Hstay|]. destruct (b_ready s) as [|y ys] eqn:Er; [|exact Hstay].
      pose proof (up_facts s c Eu Er) as U. cbv zeta in U. cbn [sstep] in U. rewrite Eu, Er in U.
      match goal with |- phase2 (fst ?p) (log ++ snd ?p) => destruct p as [s' l] end. cbn [fst snd] in *.
      destruct U as (U1 & U2 & U3 & U4 & U5 & U6 & U7 & U8 & l' & U9 & U10 & U11 & U12).
      destruct (g_down _ _ G Eu) as (D1 & D2 & D3).
      destruct P as [_ P]. split; [lia|].
      assert (D : forall ok, In (VDone n ok) (log ++ l) -> In (VDone n ok) log).
      { intros ok H. apply in_app_or in H. destruct H as [H|H]; [exact H|]. rewrite U9 in H. destruct H as [H|H]; [discriminate|]. destruct (U11 _ _ H). }
      destruct P as [[P1 P2]|[(P1 & P2 & P3 & P4)|(P1 & P2 & q & L1 & L2 & L3)]].
      + left. split; [apply in_or_app; left; exact P1|]. intro H. apply P2. auto.
      + right. left. split; [|split; [apply in_or_app; left; exact P2|split]].
        * constructor; rewrite ?U2; [apply P1|]. intros q Hq _ Er'. destruct (U8 q Hq) as [_ Hk]. pose proof (e_keys _ P1 _ Hk Er') as E. congruence.
        * intros c' Hc. rewrite U1 in Hc. injection Hc as <-. rewrite U3, holds_snoc. cbn. intro H. apply holds_connected in H. apply connected_connects in H.
          rewrite U3 in Hfr. unfold fresh_clients, connects in Hfr. rewrite flat_map_app in Hfr. apply NoDup_app_iff in Hfr. destruct Hfr as (_ & _ & Hfr).
          apply (Hfr c H). cbn. auto.
        * rewrite U2. exact P4.
      + exfalso. rewrite D1, Er in L3. cbn in L3. tauto.
    - destruct (b_up s) as [c|] eqn:Eu; [|exact Hstay]. cbn [fst snd]. apply (phase2_more s); auto.
      intros m ok [H|[]]; discriminate.
    - destruct (foreign (b_up s) o) eqn:Efo; [|exact Hstay]. cbn [fst snd].
      assert (Hno : nohold s -> nohold (mkSub (b_up s) (b_h s) (b_pend s) (b_ready s) (b_wire s) (b_served s) (b_next s) (b_calls s) (b_srv s ++ [o]))).
      { intros H c Hc. cbn in *. rewrite Hc in Efo. apply nohold_serve; [apply H; exact Hc|]. destruct o; auto. cbn in Efo.
        apply negb_true_iff, N.eqb_neq in Efo. intros ->. congruence. }
      apply (phase2_more s); auto.
      + intros [K1 K2]. constructor; auto.
      + intros x (L1 & L2 & L3). split; [exact L1|]. split; [exact L2|].
        destruct L3 as [[L3 L4]|[[L3 L4]|L3]]; [left; split; [exact L3|destruct L4 as [L4|[L4 L5]]; auto]|right; left; auto|right; right; auto].
  Qed.
End Gone.

Lemma phase2_start : forall xs t r, all_served true t (slog xs) ->
  (forall m t', In (VCall m true t') (slog xs) -> reads t' = reads t -> t' = t) ->
  slog (xs ++ [XUnsub t]) = slog xs ++ [VCall (call_no xs) false t; VSent r false t] ->
  phase2 (call_no xs) t (sst (xs ++ [XUnsub t])) (slog (xs ++ [XUnsub t])).
Proof.
  intros xs t r Hv Ho Hs. pose proof (ginv_all xs) as G. rewrite slog_snoc in *. rewrite sst_snoc. apply app_inv_head in Hs. rewrite <- calls_no in *.
  set (s := sst xs) in *. set (log := slog xs) in *. clearbody s log.
  split; [rewrite calls_step; cbn; lia|]. right. right.
  assert (Hnd : forall ok, ~ In (VDone (b_calls s) ok) log) by (intros ok H; apply (g_dones _ _ G) in H; lia).
  rewrite Hs. cbn [sstep] in *. unfold do_unsub in *. destruct (aget beqb t (b_h s)) as [m|] eqn:Ea; [|discriminate].
  set (n := b_calls s) in *. destruct (b_up s) as [c|] eqn:Eu; [|rewrite (send_down (KUnsub n) t) in Hs by exact Eu; discriminate].
  clear Hs. rewrite (send_up (KUnsub n) t _ c) by exact Eu. cbn [fst snd next_call b_h b_pend b_ready b_wire b_served b_next b_calls b_srv].
  set (q := mkUreq (b_next s) (KUnsub n) t). split; [|split].
  - constructor; cbn.
    + intros t' Ht. apply in_map_iff in Ht. destruct Ht as ((t1, m1) & <- & Ht). cbn. apply (g_hn _ _ G) in Ht. eauto.
    + intros x Hx Hk Er. apply in_app_or in Hx. destruct Hx as [Hx|[<-|[]]]; [|discriminate].
      destruct (g_wire _ _ G x Hx) as [A B]. unfold k_sub in A. rewrite Hk in A. cbn in A. exact (B (Hv _ _ A Er)).
  - intro H. apply in_app_or in H. destruct H as [H|[H|[H|[]]]]; [exact (Hnd _ H)|discriminate|discriminate].
  - exists q. split; [reflexivity|]. split; [reflexivity|]. left. cbn. split; [|left]; apply in_or_app; right; left; reflexivity.
Qed.
Lemma srv_prefix : forall xs ys, exists l, b_srv (sst (xs ++ ys)) = b_srv (sst xs) ++ l.
Proof.
  intros xs ys. induction ys as [|o ys IH] using rev_ind; [exists []; rewrite !app_nil_r; reflexivity|].
  rewrite app_assoc, sst_snoc. destruct IH as [l E]. destruct (srv_step (sst (xs ++ ys)) o) as [l' E']. exists (l ++ l'). rewrite E', E, app_assoc. reflexivity.
Qed.
Lemma drops : forall xs t ys r c, let n := call_no xs in let zs := xs ++ XUnsub t :: ys in
  fresh_clients (b_srv (sst zs)) -> all_served true t (slog xs) ->
  (forall m t', In (VCall m true t') (slog xs) -> reads t' = reads t -> t' = t) ->
  slog (xs ++ [XUnsub t]) = slog xs ++ [VCall n false t; VSent r false t] ->
  (forall t', In (XSub t') ys -> reads t' <> reads t) ->
  In (VDone n true) (slog zs) -> up_as (slog zs) = Some c -> ~ holds c (reads t) (b_srv (sst zs)).
Proof.
  intros xs t ys r c n zs Hfr Hv Ho Hs Hy Hd Hu.
  assert (P : phase2 n t (sst zs) (slog zs)).
  { clear Hd Hu. unfold zs in *. change (XUnsub t :: ys) with ([XUnsub t] ++ ys) in *. rewrite app_assoc in *.
    induction ys as [|o ys IH] using rev_ind.
    - rewrite app_nil_r. eapply phase2_start; eauto.
    - rewrite app_assoc in *. destruct (srv_prefix ((xs ++ [XUnsub t]) ++ ys) [o]) as [l E].
      rewrite sst_snoc, slog_snoc. apply phase2_step; [apply ginv_all| | |].
      + apply IH; [rewrite E in Hfr; eapply fresh_prefix; eauto|]. intros t' Ht. apply Hy. apply in_or_app. auto.
      + intros t' ->. apply Hy. apply in_or_app. right. left. reflexivity.
      + rewrite <- sst_snoc. exact Hfr. }
  rewrite (g_up _ _ (ginv_all zs)) in Hu. destruct P as [_ [[_ P]|[(_ & _ & P & _)|(_ & P & _)]]]; [contradiction|apply P; exact Hu|contradiction].
Qed.
