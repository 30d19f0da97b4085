(** Queue subscriptions of the SDK: after stop(), going on, one at a time. *)
From Verif Require Import LibBase SdkLoopModel SdkLoopProofs SdkQueueModel SdkQueueSpec SdkQueueProofs.
From Coq Require Import Permutation.
Arguments busy {A}. Arguments starts {A}. Arguments ends {A}.

Section F.
  Variable A : Type.
  Variable conc : N.
  Notation hstep := (hstep (A:=A) conc).
  Notation hrun := (hrun (A:=A) conc).
  Notation move := (move A conc).
  Implicit Types (h : handle A) (x : sub A) (k j : nat) (l : list (hev A)).

  Lemma wstep_start u b o y : ~ In (EStart y) (snd (wstep A true false u b o)).
  Proof.
    destruct o as [i bad|i ok bad]; cbn [wstep]; destruct (nth_error (b_ws b) i) as [[|z| |]|]; cbn [snd]; try tauto.
    - destruct (b_q b); [cbn; tauto|]. cbn [andb]. destruct u; [destruct bad|]; cbn; intuition discriminate.
    - destruct u; [destruct bad|]; cbn; [intuition discriminate| |intuition discriminate]. destruct ok; cbn; intuition discriminate.
  Qed.
  Lemma inv_nil {B} (l es : list B) : l = l ++ es -> es = [].
  Proof. intro E. rewrite <- (app_nil_r l) in E at 1. apply app_inv_head in E. auto. Qed.
  Lemma own_log h o k (Q : hev A -> Prop) : (forall e, ~ about A k e -> Q e) -> Q (VRefused k) -> Q (VCall k) ->
    (forall bad x x' es f, nth_error (h_subs h) k = Some x -> move k (h_up h) bad x x' es f -> (fine o -> bad = false) -> Forall Q es) ->
    forall es, h_log (hstep h o) = h_log h ++ es -> Forall Q es.
  Proof.
    intros N C1 C2 M es E. revert E M.
    destruct (step_case A conc h o) as [o|Fl|Fl|up|o j bad x x' es' f E' M' Fb]; cbn [h_log]; intros E M.
    - apply inv_nil in E. subst. constructor.
    - apply app_inv_head in E. subst. constructor; [|constructor]. destruct (Nat.eq_dec (length (h_subs h)) k) as [->|X]; auto.
    - apply app_inv_head in E. subst. constructor; [|constructor]. destruct (Nat.eq_dec (length (h_subs h)) k) as [->|X]; auto.
    - apply app_inv_head in E. subst. constructor; [|constructor]. apply N. cbn. auto.
    - apply app_inv_head in E. subst. destruct (Nat.eq_dec j k) as [->|X]; [eapply M; eauto|].
      pose proof (move_about _ _ _ _ _ _ _ _ _ M') as F. eapply Forall_impl; [|exact F]. intros e He. apply N. intro H. destruct e; cbn in *; try contradiction; congruence.
  Qed.
  (** the move that logged an event of [k] *)
  Lemma own_at h o k e n1 n2 : about A k e -> e <> VRefused k -> e <> VCall k -> h_log (hstep h o) = h_log h ++ n1 ++ e :: n2 ->
    exists bad x x' f, nth_error (h_subs h) k = Some x /\ move k (h_up h) bad x x' (n1 ++ e :: n2) f /\ (fine o -> bad = false).
  Proof.
    intros Ab R1 R2 E. revert E. destruct (step_case A conc h o) as [o|Fl|Fl|up|o j bad x x' es' f E' M' Fb]; cbn [h_log]; intro E.
    - apply inv_nil in E. destruct n1; discriminate.
    - apply app_inv_head in E. destruct n1 as [|? [|? ?]]; cbn in E; try discriminate. injection E as <- _. cbn in Ab. congruence.
    - apply app_inv_head in E. destruct n1 as [|? [|? ?]]; cbn in E; try discriminate. injection E as <- _. cbn in Ab. congruence.
    - apply app_inv_head in E. destruct n1 as [|? [|? ?]]; cbn in E; try discriminate. injection E as <- _. cbn in Ab. contradiction.
    - apply app_inv_head in E. subst es'. pose proof (move_about _ _ _ _ _ _ _ _ _ M') as F. rewrite Forall_forall in F. specialize (F e ltac:(apply in_or_app; right; left; auto)).
      assert (j = k) by (destruct e; cbn in *; try contradiction; congruence). subst. eauto 9.
  Qed.
  Lemma turn_got k x x' g e : turn A k x x' g \/ fails A k x x' g -> In e g -> exists r, e = VGot k r.
  Proof. intros [T|T] H; destruct T; cbn in H; intuition; subst; eauto. Qed.

  (** ** after stop() *)
  Definition quiet (k : nat) (e : hev A) : Prop := e <> VAsk k /\ forall y, e <> VDo k (EStart y).
  Lemma silent os k pre post : h_log (hrun os) = pre ++ VStop k :: post -> forall e, In e post -> quiet k e.
  Proof.
    intro H. rewrite <- Forall_forall. revert H. apply (after_event A conc (fun _ => True) (VStop k) (quiet k)); [| |apply Forall_forall; auto].
    - intros a o es _ E S. revert E. apply (own_log _ _ k); try (split; intros; discriminate).
      + intros e N. split; [|intro y]; intros ->; apply N; reflexivity.
      + intros bad x x' es' f X M _. pose proof (hi_sub _ _ _ (HI_run A conc a) k x X) as I. destruct (proj1 (si_stop _ _ _ _ _ I) S) as [K1 K2].
        apply (si_ok _ _ _ _ _ I) in K1. destruct K1 as [K1 K1'].
        assert (TQ : forall x'' g, turn A k x x'' g \/ fails A k x x'' g -> Forall (quiet k) g).
        { intros x'' g T. apply Forall_forall. intros e He. destruct (turn_got _ _ _ _ _ T He) as [r ->]. split; intros; discriminate. }
        destruct M as [act n old|act n old|x x'' g T Ac U|x x'' g T Ac|x x'' g T Ac|x i is P|x b o' P|x i b o' J|x P|x P1 P2 P3]; try congruence; try (cbn in K1; congruence).
        * apply Forall_app. split; eauto. apply Forall_forall. intros e He. apply repeat_spec in He. subst. split; intros; discriminate.
        * repeat constructor; intros; discriminate.
        * rewrite K2. apply Forall_forall. intros e He. apply in_map_iff in He. destruct He as (y & <- & He). split; [discriminate|]. intros z E. injection E as ->. eapply wstep_start; eauto.
        * rewrite K2. apply Forall_forall. intros e He. apply in_map_iff in He. destruct He as (y & <- & He). split; [discriminate|]. intros z E. injection E as ->. eapply wstep_start; eauto.
        * repeat constructor; intros; discriminate.
        * repeat constructor; intros; discriminate.
    - intros a o n1 n2 _ E. apply own_at with (k := k) in E; [|reflexivity|discriminate|discriminate]. destruct E as (bad & x & x' & f & X & M & _).
      remember (n1 ++ VStop k :: n2) as es eqn:Es. assert (IN : In (VStop k) es) by (subst; apply in_or_app; right; left; auto).
      assert (TN : forall x'' g, turn A k x x'' g \/ fails A k x x'' g -> ~ In (VStop k) g) by (intros x'' g T He; destruct (turn_got _ _ _ _ _ T He) as [r E]; discriminate).
      destruct M as [act n old|act n old|x x'' g T Ac U|x x'' g T Ac|x x'' g T Ac|x i is P|x b o' P|x i b o' J|x P|x P1 P2 P3].
      + destruct (h_up (hrun a)); cbn in IN; intuition discriminate.
      + cbn in IN; intuition discriminate.
      + apply in_app_or in IN. destruct IN as [IN|[IN|[]]]; [exfalso; eapply TN; eauto|discriminate].
      + exfalso; eapply TN; eauto.
      + apply in_app_or in IN. destruct IN as [IN|IN]; [exfalso; eapply TN; eauto|apply repeat_spec in IN; discriminate].
      + cbn in IN; intuition discriminate.
      + apply in_map_iff in IN. destruct IN as (? & ? & _). discriminate.
      + apply in_map_iff in IN. destruct IN as (? & ? & _). discriminate.
      + destruct n1 as [|e1 [|e2 [|e3 n1]]]; cbn in Es; try discriminate. injection Es as <-. repeat constructor; intros; discriminate.
      + destruct n1 as [|e1 [|e2 n1]]; cbn in Es; try discriminate. injection Es as <-. constructor.
  Qed.

  (** ** when writing never throws *)
  Definition pc_busy (x : sub A) : list A := match s_pc x with PBatch b => busy (b_ws b) | _ => [] end.
  Definition wfb (b : batch A) : Prop := lenN (b_ws b) <= limit conc /\ b_ws b <> [] /\ (forall w, In w (b_ws b) -> w <> Dead) /\ (In Done (b_ws b) -> b_q b = []).
  Record FI (k : nat) x l : Prop := {
    fi_old : s_old x = [];
    fi_b : forall b, s_pc x = PBatch b -> wfb b;
    fi_perm : Permutation (starts (doings k l)) (ends (doings k l) ++ pc_busy x)
  }.
  Lemma doings_dos k (es : list (ev A)) : doings k (map (VDo k) es) = es.
  Proof. induction es as [|e es IH]; auto. unfold doings in *. cbn [map flat_map]. rewrite Nat.eqb_refl, IH. reflexivity. Qed.
  Lemma doings_got k (g : list (hev A)) : (forall e : hev A, In e g -> exists r, e = VGot k r) -> doings k g = [].
  Proof. intro H. induction g as [|e g IH]; auto. unfold doings in *. cbn [flat_map]. destruct (H e (or_introl eq_refl)) as [r ->]. apply IH. intros e' H'. apply H. right; auto. Qed.
  Lemma doings_reps k n : doings k (repeat (@VStopped A k) n) = [].
  Proof. induction n; auto. Qed.
  Lemma all_done (b : batch A) : wfb b -> forallb (is_done A) (b_ws b) = true -> busy (b_ws b) = [].
  Proof.
    intros (_ & _ & _ & _) F. rewrite forallb_forall in F. induction (b_ws b) as [|w ws IH]; auto. unfold busy in *. cbn [flat_map].
    pose proof (F w (or_introl eq_refl)) as D. destruct w; try discriminate. cbn. apply IH. intros w' H. apply F. right; auto.
  Qed.
  Lemma no_dead (b : batch A) : wfb b -> existsb (is_dead A) (b_ws b) = true -> False.
  Proof. intros (_ & _ & W & _) F. apply existsb_exists in F. destruct F as (w & H1 & H2). apply (W w H1). destruct w; try discriminate. auto. Qed.
  Lemma turn_fi k x x' g l : turn A k x x' g \/ fails A k x x' g -> FI k x l -> pc_busy x = [] /\ s_old x' = [] /\ doings k g = [].
  Proof.
    intros T [F1 F2 F3]. split; [|split; [|apply doings_got; intros e He; eapply turn_got; eauto]].
    - unfold pc_busy. destruct T as [T|T]; [destruct T as [y P|y P|y b P D]|destruct T as [y P|y b P D]]; rewrite P; auto; [apply all_done; eauto|]. exfalso. eapply no_dead; eauto.
    - destruct T as [T|T]; [destruct T as [y P|y P|y b P D]|destruct T as [y P|y b P D]]; auto. exfalso. eapply no_dead; eauto.
  Qed.
  Lemma FI_frame k j x l es : j <> k -> Forall (about A j) es -> FI k x l -> FI k x (l ++ es).
  Proof. intros N F [F1 F2 F3]. constructor; auto. rewrite doings_app, (frame_doings A k j es N F), app_nil_r. auto. Qed.
  Lemma FI_idle k x l p act n : FI k x l -> pc_busy x = [] -> (forall b, p <> PBatch b) -> forall g, doings k g = [] -> FI k (mkS p act n []) (l ++ g).
  Proof.
    intros [F1 F2 F3] B P g G. constructor; cbn [s_old s_pc]; auto.
    - intros b E. exfalso. eapply P; eauto.
    - rewrite doings_app, G, app_nil_r. unfold pc_busy. cbn [s_pc]. destruct p; try (rewrite app_nil_r; rewrite B, app_nil_r in F3; auto). exfalso. eapply P; eauto.
  Qed.
  Definition AllFI h : Prop := forall k x, nth_error (h_subs h) k = Some x -> FI k x (h_log h).
  Lemma FI_work k x l b o u act n : (match o with WTake _ bad => bad | WEnd _ _ bad => bad end) = false -> s_pc x = PBatch b -> FI k x l ->
    FI k (mkS (PBatch (fst (wstep A true (s_act x) u b o))) act n (s_old x)) (l ++ map (VDo k) (snd (wstep A true (s_act x) u b o))).
  Proof.
    intros B P [F1 F2 F3]. destruct (work_ok A conc true (s_act x) u b o B (F2 b P)) as (W & _ & Pm & _). constructor; cbn [s_old s_pc]; auto.
    - intros b' E. injection E as <-. exact W.
    - rewrite doings_app, doings_dos. unfold pc_busy in *. cbn [s_pc]. rewrite P in F3. unfold starts, ends in *. rewrite !flat_map_app, F3, <- !app_assoc. apply Permutation_app_head.
      rewrite <- Pm. apply Permutation_app_comm.
  Qed.
  Lemma AllFI_step h o : HI A conc h -> fine o -> AllFI h -> AllFI (hstep h o).
  Proof.
    intros I Fo F. assert (NEW : forall p e, (forall b, p <> PBatch b) -> about A (length (h_subs h)) e -> (forall y, e <> VDo (length (h_subs h)) y) ->
      forall fl, AllFI (mkH fl (h_up h) (h_subs h ++ [mkS p false 0 []]) (h_log h ++ [e]))).
    { intros p e P Ab N fl k x H. cbn [h_subs h_log] in *. destruct (Nat.eq_dec k (length (h_subs h))) as [->|X].
      - rewrite nth_error_app2, Nat.sub_diag in H by lia. injection H as <-.
        assert (D : doings (length (h_subs h)) (h_log h ++ [e]) = []).
        { rewrite doings_app. assert (X : forall l, (forall e, In e l -> forall y, e <> VDo (length (h_subs h)) y) -> doings (length (h_subs h)) l = []).
          { intro l. induction l as [|e' l IH]; intro Q; auto. unfold doings in *. cbn [flat_map]. rewrite IH by (intros e0 H0; apply Q; right; auto). rewrite app_nil_r.
            destruct e'; auto. destruct (Nat.eqb_spec k (length (h_subs h))); auto. subst. exfalso. eapply Q; [left; reflexivity|reflexivity]. }
          rewrite !X; auto; [intros e' [<-|[]]; auto|]. intros e' H' y ->. pose proof (hi_idx _ _ _ I _ (length (h_subs h)) H' eq_refl). lia. }
        constructor; cbn [s_old s_pc]; auto; [intros b E; exfalso; eapply P; eauto|]. rewrite D. unfold pc_busy. cbn. destruct p; auto. exfalso. eapply P; eauto.
      - assert (L : (k < length (h_subs h))%nat) by (pose proof (nth_lt _ _ _ H) as L; rewrite app_length in L; cbn in L; lia).
        rewrite nth_error_app1 in H by auto. apply (FI_frame k (length (h_subs h))); auto. }
    revert Fo. destruct (step_case A conc h o) as [o|Fl|Fl|up|o j bad x x' es f E M Fb]; intro Fo; auto.
    - apply NEW; cbn; auto; discriminate.
    - apply NEW; cbn; auto; discriminate.
    - intros k x H. cbn [h_subs h_log] in *. destruct (F k x H) as [F1 F2 F3]. constructor; auto. rewrite doings_app. cbn. rewrite app_nil_r. auto.
    - specialize (Fb Fo). intros k y H. cbn [h_subs h_log] in *. pose proof (nth_lt _ _ _ E) as L. pose proof (move_about _ _ _ _ _ _ _ _ _ M) as Ab. destruct (Nat.eq_dec k j) as [->|N]; [|rewrite upd_other in H by auto; apply (FI_frame k j); auto].
      rewrite upd_same in H by auto. injection H as <-. specialize (F j x E).
      destruct M as [act n old|act n old|x x'' g T Ac U|x x'' g T Ac|x x'' g T Ac|x i is P|x b o' P|x i b o' J|x P|x P1 P2 P3].
      + apply (FI_idle j _ _ _ _ _ F); auto; [destruct (h_up h); discriminate|]. destruct (h_up h); reflexivity.
      + apply (FI_idle j _ _ _ _ _ F); auto; discriminate.
      + destruct (turn_fi j x x'' g _ (or_introl T) F) as (B & O & D). rewrite O. apply (FI_idle j x); auto; [discriminate|]. rewrite doings_app, D. reflexivity.
      + destruct (turn_fi j x x'' g _ T F) as (B & O & D). rewrite O. apply (FI_idle j x); auto. discriminate.
      + destruct (turn_fi j x x'' g _ T F) as (B & O & D). rewrite O. apply (FI_idle j x); auto; [discriminate|]. rewrite doings_app, D. apply doings_reps.
      + destruct F as [F1 F2 F3]. constructor; cbn [s_old s_pc]; auto.
        * intros b E'. injection E' as <-. unfold wfb, batch_new. cbn [b_q b_ws]. destruct (workers_pos conc (lenN (i :: is))) as [W1 W2]; [rewrite lenN_cons; lia|].
          split; [unfold lenN at 1; rewrite repeat_length; auto|]. split; [destruct (workers conc (lenN (i :: is))); [lia|discriminate]|]. split; [intros w Hw; apply repeat_spec in Hw; subst; discriminate|].
          intro Hw. apply repeat_spec in Hw. discriminate.
        * rewrite doings_app. cbn [doings flat_map app]. rewrite app_nil_r. unfold pc_busy in *. cbn [s_pc batch_new b_ws]. rewrite P, app_nil_r in F3. rewrite busy_ready, app_nil_r. auto.
      + apply FI_work; auto.
      + rewrite (fi_old _ _ _ F) in J. destruct i; discriminate.
      + assert (O := fi_old _ _ _ F). rewrite O. apply (FI_idle j x); auto; [unfold pc_busy; rewrite P; auto|discriminate].
      + destruct F as [F1 F2 F3]. constructor; cbn [s_old s_pc]; auto. rewrite doings_app. cbn [doings flat_map app]. rewrite app_nil_r. auto.
  Qed.
  Lemma AllFI_run os : Forall fine os -> AllFI (hrun os).
  Proof.
    induction os as [|o os IH] using rev_ind; intro F; [intros [|k] x H; discriminate|]. apply Forall_app in F. destruct F as [F1 F2]. rewrite hrun_snoc. apply AllFI_step; auto; [apply HI_run|inversion F2; auto].
  Qed.

  (** when stop() returns, everything has ended, and nothing follows *)
  Lemma returned os k pre post : Forall fine os -> h_log (hrun os) = pre ++ VStopped k :: post ->
    In (VStop k) pre /\ Permutation (starts (doings k pre)) (ends (doings k pre)) /\ forall e, In e post -> ~ acts k e.
  Proof.
    intros Fo H. split; [|split].
    - destruct (log_at A conc os _ _ _ H) as (a & o & b & n1 & n2 & E & L & ->). apply own_at with (k := k) in L; [|reflexivity|discriminate|discriminate]. destruct L as (bad & x & x' & f & X & M & _).
      pose proof (hi_sub _ _ _ (HI_run A conc a) k x X) as I. apply in_or_app.
      remember (n1 ++ VStopped k :: n2) as es eqn:Es. assert (IN : In (VStopped k) es) by (subst; apply in_or_app; right; left; auto).
      assert (TN : forall x'' g, turn A k x x'' g \/ fails A k x x'' g -> ~ In (VStopped k) g) by (intros x'' g T He; destruct (turn_got _ _ _ _ _ T He) as [r E']; discriminate).
      destruct M as [act n old|act n old|x x'' g T Ac U|x x'' g T Ac|x x'' g T Ac|x i is P|x b' o' P|x i b' o' J|x P|x P1 P2 P3].
      + exfalso. destruct (h_up (hrun a)); cbn in IN; intuition discriminate.
      + exfalso. cbn in IN; intuition discriminate.
      + exfalso. apply in_app_or in IN. destruct IN as [IN|[IN|[]]]; [eapply TN; eauto|discriminate].
      + exfalso. eapply TN; eauto.
      + left. apply (si_stop _ _ _ _ _ I). split; auto. apply (si_ok _ _ _ _ _ I). destruct T as [T|T]; destruct T; split; congruence.
      + exfalso. cbn in IN; intuition discriminate.
      + exfalso. apply in_map_iff in IN. destruct IN as (? & ? & _). discriminate.
      + exfalso. apply in_map_iff in IN. destruct IN as (? & ? & _). discriminate.
      + left. apply (si_stop _ _ _ _ _ I). split; [|apply (si_end _ _ _ _ _ I P)]. apply (si_ok _ _ _ _ _ I). split; congruence.
      + exfalso. cbn in IN; intuition discriminate.
    - destruct (log_at A conc os _ _ _ H) as (a & o & b & n1 & n2 & E & L & ->). apply own_at with (k := k) in L; [|reflexivity|discriminate|discriminate]. destruct L as (bad & x & x' & f & X & M & _).
      assert (Fa : Forall fine a) by (subst os; apply Forall_app in Fo; apply Fo). pose proof (AllFI_run a Fa k x X) as F. pose proof (fi_perm _ _ _ F) as Pm.
      remember (n1 ++ VStopped k :: n2) as es eqn:Es. assert (IN : In (VStopped k) es) by (subst; apply in_or_app; right; left; auto).
      assert (TN : forall x'' g, turn A k x x'' g \/ fails A k x x'' g -> ~ In (VStopped k) g) by (intros x'' g T He; destruct (turn_got _ _ _ _ _ T He) as [r E']; discriminate).
      assert (G : doings k es = [] -> pc_busy x = [] -> Permutation (starts (doings k (h_log (hrun a) ++ n1))) (ends (doings k (h_log (hrun a) ++ n1)))).
      { intros D B. rewrite Es, doings_app in D. apply app_eq_nil in D. destruct D as [D _]. rewrite doings_app, D, app_nil_r. rewrite B, app_nil_r in Pm. auto. }
      destruct M as [act n old|act n old|x x'' g T Ac U|x x'' g T Ac|x x'' g T Ac|x i is P|x b' o' P|x i b' o' J|x P|x P1 P2 P3].
      + exfalso. destruct (h_up (hrun a)); cbn in IN; intuition discriminate.
      + exfalso. cbn in IN; intuition discriminate.
      + exfalso. apply in_app_or in IN. destruct IN as [IN|[IN|[]]]; [eapply TN; eauto|discriminate].
      + exfalso. eapply TN; eauto.
      + destruct (turn_fi k x x'' g _ T F) as (B & O & D). apply G; auto. rewrite doings_app, D. apply doings_reps.
      + exfalso. cbn in IN; intuition discriminate.
      + exfalso. apply in_map_iff in IN. destruct IN as (? & ? & _). discriminate.
      + exfalso. apply in_map_iff in IN. destruct IN as (? & ? & _). discriminate.
      + apply G; auto. unfold pc_busy. rewrite P. auto.
      + exfalso. cbn in IN; intuition discriminate.
    - rewrite <- Forall_forall. revert H. apply (after_event A conc fine (VStopped k) (fun e => ~ acts k e)); auto.
      + intros a o es F E S. revert E. apply (own_log _ _ k); try (cbn; tauto).
        * intros e N Ac. apply N. destruct e; cbn in *; auto; contradiction.
        * intros bad x x' es' f X M Fb. assert (Fa : Forall fine a) by (apply Forall_app in F; apply F).
          pose proof (hi_sub _ _ _ (HI_run A conc a) k x X) as I. apply (si_stopped _ _ _ _ _ I) in S. pose proof (AllFI_run a Fa k x X) as FX.
          destruct M as [act n old|act n old|x x'' g T Ac U|x x'' g T Ac|x x'' g T Ac|x i is P|x b o' P|x i b o' J|x P|x P1 P2 P3]; try congruence; try (cbn in S; discriminate).
          -- destruct T; congruence.
          -- destruct T as [T|T]; destruct T; congruence.
          -- destruct T as [T|T]; destruct T; congruence.
          -- rewrite (fi_old _ _ _ FX) in J. destruct i; discriminate.
          -- repeat constructor; cbn; auto.
      + intros a o n1 n2 F L. apply own_at with (k := k) in L; [|reflexivity|discriminate|discriminate]. destruct L as (bad & x & x' & f & X & M & _).
        remember (n1 ++ VStopped k :: n2) as es eqn:Es. assert (IN : In (VStopped k) es) by (subst; apply in_or_app; right; left; auto).
        assert (TN : forall x'' g, turn A k x x'' g \/ fails A k x x'' g -> ~ In (VStopped k) g) by (intros x'' g T He; destruct (turn_got _ _ _ _ _ T He) as [r E']; discriminate).
        destruct M as [act n old|act n old|x x'' g T Ac U|x x'' g T Ac|x x'' g T Ac|x i is P|x b' o' P|x i b' o' J|x P|x P1 P2 P3].
        * exfalso. destruct (h_up (hrun a)); cbn in IN; intuition discriminate.
        * exfalso. cbn in IN; intuition discriminate.
        * exfalso. apply in_app_or in IN. destruct IN as [IN|[IN|[]]]; [eapply TN; eauto|discriminate].
        * exfalso. eapply TN; eauto.
        * apply Forall_forall. intros e He. destruct (app_eq_app _ _ _ _ Es) as [l [[H1 H2]|[H1 H2]]].
          -- destruct l as [|e' l]; [cbn in H2|].
             ++ assert (e = VStopped k) by (apply (repeat_spec (s_stops x)); rewrite <- H2; right; auto). subst. cbn. auto.
             ++ injection H2 as <- H2. exfalso. eapply TN; [exact T|]. rewrite H1. apply in_or_app. right. left. auto.
          -- assert (e = VStopped k) by (apply (repeat_spec (s_stops x)); rewrite H2; apply in_or_app; right; right; auto). subst. cbn. auto.
        * exfalso. cbn in IN; intuition discriminate.
        * exfalso. apply in_map_iff in IN. destruct IN as (? & ? & _). discriminate.
        * exfalso. apply in_map_iff in IN. destruct IN as (? & ? & _). discriminate.
        * destruct n1 as [|e1 [|e2 [|e3 n1]]]; cbn in Es; try discriminate. injection Es as _ <-. constructor.
        * exfalso. cbn in IN; intuition discriminate.
  Qed.
End F.
