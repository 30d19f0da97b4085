(** Proofs about queue subscriptions of the SDK. *)
From Verif Require Import LibBase SdkLoopModel SdkLoopProofs SdkQueueModel SdkQueueSpec.
From Coq Require Import Permutation.

Section P.
  Variable A : Type.
  Variable conc : N.
  Notation hstep := (hstep (A:=A) conc).
  Notation hrun := (hrun (A:=A) conc).
  Implicit Types (h : handle A) (x : sub A) (k j : nat) (l : list (hev A)).

  (** ** the list of subscriptions *)
  Lemma upd_len k x (l : list (sub A)) : (k < length l)%nat -> length (upd k x l) = length l.
  Proof. intro H. unfold upd. rewrite app_length. cbn [length]. rewrite firstn_length, skipn_length. lia. Qed.
  Lemma upd_same k x (l : list (sub A)) : (k < length l)%nat -> nth_error (upd k x l) k = Some x.
  Proof. intro H. unfold upd. rewrite nth_error_app2; rewrite firstn_length; [|lia]. replace (k - Nat.min k (length l))%nat with O by lia. reflexivity. Qed.
  Lemma upd_other k j x (l : list (sub A)) : (k < length l)%nat -> j <> k -> nth_error (upd k x l) j = nth_error l j.
  Proof.
    intros L N. unfold upd. revert j l L N. induction k as [|k IH]; intros j l L N; destruct l as [|y l]; cbn [length] in L; try lia; destruct j as [|j]; cbn; auto; try congruence.
    apply (IH j l); [lia|congruence].
  Qed.
  Lemma upd_id k x (l : list (sub A)) : nth_error l k = Some x -> upd k x l = l.
  Proof. intro E. unfold upd. revert l E. induction k as [|k IH]; intros [|y l] E; try discriminate; cbn in *; [congruence|]. f_equal. apply IH; auto. Qed.
  Lemma nth_lt {B} (l : list B) k (x : B) : nth_error l k = Some x -> (k < length l)%nat.
  Proof. intro E. apply nth_error_Some. congruence. Qed.

  Inductive turn (k : nat) : sub A -> sub A -> list (hev A) -> Prop :=
  | TWake x : s_pc x = PSleep -> turn k x x []
  | TNone x : s_pc x = PWait -> turn k x x [VGot k (Some [])]
  | TDone x b : s_pc x = PBatch b -> forallb (is_done A) (b_ws b) = true -> turn k x x [].
  Inductive fails (k : nat) : sub A -> sub A -> list (hev A) -> Prop :=
  | FAns x : s_pc x = PWait -> fails k x x [VGot k None]
  | FDead x b : s_pc x = PBatch b -> existsb (is_dead A) (b_ws b) = true -> fails k x (mkS (s_pc x) (s_act x) (s_stops x) (s_old x ++ [b])) [].
  (** ** one piece of code of one subscription: before, after, what is observed, the flag *)
  Definition bad_op (o : wop) : bool := match o with WTake _ bad | WEnd _ _ bad => bad end.
  Inductive move (k : nat) (up : bool) : bool -> sub A -> sub A -> list (hev A) -> option bool -> Prop :=
  | MOk act n old : move k up false (mkS PCheck act n old) (mkS (if up then PWait else PSleep) true 0 []) (VOk k :: if up then [VAsk k] else []) (Some true)
  | MThrew act n old : move k up false (mkS PCheck act n old) (mkS POut false 0 []) [VThrew k] None
  | MAsk x x' g : turn k x x' g -> s_act x = true -> up = true -> move k up false x (mkS PWait true (s_stops x) (s_old x')) (g ++ [VAsk k]) None
  | MSleep x x' g : turn k x x' g \/ fails k x x' g -> s_act x = true -> move k up false x (mkS PSleep true (s_stops x) (s_old x')) g None
  | MEnd x x' g : turn k x x' g \/ fails k x x' g -> s_act x = false -> move k up false x (mkS PEnd false 0 (s_old x')) (g ++ repeat (VStopped k) (s_stops x)) (Some false)
  | MBatch x i is : s_pc x = PWait -> move k up false x (mkS (PBatch (batch_new A conc (i :: is))) (s_act x) (s_stops x) (s_old x)) [VGot k (Some (i :: is))] None
  | MWork x b o : s_pc x = PBatch b -> move k up (bad_op o) x (mkS (PBatch (fst (wstep A true (s_act x) up b o))) (s_act x) (s_stops x) (s_old x)) (map (VDo k) (snd (wstep A true (s_act x) up b o))) None
  | MOld x i b o : nth_error (s_old x) i = Some b ->
      move k up (bad_op o) x (mkS (s_pc x) (s_act x) (s_stops x) (firstn i (s_old x) ++ fst (wstep A true (s_act x) up b o) :: skipn (S i) (s_old x))) (map (VDo k) (snd (wstep A true (s_act x) up b o))) None
  | MStopE x : s_pc x = PEnd -> move k up false x (mkS PEnd false 0 (s_old x)) [VStop k; VStopped k] None
  | MStop x : s_pc x <> PEnd -> s_pc x <> PCheck -> s_pc x <> POut -> move k up false x (mkS (s_pc x) false (S (s_stops x)) (s_old x)) [VStop k] None.
  Definition flag' (f : option bool) h : bool := match f with Some b => b | None => h_flag h end.

  (** a step: nothing, a new call, the connection, or one subscription moves *)
  Inductive hcase h : hop A -> handle A -> Prop :=
  | CNone o : hcase h o h
  | CRef : h_flag h = true -> hcase h HSub (mkH (h_flag h) (h_up h) (h_subs h ++ [mkS POut false 0 []]) (h_log h ++ [VRefused (length (h_subs h))]))
  | CCall : h_flag h = false -> hcase h HSub (mkH (h_flag h) (h_up h) (h_subs h ++ [mkS PCheck false 0 []]) (h_log h ++ [VCall (length (h_subs h))]))
  | CConn up : hcase h (HConn up) (mkH (h_flag h) up (h_subs h) (h_log h ++ [VConn up]))
  | CMove o k bad x x' es f : nth_error (h_subs h) k = Some x -> move k (h_up h) bad x x' es f -> (fine o -> bad = false) -> hcase h o (mkH (flag' f h) (h_up h) (upd k x' (h_subs h)) (h_log h ++ es)).

  Lemma top_case h o k x x' g : nth_error (h_subs h) k = Some x -> turn k x x' g ->
    hcase h o (top k x' (mkH (h_flag h) (h_up h) (h_subs h) (h_log h ++ g))).
  Proof.
    intros E T. assert (S : s_act x' = s_act x /\ s_stops x' = s_stops x) by (destruct T; auto). destruct S as [S1 S2].
    unfold top, put, finish. cbn [h_flag h_up h_subs h_log]. rewrite S1, S2. destruct (s_act x) eqn:Ac.
    - destruct (h_up h) eqn:U.
      + rewrite <- app_assoc. rewrite <- U at 1. apply (CMove h o k false x _ _ None E); [|auto]. apply MAsk; auto.
      + rewrite app_nil_r. rewrite <- U at 1. apply (CMove h o k false x _ _ None E); [|auto]. apply MSleep; auto.
    - rewrite <- app_assoc. apply (CMove h o k false x _ _ (Some false) E); [|auto]. apply MEnd; auto.
  Qed.
  Lemma caught_case h o k x x' g : nth_error (h_subs h) k = Some x -> fails k x x' g ->
    hcase h o (caught k x' (mkH (h_flag h) (h_up h) (h_subs h) (h_log h ++ g))).
  Proof.
    intros E T. assert (S : s_act x' = s_act x /\ s_stops x' = s_stops x) by (destruct T; auto). destruct S as [S1 S2].
    unfold caught, put, finish. cbn [h_flag h_up h_subs h_log]. rewrite S1, S2. destruct (s_act x) eqn:Ac.
    - rewrite app_nil_r. apply (CMove h o k false x _ _ None E); [|auto]. apply MSleep; auto.
    - rewrite <- app_assoc. apply (CMove h o k false x _ _ (Some false) E); [|auto]. apply MEnd; auto.
  Qed.
  Lemma same_log h : h = mkH (h_flag h) (h_up h) (h_subs h) (h_log h ++ []).
  Proof. rewrite app_nil_r. destruct h; auto. Qed.
  Lemma step_case h o : hcase h o (hstep h o).
  Proof.
    destruct o as [|k r|k|k r|k o|k j o|k|k|up]; cbn [SdkQueueModel.hstep]; try (destruct (nth_error (h_subs h) k) as [x|] eqn:E; [|apply CNone]).
    - destruct (h_flag h) eqn:F; [pose proof (CRef h F) as X|pose proof (CCall h F) as X]; rewrite F in X; exact X.
    - destruct x as [[| | | |b|] act n old]; try apply CNone. destruct r as [[|]|].
      + unfold top, put. cbn [s_act h_up h_flag h_subs h_log s_stops s_old]. destruct (h_up h) eqn:U; rewrite <- ?app_assoc; cbn [app]; rewrite ?app_nil_r.
        * pose proof (CMove h (HExists k (Some true)) k false _ _ _ (Some true) E (MOk k (h_up h) act n old) (fun _ => eq_refl)) as X. rewrite U in X. exact X.
        * pose proof (CMove h (HExists k (Some true)) k false _ _ _ (Some true) E (MOk k (h_up h) act n old) (fun _ => eq_refl)) as X. rewrite U in X. exact X.
      + unfold put. apply (CMove h _ k false _ _ _ None E); [|auto]. constructor.
      + unfold put. apply (CMove h _ k false _ _ _ None E); [|auto]. constructor.
    - destruct (s_pc x) eqn:P; try apply CNone. rewrite (same_log h) at 2. apply (top_case h _ k x x []); auto. constructor; auto.
    - destruct (s_pc x) eqn:P; try apply CNone. destruct r as [[|i is]|].
      + apply (top_case h _ k x x); auto. constructor; auto.
      + unfold put. cbn [h_flag h_up h_subs h_log]. rewrite app_nil_r. apply (CMove h _ k false x _ _ None E); [|auto]. apply MBatch; auto.
      + apply (caught_case h _ k x x); auto. constructor; auto.
    - destruct (s_pc x) eqn:P; try apply CNone. destruct (wstep A true (s_act x) (h_up h) b o) as [b' e] eqn:W.
      pose proof (MWork k (h_up h) x b o P) as X. rewrite W in X. refine (CMove h _ k (bad_op o) x _ _ None E X _); destruct o; cbn; auto.
    - destruct (nth_error (s_old x) j) as [b|] eqn:J; [|apply CNone]. destruct (wstep A true (s_act x) (h_up h) b o) as [b' e] eqn:W.
      pose proof (MOld k (h_up h) x j b o J) as X. rewrite W in X. refine (CMove h _ k (bad_op o) x _ _ None E X _); destruct o; cbn; auto.
    - destruct (s_pc x) eqn:P; try apply CNone. destruct (forallb (is_done A) (b_ws b)) eqn:D.
      + rewrite (same_log h) at 2. apply (top_case h _ k x x []); auto. eapply TDone; eauto.
      + destruct (existsb (is_dead A) (b_ws b)) eqn:X; [|apply CNone]. rewrite (same_log h) at 2. apply (caught_case h _ k x _ []); auto. rewrite <- P. eapply FDead; eauto.
    - destruct (s_pc x) eqn:P; try apply CNone.
      + unfold put. rewrite <- P. apply (CMove h _ k false x _ _ None E); [|auto]. apply MStop; congruence.
      + unfold put. rewrite <- P. apply (CMove h _ k false x _ _ None E); [|auto]. apply MStop; congruence.
      + unfold put. rewrite <- P. apply (CMove h _ k false x _ _ None E); [|auto]. apply MStop; congruence.
      + unfold put. apply (CMove h _ k false x _ _ None E); [|auto]. apply MStopE; auto.
    - apply CConn.
  Qed.

  (** ** what holds of every subscription *)
  Definition about (k : nat) (e : hev A) : Prop :=
    match e with VCall j | VRefused j | VThrew j | VOk j | VAsk j | VGot j _ | VDo j _ | VStop j | VStopped j => j = k | VConn _ => False end.
  Lemma turn_about k x x' g : turn k x x' g \/ fails k x x' g -> Forall (about k) g.
  Proof. intros [T|T]; destruct T; repeat constructor. Qed.
  Lemma dos_about k (es : list (ev A)) : Forall (about k) (map (VDo k) es).
  Proof. induction es; constructor; cbn; auto. Qed.
  Lemma rep_about k n : Forall (about k) (repeat (VStopped k) n).
  Proof. induction n; constructor; cbn; auto. Qed.
  Lemma move_about k up bad x x' es f : move k up bad x x' es f -> Forall (about k) es.
  Proof.
    intro M. destruct M; repeat (apply Forall_app; split); eauto using turn_about, dos_about, rep_about; try (repeat constructor; fail).
    destruct up; repeat constructor.
  Qed.

  Record SI (k : nat) (x : sub A) l : Prop := {
    si_ok : In (VOk k) l <-> (s_pc x <> PCheck /\ s_pc x <> POut);
    si_stop : In (VStop k) l <-> In (VOk k) l /\ s_act x = false;
    si_stopped : In (VStopped k) l <-> s_pc x = PEnd;
    si_end : s_pc x = PEnd -> s_act x = false /\ s_stops x = O;
    si_stops : s_pc x <> PEnd -> In (VOk k) l -> (s_act x = true <-> s_stops x = O);
    si_fresh : ~ In (VOk k) l -> s_act x = false /\ s_stops x = O /\ s_old x = [];
    si_call : In (VCall k) l -> s_pc x = PCheck \/ In (VOk k) l \/ In (VThrew k) l;
    si_wait : waiting k l = true <-> s_pc x = PWait;
    si_got : forall b, s_pc x = PBatch b -> lenN (b_q b) <= lenN (received k l) /\ lenN (b_ws b) <= limit conc;
    si_check : s_pc x = PCheck -> In (VCall k) l /\ ~ In (VThrew k) l
  }.
  Lemma waiting_app k l es : waiting k (l ++ es) = fold_left (fun b e => match e with VAsk j => if Nat.eqb j k then true else b | VGot j _ => if Nat.eqb j k then false else b | _ => b end) es (waiting k l).
  Proof. unfold waiting. apply fold_left_app. Qed.
  Lemma received_app k l es : received k (l ++ es) = received k l ++ received k es.
  Proof. apply flat_map_app. Qed.
  Lemma doings_app k l es : doings k (l ++ es) = doings k l ++ doings k es.
  Proof. apply flat_map_app. Qed.
  Lemma not_about_in k j (es : list (hev A)) e : j <> k -> Forall (about j) es -> about k e -> ~ In e es.
  Proof. intros N F E H. rewrite Forall_forall in F. specialize (F e H). destruct e; cbn in *; congruence. Qed.
  Lemma frame_waiting k j l es : j <> k -> Forall (about j) es -> waiting k (l ++ es) = waiting k l.
  Proof.
    intros N F. rewrite waiting_app. generalize (waiting k l) as b. induction F as [|e es E F IH]; intro b; auto. cbn [fold_left]. rewrite IH.
    destruct e; cbn in E; subst; auto; destruct (Nat.eqb_spec j k); congruence.
  Qed.
  Lemma frame_received k j es : j <> k -> Forall (about j) es -> received k es = [].
  Proof.
    intros N F. induction F as [|e es E F IH]; auto. unfold received in *. cbn [flat_map]. rewrite IH, app_nil_r.
    destruct e; cbn in E; subst; auto. destruct r; auto. destruct (Nat.eqb_spec j k); congruence.
  Qed.
  Lemma frame_doings k j es : j <> k -> Forall (about j) es -> doings k es = [].
  Proof.
    intros N F. induction F as [|e es E F IH]; auto. unfold doings in *. cbn [flat_map]. rewrite IH, app_nil_r.
    destruct e; cbn in E; subst; auto. destruct (Nat.eqb_spec j k); congruence.
  Qed.
  Lemma frame_in k j l es e : j <> k -> Forall (about j) es -> about k e -> (In e (l ++ es) <-> In e l).
  Proof. intros N F E. rewrite in_app_iff. pose proof (not_about_in k j es e N F E). tauto. Qed.
  Lemma SI_frame k j x l es : j <> k -> Forall (about j) es -> SI k x l -> SI k x (l ++ es).
  Proof.
    intros N F [I1 I2 I3 I4 I5 I6 I7 I8 I9 I10].
    constructor; rewrite ?(frame_in k j l es (VOk k) N F eq_refl), ?(frame_in k j l es (VStop k) N F eq_refl), ?(frame_in k j l es (VStopped k) N F eq_refl), ?(frame_in k j l es (VCall k) N F eq_refl), ?(frame_in k j l es (VThrew k) N F eq_refl), ?(frame_waiting k j l es N F), ?received_app, ?(frame_received k j es N F), ?app_nil_r; auto.
  Qed.
  Lemma in_dos k e (es : list (ev A)) : In e (map (VDo k) es) -> exists y : ev A, e = VDo k y.
  Proof. rewrite in_map_iff. intros [y [<- _]]. eauto. Qed.
  Lemma waiting_dos k l (es : list (ev A)) : waiting k (l ++ map (VDo k) es) = waiting k l.
  Proof. rewrite waiting_app. generalize (waiting k l). induction es; intro b; cbn; auto. Qed.
  Lemma waiting_reps k l n : waiting k (l ++ repeat (VStopped k) n) = waiting k l.
  Proof. rewrite waiting_app. generalize (waiting k l). induction n; intro b; cbn; auto. Qed.
  Lemma received_dos k l (es : list (ev A)) : received k (l ++ map (VDo k) es) = received k l.
  Proof. rewrite received_app. replace (received k (map (VDo k) es)) with (@nil A); [apply app_nil_r|]. induction es; auto. Qed.
  Lemma in_rep {B} (y z : B) n : In y (repeat z n) <-> n <> O /\ y = z.
  Proof. split; [intro H; split; [destruct n; [destruct H|discriminate]|apply repeat_spec in H; auto]|intros [H ->]; destruct n; [congruence|left; auto]]. Qed.
  Lemma setw_len i (w : worker A) (l : list (worker A)) w0 : nth_error l i = Some w0 -> lenN (setw A i w l) = lenN l.
  Proof. intro E. destruct (setw_split A i w w0 l E) as (a & b & -> & ->). rewrite !lenN_app, !lenN_cons. auto. Qed.
  Lemma wstep_len a u b o : lenN (b_q (fst (wstep A true a u b o))) <= lenN (b_q b) /\ lenN (b_ws (fst (wstep A true a u b o))) = lenN (b_ws b).
  Proof.
    destruct o as [i bad|i ok bad]; cbn [wstep]; destruct (nth_error (b_ws b) i) as [[|y| |]|] eqn:E; cbn [fst]; try (split; lia).
    - destruct (b_q b) as [|y q] eqn:Q; [|destruct a; [|destruct u; [destruct bad|]]]; cbn [fst andb b_q b_ws]; rewrite ?lenN_cons, (setw_len _ _ _ _ E); split; lia.
    - destruct u; [destruct bad|]; cbn [negb fst b_q b_ws]; rewrite (setw_len _ _ _ _ E); split; lia.
  Qed.

  Lemma SI_move k up bad x x' es f l : move k up bad x x' es f -> SI k x l -> SI k x' (l ++ es).
  Proof.
    intros M [I1 I2 I3 I4 I5 I6 I7 I8 I9 I10].
    assert (TF : forall x'' g, turn k x x'' g \/ fails k x x'' g -> (s_pc x <> PCheck /\ s_pc x <> POut /\ s_pc x <> PEnd) /\ waiting k (l ++ g) = false /\
      (forall e, In e g -> exists r, e = VGot k r)).
    { intros x'' g T. assert (W : waiting k l = true -> s_pc x = PWait) by apply I8. assert (W' : s_pc x <> PWait -> waiting k l = false) by (intro; destruct (waiting k l); auto; exfalso; auto).
      destruct T as [T|T]; destruct T; (split; [repeat split; congruence|]); rewrite ?app_nil_r; (split; [first [apply W'; congruence|rewrite waiting_app; cbn; rewrite Nat.eqb_refl; auto]|]); intros e; cbn; intuition; subst; eauto. }
    destruct M as [act n old|act n old|x x'' g T Ac U|x x'' g T Ac|x x'' g T Ac|x i is P|x b o P|x i b o J|x P|x P1 P2 P3].
    - cbn [s_pc s_act s_stops s_old] in *.
      assert (OK : ~ In (VOk k) l) by (rewrite I1; intuition). assert (S : ~ In (VStop k) l) by (rewrite I2; tauto). assert (S2 : ~ In (VStopped k) l) by (rewrite I3; discriminate).
      assert (O' : In (VOk k) (l ++ VOk k :: (if up then [VAsk k] else []))) by (apply in_or_app; right; left; auto).
      constructor; cbn [s_pc s_act s_stops s_old].
      + split; auto. intros _. destruct up; split; discriminate.
      + split; [|intros [_ H]; discriminate]. rewrite in_app_iff. intros [H|[H|H]]; [tauto|discriminate|]. destruct up; [destruct H as [H|[]]; discriminate|destruct H].
      + split; [|destruct up; discriminate]. rewrite in_app_iff. intros [H|[H|H]]; [tauto|discriminate|]. destruct up; [destruct H as [H|[]]; discriminate|destruct H].
      + destruct up; discriminate.
      + tauto.
      + tauto.
      + auto.
      + rewrite waiting_app. destruct up; cbn.
        * rewrite Nat.eqb_refl. tauto.
        * split; [|discriminate]. intro H. apply I8 in H. discriminate.
      + destruct up; discriminate.
      + destruct up; discriminate.
    - cbn [s_pc s_act s_stops s_old] in *.
      assert (OK : ~ In (VOk k) l) by (rewrite I1; intuition). assert (S : ~ In (VStop k) l) by (rewrite I2; tauto). assert (S2 : ~ In (VStopped k) l) by (rewrite I3; discriminate).
      constructor; cbn [s_pc s_act s_stops s_old]; rewrite ?in_app_iff; cbn [In]; try discriminate; try (intuition congruence).
      + rewrite waiting_app. cbn. split; [|discriminate]. intro H. apply I8 in H. discriminate.
    - destruct (TF x'' g (or_introl T)) as ((P1 & P2 & P3) & W & G).
      assert (OK : In (VOk k) l) by (apply I1; auto).
      assert (N : forall e, (forall r, e <> VGot k r) -> e <> VAsk k -> (In e (l ++ g ++ [VAsk k]) <-> In e l)).
      { intros e E1 E2. rewrite !in_app_iff. cbn. split; [|tauto]. intros [H|[H|[H|[]]]]; auto; [|congruence]. destruct (G e H) as [r ->]. exfalso. eapply E1; eauto. }
      assert (St : s_stops x = O) by (apply I5; auto).
      constructor; cbn [s_pc s_act s_stops s_old]; rewrite ?(N (VOk k)), ?(N (VStop k)), ?(N (VStopped k)), ?(N (VCall k)), ?(N (VThrew k)) by (intros; discriminate).
      + split; auto. intros _. split; discriminate.
      + rewrite I2, Ac. intuition discriminate.
      + rewrite I3. split; [tauto|discriminate].
      + discriminate.
      + tauto.
      + tauto.
      + auto.
      + rewrite app_assoc, waiting_app. cbn. rewrite Nat.eqb_refl. tauto.
      + discriminate.
      + discriminate.
    - destruct (TF x'' g T) as ((P1 & P2 & P3) & W & G).
      assert (OK : In (VOk k) l) by (apply I1; auto).
      assert (N : forall e, (forall r, e <> VGot k r) -> (In e (l ++ g) <-> In e l)).
      { intros e E1. rewrite !in_app_iff. split; [|tauto]. intros [H|H]; auto. destruct (G e H) as [r ->]. exfalso. eapply E1; eauto. }
      assert (St : s_stops x = O) by (apply I5; auto).
      constructor; cbn [s_pc s_act s_stops s_old]; rewrite ?(N (VOk k)), ?(N (VStop k)), ?(N (VStopped k)), ?(N (VCall k)), ?(N (VThrew k)) by (intros; discriminate).
      + split; auto. intros _. split; discriminate.
      + rewrite I2, Ac. intuition discriminate.
      + rewrite I3. split; [tauto|discriminate].
      + discriminate.
      + tauto.
      + tauto.
      + auto.
      + rewrite W. split; discriminate.
      + discriminate.
      + discriminate.
    - destruct (TF x'' g T) as ((P1 & P2 & P3) & W & G).
      assert (OK : In (VOk k) l) by (apply I1; auto).
      assert (N : forall e, (forall r, e <> VGot k r) -> e <> VStopped k -> (In e (l ++ g ++ repeat (VStopped k) (s_stops x)) <-> In e l)).
      { intros e E1 E2. rewrite !in_app_iff, in_rep. split; [|tauto]. intros [H|[H|H]]; auto; [|destruct H; congruence]. destruct (G e H) as [r ->]. exfalso. eapply E1; eauto. }
      assert (St : s_stops x <> O) by (intro H; apply (I5 P3 OK) in H; congruence).
      constructor; cbn [s_pc s_act s_stops s_old]; rewrite ?(N (VOk k)), ?(N (VStop k)), ?(N (VCall k)), ?(N (VThrew k)) by (intros; discriminate).
      + split; auto. intros _. split; discriminate.
      + rewrite I2, Ac. tauto.
      + split; auto. intros _. rewrite !in_app_iff, in_rep. auto.
      + auto.
      + congruence.
      + tauto.
      + auto.
      + rewrite app_assoc, waiting_reps, W. split; discriminate.
      + discriminate.
      + discriminate.
    - assert (OK : In (VOk k) l) by (apply I1; rewrite P; split; discriminate).
      constructor; cbn [s_pc s_act s_stops s_old]; rewrite ?in_app_iff; cbn [In].
      + split; [|tauto]. intros _. split; discriminate.
      + rewrite I2. intuition discriminate.
      + rewrite I3, P. intuition discriminate.
      + discriminate.
      + intros _ _. apply I5; auto. rewrite P. discriminate.
      + tauto.
      + tauto.
      + rewrite waiting_app. cbn. rewrite Nat.eqb_refl. split; discriminate.
      + intros b E. injection E as <-. unfold batch_new. cbn [b_q b_ws]. rewrite received_app. unfold received at 2. cbn [flat_map]. rewrite Nat.eqb_refl, app_nil_r, lenN_app. split; [lia|].
        destruct (workers_pos conc (lenN (i :: is))) as [_ X]; [rewrite lenN_cons; lia|]. unfold lenN at 1. rewrite repeat_length. exact X.
      + discriminate.
    - assert (OK : In (VOk k) l) by (apply I1; rewrite P; split; discriminate).
      assert (N : forall e, (forall y, e <> VDo k y) -> (In e (l ++ map (VDo k) (snd (wstep A true (s_act x) up b o))) <-> In e l)).
      { intros e E1. rewrite in_app_iff. split; [|tauto]. intros [H|H]; auto. destruct (in_dos _ _ _ H) as [y ->]. exfalso. eapply E1; eauto. }
      constructor; cbn [s_pc s_act s_stops s_old]; rewrite ?(N (VOk k)), ?(N (VStop k)), ?(N (VStopped k)), ?(N (VCall k)), ?(N (VThrew k)), ?waiting_dos, ?received_dos by (intros; discriminate); auto.
      + split; auto. intros _. split; discriminate.
      + rewrite I3, P. split; discriminate.
      + discriminate.
      + intros _. apply I5. rewrite P. discriminate.
      + rewrite I8, P. split; discriminate.
      + intros b' E. injection E as <-. destruct (wstep_len (s_act x) up b o) as [X1 X2]. destruct (I9 b P). rewrite X2. split; lia.
      + discriminate.
    - assert (N : forall e, (forall y, e <> VDo k y) -> (In e (l ++ map (VDo k) (snd (wstep A true (s_act x) up b o))) <-> In e l)).
      { intros e E1. rewrite in_app_iff. split; [|tauto]. intros [H|H]; auto. destruct (in_dos _ _ _ H) as [y ->]. exfalso. eapply E1; eauto. }
      constructor; cbn [s_pc s_act s_stops s_old]; rewrite ?(N (VOk k)), ?(N (VStop k)), ?(N (VStopped k)), ?(N (VCall k)), ?(N (VThrew k)), ?waiting_dos, ?received_dos by (intros; discriminate); auto.
      intro OK. apply I6 in OK. destruct OK as (_ & _ & OK). rewrite OK in J. destruct i; discriminate.
    - assert (OK : In (VOk k) l) by (apply I1; rewrite P; split; discriminate).
      constructor; cbn [s_pc s_act s_stops s_old]; rewrite ?in_app_iff; cbn [In]; try tauto.
      + rewrite I1, P. intuition discriminate.
      + rewrite waiting_app. cbn. rewrite I8, P. tauto.
      + discriminate.
      + discriminate.
    - assert (OK : In (VOk k) l) by (apply I1; auto).
      constructor; cbn [s_pc s_act s_stops s_old]; rewrite ?in_app_iff; cbn [In]; try tauto.
      + rewrite I3. intuition discriminate.
      + intros _ _. split; discriminate.
      + rewrite waiting_app. cbn. exact I8.
      + intros b E. rewrite received_app. cbn. rewrite app_nil_r. auto.
  Qed.

  Definition running x : Prop := s_pc x <> PCheck /\ s_pc x <> POut /\ s_pc x <> PEnd.
  Record HI h : Prop := {
    hi_sub : forall k x, nth_error (h_subs h) k = Some x -> SI k x (h_log h);
    hi_idx : forall e k, In e (h_log h) -> about k e -> (k < length (h_subs h))%nat;
    hi_up : online (h_log h) = h_up h;
    hi_flag : h_flag h = true -> exists k x, nth_error (h_subs h) k = Some x /\ running x
  }.
  Lemma online_app l es : online (l ++ es) = fold_left (fun b e => match e with VConn up => up | _ => b end) es (online l).
  Proof. apply fold_left_app. Qed.
  Lemma online_about k l es : Forall (about k) es -> online (l ++ es) = online l.
  Proof. intro F. rewrite online_app. generalize (online l). induction F as [|e es E F IH]; intro b; auto. cbn [fold_left]. rewrite IH. destruct e; auto; destruct E. Qed.
  Lemma move_running k up bad x x' es f : move k up bad x x' es f ->
    match f with Some true => running x' | Some false => running x /\ s_pc x' = PEnd | None => running x -> running x' end.
  Proof.
    unfold running. intro M. destruct M as [act n old|act n old|x x'' g T Ac U|x x'' g T Ac|x x'' g T Ac|x i is P|x b o P|x i b o J|x P|x P1 P2 P3]; cbn [s_pc]; intuition; try discriminate; try congruence.
    all: try (destruct up; discriminate).
    all: match goal with X : turn _ _ _ _ |- _ => destruct X | X : fails _ _ _ _ |- _ => destruct X end; congruence.
  Qed.
  Lemma HI0 : HI handle0.
  Proof. constructor; cbn; auto; try discriminate; [intros [|k] x H; discriminate|intros e k []]. Qed.
  Lemma fresh_SI h k : HI h -> (length (h_subs h) <= k)%nat -> forall e, about k e -> ~ In e (h_log h).
  Proof. intros I L e E H. pose proof (hi_idx _ I e k H E). lia. Qed.
  Lemma waiting_fresh k l : (forall e, about k e -> ~ In e l) -> waiting k l = false.
  Proof.
    unfold waiting. induction l as [|e l IH]; intro H; auto. cbn [fold_left].
    replace (match e with VAsk j => if Nat.eqb j k then true else false | VGot j _ => if Nat.eqb j k then false else false | _ => false end) with false; [apply IH; intros e' E H'; apply (H e' E); right; auto|].
    destruct e; auto; destruct (Nat.eqb_spec k0 k); auto. subst. exfalso. apply (H (VAsk k)); [reflexivity|left; auto].
  Qed.
  Lemma HI_step h o : HI h -> HI (hstep h o).
  Proof.
    intro I. pose proof (fresh_SI h _ I (Nat.le_refl _)) as F. destruct (step_case h o) as [o|Fl|Fl|up|o k bad x x' es f E M _]; auto.
    - destruct I as [I1 I2 I3 I4]. constructor; cbn [h_subs h_log h_up h_flag].
      + intros k x H. destruct (Nat.eq_dec k (length (h_subs h))) as [->|N].
        * rewrite nth_error_app2, Nat.sub_diag in H by lia. injection H as <-.
          constructor; cbn [s_pc s_act s_stops s_old]; rewrite ?in_app_iff; cbn [In]; try discriminate; auto.
          -- split; [|tauto]. intros [H|[H|[]]]; [|discriminate]. exfalso. apply (F (VOk (length (h_subs h)))); auto. reflexivity.
          -- split; [|intros [[H|[H|[]]] _]]; [intros [H|[H|[]]]| |]; try discriminate; exfalso; [apply (F (VStop (length (h_subs h))))|apply (F (VOk (length (h_subs h))))]; auto; reflexivity.
          -- split; [|discriminate]. intros [H|[H|[]]]; [|discriminate]. exfalso. apply (F (VStopped (length (h_subs h)))); auto. reflexivity.
          -- intros _ [H|[H|[]]]; [|discriminate]. exfalso. apply (F (VOk (length (h_subs h)))); auto. reflexivity.
          -- intros [H|[H|[]]]; [|discriminate]. exfalso. apply (F (VCall (length (h_subs h)))); auto. reflexivity.
          -- rewrite waiting_app, waiting_fresh; auto. cbn. split; discriminate.
        * assert (L : (k < length (h_subs h))%nat) by (pose proof (nth_lt _ _ _ H) as L; rewrite app_length in L; cbn in L; lia).
          rewrite nth_error_app1 in H by auto. apply (SI_frame k (length (h_subs h))); auto. repeat constructor.
      + intros e k H E. rewrite app_length. apply in_app_or in H. destruct H as [H|[<-|[]]]; [specialize (I2 e k H E); lia|]. cbn in E. subst. cbn. lia.
      + rewrite (online_about (length (h_subs h))); auto. repeat constructor.
      + intro H. destruct (I4 H) as (k & x & E & R). exists k, x. split; auto. rewrite nth_error_app1; auto. eapply nth_lt; eauto.
    - destruct I as [I1 I2 I3 I4]. constructor; cbn [h_subs h_log h_up h_flag].
      + intros k x H. destruct (Nat.eq_dec k (length (h_subs h))) as [->|N].
        * rewrite nth_error_app2, Nat.sub_diag in H by lia. injection H as <-.
          constructor; cbn [s_pc s_act s_stops s_old]; rewrite ?in_app_iff; cbn [In]; try discriminate; auto.
          -- split; [|tauto]. intros [H|[H|[]]]; [|discriminate]. exfalso. apply (F (VOk (length (h_subs h)))); auto. reflexivity.
          -- split; [|intros [[H|[H|[]]] _]]; [intros [H|[H|[]]]| |]; try discriminate; exfalso; [apply (F (VStop (length (h_subs h))))|apply (F (VOk (length (h_subs h))))]; auto; reflexivity.
          -- split; [|discriminate]. intros [H|[H|[]]]; [|discriminate]. exfalso. apply (F (VStopped (length (h_subs h)))); auto. reflexivity.
          -- intros _ [H|[H|[]]]; [|discriminate]. exfalso. apply (F (VOk (length (h_subs h)))); auto. reflexivity.
          -- rewrite waiting_app, waiting_fresh; auto. cbn. split; discriminate.
          -- intros _. split; auto. intros [H|[H|[]]]; [|discriminate]. apply (F (VThrew (length (h_subs h)))); auto. reflexivity.
        * assert (L : (k < length (h_subs h))%nat) by (pose proof (nth_lt _ _ _ H) as L; rewrite app_length in L; cbn in L; lia).
          rewrite nth_error_app1 in H by auto. apply (SI_frame k (length (h_subs h))); auto. repeat constructor.
      + intros e k H E. rewrite app_length. apply in_app_or in H. destruct H as [H|[<-|[]]]; [specialize (I2 e k H E); lia|]. cbn in E. subst. cbn. lia.
      + rewrite (online_about (length (h_subs h))); auto. repeat constructor.
      + congruence.
    - destruct I as [I1 I2 I3 I4]. constructor; cbn [h_subs h_log h_up h_flag]; auto.
      + intros k x H. destruct (I1 k x H) as [J1 J2 J3 J4 J5 J6 J7 J8 J9 J10].
        constructor; rewrite ?in_app_iff; cbn [In]; auto; try (intuition (discriminate || auto); fail).
        * rewrite waiting_app. cbn. auto.
        * intros b B. rewrite received_app. cbn. rewrite app_nil_r. auto.
      + intros e k H E. apply in_app_or in H. destruct H as [H|[<-|[]]]; [eauto|destruct E].
      + rewrite online_app. reflexivity.
    - pose proof (nth_lt _ _ _ E) as L. pose proof (move_about _ _ _ _ _ _ _ M) as Ab. destruct I as [I1 I2 I3 I4]. constructor; cbn [h_subs h_log h_up h_flag].
      + intros j y H. destruct (Nat.eq_dec j k) as [->|N].
        * rewrite upd_same in H by auto. injection H as <-. eapply SI_move; eauto.
        * rewrite upd_other in H by auto. apply (SI_frame j k); auto.
      + intros e j H E'. rewrite upd_len by auto. apply in_app_or in H. destruct H as [H|H]; [eauto|]. rewrite Forall_forall in Ab. specialize (Ab e H). destruct e; cbn in *; subst; try contradiction; auto.
      + rewrite (online_about k); auto.
      + pose proof (move_running _ _ _ _ _ _ _ M) as R. intro Fl. unfold flag' in Fl. destruct f as [[|]|]; [exists k, x'; split; auto; apply upd_same; auto|discriminate|].
        destruct (I4 Fl) as (j & y & E' & R'). destruct (Nat.eq_dec j k) as [->|N].
        * exists k, x'. split; [apply upd_same; auto|]. apply R. congruence.
        * exists j, y. split; auto. rewrite upd_other; auto.
  Qed.
  Lemma hrun_app os ys : hrun (os ++ ys) = fold_left hstep ys (hrun os).
  Proof. unfold SdkQueueModel.hrun. apply fold_left_app. Qed.
  Lemma hrun_snoc os o : hrun (os ++ [o]) = hstep (hrun os) o.
  Proof. rewrite hrun_app. reflexivity. Qed.
  Lemma HI_run os : HI (hrun os).
  Proof. induction os as [|o os IH] using rev_ind; [apply HI0|]. rewrite hrun_snoc. apply HI_step. auto. Qed.
  Lemma log_ext h o : exists es, h_log (hstep h o) = h_log h ++ es.
  Proof. destruct (step_case h o); cbn [h_log]; eauto. exists []. rewrite app_nil_r. auto. Qed.
  Lemma log_grows os ys : exists es, h_log (hrun (os ++ ys)) = h_log (hrun os) ++ es.
  Proof.
    induction ys as [|o ys IH] using rev_ind; [exists []; rewrite !app_nil_r; auto|]. destruct IH as [es E]. rewrite app_assoc, hrun_snoc. destruct (log_ext (hrun (os ++ ys)) o) as [e' E'].
    exists (es ++ e'). rewrite E', E, app_assoc. auto.
  Qed.
  Lemma sub_of os k : In (VOk k) (h_log (hrun os)) -> exists x, nth_error (h_subs (hrun os)) k = Some x /\ SI k x (h_log (hrun os)).
  Proof.
    intro H. pose proof (HI_run os) as I. pose proof (hi_idx _ I _ k H eq_refl) as L. apply nth_error_Some in L.
    destruct (nth_error (h_subs (hrun os)) k) as [x|] eqn:E; [|congruence]. exists x. split; auto. eapply hi_sub; eauto.
  Qed.
  (** where an event was logged *)
  Lemma log_at os : forall pre e post, h_log (hrun os) = pre ++ e :: post ->
    exists a o b n1 n2, os = a ++ o :: b /\ h_log (hstep (hrun a) o) = h_log (hrun a) ++ n1 ++ e :: n2 /\ pre = h_log (hrun a) ++ n1.
  Proof.
    induction os as [|o os IH] using rev_ind; intros pre e post H; [destruct pre; discriminate|]. rewrite hrun_snoc in H. destruct (log_ext (hrun os) o) as [es E]. rewrite E in H.
    destruct (app_eq_app _ _ _ _ H) as [l [[H1 H2]|[H1 H2]]].
    - destruct l as [|e' l].
      + cbn in H2. exists os, o, [], [], post. rewrite E, <- H2. rewrite H1, !app_nil_r. auto.
      + injection H2 as <- H2. destruct (IH pre e l H1) as (a & o' & b & n1 & n2 & -> & H3 & H4). exists a, o', (b ++ [o]), n1, n2. rewrite <- app_assoc. auto.
    - exists os, o, [], l, post. rewrite E, H2. auto.
  Qed.
  (** what can be logged once [e0] has been *)
  Lemma after_event (G : hop A -> Prop) (e0 : hev A) (Q : hev A -> Prop) :
    (forall a o es, Forall G (a ++ [o]) -> h_log (hstep (hrun a) o) = h_log (hrun a) ++ es -> In e0 (h_log (hrun a)) -> Forall Q es) ->
    (forall a o n1 n2, Forall G (a ++ [o]) -> h_log (hstep (hrun a) o) = h_log (hrun a) ++ n1 ++ e0 :: n2 -> Forall Q n2) ->
    forall os pre post, Forall G os -> h_log (hrun os) = pre ++ e0 :: post -> Forall Q post.
  Proof.
    intros K1 K2 os. induction os as [|o os IH] using rev_ind; intros pre post F H; [destruct pre; discriminate|]. rewrite hrun_snoc in H. destruct (log_ext (hrun os) o) as [es E]. pose proof H as H0. rewrite E in H.
    assert (F' : Forall G os) by (apply Forall_app in F; apply F).
    destruct (app_eq_app _ _ _ _ H) as [l [[H1 H2]|[H1 H2]]].
    - destruct l as [|e' l].
      + cbn in H2. subst es. apply (K2 os o [] post); auto.
      + injection H2 as <- H2. subst post. apply Forall_app. split; [eapply IH; eauto|]. apply (K1 os o es); auto. rewrite H1. apply in_or_app. right. left. auto.
    - subst es. apply (K2 os o l post); auto.
  Qed.
End P.
