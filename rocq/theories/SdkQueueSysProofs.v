(** Proofs about queue consumers end to end. *)
From Verif Require Import LibBase LibMap QueueModel QueueSpec QueueObs QueueProofs QueueRefine QueueTrace QueueFacts QueueFacts2.
From Verif Require Import SdkLoopModel SdkLoopProofs SdkQueueModel SdkQueueSpec SdkQueueProofs SdkQueueTokens SdkQueueSysModel SdkQueueSysSpec.
From Coq Require Import Permutation.

Section Y.
  Variable cfg : qconfig.
  Variables conc size : N.
  Variable V : Type.
  Variable dec : bytes -> option V.
  Notation yrun := (yrun cfg conc size V dec).
  Notation ystep := (ystep cfg conc size V dec).
  Notation client := (client conc V).
  Notation server := (server cfg V).
  Notation sys := (sys V).
  Notation item := (item V).
  Notation asks := (asks V).
  Notation frame := (frame V).
  Implicit Types (y : sys) (L : list (yev V)) (c d k : nat) (id : N).
  Arguments mkY {V}. Arguments y_cl {V}. Arguments y_up {V}. Arguments y_down {V}.

  (** ** logs *)
  Definition clog c L : list (hev item) := flat_map (fun e => match e with OClient d x => if Nat.eqb d c then [x] else [] | _ => [] end) L.
  Definition all L : list (hev item) := flat_map (fun e => match e with OClient _ x => [x] | _ => [] end) L.
  Lemma clog_app c a b : clog c (a ++ b) = clog c a ++ clog c b. Proof. apply flat_map_app. Qed.
  Lemma all_app a b : all (a ++ b) = all a ++ all b. Proof. apply flat_map_app. Qed.
  Lemma served_app (a b : list (yev V)) : served (a ++ b) = served a ++ served b. Proof. apply flat_map_app. Qed.
  Lemma acts_app (a b : list (yev V)) : acts_of (a ++ b) = acts_of a ++ acts_of b. Proof. apply flat_map_app. Qed.
  Lemma clog_map c d es : clog c (map (OClient d) es) = if Nat.eqb d c then es else [].
  Proof. induction es as [|e es IH]; cbn; [destruct (Nat.eqb d c); reflexivity|]. unfold clog in IH. rewrite IH. destruct (Nat.eqb d c); reflexivity. Qed.
  Lemma all_map d es : all (map (OClient d) es) = es.
  Proof. induction es as [|e es IH]; cbn; auto. f_equal. exact IH. Qed.
  Lemma served_map d (es : list (hev item)) : served (map (OClient d) es) = [].
  Proof. induction es as [|e es IH]; cbn; auto. Qed.
  Lemma acts_all L : acts_of L = dos item (all L).
  Proof. induction L as [|e L IH]; [reflexivity|]. unfold acts_of, all, dos in *. cbn. rewrite flat_map_app, <- IH. destruct e as [c [| | | | | | | | |]|]; reflexivity. Qed.
  Lemma clog_in c L e : In e (clog c L) <-> In (OClient c e) L.
  Proof.
    unfold clog. rewrite in_flat_map. split.
    - intros ([d x|] & H1 & H2); [|destruct H2]. destruct (Nat.eqb_spec d c); [subst|destruct H2]. destruct H2 as [<-|[]]. exact H1.
    - intro H. exists (OClient c e). split; auto. rewrite Nat.eqb_refl. left. reflexivity.
  Qed.
  Lemma skipn_log {B} (a b : list B) : skipn (length a) (a ++ b) = b.
  Proof. rewrite skipn_app, skipn_all, Nat.sub_diag. reflexivity. Qed.
  (** the client step, with the events it emits *)
  Lemma client_eq c o y : exists es, emits item o es /\ h_log (hstep conc (y_cl y c) o) = h_log (y_cl y c) ++ es /\
    client c o y = mkY (setc V c (hstep conc (y_cl y c) o) (y_cl y)) (y_q y) (y_up y ++ map (pair c) (flat_map (frame (h_log (y_cl y c) ++ es)) es)) (y_down y) (y_log y ++ map (OClient c) es).
  Proof.
    destruct (step_emits item conc (y_cl y c) o) as (es & E & M). exists es. split; auto. split; auto. unfold SdkQueueSysModel.client. rewrite E, skipn_log. reflexivity.
  Qed.
  Lemma setc_same c h f : setc V c h f c = h. Proof. unfold setc. rewrite Nat.eqb_refl. reflexivity. Qed.
  Lemma setc_other c h f d : d <> c -> setc V c h f d = f d. Proof. unfold setc. destruct (Nat.eqb_spec d c); congruence. Qed.
  Lemma frame_in l e r : In r (frame l e) -> (exists k n, r = RAsk k n) \/ (exists k x, e = VDo k (EAck x) /\ r = RAck (fst x)) \/ (exists k x, e = VDo k (ENack x) /\ r = RNack (fst x)).
  Proof. destruct e as [| | | |k| |k [| |x|x|]| | |]; cbn; intros H; try destruct H as [<-|[]]; try destruct H; eauto 8. Qed.
  Lemma drop_in {B} i (l : list B) x : In x (drop i l) -> In x l.
  Proof. unfold drop. intro H. apply in_app_or in H. destruct H as [H|H]; [rewrite <- (firstn_skipn i l); apply in_or_app; auto|]. rewrite <- (firstn_skipn (S i) l). apply in_or_app. auto. Qed.

  (** ** where the requests of the clients come from *)
  Definition ack_src c id L : Prop := exists k (v : V), In (OClient c (VDo k (EEnd (id, v) true))) L.
  Definition nack_src c id L : Prop := exists k (v : V), In (OClient c (VDo k (EEnd (id, v) false))) L \/ In (OClient c (VDo k (ESkip (id, v)))) L.
  Definition req_src c (r : req) L : Prop := match r with RAck id => ack_src c id L | RNack id => nack_src c id L | RAsk _ _ => True end.
  Definition srv_src c (q : qop) L : Prop :=
    (exists clk, q = QoConsume size clk) \/ (exists id, q = QoAck id /\ ack_src c id L) \/ (exists id r now, q = QoNack id r now /\ nack_src c id L).
  (** whatever the queue does *)
  Record WI y : Prop := {
    w_cl : forall c, CI item (y_cl y c);
    w_log : forall c, h_log (y_cl y c) = clog c (y_log y);
    w_up : forall c r, In (c, r) (y_up y) -> req_src c r (y_log y);
    w_srv : forall c q, In (OServer (Some c) q) (y_log y) -> srv_src c q (y_log y)
  }.
  Lemma ack_src_mono c id L L' : ack_src c id L -> ack_src c id (L ++ L').
  Proof. intros (k & v & H). exists k, v. apply in_or_app. auto. Qed.
  Lemma nack_src_mono c id L L' : nack_src c id L -> nack_src c id (L ++ L').
  Proof. intros (k & v & H). exists k, v. rewrite !in_app_iff. tauto. Qed.
  Lemma req_src_mono c r L L' : req_src c r L -> req_src c r (L ++ L').
  Proof. destruct r; cbn; auto using ack_src_mono, nack_src_mono. Qed.
  Lemma srv_src_mono c q L L' : srv_src c q L -> srv_src c q (L ++ L').
  Proof. intros [H|[(id & E & H)|(id & r & now & E & H)]]; [left; auto|right; left; exists id; auto using ack_src_mono|right; right; exists id, r, now; auto using nack_src_mono]. Qed.
  Lemma emits_src c o es l r : emits item o es -> In r (flat_map (frame l) es) -> req_src c r (map (OClient c) es).
  Proof.
    intros M H. apply in_flat_map in H. destruct H as (e & H1 & H2). apply frame_in in H2. destruct H2 as [(k & n & ->)|[(k & x & -> & ->)|(k & x & -> & ->)]]; [exact I| |].
    - destruct M as [es D|j is E|j es W].
      + rewrite Forall_forall in D. destruct (D _ H1).
      + destruct H1 as [H1|[]]. discriminate.
      + apply in_map_iff in H1. destruct H1 as (e' & E & H1). injection E as -> ->. destruct W; cbn in H1; repeat (destruct H1 as [H1|H1]; try discriminate H1); try (solve [destruct H1]). injection H1 as ->. destruct x as [id v]. exists k, v. left. reflexivity.
    - destruct M as [es D|j is E|j es W].
      + rewrite Forall_forall in D. destruct (D _ H1).
      + destruct H1 as [H1|[]]. discriminate.
      + apply in_map_iff in H1. destruct H1 as (e' & E & H1). injection E as -> ->. destruct W; cbn in H1; repeat (destruct H1 as [H1|H1]; try discriminate H1); try (solve [destruct H1]); injection H1 as ->; destruct x as [id v]; exists k, v; [right|left]; left; reflexivity.
  Qed.
  Lemma WI_client c o y : WI y -> WI (client c o y).
  Proof.
    intros [G1 G2 G4 G5]. destruct (client_eq c o y) as (es & M & E & ->). constructor; cbn [y_cl y_q y_up y_down y_log].
    - intro d. destruct (Nat.eq_dec d c) as [->|N]; [rewrite setc_same; apply CI_step; auto|rewrite setc_other; auto].
    - intro d. rewrite clog_app, clog_map. destruct (Nat.eqb_spec c d) as [<-|N]; [rewrite setc_same, E, G2; reflexivity|rewrite setc_other, app_nil_r; auto].
    - intros d r H. apply in_app_or in H. destruct H as [H|H]; [apply req_src_mono; auto|]. apply in_map_iff in H. destruct H as (r' & E' & H). injection E' as <- <-.
      apply (emits_src c _ _ _ _ M) in H. destruct r'; cbn in *; auto; destruct H as (k & v & H); exists k, v; rewrite !in_app_iff; tauto.
    - intros d q H. apply in_app_or in H. destruct H as [H|H]; [apply srv_src_mono; auto|]. apply in_map_iff in H. destruct H as (? & ? & _). discriminate.
  Qed.
  Lemma WI_server who q y : WI y -> (forall c, who = Some c -> srv_src c q (y_log y)) -> WI (server who q y).
  Proof.
    intros [G1 G2 G4 G5] W. unfold SdkQueueSysModel.server. constructor; cbn [y_cl y_q y_up y_down y_log]; auto.
    - intro c. rewrite clog_app. cbn. rewrite app_nil_r. auto.
    - intros c r H. apply req_src_mono. auto.
    - intros c q' H. apply srv_src_mono. apply in_app_or in H. destruct H as [H|[H|[]]]; auto. injection H as -> ->. auto.
  Qed.
  Lemma WI_net y up down : WI y -> incl up (y_up y) -> WI (mkY (y_cl y) (y_q y) up down (y_log y)).
  Proof. intros [G1 G2 G4 G5] I. constructor; cbn [y_cl y_q y_up y_down y_log]; auto. Qed.
  Lemma drop_incl {B} i (l : list B) : incl (drop i l) l.
  Proof. intros x. apply drop_in. Qed.
  Lemma WI_step y o : WI y -> WI (ystep y o).
  Proof.
    intro G. destruct o as [c o|i now clk reason|i|j|j|q]; cbn [SdkQueueSysModel.ystep].
    - pose proof (WI_client c o y G). destruct o as [| | |k [is|]| | | | |]; auto.
    - destruct (nth_error (y_up y) i) as [[c r]|] eqn:E; auto. apply nth_error_In in E. apply (w_up y G) in E.
      assert (G' := WI_net y (drop i (y_up y)) (y_down y) G (drop_incl i _)). destruct r as [k n|id|id].
      + refine (WI_net (server (Some c) (QoConsume size clk) _) _ _ _ (incl_refl _)). apply WI_server; auto. intros d _. left. eauto.
      + apply WI_server; auto. intros d [= <-]. right. left. eauto.
      + apply WI_server; auto. intros d [= <-]. right. right. exists id, reason, now. auto.
    - apply WI_net; auto. apply drop_incl.
    - destruct (nth_error (y_down y) j) as [a|]; auto. assert (G' := WI_net y (y_up y) (drop j (y_down y)) G (incl_refl _)).
      destruct (Nat.eqb _ _); auto. apply WI_client; auto.
    - apply WI_net; auto. apply incl_refl.
    - apply WI_server; auto. discriminate.
  Qed.
  Record GI y : Prop := { g_w : WI y; g_q : y_q y = qrun cfg inner0 (served (y_log y)) }.
  Lemma g_cl y : GI y -> forall c, CI item (y_cl y c). Proof. intros [G _]. exact (w_cl y G). Qed.
  Lemma g_log y : GI y -> forall c, h_log (y_cl y c) = clog c (y_log y). Proof. intros [G _]. exact (w_log y G). Qed.
  Lemma g_srv y : GI y -> forall c q, In (OServer (Some c) q) (y_log y) -> srv_src c q (y_log y). Proof. intros [G _]. exact (w_srv y G). Qed.
  Lemma q_client c o y : y_q y = qrun cfg inner0 (served (y_log y)) -> y_q (client c o y) = qrun cfg inner0 (served (y_log (client c o y))).
  Proof. intro G. destruct (client_eq c o y) as (es & M & E & ->). cbn [y_q y_log]. rewrite served_app, served_map, app_nil_r. exact G. Qed.
  Lemma q_server who q y : y_q y = qrun cfg inner0 (served (y_log y)) -> y_q (server who q y) = qrun cfg inner0 (served (y_log (server who q y))).
  Proof. intro G. cbn [SdkQueueSysModel.server y_q y_log]. rewrite served_app, qrun_app, <- G. reflexivity. Qed.
  Lemma GI_step y o : GI y -> GI (ystep y o).
  Proof.
    intros [W G]. split; [apply WI_step; auto|]. destruct o as [c o|i now clk reason|i|j|j|q]; cbn [SdkQueueSysModel.ystep].
    - pose proof (q_client c o y G). destruct o as [| | |k [is|]| | | | |]; auto.
    - destruct (nth_error (y_up y) i) as [[c r]|]; auto. destruct r as [k n|id|id].
      + exact (q_server (Some c) (QoConsume size clk) y G).
      + exact (q_server (Some c) (QoAck id) y G).
      + exact (q_server (Some c) (QoNack id reason now) y G).
    - exact G.
    - destruct (nth_error (y_down y) j) as [a|]; auto. destruct (Nat.eqb _ _); auto. apply q_client. exact G.
    - exact G.
    - apply q_server. exact G.
  Qed.
  Lemma yrun_snoc os o : yrun (os ++ [o]) = ystep (yrun os) o.
  Proof. unfold SdkQueueSysModel.yrun. rewrite fold_left_app. reflexivity. Qed.
  Lemma GI_run os : GI (yrun os).
  Proof.
    induction os as [|o os IH] using rev_ind; [|rewrite yrun_snoc; apply GI_step; auto].
    split; [|reflexivity]. constructor; cbn; auto; try contradiction. intro c. apply CI0.
  Qed.
  Lemma client_log c o y : exists es, y_log (client c o y) = y_log y ++ es.
  Proof. destruct (client_eq c o y) as (es & M & E & ->). eexists. reflexivity. Qed.
  Lemma step_log y o : exists es, y_log (ystep y o) = y_log y ++ es.
  Proof.
    assert (NO : exists es, y_log y = y_log y ++ es) by (exists []; rewrite app_nil_r; reflexivity).
    destruct o as [c o|i now clk reason|i|j|j|q]; cbn [SdkQueueSysModel.ystep]; auto.
    - pose proof (client_log c o y). destruct o as [| | |k [is|]| | | | |]; auto.
    - destruct (nth_error (y_up y) i) as [[c [k n|id|id]]|]; auto; eexists; reflexivity.
    - destruct (nth_error (y_down y) j) as [a|]; auto. destruct (Nat.eqb _ _); auto. exact (client_log _ _ (mkY (y_cl y) (y_q y) (y_up y) (drop j (y_down y)) (y_log y))).
    - eexists. reflexivity.
  Qed.
  Lemma run_log os ys : exists es, y_log (yrun (os ++ ys)) = y_log (yrun os) ++ es.
  Proof.
    induction ys as [|o ys (es & IH)] using rev_ind; [exists []; rewrite !app_nil_r; reflexivity|]. rewrite app_assoc, yrun_snoc. destruct (step_log (yrun (os ++ ys)) o) as (e & E). exists (es ++ e). rewrite E, IH, app_assoc. reflexivity.
  Qed.
  Lemma fresh_pre h1 h2 : fresh (h1 ++ h2) -> fresh h1.
  Proof. unfold fresh, pushed. rewrite flat_map_app, map_app. intro H. apply NoDup_app_inv in H. tauto. Qed.

  (** ** only pushed messages are given to callbacks *)
  Definition good (h : list qop) (x : item) : Prop := exists b, In b (pushed h) /\ body_id b = fst x /\ dec (body_data b) = Some (snd x).
  Lemma good_mono h h' x : good h x -> good (h ++ h') x.
  Proof. intros (b & H & E). exists b. split; auto. unfold pushed. rewrite flat_map_app. apply in_or_app. auto. Qed.
  Lemma ret_pushed h q m : fresh (h ++ [q]) -> In m (ret (qouts cfg (qrun cfg inner0 h) q)) -> In (body_of m) (pushed (h ++ [q])).
  Proof.
    intros F H. destruct (reach_app cfg h [q] F) as [HR HF]. destruct (fresh_from_cons cfg _ _ _ _ HR HF) as [Ho _]. destruct (step_refines cfg _ _ q HR Ho) as [HR' Hout]. rewrite Hout in H.
    destruct (ret_in_fly cfg _ _ _ (RI_SInv _ _ HR) H) as [H1 _].
    pose proof (conservation cfg (h ++ [q]) inner0 spec0 RI_empty (fresh_from0 _ F)) as C. cbn [bodies spec0 s_wait s_fly s_dead map app] in C.
    eapply Permutation_in; [symmetry; exact C|]. apply in_or_app. left. rewrite a_run_app. unfold bodies. apply in_or_app. left. apply in_map. apply in_or_app. right. exact H1.
  Qed.
  Lemma decoded_good h ms is : (forall m, In m ms -> In (body_of m) (pushed h)) -> decoded V dec ms = Some is -> forall x, In x is -> good h x.
  Proof.
    revert is. induction ms as [|m ms IH]; intros is H; cbn [decoded]; [intros [= <-] ? []|]. destruct (dec (m_payload m)) as [v|] eqn:E; [|discriminate]. destruct (decoded V dec ms) as [is'|] eqn:D; [|discriminate]. intros [= <-] x [<-|Hx].
    - exists (body_of m). split; [apply H; left; reflexivity|]. auto.
    - apply (IH is'); auto. intros m' Hm. apply H. right. exact Hm.
  Qed.
  Record DI y : Prop := {
    d_down : forall a m, In a (y_down y) -> In m (a_ms a) -> In (body_of m) (pushed (served (y_log y)));
    d_got : forall x, In x (gots item (all (y_log y))) -> good (served (y_log y)) x
  }.
  Lemma DI_client c o y : (forall k is, o = HAnswer k (Some is) -> forall x, In x is -> good (served (y_log y)) x) -> DI y -> DI (client c o y).
  Proof.
    intros HO [D1 D2]. destruct (client_eq c o y) as (es & M & E & ->). constructor; cbn [y_down y_log]; rewrite served_app, served_map, app_nil_r; auto.
    intros x H. rewrite all_app, all_map, gots_app in H. apply in_app_or in H. destruct H as [H|H]; auto. destruct M as [es D|j is E'|j es W].
    - rewrite (proj2 (dull_none item _ D)) in H. destruct H.
    - cbn in H. rewrite app_nil_r in H. eapply HO; eauto.
    - rewrite gots_map in H. destruct H.
  Qed.
  Lemma DI_server who q y : DI y -> DI (server who q y).
  Proof.
    intros [D1 D2]. constructor; cbn [SdkQueueSysModel.server y_down y_log]; rewrite served_app.
    - intros a m H1 H2. unfold pushed. rewrite flat_map_app. apply in_or_app. left. eapply D1; eauto.
    - intros x H. apply good_mono. rewrite all_app in H. cbn in H. rewrite app_nil_r in H. auto.
  Qed.
  Lemma DI_net y up down : DI y -> incl down (y_down y) -> DI (mkY (y_cl y) (y_q y) up down (y_log y)).
  Proof. intros [D1 D2] I. constructor; cbn [y_down y_log]; eauto. Qed.
  Lemma DI_step y o : (forall clk m, In m (ret (qouts cfg (y_q y) (QoConsume size clk))) -> In (body_of m) (pushed (served (y_log y)))) -> DI y -> DI (ystep y o).
  Proof.
    intros G D. destruct o as [c o|i now clk reason|i|j|j|q]; cbn [SdkQueueSysModel.ystep] in *.
    - assert (H : DI (client c o y) \/ exists k is, o = HAnswer k (Some is)).
      { destruct o as [| | |k [is|]| | | | |]; try (left; apply DI_client; auto; discriminate). right. eauto. }
      destruct H as [H|(k & is & ->)]; [destruct o as [| | |k [is|]| | | | |]; auto|auto].
    - destruct (nth_error (y_up y) i) as [[c r]|] eqn:E; auto.
      assert (D' := DI_net y (drop i (y_up y)) (y_down y) D (incl_refl _)). destruct r as [k n|id|id]; [|apply DI_server; auto|apply DI_server; auto].
      pose proof (DI_server (Some c) (QoConsume size clk) _ D') as [D1 D2]. cbn [SdkQueueSysModel.server y_down y_log y_q y_up y_cl] in *. constructor; cbn [y_down y_log]; auto.
      intros a m H1 H2. apply in_app_or in H1. destruct H1 as [H1|[<-|[]]]; [eapply D1; eauto|]. cbn [a_ms] in H2. rewrite served_app. unfold pushed. rewrite flat_map_app. apply in_or_app. left. exact (G clk m H2).
    - apply DI_net; auto. apply incl_refl.
    - destruct (nth_error (y_down y) j) as [a|] eqn:E; auto. assert (D' := DI_net y (y_up y) (drop j (y_down y)) D (drop_incl _ _)).
      destruct (Nat.eqb _ _); auto. apply DI_client; auto. intros k is [= <- H] x Hx. eapply (decoded_good _ (a_ms a)); [|exact H|exact Hx]. intros m Hm. eapply (d_down y D); eauto. eapply nth_error_In; eauto.
    - apply DI_net; auto. apply drop_incl.
    - apply DI_server; auto.
  Qed.
  Lemma DI_run os : fresh (served (y_log (yrun os))) -> DI (yrun os).
  Proof.
    induction os as [|o os IH] using rev_ind; intro F; [constructor; cbn; contradiction|]. rewrite yrun_snoc in *. assert (F1 : fresh (served (y_log (yrun os)))) by (destruct (step_log (yrun os) o) as (es & E); rewrite E, served_app in F; eapply fresh_pre; eauto).
    apply DI_step; auto. intros clk m Hm. rewrite (g_q _ (GI_run os)) in Hm. assert (P : pushed (served (y_log (yrun os)) ++ [QoConsume size clk]) = pushed (served (y_log (yrun os)))) by (unfold pushed; rewrite flat_map_app; cbn; apply app_nil_r).
    rewrite <- P. apply ret_pushed; [unfold fresh; rewrite P; exact F1|exact Hm].
  Qed.
  (** anything that happens to a message: the message was received *)
  Lemma act_received y c k e x : WI y -> In (OClient c (VDo k e)) (y_log y) -> (e = EStart x \/ (exists ok, e = EEnd x ok) \/ e = ESkip x) -> In x (gots item (all (y_log y))).
  Proof.
    intros G H K. pose proof (w_cl _ G c) as [C1 C2 C3 C4 C5 C6]. rewrite (w_log _ G c) in *.
    assert (D : In e (dos item (clog c (y_log y)))).
    { unfold dos. apply in_flat_map. exists (VDo k e). split; [apply clog_in; auto|left; reflexivity]. }
    assert (R : In x (gots item (clog c (y_log y)))).
    { assert (TK : forall z, In (EStart z) (dos item (clog c (y_log y))) \/ In (ESkip z) (dos item (clog c (y_log y))) -> In z (gots item (clog c (y_log y)))).
      { intros z HZ. apply C5. unfold taken. apply in_flat_map. destruct HZ as [HZ|HZ]; eexists; (split; [exact HZ|left; reflexivity]). }
      destruct K as [->|[(ok & ->)| ->]]; auto. apply TK. left.
      assert (EE : In x (ends item (dos item (clog c (y_log y))))) by (unfold ends; apply in_flat_map; eexists; split; [exact D|left; reflexivity]).
      apply C6 in EE. unfold starts in EE. apply in_flat_map in EE. destruct EE as ([z| | | |] & H1 & H2); try destruct H2 as [<-|[]]; try destruct H2. exact H1. }
    unfold gots in *. apply in_flat_map in R. destruct R as (e' & H1 & H2). apply in_flat_map. exists e'. split; auto. apply clog_in in H1. unfold all. apply in_flat_map. exists (OClient c e'). split; auto. left. reflexivity.
  Qed.
  Lemma got_good y c k e x : WI y -> DI y -> In (OClient c (VDo k e)) (y_log y) -> (e = EStart x \/ (exists ok, e = EEnd x ok) \/ e = ESkip x) -> good (served (y_log y)) x.
  Proof. intros W D H K. apply (d_got _ D). eapply act_received; eauto. Qed.
  Lemma genuine os c k e x : fresh (served (y_log (yrun os))) -> In (OClient c (VDo k e)) (y_log (yrun os)) -> (e = EStart x \/ (exists ok, e = EEnd x ok) \/ e = ESkip x) ->
    good (served (y_log (yrun os))) x.
  Proof. intros F H K. eapply got_good; eauto; [apply (g_w _ (GI_run os))|apply DI_run; exact F]. Qed.
  Lemma good_data h b x : fresh h -> In b (pushed h) -> good h x -> fst x = body_id b -> dec (body_data b) = Some (snd x).
  Proof.
    intros F H (b' & H' & E & D) Ex. replace b with b'; auto. revert F H H' E Ex. unfold fresh. generalize (pushed h). intro l. induction l as [|z l IH]; cbn; [contradiction|]. intros F H H' E Ex. inversion F as [|? ? N F']; subst.
    assert (IN : forall w, In w l -> body_id w <> body_id z) by (intros w Hw Ew; apply N; rewrite <- Ew; apply in_map; auto).
    destruct H as [->|H], H' as [->|H']; auto; exfalso; [eapply IN in H'; apply H'; congruence|eapply IN in H; apply H; congruence].
  Qed.
End Y.
