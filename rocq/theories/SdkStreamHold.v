(** The subscription and the server: as long as no connection is lost while callbacks
    run, the subscription's identity is known to the server. *)
From Verif Require Import LibBase LibMap StreamTopicModel StreamGroupModel StreamGroupSpec StreamGroupFacts StreamStoreModel StreamSysModel StreamSysHist StreamWake SdkLoopModel SdkLoopProofs SdkStreamModel SdkStreamSpec SdkStreamProofs SdkStreamServer SdkStreamSys.

Lemma nmem_In x l : nmem x l = true <-> In x l.
Proof. unfold nmem. rewrite existsb_exists. split; [intros (y & I & E); apply N.eqb_eq in E; subst; auto|intro I; exists x; split; auto; apply N.eqb_refl]. Qed.
Lemma nmem_out x l : nmem x l = false <-> ~ In x l.
Proof. rewrite <- nmem_In. destruct (nmem x l); split; intros; try congruence; try (exfalso; auto; fail). Qed.

Section Cli.
  Variable conc : N.
  Notation cstep := (cstep conc).

  Lemma active_head k : k_active (fst (head k)) = k_active k.
  Proof. unfold head, poll, failed. destruct (k_active k) eqn:A; auto. destruct (k_id k); destruct (k_up k); cbn [andb fst k_active to_pc with_id]; rewrite ?A; auto. Qed.
  Lemma active_failed r k : k_active (fst (failed r k)) = k_active k.
  Proof. unfold failed. destruct (k_active k) eqn:A; auto. destruct (r && k_up k); auto. Qed.
  Lemma active_poll i k : k_active (fst (poll i k)) = k_active k.
  Proof. unfold poll. destruct (k_up k); auto. apply active_failed. Qed.
  Lemma step_active k o : k_active (fst (cstep k o)) = match o with CStop => match k_pc k with PStart | PRefused => k_active k | _ => false end | _ => k_active k end.
  Proof.
    destruct o as [i|ms bad|recov|o| | | | | | |c]; cbn [SdkStreamModel.cstep].
    - destruct (k_pc k); auto; unfold also; cbn [fst]; [rewrite active_head|rewrite active_poll]; auto.
    - destruct (k_pc k); auto. destruct ms; [apply active_head|]. destruct bad; [apply active_failed|auto].
    - destruct (k_pc k); auto; apply active_failed.
    - destruct (k_pc k); auto. destruct (wstep _ _ _ _ _ _); auto.
    - destruct (k_pc k); auto. destruct (forallb _ _); auto. apply active_head.
    - destruct (k_pc k); auto. apply active_head.
    - destruct (k_pc k); auto; destruct (k_id k); try destruct (k_up k); auto.
    - auto.
    - destruct (k_pc k); auto. destruct (_ && _); auto.
    - destruct (k_up k); auto. destruct (k_pc k); auto; unfold also; cbn [fst]; rewrite active_failed; auto.
    - destruct (k_up k); auto.
  Qed.
  Lemma id_failed r k i : k_id (fst (failed r k)) = Some i -> k_id k = Some i.
  Proof. unfold failed. destruct (k_active k); auto. destruct (r && k_up k); discriminate. Qed.
  Lemma id_poll j k i : k_id (fst (poll j k)) = Some i -> k_id k = Some i.
  Proof. unfold poll. destruct (k_up k); auto. apply id_failed. Qed.
  Lemma id_head k i : k_id (fst (head k)) = Some i -> k_id k = Some i.
  Proof. unfold head. destruct (k_active k); auto. destruct (k_id k) eqn:I; [intro H; apply id_poll in H; congruence|]. destruct (k_up k); [cbn; congruence|]. intro H. apply id_failed in H. congruence. Qed.
  Lemma step_id k o i : k_id (fst (cstep k o)) = Some i -> k_id k = Some i \/ o = CJoined i.
  Proof.
    destruct o as [j|ms bad|recov|o| | | | | | |c]; cbn [SdkStreamModel.cstep].
    - destruct (k_pc k); auto; unfold also; cbn [fst]; intro H; [apply id_head in H|apply id_poll in H]; cbn [k_id with_id] in H; injection H as ->; auto.
    - destruct (k_pc k); auto. destruct ms; [intro H; apply id_head in H; auto|]. destruct bad; [intro H; apply id_failed in H; auto|auto].
    - destruct (k_pc k); auto; intro H; apply id_failed in H; auto.
    - destruct (k_pc k); auto. destruct (wstep _ _ _ _ _ _); auto.
    - destruct (k_pc k); auto. destruct (forallb _ _); auto. intro H; apply id_head in H; auto.
    - destruct (k_pc k); auto. intro H; apply id_head in H; auto.
    - destruct (k_pc k); auto; destruct (k_id k); try destruct (k_up k); auto.
    - auto.
    - destruct (k_pc k); auto. destruct (_ && _); auto.
    - destruct (k_up k); auto. destruct (k_pc k); auto; unfold also; cbn [fst]; intro H; apply id_failed in H; auto.
    - destruct (k_up k); auto.
  Qed.
  Lemma up_failed r k : k_up (fst (failed r k)) = k_up k.
  Proof. unfold failed. destruct (k_active k); auto. destruct (r && k_up k); auto. Qed.
  Lemma up_poll j k : k_up (fst (poll j k)) = k_up k.
  Proof. unfold poll. destruct (k_up k) eqn:U; auto. rewrite up_failed; auto. Qed.
  Lemma up_head k : k_up (fst (head k)) = k_up k.
  Proof. unfold head. destruct (k_active k); auto. destruct (k_id k); [apply up_poll|]. destruct (k_up k) eqn:U; [cbn; auto|]. rewrite up_failed; auto. Qed.
  Lemma step_up k o : k_up (fst (cstep k o)) = match o with CLost => false | CUp _ => true | _ => k_up k end.
  Proof.
    destruct o as [j|ms bad|recov|o| | | | | | |c]; cbn [SdkStreamModel.cstep].
    - destruct (k_pc k); auto; unfold also; cbn [fst]; [rewrite up_head|rewrite up_poll]; auto.
    - destruct (k_pc k); auto. destruct ms; [unfold also; cbn [fst]; rewrite up_head; auto|]. destruct bad; [unfold also; cbn [fst]; rewrite up_failed; auto|auto].
    - destruct (k_pc k); auto; rewrite up_failed; auto.
    - destruct (k_pc k); auto. destruct (wstep _ _ _ _ _ _); auto.
    - destruct (k_pc k); auto. destruct (forallb _ _); auto. rewrite up_head; auto.
    - destruct (k_pc k); auto. rewrite up_head; auto.
    - destruct (k_pc k); auto; destruct (k_id k); auto; destruct (k_up k) eqn:U; auto.
    - auto.
    - destruct (k_pc k); auto. destruct (_ && _); auto.
    - destruct (k_up k) eqn:U; auto. destruct (k_pc k); auto; unfold also; cbn [fst]; rewrite up_failed; auto.
    - destruct (k_up k) eqn:U; auto.
  Qed.
  Definition is_run (p : tpc) : bool := match p with PRun _ _ => true | _ => false end.
  Lemma run_failed r k : is_run (k_pc (fst (failed r k))) = false.
  Proof. unfold failed. destruct (k_active k); auto. destruct (r && k_up k); auto. Qed.
  Lemma run_poll j k : is_run (k_pc (fst (poll j k))) = false.
  Proof. unfold poll. destruct (k_up k); auto. apply run_failed. Qed.
  Lemma run_head k : is_run (k_pc (fst (head k))) = false.
  Proof. unfold head. destruct (k_active k); auto. destruct (k_id k); [apply run_poll|]. destruct (k_up k); auto. apply run_failed. Qed.
  Lemma step_run k o : is_run (k_pc (fst (cstep k o))) = true -> is_run (k_pc k) = true \/ exists i ms bad, k_pc k = PFetch i /\ o = CFetched ms bad.
  Proof.
    destruct o as [j|ms bad|recov|o| | | | | | |c]; cbn [SdkStreamModel.cstep].
    - destruct (k_pc k) eqn:P; try (cbn [fst]; rewrite P; auto; fail); unfold also; cbn [fst]; [rewrite run_head|rewrite run_poll]; discriminate.
    - destruct (k_pc k) eqn:P; try (cbn [fst]; rewrite P; auto; fail). intros _. right. exists i, ms, bad. auto.
    - destruct (k_pc k) eqn:P; try (cbn [fst]; rewrite P; auto; fail); rewrite ?run_failed; discriminate.
    - destruct (k_pc k) eqn:P; try (cbn [fst]; rewrite P; auto; fail). auto.
    - destruct (k_pc k) eqn:P; try (cbn [fst]; rewrite P; auto; fail). auto.
    - destruct (k_pc k) eqn:P; try (cbn [fst]; rewrite P; auto; fail). rewrite run_head. discriminate.
    - destruct (k_pc k) eqn:P; try (cbn [fst]; rewrite P; auto; fail); destruct (k_id k); try destruct (k_up k); auto.
    - auto.
    - destruct (k_pc k) eqn:P; try (cbn [fst]; rewrite P; auto; fail). destruct (_ && _); cbn [fst]; rewrite ?P; auto.
    - destruct (k_up k); auto. destruct (k_pc k) eqn:P; auto; unfold also; cbn [fst]; rewrite ?run_failed; discriminate.
    - destruct (k_up k); auto.
  Qed.
  (** LEAVE is only written by stop() *)
  Definition noleave (es : list tev) : Prop := forall i, ~ In (VLeave i) es.
  Ltac nl := let j := fresh in let H := fresh in intros j H; simpl in H; intuition discriminate.
  Lemma nl_failed r k : noleave (snd (failed r k)).
  Proof. unfold failed. destruct (k_active k); [destruct (r && k_up k)|]; nl. Qed.
  Lemma nl_poll j k : noleave (snd (poll j k)).
  Proof. unfold poll. destruct (k_up k); [nl|apply nl_failed]. Qed.
  Lemma nl_head k : noleave (snd (head k)).
  Proof. unfold head. destruct (k_active k); [|nl]. destruct (k_id k); [apply nl_poll|]. destruct (k_up k); [nl|apply nl_failed]. Qed.
  Lemma nl_also es r : noleave es -> noleave (snd r) -> noleave (snd (also es r)).
  Proof. intros A B i H. unfold also in H. cbn [snd] in H. apply in_app_or in H. destruct H; [apply (A i)|apply (B i)]; auto. Qed.
  Lemma step_leave k o i : In (VLeave i) (snd (cstep k o)) -> k_active (fst (cstep k o)) = false.
  Proof.
    assert (X : o <> CStop -> noleave (snd (cstep k o))).
    { intro NS. destruct o as [j|ms bad|recov|o| | | | | | |c]; cbn [SdkStreamModel.cstep]; try congruence.
      - destruct (k_pc k); try nl; apply nl_also; try nl; [apply nl_head|apply nl_poll].
      - destruct (k_pc k); try nl. destruct ms; [apply nl_also; [nl|apply nl_head]|]. destruct bad; [apply nl_also; [nl|apply nl_failed]|nl].
      - destruct (k_pc k); try nl; apply nl_failed.
      - destruct (k_pc k); try nl. destruct (wstep _ _ _ _ _ _) as [b' es]. intros j H. cbn [snd] in H. apply in_map_iff in H. destruct H as (x & H & _). discriminate H.
      - destruct (k_pc k); try nl. destruct (forallb _ _); [apply nl_head|nl].
      - destruct (k_pc k); try nl. apply nl_head.
      - nl.
      - destruct (k_pc k); try nl. destruct (_ && _); nl.
      - destruct (k_up k); [|nl]. destruct (k_pc k); try nl; (apply nl_also; [nl|apply nl_failed]).
      - destruct (k_up k); nl. }
    intro H. destruct o; try (exfalso; apply (X ltac:(discriminate) i H)). rewrite step_active. cbn [SdkStreamModel.cstep] in H. destruct (k_pc k); auto; destruct H.
  Qed.
  (** batches, on the log *)
  Lemma handling_app l e : handling (l ++ [e]) = match e with VGot _ (_ :: _) => true | VFetch _ | VErr | VEnd => false | _ => handling l end.
  Proof. unfold handling. rewrite fold_left_app. reflexivity. Qed.
  Definition HB (r : cli * list tev) (l : list tev) : Prop := is_run (k_pc (fst r)) = handling (l ++ snd r).
  Lemma hb_also es r l : HB r (l ++ es) -> HB (also es r) l.
  Proof. unfold HB, also. cbn [fst snd]. rewrite app_assoc. auto. Qed.
  Lemma hb_failed r k l : HB (failed r k) l.
  Proof.
    unfold HB. rewrite run_failed. unfold failed. destruct (k_active k); [destruct (r && k_up k)|]; cbn [snd]; rewrite ?handling_app; auto.
    - change (l ++ [VErr; VJoin]) with (l ++ [VErr] ++ [VJoin]). rewrite app_assoc, !handling_app. auto.
    - change (l ++ [VErr; VEnd]) with (l ++ [VErr] ++ [VEnd]). rewrite app_assoc, !handling_app. auto.
  Qed.
  Lemma hb_poll i k l : HB (poll i k) l.
  Proof. unfold poll. destruct (k_up k); [|apply hb_failed]. unfold HB. cbn [fst snd k_pc to_pc is_run]. rewrite handling_app. auto. Qed.
  Lemma hb_head k l : (k_id k = None -> handling l = false) -> HB (head k) l.
  Proof.
    intro H. unfold head. destruct (k_active k); [|unfold HB; cbn [fst snd k_pc to_pc is_run]; rewrite handling_app; auto]. destruct (k_id k); [apply hb_poll|].
    destruct (k_up k); [|apply hb_failed]. unfold HB. cbn [fst snd k_pc to_pc is_run]. rewrite handling_app. symmetry. auto.
  Qed.
  Lemma hb_step k l o : KI k l -> is_run (k_pc k) = handling l -> HB (cstep k o) l.
  Proof.
    intros K H. assert (S : HB (k, []) l) by (unfold HB; cbn [fst snd]; rewrite app_nil_r; auto).
    destruct o as [j|ms bad|recov|o| | | | | | |c]; cbn [SdkStreamModel.cstep].
    - destruct (k_pc k) eqn:P; try exact S; apply hb_also; [apply hb_head; cbn; discriminate|apply hb_poll].
    - destruct (k_pc k) eqn:P; try exact S. destruct ms as [|m ms].
      + apply hb_also, hb_head. intros _. rewrite handling_app. auto.
      + destruct bad; [apply hb_also, hb_failed|]. unfold HB. cbn [fst snd k_pc to_pc is_run]. rewrite handling_app. auto.
    - destruct (k_pc k) eqn:P; try exact S; try apply hb_failed. unfold HB. cbn [fst snd k_pc to_pc is_run]. change (l ++ [VErr; VRefused]) with (l ++ [VErr] ++ [VRefused]). rewrite app_assoc, !handling_app. auto.
    - destruct (k_pc k) eqn:P; try exact S. destruct (wstep _ _ _ _ _ _) as [b' es]. unfold HB. cbn [fst snd k_pc to_pc is_run] in *.
      clear -H. revert l H. induction es as [|e es IH]; intros l H; simpl; [rewrite app_nil_r; auto|]. replace (l ++ VDo e :: map VDo es) with ((l ++ [VDo e]) ++ map VDo es) by (rewrite <- app_assoc; auto). apply IH. rewrite handling_app. auto.
    - destruct (k_pc k) eqn:P; try exact S. destruct (forallb _ _); [|exact S]. apply hb_head. intro I. pose proof (ki_cur _ _ K) as C. rewrite P in C. destruct C; congruence.
    - destruct (k_pc k) eqn:P; try exact S. apply hb_head. intros _. rewrite <- H. auto.
    - assert (X : forall b1 b2, HB (mkCli false (k_up k) (k_id k) (k_pc k) b1 b2, [VStop]) l) by (intros; unfold HB; cbn [fst snd k_pc]; rewrite handling_app; auto).
      assert (Y : forall b1 b2 i, HB (mkCli false (k_up k) (k_id k) (k_pc k) b1 b2, [VStop; VLeave i]) l).
      { intros; unfold HB; cbn [fst snd k_pc]. change (l ++ [VStop; VLeave i]) with (l ++ [VStop] ++ [VLeave i]). rewrite app_assoc, !handling_app; auto. }
      destruct (k_pc k) eqn:P; try exact S; destruct (k_id k); try apply X; destruct (k_up k); try apply X; apply Y.
    - unfold HB. cbn [fst snd k_pc]. rewrite app_nil_r. auto.
    - destruct (k_pc k) eqn:P; try exact S. destruct (_ && _); [|exact S]. unfold HB. cbn [fst snd k_pc is_run]. rewrite handling_app. auto.
    - destruct (k_up k); [|exact S].
      assert (X : HB (mkCli (k_active k) false (k_id k) (k_pc k) false (k_stop k), [VLost]) l) by (unfold HB; cbn [fst snd k_pc]; rewrite handling_app; auto).
      destruct (k_pc k) eqn:P; try exact X; try (apply hb_also, hb_failed). unfold HB. cbn [fst snd k_pc to_pc is_run]. change (l ++ [VLost; VErr; VRefused]) with (l ++ [VLost; VErr] ++ [VRefused]). rewrite app_assoc, handling_app. change (l ++ [VLost; VErr]) with (l ++ [VLost] ++ [VErr]). rewrite app_assoc, handling_app. auto.
    - destruct (k_up k); [exact S|]. unfold HB. cbn [fst snd k_pc]. rewrite handling_app. auto.
  Qed.
End Cli.
