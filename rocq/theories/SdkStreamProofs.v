(** Proofs about the stream subscription of the SDK. *)
From Verif Require Import LibBase StreamTopicModel SdkLoopModel SdkLoopProofs SdkStreamModel SdkStreamSpec.
From Coq Require Import Permutation.

Definition Every (P : list tev -> tev -> Prop) (l : list tev) : Prop := forall a e b, l = a ++ e :: b -> P a e.
Lemma snoc_split {T} (l : list T) (x : T) a e b : l ++ [x] = a ++ e :: b -> (b = [] /\ a = l /\ e = x) \/ exists b', b = b' ++ [x] /\ l = a ++ e :: b'.
Proof.
  destruct (exists_last (l := e :: b)) as (b' & y & E); [discriminate|]. intro H. rewrite E, app_assoc in H. apply app_inj_tail in H. destruct H as [H <-].
  destruct b' as [|z b']; simpl in E; injection E as -> ->; [left; rewrite app_nil_r in H; auto|right; exists b'; auto].
Qed.
Lemma every_nil P : Every P []. Proof. intros a e b H. destruct a; discriminate. Qed.
Lemma every_snoc P l x : Every P l -> P l x -> Every P (l ++ [x]).
Proof. intros H Hx a e b E. destruct (snoc_split l x a e b E) as [(-> & -> & ->)|(b' & -> & E')]; auto. apply (H a e b' E'). Qed.
Lemma every_cons P l x es : Every P l -> P l x -> Every P ((l ++ [x]) ++ es) -> Every P (l ++ x :: es).
Proof. intros. rewrite <- app_assoc in H1. auto. Qed.

Lemma current_app l e : current (l ++ [e]) = match e with VJoined i => Some i | VErr => None | _ => current l end.
Proof. unfold current. rewrite fold_left_app. reflexivity. Qed.
Lemma online_app l e : online (l ++ [e]) = match e with VUp _ => true | VLost => false | _ => online l end.
Proof. unfold online. rewrite fold_left_app. reflexivity. Qed.
Lemma does_app a b : does (a ++ b) = does a ++ does b. Proof. apply flat_map_app. Qed.
Lemma starts_app a b : starts item (a ++ b) = starts item a ++ starts item b. Proof. apply flat_map_app. Qed.
Lemma ends_app a b : ends item (a ++ b) = ends item a ++ ends item b. Proof. apply flat_map_app. Qed.

Section P.
  Variable conc : N.
  Notation cstep := (cstep conc).
  Notation kst := (kst conc).
  Notation klog := (klog conc).

  (** all that has started has ended *)
  Definition quiet (l : list tev) : Prop := Permutation (starts item (does l)) (ends item (does l)).
  Definition good (a : list tev) (e : tev) : Prop :=
    match e with
    | VJoin => current a = None /\ ~ In VStop a /\ ~ In VEnd a
    | VFetch i => current a = Some i /\ ~ In VEnd a /\ online a = true
    | VGot i ms => current a = Some i /\ In (VFetch i) a
    | VDo x => ~ In VEnd a /\
      match x with
      | EStart _ (i, m) => ~ In VStop a /\ current a = Some i
      | EAck _ (i, m) => in_hand a i m /\ In (VDo (EEnd item (i, m) true)) a /\ current a = Some i
      | _ => True
      end
    | VEnd => In VStop a /\ quiet a
    | VStopped => In VStop a /\ In VEnd a /\ quiet a
    | _ => True
    end.

  Definition bitems (b : batch item) : list item := b_q item b ++ busy item (b_ws item b).
  Definition running (i : ident) (b : batch item) (l : list tev) : Prop :=
    exists a ms c, l = a ++ VGot i ms :: c /\ (forall j ns, ~ In (VGot j ns) c) /\
      (forall x, In x (bitems b) -> exists m, x = (i, m) /\ In m ms) /\
      (forall x, In x (busy item (b_ws item b)) -> In (VDo (EStart item x)) c).
  Definition Q (p : tpc) (l : list tev) : Prop :=
    match p with
    | PRun i b => Permutation (starts item (does l)) (ends item (does l) ++ busy item (b_ws item b))
    | _ => quiet l
    end.
  Record KI (k : cli) (l : list tev) : Prop := {
    ki_cur : match k_pc k with
             | PFetch i | PRun i _ => current l = Some i /\ k_id k = Some i
             | PEnd => forall i, current l = Some i -> k_id k = Some i
             | _ => current l = None /\ k_id k = None
             end;
    ki_up : online l = k_up k;
    ki_wait : match k_pc k with PStart | PJoin => k_up k = true | PFetch i => k_up k = true /\ In (VFetch i) l | _ => True end;
    ki_act : k_active k = true <-> ~ In VStop l;
    ki_end : k_pc k = PEnd <-> In VEnd l;
    ki_ended : k_pc k = PEnd -> k_active k = false;
    ki_stop : k_stop k = true -> In VStop l;
    ki_ready : In VReady l <-> k_pc k <> PStart /\ k_pc k <> PRefused;
    ki_new : k_pc k = PStart \/ k_pc k = PRefused -> ~ In VStop l;
    ki_run : forall i b, k_pc k = PRun i b -> running i b l;
    ki_busy : Q (k_pc k) l
  }.
  (** what holds while the loop decides what to do next *)
  Record Base (k : cli) (l : list tev) : Prop := {
    ba_up : online l = k_up k;
    ba_act : k_active k = true <-> ~ In VStop l;
    ba_end : ~ In VEnd l;
    ba_stop : k_stop k = true -> In VStop l;
    ba_ready : In VReady l;
    ba_busy : quiet l
  }.
  Definition good2 (r : cli * list tev) (l : list tev) : Prop := KI (fst r) (l ++ snd r) /\ Every good (l ++ snd r).

  Lemma in_snoc {T} (l : list T) x y : In x (l ++ [y]) <-> In x l \/ x = y.
  Proof. rewrite in_app_iff. simpl. intuition. Qed.
  Lemma quiet_app l e : quiet l -> (forall x, e <> VDo x) -> quiet (l ++ [e]).
  Proof. unfold quiet. intros H N. rewrite does_app. destruct e; simpl; rewrite ?app_nil_r; auto. exfalso. apply (N e eq_refl). Qed.
  Lemma has_stop l : {In VStop l} + {~ In VStop l}.
  Proof. induction l as [|e l [IH|IH]]; [right; intros []|left; right; auto|]. destruct e; try (right; intros [H|H]; [discriminate H|auto]). left; left; auto. Qed.
  Lemma act_stop k l : (k_active k = true <-> ~ In VStop l) -> k_active k = false -> In VStop l.
  Proof. intros H E. destruct (has_stop l) as [X|X]; auto. apply H in X. congruence. Qed.

  Ltac snoc2 := match goal with
    | |- context [?l ++ ?x :: ?y :: ?r] => replace (l ++ x :: y :: r) with ((l ++ [x]) ++ y :: r) by (rewrite <- app_assoc; reflexivity)
    end.
  Ltac ins := rewrite ?in_snoc.

  Lemma failed_ok r k l : Base k l -> Every good l -> good2 (failed r k) l.
  Proof.
    intros B E. unfold failed. destruct (k_active k) eqn:A.
    - assert (NS : ~ In VStop l) by (apply (ba_act _ _ B); auto).
      assert (X : forall p, p = PJoin \/ p = PSleep -> (p = PJoin -> k_up k = true) -> KI (to_pc p (with_id None k)) (l ++ [VErr])).
      { intros p Hp Hu. constructor; cbn [k_pc k_id k_up k_active k_stop to_pc with_id].
        - rewrite current_app. destruct Hp; subst p; auto.
        - rewrite online_app. apply B.
        - destruct Hp; subst p; auto.
        - ins. rewrite A. split; auto. intros _ [H|H]; [auto|discriminate H].
        - ins. destruct Hp; subst p; (split; [discriminate|intros [H|H]; [destruct (ba_end _ _ B H)|discriminate H]]).
        - destruct Hp; subst p; discriminate.
        - intro H. ins. left. apply (ba_stop _ _ B H).
        - ins. split; [|intros _; left; apply (ba_ready _ _ B)]. intros _. destruct Hp; subst p; split; discriminate.
        - intros [H|H]; destruct Hp; subst p; discriminate H.
        - intros i b H. destruct Hp; subst p; discriminate H.
        - destruct Hp; subst p; cbn [Q]; apply quiet_app; try apply (ba_busy _ _ B); discriminate. }
      assert (E1 : Every good (l ++ [VErr])) by (apply every_snoc; simpl; auto).
      destruct (r && k_up k) eqn:RU; [|split; cbn [fst snd]; [apply X; auto; discriminate|auto]].
      apply andb_prop in RU. destruct RU as [_ U]. split; cbn [fst snd]; snoc2.
      + specialize (X PJoin (or_introl eq_refl) (fun _ => U)). constructor; cbn [k_pc k_id k_up k_active k_stop to_pc with_id].
        * rewrite current_app. apply (ki_cur _ _ X).
        * rewrite online_app. apply (ki_up _ _ X).
        * apply (ki_wait _ _ X).
        * rewrite in_snoc. rewrite <- in_snoc. setoid_rewrite in_snoc. rewrite A. split; auto. intros _ [H|H]; [|discriminate H]. revert H. apply (ki_act _ _ X); auto.
        * setoid_rewrite in_snoc. split; [discriminate|]. intros [H|H]; [|discriminate H]. apply (ki_end _ _ X) in H. discriminate H.
        * discriminate.
        * intro H. rewrite in_snoc. left. apply (ki_stop _ _ X H).
        * setoid_rewrite in_snoc. split; [intros _; split; discriminate|]. intros _. left. apply (ki_ready _ _ X). split; discriminate.
        * intros [H|H]; discriminate H.
        * discriminate.
        * cbn [Q]. apply quiet_app; [apply (ki_busy _ _ X)|discriminate].
      + apply every_snoc; auto. cbn [good]. rewrite current_app, !in_snoc. split; auto. split; intros [H|H]; try discriminate H; auto. apply (ba_end _ _ B H).
    - pose proof (act_stop _ _ (ba_act _ _ B) A) as S. split; cbn [fst snd]; snoc2.
      + constructor; cbn [k_pc k_id k_up k_active k_stop to_pc with_id].
        * intros i H. rewrite !current_app in H. discriminate H.
        * rewrite !online_app. apply B.
        * auto.
        * rewrite A. split; [discriminate|]. intro H. exfalso. apply H. rewrite !in_snoc. auto.
        * rewrite !in_snoc. split; auto.
        * auto.
        * intros _. rewrite !in_snoc. auto.
        * rewrite !in_snoc. split; [intros _; split; discriminate|]. intros _. left. left. apply (ba_ready _ _ B).
        * intros [H|H]; discriminate H.
        * discriminate.
        * cbn [Q]. apply quiet_app; [|discriminate]. apply quiet_app; [|discriminate]. apply (ba_busy _ _ B).
      + apply every_snoc; [apply every_snoc; simpl; auto|]. cbn [good]. rewrite in_snoc. split; auto. apply quiet_app; [|discriminate]. apply (ba_busy _ _ B).
  Qed.

  Lemma poll_ok i k l : Base k l -> Every good l -> current l = Some i -> k_id k = Some i -> good2 (poll i k) l.
  Proof.
    intros B E C I. unfold poll. destruct (k_up k) eqn:U; [|apply failed_ok; auto]. split; cbn [fst snd].
    - constructor; cbn [k_pc k_id k_up k_active k_stop to_pc with_id].
      + rewrite current_app. auto.
      + rewrite online_app. apply B.
      + rewrite in_snoc. auto.
      + rewrite (ba_act _ _ B). setoid_rewrite in_snoc. split; [intros H [X|X]; [auto|discriminate X]|auto].
      + rewrite in_snoc. split; [discriminate|intros [H|H]; [destruct (ba_end _ _ B H)|discriminate H]].
      + discriminate.
      + intro H. rewrite in_snoc. left. apply (ba_stop _ _ B H).
      + rewrite in_snoc. split; [intros _; split; discriminate|intros _; left; apply (ba_ready _ _ B)].
      + intros [H|H]; discriminate H.
      + discriminate.
      + cbn [Q]. apply quiet_app; [apply (ba_busy _ _ B)|discriminate].
    - apply every_snoc; auto. cbn [good]. split; auto. split; [apply (ba_end _ _ B)|]. rewrite (ba_up _ _ B). auto.
  Qed.

  Lemma head_ok k l : Base k l -> Every good l -> k_id k = current l -> good2 (head k) l.
  Proof.
    intros B E C. unfold head. destruct (k_active k) eqn:A.
    - destruct (k_id k) as [i|] eqn:I; [apply poll_ok; auto|]. destruct (k_up k) eqn:U; [|apply failed_ok; auto].
      assert (NS : ~ In VStop l) by (apply (ba_act _ _ B); auto). split; cbn [fst snd].
      + constructor; cbn [k_pc k_id k_up k_active k_stop to_pc with_id].
        * rewrite current_app. auto.
        * rewrite online_app. apply B.
        * auto.
        * rewrite A, in_snoc. split; auto. intros _ [H|H]; [auto|discriminate H].
        * rewrite in_snoc. split; [discriminate|intros [H|H]; [destruct (ba_end _ _ B H)|discriminate H]].
        * discriminate.
        * intro H. rewrite in_snoc. left. apply (ba_stop _ _ B H).
        * rewrite in_snoc. split; [intros _; split; discriminate|intros _; left; apply (ba_ready _ _ B)].
        * intros [H|H]; discriminate H.
        * discriminate.
        * cbn [Q]. apply quiet_app; [apply (ba_busy _ _ B)|discriminate].
      + apply every_snoc; auto. cbn [good]. split; auto. split; auto. apply (ba_end _ _ B).
    - pose proof (act_stop _ _ (ba_act _ _ B) A) as S. split; cbn [fst snd].
      + constructor; cbn [k_pc k_id k_up k_active k_stop to_pc with_id].
        * intros i H. rewrite current_app in H. congruence.
        * rewrite online_app. apply B.
        * auto.
        * rewrite A. split; [discriminate|]. intro H. exfalso. apply H. rewrite in_snoc. auto.
        * rewrite in_snoc. split; auto.
        * auto.
        * intros _. rewrite in_snoc. auto.
        * rewrite in_snoc. split; [intros _; split; discriminate|]. intros _. left. apply (ba_ready _ _ B).
        * intros [H|H]; discriminate H.
        * discriminate.
        * cbn [Q]. apply quiet_app; [|discriminate]. apply (ba_busy _ _ B).
      + apply every_snoc; auto. cbn [good]. split; auto. apply (ba_busy _ _ B).
  Qed.

  Lemma also_ok es r l : good2 r (l ++ es) -> good2 (also es r) l.
  Proof. unfold good2, also. cbn [fst snd]. rewrite app_assoc. auto. Qed.
  Lemma base_snoc k l e : Base k l -> match e with VJoined _ | VGot _ _ => True | _ => False end -> Base k (l ++ [e]).
  Proof.
    intros [] He. destruct e; destruct He; (constructor; rewrite ?online_app, ?in_snoc; auto;
      [rewrite ba_act0; split; [intros H [X|X]; [auto|discriminate X]|auto] | intros [X|X]; [auto|discriminate X] | apply quiet_app; auto; discriminate]).
  Qed.
  Lemma base_id k i l : Base k l -> Base (with_id i k) l.
  Proof. intros []. constructor; auto. Qed.
  Definition waits (p : tpc) : Prop := match p with PJoin | PFetch _ | PSleep => True | _ => False end.
  Lemma ki_base k l : KI k l -> waits (k_pc k) -> Base k l.
  Proof.
    intros K W. constructor; try (solve [apply K]); unfold waits in W.
    - intro H. apply (ki_end _ _ K) in H. rewrite H in W. exact W.
    - apply (ki_ready _ _ K). split; intro H; rewrite H in W; exact W.
    - pose proof (ki_busy _ _ K) as B. destruct (k_pc k); try (exfalso; exact W); exact B.
  Qed.

  Lemma workers_ready n : busy item (repeat (Ready item) n) = [].
  Proof. induction n; simpl; auto. Qed.
  Lemma all_done ws : forallb (is_done item) ws = true -> busy item ws = [].
  Proof. induction ws as [|w ws IH]; simpl; auto. intro H. apply andb_prop in H. destruct H as [A B]. destruct w; try discriminate A. simpl. auto. Qed.

  Lemma same_ok k l : KI k l -> Every good l -> good2 (k, []) l.
  Proof. intros K E. unfold good2. cbn [fst snd]. rewrite app_nil_r. auto. Qed.

  Lemma fetched_ok k l ms bad : KI k l -> Every good l -> good2 (cstep k (CFetched ms bad)) l.
  Proof.
    intros K E. cbn [SdkStreamModel.cstep]. destruct (k_pc k) as [| | |i| | |] eqn:P; try (apply same_ok; auto; fail).
    pose proof (ki_cur _ _ K) as C. pose proof (ki_wait _ _ K) as W. rewrite P in C, W. destruct C as [C1 C2], W as [W1 W2].
    assert (B : Base k l) by (apply ki_base; auto; rewrite P; exact I).
    assert (G : forall ms, Every good (l ++ [VGot i ms])) by (intro; apply every_snoc; auto; cbn [good]; auto).
    destruct ms as [|m ms]; [apply also_ok; apply head_ok; auto; [apply base_snoc; simpl; auto|rewrite current_app; congruence]|].
    destruct bad; [apply also_ok; apply failed_ok; auto; apply base_snoc; simpl; auto|].
    split; cbn [fst snd]; auto. constructor; cbn [k_pc k_id k_up k_active k_stop to_pc with_id]; rewrite ?current_app, ?online_app; auto.
    - apply B.
    - rewrite (ba_act _ _ B). setoid_rewrite in_snoc. split; [intros H [X|X]; [auto|discriminate X]|auto].
    - rewrite in_snoc. split; [discriminate|intros [H|H]; [destruct (ba_end _ _ B H)|discriminate H]].
    - discriminate.
    - intro H. rewrite in_snoc. left. apply (ba_stop _ _ B H).
    - rewrite in_snoc. split; [intros _; split; discriminate|intros _; left; apply (ba_ready _ _ B)].
    - intros [H|H]; discriminate H.
    - intros j b H. injection H as <- <-. exists l, (m :: ms), []. split; auto. split; [intros j ns []|]. unfold bitems, batch_new. cbn [b_q b_ws]. rewrite workers_ready, app_nil_r.
      split; [|intros x []]. intros x H. change (In x (map (pair i) (m :: ms))) in H. apply in_map_iff in H. destruct H as (y & <- & Hy). exists y. auto.
    - cbn [Q]. unfold batch_new. cbn [b_ws]. rewrite workers_ready, app_nil_r. apply quiet_app; [apply (ba_busy _ _ B)|discriminate].
  Qed.

  (** a step of a worker *)
  Lemma run_step k l i b b' es : KI k l -> Every good l -> k_pc k = PRun i b -> (forall x, In x (bitems b') -> In x (bitems b)) ->
    Every good (l ++ map VDo es) -> (forall x, In x (busy item (b_ws item b')) -> In x (busy item (b_ws item b)) \/ In (EStart item x) es) ->
    Permutation (starts item es ++ busy item (b_ws item b)) (ends item es ++ busy item (b_ws item b')) ->
    good2 (to_pc (PRun i b') k, map VDo es) l.
  Proof.
    intros K E P S G SB PB. split; cbn [fst snd]; auto.
    pose proof (ki_cur _ _ K) as C. rewrite P in C.
    assert (CU : current (l ++ map VDo es) = current l) by (clear; revert l; induction es as [|e es IH]; intro l; simpl; [rewrite app_nil_r; auto|]; replace (l ++ VDo e :: map VDo es) with ((l ++ [VDo e]) ++ map VDo es) by (rewrite <- app_assoc; auto); rewrite IH, current_app; auto).
    assert (ON : online (l ++ map VDo es) = online l) by (clear; revert l; induction es as [|e es IH]; intro l; simpl; [rewrite app_nil_r; auto|]; replace (l ++ VDo e :: map VDo es) with ((l ++ [VDo e]) ++ map VDo es) by (rewrite <- app_assoc; auto); rewrite IH, online_app; auto).
    assert (DO : does (map VDo es) = es) by (clear; induction es; simpl; congruence).
    assert (NI : forall e, (forall x, e <> VDo x) -> In e (l ++ map VDo es) <-> In e l).
    { intros e He. rewrite in_app_iff. split; auto. intros [H|H]; auto. apply in_map_iff in H. destruct H as (x & <- & _). destruct (He x eq_refl). }
    constructor; cbn [k_pc k_id k_up k_active k_stop to_pc with_id]; rewrite ?CU, ?ON, ?NI by discriminate; auto.
    - apply K.
    - apply K.
    - split; [discriminate|]. intro H. apply (ki_end _ _ K) in H. congruence.
    - discriminate.
    - intro H. apply (ki_stop _ _ K H).
    - split; [intros _; split; discriminate|]. intros _. apply (ki_ready _ _ K). rewrite P. split; discriminate.
    - intros [H|H]; discriminate H.
    - intros j d H. injection H as <- <-. destruct (ki_run _ _ K i b P) as (a & ms & c & -> & R1 & R2 & R3). exists a, ms, (c ++ map VDo es). rewrite <- app_assoc. split; [reflexivity|].
      split; [intros j ns H; apply in_app_or in H; destruct H as [H|H]; [apply (R1 _ _ H)|]; apply in_map_iff in H; destruct H as (x & H & _); discriminate H|].
      split; [intros x H; apply R2; auto|]. intros x H. apply in_or_app. destruct (SB x H) as [H1|H1]; [left; auto|right; apply in_map_iff; eauto].
    - cbn [Q]. rewrite does_app, DO, starts_app, ends_app. pose proof (ki_busy _ _ K) as B. rewrite P in B. cbn [Q] in B.
      eapply perm_trans; [apply Permutation_app_tail; exact B|]. rewrite <- app_assoc. eapply perm_trans; [apply Permutation_app_head; apply Permutation_app_comm|].
      rewrite <- app_assoc. apply Permutation_app_head. exact PB.
  Qed.

  Lemma work_step k l o : KI k l -> Every good l -> good2 (cstep k (CWork o)) l.
  Proof.
    intros K E. cbn [SdkStreamModel.cstep]. destruct (k_pc k) as [| | | |i b| |] eqn:P; try (apply same_ok; auto; fail).
    pose proof (ki_cur _ _ K) as C. rewrite P in C. destruct C as [C _].
    assert (NE : ~ In VEnd l) by (intro H; apply (ki_end _ _ K) in H; congruence).
    assert (SAME : good2 (to_pc (PRun i b) k, map VDo []) l).
    { apply (run_step k l i b); auto. simpl. rewrite app_nil_r. auto. }
    destruct (ki_run _ _ K i b P) as (la & ms & lc & EL & R1 & R2 & R3).
    unfold wstep. destruct o as [j bad|j ok bad]; destruct (nth_error (b_ws item b) j) as [w|] eqn:N; try exact SAME.
    - destruct w; try exact SAME. destruct (b_q item b) as [|x q] eqn:BQ.
      + destruct (setw_split item j (Done item) _ _ N) as (u & v & E1 & E2). apply (run_step k l i b); auto; cbn [b_q b_ws]; unfold bitems; cbn [b_q b_ws]; rewrite ?E2, ?E1, ?busy_app; simpl; auto.
        * intros y H. apply in_or_app. auto.
        * rewrite app_nil_r. auto.
      + destruct (k_active k) eqn:A.
        * destruct (setw_split item j (Busy item x) _ _ N) as (u & v & E1 & E2). apply (run_step k l i b); auto; cbn [b_q b_ws]; unfold bitems; cbn [b_q b_ws]; rewrite ?E2, ?E1, ?BQ, ?busy_app; simpl.
          -- intros y H. rewrite !in_app_iff in H. simpl in H. rewrite in_app_iff in *. intuition.
          -- apply every_snoc; auto. cbn [good]. split; auto. destruct (R2 x) as (m & -> & _); [unfold bitems; rewrite BQ; left; auto|]. split; [|auto]. apply (ki_act _ _ K); auto.
          -- intros y H. rewrite in_app_iff in *. simpl in H. intuition. subst. auto.
          -- apply Permutation_cons_app. reflexivity.
        * cbn [andb]. destruct (setw_split item j (Ready item) _ _ N) as (u & v & E1 & E2). apply (run_step k l i b); auto; cbn [b_q b_ws]; unfold bitems; cbn [b_q b_ws]; rewrite ?E2, ?E1, ?BQ, ?busy_app; simpl; auto.
          apply every_snoc; auto. cbn [good]. auto.
    - destruct w as [|x| |]; try exact SAME.
      destruct (setw_split item j (Ready item) _ _ N) as (u & v & E1 & E2).
      assert (XB : In x (busy item (b_ws item b))) by (rewrite E1, busy_app; apply in_or_app; right; left; auto).
      assert (XI : In x (bitems b)) by (apply in_or_app; auto).
      assert (X : forall es, Every good (l ++ map VDo es) -> starts item es = [] -> ends item es = [x] ->
        good2 (to_pc (PRun i (mkB item (b_q item b) (setw item j (Ready item) (b_ws item b)))) k, map VDo es) l).
      { intros es G S1 S2. apply (run_step k l i b); auto; cbn [b_q b_ws]; unfold bitems; cbn [b_q b_ws]; rewrite ?E2, ?E1, ?busy_app, ?S1, ?S2; simpl.
        - intros y H. rewrite !in_app_iff in *. simpl. intuition.
        - intros y H. rewrite !in_app_iff in *. simpl. intuition.
        - apply Permutation_sym, Permutation_middle. }
      assert (GE : Every good (l ++ [VDo (EEnd item x ok)])) by (apply every_snoc; auto; cbn [good]; auto).
      destruct (negb (k_up k)); [apply X; auto|]. destruct bad; [apply X; auto|]. destruct ok; [|apply X; auto].
      apply X; auto. cbn [map]. replace (l ++ [VDo (EEnd item x true); VDo (EAck item x)]) with ((l ++ [VDo (EEnd item x true)]) ++ [VDo (EAck item x)]) by (rewrite <- app_assoc; auto).
      apply every_snoc; auto. cbn [good]. rewrite !in_snoc. split; [intros [H|H]; [auto|discriminate H]|]. destruct (R2 x XI) as (m & -> & Hm). split; [|split; [apply in_or_app; right; left; auto|rewrite current_app; auto]].
      + exists la, ms, (lc ++ [VDo (EEnd item (i, m) true)]). rewrite EL, <- app_assoc. split; [reflexivity|]. split; auto. split; [|apply in_or_app; left; apply R3; auto].
        intros j' ns H. rewrite in_snoc in H. destruct H as [H|H]; [apply (R1 _ _ H)|discriminate H].
  Qed.

  (** the subscription's own state does not change but for the fields given *)
  Lemma plain_ok k k' l e : KI k l -> Every good l -> good l e -> k_pc k' = k_pc k -> k_id k' = k_id k ->
    match e with VUp _ | VLost | VStop | VLeave _ | VStopped => True | _ => False end ->
    (match k_pc k with PStart | PJoin | PFetch _ => k_up k' = true | _ => True end) ->
    (k_up k' = match e with VUp _ => true | VLost => false | _ => k_up k end) ->
    (k_active k' = match e with VStop => false | _ => k_active k end) ->
    (e = VStop -> k_pc k <> PStart /\ k_pc k <> PRefused) ->
    (k_stop k' = true -> k_stop k = true \/ e = VStop) ->
    good2 (k', [e]) l.
  Proof.
    intros K E G EP EI EK EW EU EA ES ET. split; cbn [fst snd]; [|apply every_snoc; auto].
    assert (CU : current (l ++ [e]) = current l) by (rewrite current_app; destruct e; destruct EK; auto).
    constructor; rewrite ?EP, ?EI, ?CU.
    - apply K.
    - rewrite online_app, EU. destruct e; auto; apply K.
    - pose proof (ki_wait _ _ K) as W. destruct (k_pc k); auto. rewrite in_snoc. split; auto. left. apply W.
    - rewrite EA. rewrite in_snoc. pose proof (ki_act _ _ K) as A. destruct e; try destruct EK; try (rewrite A; split; [intros H [X|X]; [auto|discriminate X]|auto]).
      split; [discriminate|]. intro H. exfalso. apply H. auto.
    - rewrite in_snoc. rewrite (ki_end _ _ K). split; auto. intros [H|H]; auto. subst e. destruct EK.
    - intro H. pose proof (ki_ended _ _ K H) as A. rewrite EA. destruct e; auto.
    - intro H. rewrite in_snoc. destruct (ET H) as [X| ->]; auto. left. apply (ki_stop _ _ K X).
    - rewrite in_snoc, (ki_ready _ _ K). split; auto. intros [H|H]; auto. subst e. destruct EK.
    - intros H X. rewrite in_snoc in X. destruct X as [X|X]; [apply (ki_new _ _ K H X)|]. destruct (ES (eq_sym X)) as [S1 S2]. destruct H; auto.
    - intros i b H. destruct (ki_run _ _ K i b H) as (a & ms & c & -> & R1 & R2 & R3). exists a, ms, (c ++ [e]). rewrite <- app_assoc. split; [reflexivity|]. split; [|split; auto].
      + intros j ns X. rewrite in_snoc in X. destruct X as [X|X]; [apply (R1 _ _ X)|]. subst e. destruct EK.
      + intros x X. apply in_or_app. left. auto.
    - pose proof (ki_busy _ _ K) as B. destruct (k_pc k); cbn [Q] in *; try (apply quiet_app; [auto|intros x ->; destruct EK]).
      rewrite does_app. destruct e; destruct EK; simpl; rewrite app_nil_r; auto.
  Qed.
  Lemma two_ok k1 k2 l e es : good2 (k1, [e]) l -> good2 (k2, es) (l ++ [e]) -> good2 (k2, e :: es) l.
  Proof. intros _ H. unfold good2 in *. cbn [fst snd] in *. rewrite <- app_assoc in H. auto. Qed.

  Lemma refused_ok k l : KI k l -> Every good l -> k_pc k = PStart -> good2 (to_pc PRefused k, [VErr; VRefused]) l.
  Proof.
    intros K E P. pose proof (ki_cur _ _ K) as C. rewrite P in C. destruct C as [C1 C2].
    assert (NS : ~ In VStop l) by (apply (ki_new _ _ K); auto).
    assert (NE : ~ In VEnd l) by (intro H; apply (ki_end _ _ K) in H; congruence).
    split; cbn [fst snd]; snoc2.
    - constructor; cbn [k_pc k_id k_up k_active k_stop to_pc with_id].
      + rewrite !current_app. auto.
      + rewrite !online_app. apply K.
      + auto.
      + rewrite !in_snoc, (ki_act _ _ K). split; [intros H [[X|X]|X]; [auto|discriminate X|discriminate X]|auto].
      + rewrite !in_snoc. split; [discriminate|]. intros [[X|X]|X]; [destruct (NE X)|discriminate X|discriminate X].
      + discriminate.
      + intro H. rewrite !in_snoc. left. left. apply (ki_stop _ _ K H).
      + rewrite !in_snoc. split; [|intros [_ X]; congruence]. intros [[X|X]|X]; try discriminate X. apply (ki_ready _ _ K) in X. destruct X. congruence.
      + intros _. rewrite !in_snoc. intros [[X|X]|X]; [auto|discriminate X|discriminate X].
      + discriminate.
      + cbn [Q]. apply quiet_app; [|discriminate]. apply quiet_app; [|discriminate]. pose proof (ki_busy _ _ K) as B. rewrite P in B. exact B.
    - apply every_snoc; [apply every_snoc; simpl; auto|simpl; auto].
  Qed.

  Lemma step_ok k l o : KI k l -> Every good l -> good2 (cstep k o) l.
  Proof.
    intros K E. pose proof (ki_cur _ _ K) as C. pose proof (ki_wait _ _ K) as W. pose proof (fun H => ki_base k l K H) as B.
    destruct o as [i|ms bad|recov|o| | | | | | |c].
    - cbn [SdkStreamModel.cstep]. destruct (k_pc k) eqn:P; try (apply same_ok; auto; fail).
      + apply also_ok. replace (l ++ [VJoined i; VReady]) with ((l ++ [VJoined i]) ++ [VReady]) by (rewrite <- app_assoc; auto).
        assert (NE : ~ In VEnd l) by (intro H; apply (ki_end _ _ K) in H; congruence).
        apply head_ok.
        * constructor; cbn [k_up k_active k_stop with_id]; rewrite ?online_app, ?in_snoc; auto.
          -- apply K.
          -- rewrite (ki_act _ _ K). split; [intros H [[X|X]|X]; [auto|discriminate X|discriminate X]|auto].
          -- intros [[X|X]|X]; [auto|discriminate X|discriminate X].
          -- intro H. left. left. apply (ki_stop _ _ K H).
          -- apply quiet_app; [|discriminate]. apply quiet_app; [|discriminate]. pose proof (ki_busy _ _ K) as QQ. rewrite P in QQ. exact QQ.
        * apply every_snoc; [apply every_snoc; simpl; auto|simpl; auto].
        * rewrite !current_app. reflexivity.
      + apply also_ok. apply poll_ok; [apply base_snoc; [apply base_id; apply B; exact I|exact I]|apply every_snoc; simpl; auto|rewrite current_app; auto|auto].
    - apply fetched_ok; auto.
    - cbn [SdkStreamModel.cstep]. destruct (k_pc k) eqn:P; try (apply same_ok; auto; fail); [apply refused_ok; auto| |]; apply failed_ok; auto; apply B; exact I.
    - apply work_step; auto.
    - cbn [SdkStreamModel.cstep]. destruct (k_pc k) as [| | | |i b| |] eqn:P; try (apply same_ok; auto; fail). destruct (forallb (is_done item) (b_ws item b)) eqn:D; [|apply same_ok; auto].
      apply head_ok; auto; [|destruct C; congruence]. constructor; try (solve [apply K]).
      + intro H. apply (ki_end _ _ K) in H. congruence.
      + apply (ki_ready _ _ K). rewrite P. split; discriminate.
      + pose proof (ki_busy _ _ K) as QQ. rewrite P in QQ. cbn [Q] in QQ. rewrite (all_done _ D), app_nil_r in QQ. exact QQ.
    - cbn [SdkStreamModel.cstep]. destruct (k_pc k) eqn:P; try (apply same_ok; auto; fail). pose proof (B I) as B1. apply head_ok; auto. destruct C; congruence.
    - cbn [SdkStreamModel.cstep].
      assert (X : k_pc k <> PStart /\ k_pc k <> PRefused -> good2 (match k_id k with
         | Some i => if k_up k then (mkCli false (k_up k) (k_id k) (k_pc k) true true, [VStop; VLeave i]) else (mkCli false (k_up k) (k_id k) (k_pc k) (k_leave k) true, [VStop])
         | None => (mkCli false (k_up k) (k_id k) (k_pc k) (k_leave k) true, [VStop]) end) l).
      { intro NP.
        assert (Y : forall lv, good2 (mkCli false (k_up k) (k_id k) (k_pc k) lv true, [VStop]) l).
        { intro lv. apply (plain_ok k); cbn [k_pc k_id k_up k_active k_stop good]; auto. pose proof (ki_wait _ _ K) as WW. destruct (k_pc k); auto. apply WW. }
        destruct (k_id k) as [i|]; [|apply Y]. destruct (k_up k) eqn:U; [|apply Y].
        eapply two_ok; [apply (Y true)|]. destruct (Y true) as [K1 E1]. cbn [fst snd] in K1, E1.
        eapply plain_ok; [exact K1|exact E1|..]; cbn [k_pc k_id k_up k_active k_stop good]; auto.
        destruct (k_pc k); auto. }
      destruct (k_pc k) eqn:P; try (apply same_ok; auto; fail); apply X; split; discriminate.
    - cbn [SdkStreamModel.cstep]. apply same_ok; auto. destruct K. constructor; auto.
    - cbn [SdkStreamModel.cstep]. destruct (k_pc k) eqn:P; try (apply same_ok; auto; fail). destruct (k_stop k && negb (k_leave k)) eqn:S; [|apply same_ok; auto].
      apply andb_prop in S. destruct S as [S _]. apply (plain_ok k); cbn [k_pc k_id k_up k_active k_stop good]; auto; try discriminate.
      + split; [apply (ki_stop _ _ K S)|]. split; [apply (ki_end _ _ K); auto|]. pose proof (ki_busy _ _ K) as QQ. rewrite P in QQ. exact QQ.
      + rewrite P. exact I.
    - cbn [SdkStreamModel.cstep]. destruct (k_up k) eqn:U; [|apply same_ok; auto].
      assert (X : waits (k_pc k) -> Base (mkCli (k_active k) false (k_id k) (k_pc k) false (k_stop k)) (l ++ [VLost])).
      { intro H. destruct (B H). constructor; cbn [k_up k_active k_stop]; rewrite ?online_app, ?in_snoc; auto.
        - rewrite ba_act0. split; [intros H1 [Y|Y]; [auto|discriminate Y]|auto].
        - intros [Y|Y]; [auto|discriminate Y].
        - apply quiet_app; auto; discriminate. }
      assert (EV : Every good (l ++ [VLost])) by (apply every_snoc; simpl; auto).
      assert (Z : match k_pc k with PStart | PJoin | PFetch _ => False | _ => True end -> good2 (mkCli (k_active k) false (k_id k) (k_pc k) false (k_stop k), [VLost]) l).
      { intro H. apply (plain_ok k); cbn [k_pc k_id k_up k_active k_stop good]; auto; try discriminate. destruct (k_pc k); auto; destruct H. }
      destruct (k_pc k) eqn:P; try (apply Z; exact I).
      + assert (NE : ~ In VEnd l) by (intro H; apply (ki_end _ _ K) in H; congruence). assert (NS : ~ In VStop l) by (apply (ki_new _ _ K); auto).
        apply (also_ok [VLost] (to_pc PRefused (mkCli (k_active k) false (k_id k) (k_pc k) false (k_stop k)), [VErr; VRefused])).
        split; cbn [fst snd]; snoc2.
        * constructor; cbn [k_pc k_id k_up k_active k_stop to_pc with_id]; rewrite ?current_app, ?online_app, ?in_snoc; auto; try discriminate.
          -- split; [reflexivity|]. apply C.
          -- rewrite (ki_act _ _ K). split; [intros H [[[Y|Y]|Y]|Y]; [auto|discriminate Y..]|auto].
          -- split; [discriminate|]. intros [[[Y|Y]|Y]|Y]; [destruct (NE Y)|discriminate Y..].
          -- intro H. left. left. left. apply (ki_stop _ _ K H).
          -- split; [|intros [_ Y]; congruence]. intros [[[Y|Y]|Y]|Y]; try discriminate Y. apply (ki_ready _ _ K) in Y. destruct Y. congruence.
          -- intros _ [[[Y|Y]|Y]|Y]; [auto|discriminate Y..].
          -- cbn [Q]. repeat (apply quiet_app; [|discriminate]). pose proof (ki_busy _ _ K) as QQ. rewrite P in QQ. exact QQ.
        * apply every_snoc; [apply every_snoc; simpl; auto|simpl; auto].
      + apply also_ok, failed_ok; auto. apply X. exact I.
      + apply also_ok, failed_ok; auto. apply X. exact I.
    - cbn [SdkStreamModel.cstep]. destruct (k_up k) eqn:U; [apply same_ok; auto|].
      apply (plain_ok k); cbn [k_pc k_id k_up k_active k_stop good]; auto; try discriminate. destruct (k_pc k); auto.
  Qed.

  Lemma crun_snoc c os o : crun conc c (os ++ [o]) = cnext conc (crun conc c os) o.
  Proof. unfold crun. rewrite fold_left_app. reflexivity. Qed.
  Theorem crun_ok c os : KI (kst c os) (klog c os) /\ Every good (klog c os).
  Proof.
    induction os as [|o os IH] using rev_ind.
    - split.
      + constructor; cbn; auto; try discriminate; try (split; [discriminate|intros [H|[H|[]]]; discriminate H]).
        * split; auto. intros _ [H|[H|[]]]; discriminate H.
        * split; [intros [H|[H|[]]]; discriminate H|intros [H _]; exfalso; apply H; auto].
        * intros _ [H|[H|[]]]; discriminate H.
        * constructor.
      + apply (every_snoc good [VUp c] VJoin); [apply (every_snoc good [] (VUp c)); [apply every_nil|exact I]|].
        cbn. split; auto. split; intros [H|[]]; discriminate H.
    - unfold SdkStreamModel.kst, SdkStreamModel.klog in *. rewrite crun_snoc. unfold cnext. destruct IH as [K E]. pose proof (step_ok _ _ o K E) as G. destruct (cstep (fst (crun conc c os)) o) as [k es].
      exact G.
  Qed.
End P.
