(** What a handle does with the messages it was given, counted. *)
From Verif Require Import LibBase SdkLoopModel SdkLoopProofs SdkQueueModel SdkQueueSpec SdkQueueProofs.

Section T.
  Variable A : Type.
  Variable conc : N.
  Notation hstep := (hstep (A:=A) conc).
  Notation hrun := (hrun (A:=A) conc).
  Notation move := (move A conc).
  Implicit Types (h : handle A) (x : sub A) (k j : nat) (l : list (hev A)).

  (** ** what one piece of code puts in the log *)
  Inductive wshape : list (ev A) -> Prop :=
  | W0 : wshape []
  | WS z : wshape [EStart z]
  | WK z : wshape [ESkip z]
  | WKN z : wshape [ESkip z; ENack z]
  | WE z ok : wshape [EEnd z ok]
  | WEA z : wshape [EEnd z true; EAck z]
  | WEN z : wshape [EEnd z false; ENack z].
  Definition dull (e : hev A) : Prop := match e with VDo _ _ => False | VGot _ (Some (_ :: _)) => False | _ => True end.
  Inductive emits (o : hop A) : list (hev A) -> Prop :=
  | EmDull es : Forall dull es -> emits o es
  | EmGot k is : o = HAnswer k (Some is) -> emits o [VGot k (Some is)]
  | EmDo k es : wshape es -> emits o (map (VDo k) es).
  Lemma wstep_shape act up b o : wshape (snd (wstep A true act up b o)).
  Proof.
    destruct o as [i bad|i ok bad]; cbn [wstep]; destruct (nth_error (b_ws b) i) as [[|y| |]|]; try constructor.
    - destruct (b_q b); [constructor|]. destruct act; [constructor|]. cbn [andb]. destruct up; [destruct bad|]; constructor.
    - destruct (negb up); [constructor|]. destruct bad; [constructor|]. destruct ok; constructor.
  Qed.
  Lemma dull_rep k n : Forall dull (repeat (VStopped k) n).
  Proof. apply Forall_forall. intros e H. apply repeat_spec in H. subst. exact I. Qed.
  Lemma top_log k x h : exists es, h_log (top k x h) = h_log h ++ es /\ Forall dull es.
  Proof.
    unfold top, put, finish. destruct (s_act x); [destruct (h_up h)|]; cbn [h_log]; eexists; (split; [reflexivity|]); [repeat constructor|constructor|apply dull_rep].
  Qed.
  Lemma caught_log k x h : exists es, h_log (caught k x h) = h_log h ++ es /\ Forall dull es.
  Proof. unfold caught, put, finish. destruct (s_act x); cbn [h_log]; eexists; (split; [reflexivity|]); [constructor|apply dull_rep]. Qed.
  Lemma step_emits h o : exists es, h_log (hstep h o) = h_log h ++ es /\ emits o es.
  Proof.
    assert (NO : exists es, h_log h = h_log h ++ es /\ emits o es) by (exists []; rewrite app_nil_r; split; auto; apply EmDull; constructor).
    destruct o as [|k r|k|k r|k o|k j o|k|k|up]; cbn [SdkQueueModel.hstep].
    - destruct (h_flag h); cbn [h_log]; eexists; (split; [reflexivity|]); apply EmDull; repeat constructor.
    - destruct (nth_error (h_subs h) k) as [[[] a n old]|]; auto.
      assert (E : forall h', (exists es, h_log h' = (h_log h ++ [VOk k]) ++ es /\ Forall dull es) -> exists es, h_log h' = h_log h ++ es /\ emits (HExists k r) es).
      { intros h' (es & E & D). exists (VOk k :: es). rewrite E, <- app_assoc. split; [reflexivity|]. apply EmDull. constructor; auto; exact I. }
      destruct r as [[|]|]; [apply E; apply (top_log k _ (mkH true (h_up h) (h_subs h) (h_log h ++ [VOk k])))| |]; unfold put; cbn [h_log]; eexists; (split; [reflexivity|]); apply EmDull; repeat constructor.
    - destruct (nth_error (h_subs h) k) as [x|]; auto. destruct (s_pc x); auto. destruct (top_log k x h) as (es & E & D). exists es. split; auto. apply EmDull; auto.
    - destruct (nth_error (h_subs h) k) as [x|]; auto. destruct (s_pc x); auto.
      set (h' := mkH (h_flag h) (h_up h) (h_subs h) (h_log h ++ [VGot k r])).
      assert (E : forall h2, dull (VGot k r) -> (exists es, h_log h2 = h_log h' ++ es /\ Forall dull es) -> exists es, h_log h2 = h_log h ++ es /\ emits (HAnswer k r) es).
      { intros h2 DR (es & E & D). exists (VGot k r :: es). rewrite E. unfold h'. cbn [h_log]. rewrite <- app_assoc. split; [reflexivity|]. apply EmDull. constructor; auto. }
      destruct r as [[|i is]|].
      + apply E; [exact I|apply top_log].
      + unfold put. cbn [h_log]. rewrite app_nil_r. eexists. split; [reflexivity|]. apply EmGot. reflexivity.
      + apply E; [exact I|apply caught_log].
    - destruct (nth_error (h_subs h) k) as [x|]; auto. destruct (s_pc x) as [| | | |b|]; auto. pose proof (wstep_shape (s_act x) (h_up h) b o) as W. destruct (wstep A true (s_act x) (h_up h) b o) as [b' e].
      unfold put. cbn [h_log]. eexists. split; [reflexivity|]. apply EmDo. exact W.
    - destruct (nth_error (h_subs h) k) as [x|]; auto. destruct (nth_error (s_old x) j) as [b|]; auto. pose proof (wstep_shape (s_act x) (h_up h) b o) as W. destruct (wstep A true (s_act x) (h_up h) b o) as [b' e].
      unfold put. cbn [h_log]. eexists. split; [reflexivity|]. apply EmDo. exact W.
    - destruct (nth_error (h_subs h) k) as [x|]; auto. destruct (s_pc x) as [| | | |b|]; auto. destruct (forallb (is_done A) (b_ws b)).
      + destruct (top_log k x h) as (es & E & D). exists es. split; auto. apply EmDull; auto.
      + destruct (existsb (is_dead A) (b_ws b)); auto.
        match goal with |- context [caught ?a ?b ?c] => destruct (caught_log a b c) as (es & E & D) end. exists es. split; auto. apply EmDull; auto.
    - destruct (nth_error (h_subs h) k) as [x|]; auto. destruct (s_pc x); auto; unfold put; cbn [h_log]; eexists; (split; [reflexivity|]); apply EmDull; repeat constructor.
    - cbn [h_log]. eexists; (split; [reflexivity|]); apply EmDull; repeat constructor.
  Qed.

  (** ** counting *)
  Definition cnt {B} (P : B -> bool) (l : list B) : nat := length (filter P l).
  Lemma cnt_app {B} (P : B -> bool) a b : cnt P (a ++ b) = (cnt P a + cnt P b)%nat.
  Proof. unfold cnt. rewrite filter_app, app_length. reflexivity. Qed.
  (** all messages given, and all events, of the handle *)
  Definition dos l : list (ev A) := flat_map (fun e => match e with VDo _ y => [y] | _ => [] end) l.
  Definition gots l : list A := flat_map (fun e => match e with VGot _ (Some ms) => ms | _ => [] end) l.
  Lemma dos_app l es : dos (l ++ es) = dos l ++ dos es. Proof. apply flat_map_app. Qed.
  Lemma gots_app l es : gots (l ++ es) = gots l ++ gots es. Proof. apply flat_map_app. Qed.
  Lemma dos_map k (es : list (ev A)) : dos (map (VDo k) es) = es.
  Proof. induction es; cbn; auto. f_equal. auto. Qed.
  Lemma gots_map k (es : list (ev A)) : gots (map (VDo k) es) = [].
  Proof. induction es; cbn; auto. Qed.
  Lemma dull_none es : Forall dull es -> dos es = [] /\ gots es = [].
  Proof. induction 1 as [|e es D F (IH1 & IH2)]; auto. unfold dos, gots in *. cbn. rewrite IH1, IH2. destruct e as [| | | | |k [[|]|]| | | |]; cbn in D; tauto. Qed.

  Definition pcb (p : pc A) : list (batch A) := match p with PBatch b => [b] | _ => [] end.
  Definition bs x : list (batch A) := pcb (s_pc x) ++ s_old x.
  Definition qof (l : list (batch A)) : list A := flat_map b_q l.
  Definition rof (l : list (batch A)) : list A := flat_map (fun b => busy A (b_ws b)) l.
  Definition allb h : list (batch A) := flat_map bs (h_subs h).
  Record CI h : Prop := {
    ci_q : forall P, (cnt P (taken A (dos (h_log h))) + cnt P (qof (allb h)) <= cnt P (gots (h_log h)))%nat;
    ci_r : forall P, (cnt P (ends A (dos (h_log h))) + cnt P (rof (allb h)) <= cnt P (starts A (dos (h_log h))))%nat;
    ci_qi : incl (qof (allb h)) (gots (h_log h));
    ci_ri : incl (rof (allb h)) (starts A (dos (h_log h)));
    ci_ti : incl (taken A (dos (h_log h))) (gots (h_log h));
    ci_ei : incl (ends A (dos (h_log h))) (starts A (dos (h_log h)))
  }.
  (** one batch, one worker step *)
  Lemma wstep_cnt act up b o P : (cnt P (taken A (snd (wstep A true act up b o))) + cnt P (b_q (fst (wstep A true act up b o))) = cnt P (b_q b))%nat /\
    (cnt P (ends A (snd (wstep A true act up b o))) + cnt P (busy A (b_ws (fst (wstep A true act up b o)))) = cnt P (busy A (b_ws b)) + cnt P (starts A (snd (wstep A true act up b o))))%nat.
  Proof.
    pose proof (eq_refl : busy A [Ready] = []) as BR. pose proof (eq_refl : busy A [Dead] = []) as BD. pose proof (fun z => eq_refl : busy A [Busy z] = [z]) as BB.
    assert (BUSY : forall i w w0, nth_error (b_ws b) i = Some w0 -> (cnt P (busy A (setw A i w (b_ws b))) + cnt P (busy A [w0]) = cnt P (busy A (b_ws b)) + cnt P (busy A [w]))%nat).
    { intros i w w0 E. destruct (setw_split A i w w0 (b_ws b) E) as (a & c & E1 & E2). rewrite E2, E1, !busy_app. change (w0 :: c) with ([w0] ++ c). change (w :: c) with ([w] ++ c). rewrite !busy_app, !cnt_app. lia. }
    destruct o as [i bad|i ok bad]; cbn [wstep]; destruct (nth_error (b_ws b) i) as [[|y| |]|] eqn:E; try (cbn; split; [reflexivity|lia]).
    - destruct (b_q b) as [|z q]; cbn [fst snd b_ws b_q]; [pose proof (BUSY i Done _ E) as B; cbn in B |- *; split; [reflexivity|lia]|].
      destruct act; cbn [fst snd b_ws b_q].
      + pose proof (BUSY i (Busy z) _ E) as B. rewrite ?BR, ?BD, ?BB in *. cbn [taken starts ends flat_map app] in *. unfold cnt in *. cbn [filter] in *. destruct (P z); cbn [length] in *; lia.
      + cbn [andb]. pose proof (BUSY i Ready _ E) as B. pose proof (BUSY i Dead _ E) as B'. rewrite ?BR, ?BD, ?BB in *. destruct up; [destruct bad|]; cbn [fst snd b_ws b_q taken starts ends flat_map app] in *; unfold cnt in *; cbn [filter] in *; destruct (P z); cbn [length] in *; lia.
    - pose proof (BUSY i Ready _ E) as B. pose proof (BUSY i Dead _ E) as B'. rewrite ?BR, ?BD, ?BB in *. destruct (negb up); [|destruct bad]; cbn [fst snd b_ws b_q]; [| |destruct ok]; cbn [taken starts ends flat_map app] in *; unfold cnt in *; cbn [filter] in *; destruct (P y); cbn [length] in *; lia.
  Qed.
  Lemma wstep_in act up b o : let b' := fst (wstep A true act up b o) in let es := snd (wstep A true act up b o) in
    incl (b_q b') (b_q b) /\ incl (taken A es) (b_q b) /\ incl (busy A (b_ws b')) (busy A (b_ws b) ++ starts A es) /\ incl (ends A es) (busy A (b_ws b)).
  Proof.
    assert (BUSY : forall i w w0, nth_error (b_ws b) i = Some w0 -> incl (busy A (setw A i w (b_ws b))) (busy A (b_ws b) ++ busy A [w])).
    { intros i w w0 E. destruct (setw_split A i w w0 (b_ws b) E) as (a & c & E1 & E2). rewrite E2, E1, !busy_app. change (w0 :: c) with ([w0] ++ c). change (w :: c) with ([w] ++ c). rewrite !busy_app. intros z. rewrite !in_app_iff. tauto. }
    assert (SAME : incl (b_q b) (b_q b) /\ incl (taken A []) (b_q b) /\ incl (busy A (b_ws b)) (busy A (b_ws b) ++ starts A []) /\ incl (ends A []) (busy A (b_ws b))).
    { split; [apply incl_refl|]. split; [intros ? []|]. split; [apply incl_appl, incl_refl|intros ? []]. }
    destruct o as [i bad|i ok bad]; cbn [wstep]; destruct (nth_error (b_ws b) i) as [[|y| |]|] eqn:E; try exact SAME.
    - destruct (b_q b) as [|z q] eqn:Q; cbn [fst snd b_ws b_q]; [split; [apply incl_refl|]; split; [intros ? []|]; split; [exact (BUSY i Done _ E)|intros ? []]|].
      assert (T : incl q (z :: q)) by (intros w Hw; right; exact Hw).
      assert (T2 : incl [z] (z :: q)) by (intros w [<-|[]]; left; reflexivity).
      destruct act; cbn [fst snd b_ws b_q].
      + split; [exact T|]. split; [exact T2|]. split; [exact (BUSY i (Busy z) _ E)|intros ? []].
      + cbn [andb]. destruct up; [destruct bad|]; cbn [fst snd b_ws b_q]; (split; [exact T|]; split; [exact T2|]; split; [|intros ? []]); [exact (BUSY i Dead _ E)|exact (BUSY i Ready _ E)|exact (BUSY i Ready _ E)].
    - assert (Y : incl [y] (busy A (b_ws b))).
      { intros w [<-|[]]. unfold busy. apply in_flat_map. exists (Busy y). split; [apply (nth_error_In _ _ E)|left; reflexivity]. }
      destruct (negb up); [|destruct bad]; cbn [fst snd b_ws b_q]; [| |destruct ok]; (split; [apply incl_refl|]; split; [intros ? []|]; split; [|exact Y]); first [exact (BUSY i Ready _ E)|exact (BUSY i Dead _ E)].
  Qed.
  Lemma qof_app a b : qof (a ++ b) = qof a ++ qof b. Proof. apply flat_map_app. Qed.
  Lemma rof_app a b : rof (a ++ b) = rof a ++ rof b. Proof. apply flat_map_app. Qed.
  Record tok (B B' : list (batch A)) (es : list (hev A)) : Prop := {
    tk_q : forall P, (cnt P (taken A (dos es)) + cnt P (qof B') <= cnt P (qof B) + cnt P (gots es))%nat;
    tk_r : forall P, (cnt P (ends A (dos es)) + cnt P (rof B') <= cnt P (rof B) + cnt P (starts A (dos es)))%nat;
    tk_qi : incl (qof B') (qof B ++ gots es);
    tk_ri : incl (rof B') (rof B ++ starts A (dos es));
    tk_ti : incl (taken A (dos es)) (qof B);
    tk_ei : incl (ends A (dos es)) (rof B)
  }.
  Lemma tok_less B B' es : (exists C, forall P, cnt P (qof B) = cnt P (qof B') + cnt P (qof C) /\ cnt P (rof B) = cnt P (rof B') + cnt P (rof C))%nat -> incl B' B -> dos es = [] -> tok B B' es.
  Proof.
    intros (C & H) HI D. constructor; try (intro P; destruct (H P)); rewrite ?D; cbn; try lia.
    - apply incl_appl. intros z Hz. apply in_flat_map in Hz. destruct Hz as (b & H1 & H2). apply in_flat_map. exists b. auto.
    - rewrite app_nil_r. intros z Hz. apply in_flat_map in Hz. destruct Hz as (b & H1 & H2). apply in_flat_map. exists b. auto.
    - intros ? [].
    - intros ? [].
  Qed.
  Lemma tok_nil B B' es : B' = [] -> dos es = [] -> tok B B' es.
  Proof. intros -> D. apply tok_less; auto; [|intros ? []]. exists B. intro P. auto. Qed.
  Lemma tok_work B1 b B2 o act up k : tok (B1 ++ b :: B2) (B1 ++ fst (wstep A true act up b o) :: B2) (map (VDo k) (snd (wstep A true act up b o))).
  Proof.
    destruct (wstep_in act up b o) as (I1 & I2 & I3 & I4).
    change (b :: B2) with ([b] ++ B2). change (fst (wstep A true act up b o) :: B2) with ([fst (wstep A true act up b o)] ++ B2).
    constructor; rewrite ?dos_map, ?gots_map, ?qof_app, ?rof_app; try (intro P; destruct (wstep_cnt act up b o P); rewrite !cnt_app); cbn [qof rof flat_map]; rewrite ?app_nil_r; try (change (cnt P []) with O; lia).
    - intros z. specialize (I1 z). rewrite !in_app_iff. tauto.
    - intros z. specialize (I3 z). rewrite !in_app_iff in *. tauto.
    - intros z. specialize (I2 z). rewrite !in_app_iff. tauto.
    - intros z. specialize (I4 z). rewrite !in_app_iff. tauto.
  Qed.
  Lemma turn_bs k x x' g : turn A k x x' g \/ fails A k x x' g -> dos g = [] /\ gots g = [] /\ (exists C, forall P, cnt P (qof (bs x)) = cnt P (qof (s_old x')) + cnt P (qof C) /\ cnt P (rof (bs x)) = cnt P (rof (s_old x')) + cnt P (rof C))%nat /\ incl (s_old x') (bs x).
  Proof.
    assert (O : forall x, (exists C, forall P, cnt P (qof (bs x)) = cnt P (qof (s_old x)) + cnt P (qof C) /\ cnt P (rof (bs x)) = cnt P (rof (s_old x)) + cnt P (rof C))%nat /\ incl (s_old x) (bs x)).
    { intro z. unfold bs. split; [|apply incl_appr, incl_refl]. exists (pcb (s_pc z)). intro P. rewrite qof_app, rof_app, !cnt_app. lia. }
    intros [[y E|y E|y b E D]|[y E|y b E D]]; (split; [reflexivity|]; split; [reflexivity|]); try apply O.
    unfold bs. rewrite E. cbn [pcb s_old]. split.
    - exists []. intro P. rewrite !qof_app, !rof_app, !cnt_app. cbn. lia.
    - intros z. rewrite !in_app_iff. tauto.
  Qed.
  Lemma nth_split_bs x i b : nth_error (s_old x) i = Some b -> bs x = (pcb (s_pc x) ++ firstn i (s_old x)) ++ b :: skipn (S i) (s_old x).
  Proof.
    intro H. unfold bs. rewrite <- app_assoc. f_equal. rewrite <- (firstn_skipn i (s_old x)) at 1. f_equal. revert H. generalize (s_old x) as l. induction i as [|i IH]; intros [|z l] H; try discriminate; cbn in *; [injection H as ->; auto|]. apply IH; auto.
  Qed.
  Lemma move_tok k up bad x x' es f : move k up bad x x' es f -> tok (bs x) (bs x') es.
  Proof.
    intros [act n old|act n old|y y' g T Ha Hu|y y' g T Ha|y y' g T Ha|y i is E|y b o E|y i b o E|y E|y E1 E2 E3].
    - apply tok_nil; destruct up; reflexivity.
    - apply tok_nil; reflexivity.
    - destruct (turn_bs k y y' g (or_introl T)) as (D & G & C & I). apply tok_less; auto. rewrite dos_app, D. reflexivity.
    - destruct (turn_bs k y y' g T) as (D & G & C & I). apply tok_less; auto.
    - destruct (turn_bs k y y' g T) as (D & G & C & I). apply tok_less; auto. rewrite dos_app, D. exact (proj1 (dull_none _ (dull_rep k _))).
    - assert (R : rof [batch_new A conc (i :: is)] = []).
      { cbn [rof flat_map]. rewrite app_nil_r. unfold batch_new. cbn [b_ws]. apply busy_ready. }
      assert (Q : qof [batch_new A conc (i :: is)] = i :: is) by (cbn; rewrite app_nil_r; reflexivity).
      assert (G : gots [VGot k (Some (i :: is))] = i :: is) by (cbn; rewrite app_nil_r; reflexivity).
      unfold bs. rewrite E. cbn [pcb s_pc s_old]. change (@nil (batch A) ++ s_old y) with (s_old y). constructor; rewrite ?qof_app, ?rof_app, ?Q, ?R, ?G; cbn [dos flat_map taken starts ends app]; [intro P; rewrite ?cnt_app; change (i :: is ++ qof (s_old y)) with ((i :: is) ++ qof (s_old y)); rewrite ?cnt_app; change (cnt P []) with O; lia|intro P; lia| | | | ].
      + intros z. cbn [In]. rewrite !in_app_iff. cbn [In]. tauto.
      + rewrite app_nil_r. apply incl_refl.
      + intros ? [].
      + intros ? [].
    - replace (bs y) with ([] ++ b :: s_old y) by (unfold bs; rewrite E; reflexivity). exact (tok_work [] b (s_old y) o (s_act y) up k).
    - rewrite (nth_split_bs _ _ _ E). unfold bs. cbn [s_pc s_old]. rewrite app_assoc. apply tok_work.
    - unfold bs. rewrite E. apply tok_less; try reflexivity; [|apply incl_refl]. exists []. intro P. cbn. lia.
    - unfold bs. apply tok_less; try reflexivity; [|apply incl_refl]. exists []. intro P. cbn. lia.
  Qed.
  Lemma CI_tok h f u ss es B : CI h -> tok (allb h) B es -> B = flat_map bs ss -> CI (mkH f u ss (h_log h ++ es)).
  Proof.
    intros [C1 C2 C3 C4 C5 C6] [T1 T2 T3 T4 T5 T6] ->. 
    assert (TA : forall a b, taken A (a ++ b) = taken A a ++ taken A b) by (intros; apply flat_map_app).
    assert (SA : forall a b, starts A (a ++ b) = starts A a ++ starts A b) by (intros; apply flat_map_app).
    assert (EA : forall a b, ends A (a ++ b) = ends A a ++ ends A b) by (intros; apply flat_map_app).
    constructor; unfold allb in *; cbn [h_log h_subs]; rewrite ?dos_app, ?gots_app, ?TA, ?SA, ?EA.
    - intro P. specialize (C1 P). specialize (T1 P). rewrite !cnt_app. lia.
    - intro P. specialize (C2 P). specialize (T2 P). rewrite !cnt_app. lia.
    - intros z Hz. apply T3 in Hz. specialize (C3 z). rewrite in_app_iff in *. tauto.
    - intros z Hz. apply T4 in Hz. specialize (C4 z). rewrite in_app_iff in *. tauto.
    - intros z Hz. rewrite in_app_iff in *. destruct Hz as [Hz|Hz]; [left; auto|]. left. auto.
    - intros z Hz. rewrite in_app_iff in *. destruct Hz as [Hz|Hz]; [left; auto|]. left. auto.
  Qed.
  Lemma tok_frame L R B B' es : tok B B' es -> tok (L ++ B ++ R) (L ++ B' ++ R) es.
  Proof.
    intros [T1 T2 T3 T4 T5 T6]. constructor; rewrite ?qof_app, ?rof_app.
    - intro P. specialize (T1 P). rewrite !cnt_app. lia.
    - intro P. specialize (T2 P). rewrite !cnt_app. lia.
    - intros z. specialize (T3 z). rewrite !in_app_iff in *. tauto.
    - intros z. specialize (T4 z). rewrite !in_app_iff in *. tauto.
    - intros z. specialize (T5 z). rewrite !in_app_iff in *. tauto.
    - intros z. specialize (T6 z). rewrite !in_app_iff in *. tauto.
  Qed.
  Lemma CI_step h o : CI h -> CI (hstep h o).
  Proof.
    intro C. pose proof (step_case A conc h o) as S. destruct S as [o|F|F|up|o k bad x x' es f E M HB].
    - exact C.
    - apply CI_tok with (B := allb h); auto; [apply tok_less; try reflexivity; [|apply incl_refl]; exists []; intro P; cbn; lia|]. unfold allb. rewrite flat_map_app. cbn. rewrite app_nil_r. reflexivity.
    - apply CI_tok with (B := allb h); auto; [apply tok_less; try reflexivity; [|apply incl_refl]; exists []; intro P; cbn; lia|]. unfold allb. rewrite flat_map_app. cbn. rewrite app_nil_r. reflexivity.
    - apply CI_tok with (B := allb h); auto. apply tok_less; try reflexivity; [|apply incl_refl]; exists []; intro P; cbn; lia.
    - assert (SP : h_subs h = firstn k (h_subs h) ++ x :: skipn (S k) (h_subs h)).
      { rewrite <- (upd_id A k x (h_subs h) E) at 1. reflexivity. }
      apply CI_tok with (B := flat_map bs (firstn k (h_subs h)) ++ bs x' ++ flat_map bs (skipn (S k) (h_subs h))); auto.
      + unfold allb. rewrite SP at 1. rewrite flat_map_app. cbn [flat_map]. apply tok_frame. eapply move_tok; eauto.
      + unfold upd. rewrite flat_map_app. reflexivity.
  Qed.
  Lemma CI0 : CI handle0.
  Proof. constructor; cbn; try (intro P; cbn; lia); intros ? []. Qed.
End T.
