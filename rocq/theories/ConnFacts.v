(** What the client sees of its requests; nothing can get stuck. *)
From Verif Require Import LibBase WireModel WireProofs ConnModel ConnProofs.

Section Conn.
  Variables Eng Loc X : Type.
  Variable start : inframe -> Loc.
  Variable hstep : Eng -> Loc -> Eng * hres Loc.
  Variable xstep : Eng -> X -> Eng.
  Variables bye1 bye2 : Eng -> Eng.
  Variables maxp cap : N.
  Notation conn := (conn Eng Loc).
  Notation task := (task Loc).
  Notation cstep := (cstep Eng Loc X start hstep xstep bye1 bye2 maxp cap).
  Notation crun := (crun Eng Loc X start hstep xstep bye1 bye2 maxp cap).
  Notation result_of := (result_of Eng Loc start hstep).
  Notation panics := (panics Eng Loc start hstep).
  Notation requests := (requests Eng Loc).
  Notation responses := (responses Eng Loc).
  Notation CI := (CI Eng Loc start hstep).
  Notation C0 := (conn0 Eng Loc).
  Arguments c_eng {Eng Loc}. Arguments c_rd {Eng Loc}. Arguments c_num {Eng Loc}. Arguments c_hold {Eng Loc}. Arguments c_in {Eng Loc}.
  Arguments c_run {Eng Loc}. Arguments c_out {Eng Loc}. Arguments c_push {Eng Loc}. Arguments c_bridge {Eng Loc}. Arguments c_sent {Eng Loc}.
  Arguments c_lost {Eng Loc}. Arguments c_drop {Eng Loc}. Arguments c_phase {Eng Loc}.
  Arguments k_n {Loc}. Arguments k_f {Loc}. Arguments k_at {Loc}. Arguments k_poll {Loc}.

  Lemma cnt_seq n k : cnt n (seq 0 k) = if (n <? k)%nat then 1%nat else 0%nat.
  Proof.
    destruct (Nat.ltb_spec n k) as [L|L].
    - pose proof (proj1 (NoDup_count_occ Nat.eq_dec _) (seq_NoDup k 0) n). pose proof (proj1 (count_occ_In Nat.eq_dec (seq 0 k) n)) as Y.
      unfold cnt. specialize (Y (proj2 (in_seq k 0 n) ltac:(lia))). lia.
    - apply count_occ_not_In. rewrite in_seq. lia.
  Qed.
  Lemma sent_pairs fs : forall l, Forall (out_ok Eng Loc start hstep fs) l ->
    Forall2 (fun n o => exists f r, nth_error fs n = Some f /\ o = OResponse (in_id f) r /\ result_of f r) (nums l) (filter is_response (map snd l)).
  Proof.
    induction 1 as [|[k o] l H _ IH]; simpl; [constructor|]. unfold out_ok in H. simpl in H. destruct k as [n|].
    - destruct H as (f & r & A & B & C). rewrite B. simpl. constructor; auto. exists f, r. rewrite <- B. auto.
    - rewrite H. exact IH.
  Qed.
  (** The responses written so far answer different requests, each with that
      request's id and result. *)
  Theorem own_responses e xs : let s := crun (C0 e) xs in exists ns, NoDup ns /\
    Forall2 (fun n o => exists f r, nth_error (requests s) n = Some f /\ o = OResponse (in_id f) r /\ result_of f r) ns (responses s).
  Proof.
    intro s. pose proof (CI_run _ _ X _ _ xstep bye1 bye2 maxp cap xs _ (CI_0 _ _ start hstep e)) as C. fold s in C. exists (nums (c_sent s)). split.
    - apply (NoDup_count_occ Nat.eq_dec). intro n. pose proof (ci_cnt _ _ _ _ _ C n) as Y. rewrite cnt_seq in Y. change (count_occ Nat.eq_dec (nums (c_sent s)) n) with (cnt n (nums (c_sent s))).
      destruct (_ <? _)%nat; lia.
    - apply sent_pairs. pose proof (ci_out _ _ _ _ _ C) as Y. apply Forall_app in Y. apply Y.
  Qed.
  (** When nothing is left to do, every request has been answered, except those whose
      handler panicked. *)
  Theorem all_answered e xs : let s := crun (C0 e) xs in idle Eng Loc s -> exists ns lost,
    Permutation (ns ++ lost) (seq 0 (length (requests s))) /\
    Forall2 (fun n o => exists f r, nth_error (requests s) n = Some f /\ o = OResponse (in_id f) r /\ result_of f r) ns (responses s) /\
    (forall n, In n lost -> exists f, nth_error (requests s) n = Some f /\ panics f).
  Proof.
    intros s (I1 & I2 & I3 & I4 & I5 & I6). pose proof (CI_run _ _ X _ _ xstep bye1 bye2 maxp cap xs _ (CI_0 _ _ start hstep e)) as C. fold s in C.
    exists (nums (c_sent s)), (c_lost s). split; [|split].
    - apply (Permutation_count_occ Nat.eq_dec). intro n. change (cnt n (nums (c_sent s) ++ c_lost s) = cnt n (seq 0 (length (requests s)))).
      pose proof (ci_cnt _ _ _ _ _ C n) as Y. rewrite I1, I2, I3, I4, I5, (ci_drop _ _ _ _ _ C I6) in Y. rewrite <- Y, cnt_app. simpl. unfold cnt. simpl. lia.
    - apply sent_pairs. pose proof (ci_out _ _ _ _ _ C) as Y. apply Forall_app in Y. apply Y.
    - apply (ci_lost _ _ _ _ _ C).
  Qed.
  (** Distinct ids: no id is answered twice, and the response with the id of request
      [n] is a result of request [n]. *)
  Theorem distinct_ids e xs : let s := crun (C0 e) xs in NoDup (map in_id (requests s)) ->
    NoDup (map (fun o => match o with OResponse id _ => id | OPush id _ => id end) (responses s)) /\
    forall n f r, nth_error (requests s) n = Some f -> In (OResponse (in_id f) r) (responses s) -> result_of f r.
  Proof.
    intros s ND. destruct (own_responses e xs) as (ns & N1 & F). fold s in F. split.
    - clear -ND N1 F. induction F as [|n o ns os (f & r & A & -> & _) F IH]; simpl; [constructor|]. inversion N1; subst. constructor; auto.
      intro HI. apply in_map_iff in HI. destruct HI as (o & E & HI). clear IH. revert HI. induction F as [|m o' ns os (f' & r' & A' & -> & _) F IH]; intro HI; [contradiction|].
      inversion N1; subst. destruct HI as [<-|HI].
      + apply H1. left. eapply (proj1 (NoDup_nth_error (map in_id (requests s))) ND); [rewrite map_length; apply nth_error_Some; congruence|].
        rewrite !nth_error_map, A, A'. simpl. congruence.
      + inversion H2; subst. apply IH; auto.
        * constructor; auto. intro Y. apply H1. right; auto.
        * intro Y. apply H1. right; auto.
    - intros n f r HN HI. clear N1. induction F as [|m o ns os (f' & r' & A' & -> & R) F IH]; [contradiction|]. destruct HI as [E|HI]; [|auto].
      inversion E; subst. assert (m = n).
      { eapply (proj1 (NoDup_nth_error (map in_id (requests s))) ND); [rewrite map_length; apply nth_error_Some; congruence|]. rewrite !nth_error_map, HN, A'. simpl. congruence. }
      subst m. congruence.
  Qed.

  (** ** Nothing gets stuck *)
  Lemma crun_app : forall a b s, crun s (a ++ b) = crun (crun s a) b.
  Proof. induction a as [|x a IH]; intros b s; simpl; auto. Qed.
  Notation K := (cop X).
  (** everything but the fields the schedule is about *)
  Definition same (s s' : conn) : Prop := c_phase s' = c_phase s /\ c_rd s' = c_rd s.
  Hypothesis CAP : 1 <= cap.
  (** Spawn what is in the inbound channel. *)
  Lemma spawn_all : forall l s, c_in s = l -> c_phase s = Open -> exists xs, let s' := crun s xs in
    c_in s' = [] /\ c_hold s' = c_hold s /\ c_num s' = c_num s /\ same s s'.
  Proof.
    induction l as [|nf l IH]; intros s E O; [exists []; simpl; unfold same; auto|].
    assert (E2 : cstep s (KSpawn X) = set_run Eng Loc (c_run s ++ [mkTask Loc (fst nf) (snd nf) (Fresh Loc) false]) (set_in Eng Loc l s)).
    { cbn [ConnModel.cstep]. rewrite E. unfold looping. rewrite O. reflexivity. }
    destruct (IH (cstep s (KSpawn X))) as (xs & A); [rewrite E2; auto..|].
    exists (KSpawn X :: xs). cbn [ConnModel.crun]. rewrite E2 in *. unfold same in *. exact A.
  Qed.
  (** Pass on the frame in hand. *)
  Lemma pass_one s : c_phase s = Open -> exists xs, let s' := crun s xs in
    c_in s' = [] /\ c_hold s' = None /\ c_num s' = c_num s /\ same s s'.
  Proof.
    intro O. destruct (spawn_all (c_in s) s eq_refl O) as (xs & A & B & C & D1 & D2). set (s1 := crun s xs) in *.
    destruct (c_hold s1) as [nf|] eqn:EH; [|exists xs; unfold same; auto].
    set (s2 := cstep s1 (KPass X)). assert (E2 : s2 = set_in Eng Loc (c_in s1 ++ [nf]) (set_hold Eng Loc None s1)).
    { unfold s2. cbn [ConnModel.cstep]. rewrite EH, A. destruct (N.ltb_spec (lenN (@nil (nat * inframe))) cap); auto. rewrite lenN_nil in *. lia. }
    destruct (spawn_all (c_in s2) s2 eq_refl) as (ys & A' & B' & C' & D1' & D2').
    { rewrite E2. simpl. congruence. }
    exists (xs ++ KPass X :: ys). rewrite crun_app. fold s1. cbn [ConnModel.crun]. fold s2. cbv zeta. unfold same in *. rewrite A', B', C', D1', D2', E2. simpl. auto.
  Qed.
  Lemma take_all : forall k s, (length (requests s) - c_num s = k)%nat -> c_phase s = Open -> (c_num s <= length (requests s))%nat -> exists xs, let s' := crun s xs in
    c_in s' = [] /\ c_hold s' = None /\ c_num s' = length (requests s) /\ same s s'.
  Proof.
    induction k as [|k IH]; intros s E O L; destruct (pass_one s O) as (xs & A & B & C & D1 & D2); set (s1 := crun s xs) in *.
    - exists xs. fold s1. unfold same. rewrite A, B, C. repeat split; auto. lia.
    - set (s2 := cstep s1 (KNext X)).
      assert (R1 : requests s1 = requests s) by (unfold ConnModel.requests; rewrite D2; auto).
      destruct (nth_error (requests s1) (c_num s1)) as [f|] eqn:EN; [|apply nth_error_None in EN; rewrite R1, C in EN; lia].
      assert (E2 : s2 = set_num Eng Loc (S (c_num s1)) (set_hold Eng Loc (Some (c_num s1, f)) s1)).
      { unfold s2. cbn [ConnModel.cstep]. unfold is_open. rewrite D1, O, B. change (r_frames (c_rd s1)) with (requests s1). rewrite EN. reflexivity. }
      assert (R2 : requests s2 = requests s) by (rewrite E2; exact R1).
      destruct (IH s2) as (ys & A' & B' & C' & D1' & D2').
      + rewrite R2, E2. simpl. lia.
      + rewrite E2. simpl. congruence.
      + rewrite R2, E2. simpl. lia.
      + exists (xs ++ KNext X :: ys). rewrite crun_app. fold s1. cbn [ConnModel.crun]. fold s2. cbv zeta. unfold same in *. rewrite A', B', C', D1', D2', R2, E2. simpl. auto.
  Qed.
  (** Write what is in the outbound channel. *)
  Lemma write_all : forall l s, c_out s = l -> c_phase s = Open -> c_hold s = None -> exists xs, let s' := crun s xs in
    c_out s' = [] /\ c_in s' = c_in s /\ c_hold s' = None /\ c_num s' = c_num s /\ c_run s' = c_run s /\ c_eng s' = c_eng s /\ same s s'.
  Proof.
    induction l as [|o l IH]; intros s E O H; [exists []; simpl; unfold same; repeat split; auto|].
    assert (E2 : cstep s (KWrite X) = set_sent Eng Loc (c_sent s ++ [o]) (set_out Eng Loc l s)).
    { cbn [ConnModel.cstep]. rewrite H, E. unfold is_open. rewrite O. reflexivity. }
    destruct (IH (cstep s (KWrite X))) as (xs & A); [rewrite E2; auto..|].
    exists (KWrite X :: xs). cbn [ConnModel.crun]. rewrite E2 in *. unfold same in *. simpl in *. tauto.
  Qed.
  (** the handler, run alone from here, comes to an end *)
  Fixpoint halts (k : nat) (e : Eng) (l : Loc) : Prop :=
    match k with
    | O => False
    | S k' => match hstep e l with (e', Go l') => halts k' e' l' | _ => True end
    end.
  Hypothesis HALT : forall e l, exists k, halts k e l.
  Lemma finish_stage t r : c_phase t = Open -> c_in t = [] -> c_hold t = None -> forall st s,
    c_phase s = Open -> c_in s = [] -> c_hold s = None -> c_run s = mkTask Loc (fst (fst st)) (snd (fst st)) (snd st) true :: r ->
    same t s -> c_num s = c_num t ->
    exists xs, let s' := crun s xs in c_run s' = r /\ c_in s' = [] /\ c_hold s' = None /\ c_num s' = c_num t /\ same t s'.
  Proof.
    intros Ot It Ht [[n f] st]. cbn [fst snd].
    assert (RP : forall a s, c_phase s = Open -> c_in s = [] -> c_hold s = None -> c_run s = mkTask Loc n f (Reply Loc a) true :: r -> same t s -> c_num s = c_num t ->
      exists xs, let s' := crun s xs in c_run s' = r /\ c_in s' = [] /\ c_hold s' = None /\ c_num s' = c_num t /\ same t s').
    { intros a s O I H R (S1 & S2) NN. destruct (write_all (c_out s) s eq_refl O H) as (xs & A1 & A2 & A3 & A4 & A5 & A6 & A7 & A8). set (s1 := crun s xs) in *.
      exists (xs ++ [KTask X 0]). rewrite crun_app. fold s1. simpl. rewrite A5, R. simpl. unfold task_step. simpl. unfold is_open. rewrite A7, O, A1.
      destruct (N.ltb_spec (lenN (@nil (option nat * outframe))) cap) as [Y|Y]; [|rewrite lenN_nil in Y; lia].
      simpl. unfold del. rewrite A5, R. simpl. unfold same. simpl. rewrite A2, A3, A4, A7, A8. repeat split; auto. }
    assert (IN : forall k l s, halts k (c_eng s) l -> c_phase s = Open -> c_in s = [] -> c_hold s = None -> c_run s = mkTask Loc n f (Inside Loc l) true :: r -> same t s -> c_num s = c_num t ->
      exists xs, let s' := crun s xs in c_run s' = r /\ c_in s' = [] /\ c_hold s' = None /\ c_num s' = c_num t /\ same t s').
    { induction k as [|k IH]; intros l s HK O I H R (S1 & S2) NN; [contradiction|]. cbn [halts] in HK.
      assert (ST : cstep s (KTask X 0) = task_step Eng Loc start hstep cap 0 (mkTask Loc n f (Inside Loc l) true) s) by (cbn [ConnModel.cstep]; rewrite R; reflexivity).
      unfold task_step in ST. cbn [k_at k_n k_f] in ST. destruct (hstep (c_eng s) l) as [e' [l'|a|]] eqn:EH.
      - rewrite R in ST. unfold swap in ST. cbn [firstn skipn app] in ST. destruct (IH l' (cstep s (KTask X 0))) as (ys & Y); try (rewrite ST; simpl; auto; fail).
        + rewrite ST. unfold same in *. simpl. auto.
        + exists (KTask X 0 :: ys). exact Y.
      - rewrite R in ST. unfold swap in ST. cbn [firstn skipn app] in ST. destruct (RP a (cstep s (KTask X 0))) as (ys & Y); try (rewrite ST; simpl; auto; fail).
        + rewrite ST. unfold same in *. simpl. auto.
        + exists (KTask X 0 :: ys). exact Y.
      - rewrite R in ST. unfold del in ST. cbn [firstn skipn app] in ST. exists [KTask X 0]. cbn [ConnModel.crun]. rewrite ST. unfold same in *. simpl. repeat split; auto. }
    intros s O I H R S NN. destruct st as [|l|a]; [|destruct (HALT (c_eng s) l) as (k & HK); eapply IN; eauto|eapply RP; eauto].
    assert (ST : cstep s (KTask X 0) = task_step Eng Loc start hstep cap 0 (mkTask Loc n f (Fresh Loc) true) s) by (cbn [ConnModel.cstep]; rewrite R; reflexivity).
    unfold task_step in ST. cbn [k_at k_n k_f] in ST. rewrite R in ST. unfold swap in ST. cbn [firstn skipn app] in ST.
    destruct (in_type f =? TYPE_REQUEST).
    - destruct (HALT (c_eng s) (start f)) as (k & HK). destruct (IN k (start f) (cstep s (KTask X 0))) as (ys & Y); try (rewrite ST; simpl; auto; fail); try (rewrite ST; exact S).
      exists (KTask X 0 :: ys). exact Y.
    - destruct (RP (RError unsupported) (cstep s (KTask X 0))) as (ys & Y); try (rewrite ST; simpl; auto; fail); try (rewrite ST; exact S).
      exists (KTask X 0 :: ys). exact Y.
  Qed.
  Lemma finish_all : forall l s, c_run s = l -> c_phase s = Open -> c_in s = [] -> c_hold s = None ->
    exists xs, let s' := crun s xs in c_run s' = [] /\ c_in s' = [] /\ c_hold s' = None /\ c_num s' = c_num s /\ same s s'.
  Proof.
    induction l as [|[n f st p] l IH]; intros s R O I H; [exists []; unfold same; simpl; repeat split; auto|].
    set (s1 := cstep s (KPoll X 0)). assert (E1 : s1 = set_run Eng Loc (mkTask Loc n f st true :: l) s).
    { unfold s1. cbn [ConnModel.cstep]. rewrite R. unfold looping. rewrite O. reflexivity. }
    destruct (finish_stage s l O I H (n, f, st) s1) as (xs & A & B & C & D & E); try (rewrite E1; simpl; auto; fail).
    { rewrite E1. unfold same; simpl; auto. }
    destruct E as (P1 & P2). set (s2 := crun s1 xs) in *. destruct (IH s2 A) as (ys & Y1 & Y2 & Y3 & Y4 & Y5 & Y6); auto; [congruence|].
    exists (KPoll X 0 :: xs ++ ys). cbn [ConnModel.crun]. fold s1. rewrite crun_app. fold s2. unfold same in *. rewrite Y1, Y2, Y3, Y4, Y5, Y6. repeat split; auto.
  Qed.
  (** From every reachable open state the server's own steps can complete the requests
      received so far. *)
  Theorem can_finish e xs : let s := crun (C0 e) xs in c_phase s = Open -> exists ys, let s' := crun s ys in
    idle Eng Loc s' /\ requests s' = requests s.
  Proof.
    intros s O. pose proof (CI_run _ _ X _ _ xstep bye1 bye2 maxp cap xs _ (CI_0 _ _ start hstep e)) as C. fold s in C.
    destruct (take_all _ s eq_refl O (ci_num _ _ _ _ _ C)) as (y1 & A1 & A2 & A3 & A4 & A5). set (s1 := crun s y1) in *.
    destruct (finish_all (c_run s1) s1 eq_refl) as (y2 & B1 & B2 & B3 & B4 & B5 & B6); auto; [congruence|]. set (s2 := crun s1 y2) in *.
    destruct (write_all (c_out s2) s2 eq_refl) as (y3 & D1 & D2 & D3 & D4 & D5 & D6 & D7 & D8); auto; [congruence|]. set (s3 := crun s2 y3) in *.
    assert (R : requests s3 = requests s) by (unfold ConnModel.requests; congruence).
    exists (y1 ++ y2 ++ y3). rewrite crun_app, crun_app. fold s1 s2 s3. split; auto. unfold idle. rewrite R. repeat split; congruence.
  Qed.
End Conn.
