(** What a fetch and a cold read registration deliver. *)
From Verif Require Import LibBase LibMap StreamTopicModel StreamGroupModel StreamGroupSpec StreamGroupProofs StreamGroupSteps.

(** The messages of the redelivery queue that are in memory, up to the first that is not. *)
Fixpoint red_part (log : list msg) (ram : N) (red : list N) : list msg :=
  match red with
  | [] => []
  | s :: r => match read_from_log log ram s with Some m => m :: red_part log ram r | None => [] end
  end.
(** The messages in memory from number [from] on. *)
Definition new_part (log : list msg) (ram from : N) : list msg :=
  if ram <=? from then dropN (from - ram) log else [].

Lemma read_log_seq log ram s m : log_ok log ram -> read_from_log log ram s = Some m -> m_seq m = s.
Proof.
  unfold read_from_log, log_ok. intros H E. destruct (N.ltb_spec s ram) as [L|L]; [discriminate|].
  simpl in E. destruct log; [discriminate|]. apply H in E. lia.
Qed.
Lemma nth_dropN A (l : list A) n x : nth_error l (N.to_nat n) = Some x -> dropN n l = x :: dropN (n + 1) l.
Proof.
  unfold dropN. intro H. replace (N.to_nat (n + 1)) with (S (N.to_nat n)) by lia.
  generalize dependent (N.to_nat n). intro k; revert l; induction k as [|k IH]; intros [|y l] H; simpl in *; try discriminate.
  - inversion H; reflexivity.
  - apply IH; auto.
Qed.
Lemma nth_dropN_none A (l : list A) n : nth_error l (N.to_nat n) = None -> dropN n l = [].
Proof. intro H. apply dropN_all. apply nth_error_None in H. unfold lenN. lia. Qed.
Lemma new_part_step log ram s :
  new_part log ram s = match read_from_log log ram s with Some m => m :: new_part log ram (s + 1) | None => [] end.
Proof.
  unfold new_part, read_from_log. destruct (N.leb_spec ram s) as [L|L].
  - destruct (N.ltb_spec s ram); [lia|]. destruct (N.leb_spec ram (s + 1)); [|lia]. simpl.
    destruct log as [|m0 log0] eqn:EL; [apply dropN_nil|]. rewrite <- EL.
    destruct (nth_error log (N.to_nat (s - ram))) as [m|] eqn:E.
    + rewrite (nth_dropN _ _ _ _ E). replace (s + 1 - ram) with (s - ram + 1) by lia. reflexivity.
    + apply nth_dropN_none; auto.
  - destruct (N.ltb_spec s ram); [|lia]. reflexivity.
Qed.

Definition seqs (ms : list msg) : list N := map m_seq ms.
Lemma in_out_In s ms : in_out s ms = true <-> In s (seqs ms).
Proof.
  unfold in_out, seqs. rewrite existsb_exists, in_map_iff. split; intros (m & A & B); exists m.
  - apply N.eqb_eq in B. auto.
  - split; auto. apply N.eqb_eq; auto.
Qed.
Lemma in_out_app s a b : in_out s (a ++ b) = in_out s a || in_out s b.
Proof. unfold in_out; apply existsb_app. Qed.
Lemma in_out_cons s m b : in_out s (m :: b) = (m_seq m =? s) || in_out s b.
Proof. reflexivity. Qed.

Lemma nth_skipn A (a k : nat) : forall l : list A, nth_error (skipn a l) k = nth_error l (a + k).
Proof. induction a as [|a IH]; intros l; simpl; auto. destruct l; simpl; auto. destruct k; auto. Qed.
Lemma new_part_ok log ram s : log_ok log ram -> log_ok (new_part log ram s) s.
Proof.
  intros LO i m H. unfold new_part in H. destruct (N.leb_spec ram s) as [L|L]; [|destruct i; discriminate].
  unfold dropN in H. rewrite nth_skipn in H. apply LO in H. lia.
Qed.
Lemma log_ok_takeN log ram n : log_ok log ram -> log_ok (takeN n log) ram.
Proof.
  intros LO i m H. apply LO. unfold takeN in H. revert log LO i H. induction (N.to_nat n) as [|k IH]; intros log LO i H; simpl in H.
  - destruct i; discriminate.
  - destruct log as [|x log]; [destruct i; discriminate|]. destruct i; simpl in *; auto.
    clear LO. revert i H. generalize dependent log. intros log.
    intros i H. assert (forall k (l : list msg) i m, nth_error (firstn k l) i = Some m -> nth_error l i = Some m) as X.
    { clear. induction k as [|k IH]; intros [|x l] [|i] m H; simpl in *; try discriminate; auto. }
    eapply X; eauto.
Qed.
Lemma log_ok_ge log ram x : log_ok log ram -> In x (seqs log) -> ram <= x.
Proof.
  intros LO H. apply in_map_iff in H. destruct H as (m & E & H). apply In_nth_error in H. destruct H as (k & H).
  apply LO in H. lia.
Qed.

Lemma red_part_seqs log ram : log_ok log ram -> forall red n,
  seqs (takeN n (red_part log ram red)) = takeN (lenN (takeN n (red_part log ram red))) red.
Proof.
  intros H red; induction red as [|s red IH]; intros n; simpl; [rewrite !takeN_nil; reflexivity|].
  destruct (read_from_log log ram s) as [m|] eqn:E; [|rewrite !takeN_nil; reflexivity].
  destruct (N.eq_dec n 0) as [->|Hn]; [reflexivity|]. rewrite takeN_cons by lia. rewrite lenN_cons. simpl.
  rewrite takeN_cons by lia. rewrite (read_log_seq _ _ _ _ H E). f_equal. rewrite IH. f_equal. lia.
Qed.

Lemma new_part_len log ram s : (length (new_part log ram s) <= length log)%nat.
Proof. unfold new_part. destruct (ram <=? s); [|simpl; lia]. unfold dropN. rewrite skipn_length. lia. Qed.

Section G.
  Variable cfg : gcfg.
  Hypothesis MD : 1 <= max_del cfg.
  Let inv0 := inv0 cfg.
  Let inv := inv cfg.

  Definition delivers (c now : N) (ms : list msg) (g g' : group) : Prop :=
    forall s, abs g' s = given s c now ms (abs g s).

  Lemma delivers_nil c now g : delivers c now [] g g.
  Proof. intro s. reflexivity. Qed.
  Lemma delivers_app c now m ms g g1 g2 :
    delivers c now [m] g g1 -> delivers c now ms g1 g2 -> ~ In (m_seq m) (seqs ms) -> delivers c now (m :: ms) g g2.
  Proof.
    intros A B H s. rewrite B, A. unfold given. rewrite !in_out_cons. unfold in_out at 2; simpl. rewrite orb_false_r.
    destruct (N.eqb_spec (m_seq m) s) as [E|E]; simpl; auto.
    destruct (in_out s ms) eqn:E2; auto. apply in_out_In in E2. subst; contradiction.
  Qed.
  Lemma delivers_app2 c now a b g g1 g2 :
    delivers c now a g g1 -> delivers c now b g1 g2 -> (forall s, In s (seqs a) -> ~ In s (seqs b)) -> delivers c now (a ++ b) g g2.
  Proof.
    intros A B H s. rewrite B, A. unfold given. rewrite in_out_app.
    destruct (in_out s a) eqn:E1; simpl; auto.
    destruct (in_out s b) eqn:E2; auto. apply in_out_In in E1, E2. exfalso; eapply H; eauto.
  Qed.

  Lemma lt_adv g : inv0 g -> maximal g -> forall n, g_next g <= n -> g_floor g < n.
  Proof. intros I _ n H. pose proof (i_fl _ _ I). lia. Qed.

  (** redelivery of [s] *)
  Lemma issue_red c now m g : inv g -> In (m_seq m) (g_red g) -> agetN c (g_mem g) <> None -> lenN (g_pend g) < max_pend cfg ->
    exists g1, issue_delivery cfg c now m (set_red (nrem (m_seq m) (g_red g)) g) = (g1, Some m) /\ inv g1 /\
      delivers c now [m] g g1 /\ lenN (g_pend g1) = lenN (g_pend g) + 1 /\ g_mem g1 = g_mem g /\ g_gen g1 = g_gen g /\
      g_next g1 = g_next g /\ g_red g1 = nrem (m_seq m) (g_red g) /\ g_floor g1 = g_floor g /\ g_cold g1 = g_cold g /\ g_tok g1 = g_tok g.
  Proof.
    intros (I & M) Hi Hm Hl. pose proof I as [i1 i2 i3 i4 i5 i6 i7 i8 i9 i10 i11 i12].
    set (s := m_seq m) in *. destruct (i7 _ Hi) as (n & Hn & N1). pose proof (i3 _ Hi) as PN.
    unfold issue_delivery. simpl. fold s. rewrite Hn. destruct (N.ltb_spec (max_del cfg) (n + 1)) as [L|L]; [lia|].
    eexists. split; [reflexivity|]. simpl.
    split; [|split; [|split; [apply lenN_aset_absent; exact PN|repeat split]]].
    - split.
      + constructor; simpl; auto.
        * apply (NoDup_aset N.eqb N_eqb_eq); auto.
        * apply NoDup_nrem; auto.
        * intros s' H. apply nrem_In in H. rewrite pget_aset. destruct (N.eqb_spec s' s); [tauto|]. apply i3; tauto.
        * intros s' p H. rewrite pget_aset in H. destruct (N.eqb_spec s' s) as [->|]; [apply i5; auto|eauto].
        * intros s' H. apply nrem_In in H. apply i5; tauto.
        * intros s' p H. rewrite pget_aset in H. rewrite agetN_aset. destruct (N.eqb_spec s' s) as [->|]; [|eauto].
          inversion H; subst; simpl. split; auto. lia.
        * intros s' H. apply nrem_In in H. rewrite agetN_aset. destruct (N.eqb_spec s' s); [tauto|]. apply i7; tauto.
        * intros s' n' H. rewrite agetN_aset in H. rewrite pget_aset, nrem_In. destruct (N.eqb_spec s' s); [left; discriminate|].
          destruct (i8 _ _ H); auto.
        * intros s' p H. rewrite pget_aset in H. destruct (N.eqb_spec s' s) as [->|]; [|eauto]. inversion H; subst; auto.
        * rewrite lenN_aset_absent by exact PN. lia.
        * intros s' H. destruct (i12 _ H) as (A & B & C). rewrite pget_aset, nrem_In.
          destruct (N.eqb_spec s' s) as [->|]; [contradiction|]. tauto.
      + unfold maximal in *; simpl. rewrite pget_aset, nrem_In.
        destruct (N.eqb_spec (g_floor g + 1) s); [right; left; discriminate|]. destruct M as [M|[M|M]]; auto.
    - intro s'. unfold given, abs; simpl. fold s. rewrite orb_false_r, pget_aset, agetN_aset, N.eqb_sym.
      destruct (N.eqb_spec s s') as [->|E].
      + rewrite PN. apply nmem_In in Hi. rewrite Hi. simpl. rewrite Hn. reflexivity.
      + destruct (pget s' (g_pend g)); auto. rewrite (nmem_iff s' (nrem s (g_red g)) (g_red g)); auto.
        rewrite nrem_In. intuition.
  Qed.

  (** first delivery of the next number *)
  Lemma issue_new c now m g : inv g -> m_seq m = g_next g -> agetN c (g_mem g) <> None -> lenN (g_pend g) < max_pend cfg ->
    exists g1, issue_delivery cfg c now m (set_next (m_seq m + 1) g) = (g1, Some m) /\ inv g1 /\
      delivers c now [m] g g1 /\ lenN (g_pend g1) = lenN (g_pend g) + 1 /\ g_mem g1 = g_mem g /\ g_gen g1 = g_gen g /\
      g_next g1 = g_next g + 1 /\ g_red g1 = g_red g /\ g_floor g1 = g_floor g /\ g_cold g1 = g_cold g /\ g_tok g1 = g_tok g.
  Proof.
    intros (I & M) Hs Hm Hl. pose proof I as [i1 i2 i3 i4 i5 i6 i7 i8 i9 i10 i11 i12].
    set (s := m_seq m) in *.
    assert (PN : pget s (g_pend g) = None). { destruct (pget s (g_pend g)) eqn:E; auto. apply i4 in E; lia. }
    assert (RN : ~ In s (g_red g)). { intro E; apply i5 in E; lia. }
    assert (KN : ~ In s (g_park g)). { intro E; apply i12 in E; lia. }
    assert (AN : agetN s (g_att g) = None).
    { destruct (agetN s (g_att g)) eqn:E; auto. destruct (i8 _ _ E); [congruence|contradiction]. }
    unfold issue_delivery. simpl. fold s. rewrite AN. destruct (N.ltb_spec (max_del cfg) (0 + 1)) as [L|L]; [lia|].
    eexists. split; [reflexivity|]. simpl.
    split; [|split; [|split; [apply lenN_aset_absent; exact PN|repeat split; lia]]].
    - split.
      + constructor; simpl; auto.
        * apply (NoDup_aset N.eqb N_eqb_eq); auto.
        * intros s' H. rewrite pget_aset. destruct (N.eqb_spec s' s) as [->|]; [contradiction|]. auto.
        * intros s' p H. rewrite pget_aset in H. destruct (N.eqb_spec s' s) as [->|]; [lia|]. apply i4 in H; lia.
        * intros s' H. apply i5 in H. lia.
        * intros s' p H. rewrite pget_aset in H. rewrite agetN_aset. destruct (N.eqb_spec s' s) as [->|]; [|eauto].
          inversion H; subst; simpl. split; auto. lia.
        * intros s' H. rewrite agetN_aset. destruct (N.eqb_spec s' s) as [->|]; [contradiction|]. auto.
        * intros s' n' H. rewrite agetN_aset in H. rewrite pget_aset. destruct (N.eqb_spec s' s); [left; discriminate|]. eauto.
        * lia.
        * intros s' p H. rewrite pget_aset in H. destruct (N.eqb_spec s' s) as [->|]; [|eauto]. inversion H; subst; auto.
        * rewrite lenN_aset_absent by exact PN. lia.
        * intros s' H. destruct (i12 _ H) as (A & B & C). rewrite pget_aset.
          destruct (N.eqb_spec s' s) as [->|]; [contradiction|]. split; [lia|]. tauto.
      + unfold maximal in *; simpl. rewrite pget_aset.
        destruct (N.eqb_spec (g_floor g + 1) s); [right; left; discriminate|]. destruct M as [M|[M|M]]; auto. lia.
    - intro s'. unfold given, abs; simpl. fold s. rewrite orb_false_r, pget_aset, agetN_aset, N.eqb_sym.
      destruct (N.eqb_spec s s') as [->|E].
      + rewrite PN. apply nmem_false in RN, KN. rewrite RN, KN. destruct (N.ltb_spec s' (g_next g)); [lia|]. reflexivity.
      + destruct (pget s' (g_pend g)); auto. destruct (nmem s' (g_red g)); auto. destruct (nmem s' (g_park g)); auto.
        destruct (N.ltb_spec s' (s + 1)), (N.ltb_spec s' (g_next g)); auto; lia.
  Qed.

  Lemma set_red_id g : set_red (g_red g) g = g.
  Proof. destruct g; reflexivity. Qed.

  Lemma fetch_red_ok c now log ram head budget : log_ok log ram ->
    forall red res g, inv g -> g_red g = red -> (forall s, In s red -> head <= s) -> agetN c (g_mem g) <> None ->
      lenN (g_pend g) + (budget - lenN res) <= max_pend cfg ->
      let ms := takeN (budget - lenN res) (red_part log ram red) in
      exists g1, fetch_red cfg c now log ram head budget red res g = (g1, res ++ ms) /\ inv g1 /\
        delivers c now ms g g1 /\ g_red g1 = dropN (lenN ms) red /\ lenN (g_pend g1) = lenN (g_pend g) + lenN ms /\
        g_mem g1 = g_mem g /\ g_gen g1 = g_gen g /\ g_next g1 = g_next g /\ g_floor g1 = g_floor g.
  Proof.
    intros LO. induction red as [|s red IH]; intros res g I R Hh Hm Hl; cbv zeta.
    - simpl. rewrite takeN_nil, app_nil_r. exists g. split; [rewrite <- R, set_red_id; reflexivity|].
      split; auto. split; [apply delivers_nil|]. split; [exact R|]. rewrite lenN_nil. repeat split; auto; lia.
    - simpl fetch_red. simpl red_part. destruct (N.leb_spec budget (lenN res)) as [B|B].
      + replace (budget - lenN res) with 0 by lia. rewrite takeN_0, app_nil_r.
        exists g. split; [rewrite <- R, set_red_id; reflexivity|].
        split; auto. split; [apply delivers_nil|]. split; [exact R|]. rewrite lenN_nil. repeat split; auto; lia.
      + destruct (N.ltb_spec s head) as [L|L]; [specialize (Hh s ltac:(left; auto)); lia|].
        destruct (read_from_log log ram s) as [m|] eqn:E.
        * pose proof (read_log_seq _ _ _ _ LO E) as ES. subst s.
          assert (ND : NoDup (g_red g)) by (destruct I as (I & _); apply (i_rnd _ _ I)).
          rewrite R in ND.
          destruct (issue_red c now m g) as (g1 & X & I1 & D1 & L1 & M1 & G1 & N1 & R1 & F1 & _); auto.
          { rewrite R; left; auto. } { lia. }
          rewrite R in X. rewrite nrem_cons_same in X by auto. rewrite X.
          rewrite R, nrem_cons_same in R1 by auto.
          destruct (IH (res ++ [m]) g1) as (g2 & X2 & I2 & D2 & R2 & L2 & M2 & G2 & N2 & F2); auto.
          { intros s Hs; apply Hh; right; auto. } { congruence. }
          { rewrite lenN_app, lenN_cons, lenN_nil. lia. }
          rewrite lenN_app, lenN_cons, lenN_nil in *. replace (budget - (lenN res + (1 + 0))) with (budget - lenN res - 1) in * by lia.
          rewrite takeN_cons by lia. exists g2. split; [rewrite X2, <- app_assoc; reflexivity|].
          split; auto. split; [eapply delivers_app; eauto|].
          { rewrite (red_part_seqs log ram LO). intro Hi. inversion ND as [|? ? HN _]; subst. apply HN.
            rewrite <- (takeN_dropN _ (lenN (takeN (budget - lenN res - 1) (red_part log ram (g_red g1)))) (g_red g1)). apply in_app_iff; left; exact Hi. }
          rewrite lenN_cons. split; [rewrite dropN_cons by lia; rewrite R2; f_equal; lia|].
          repeat split; try congruence; lia.
        * rewrite takeN_nil, app_nil_r. exists g. split; [rewrite <- R, set_red_id; reflexivity|].
          split; auto. split; [apply delivers_nil|]. split; [exact R|]. rewrite lenN_nil. repeat split; auto; lia.
  Qed.

  Lemma fetch_new_ok c now log ram head budget : log_ok log ram ->
    forall fuel res g, inv g -> head <= g_next g -> agetN c (g_mem g) <> None ->
      lenN (g_pend g) + (budget - lenN res) <= max_pend cfg ->
      (length (new_part log ram (g_next g)) < fuel)%nat ->
      let ms := takeN (budget - lenN res) (new_part log ram (g_next g)) in
      exists g1, fetch_new cfg fuel c now log ram head budget res g = (g1, res ++ ms) /\ inv g1 /\
        delivers c now ms g g1 /\ g_red g1 = g_red g /\ lenN (g_pend g1) = lenN (g_pend g) + lenN ms /\
        g_mem g1 = g_mem g /\ g_gen g1 = g_gen g /\ g_next g1 = g_next g + lenN ms /\ g_floor g1 = g_floor g.
  Proof.
    intros LO. induction fuel as [|fuel IH]; intros res g I Hh Hm Hl Hf; cbv zeta; [lia|].
    simpl fetch_new. destruct (N.leb_spec budget (lenN res)) as [B|B].
    - replace (budget - lenN res) with 0 by lia. rewrite takeN_0, app_nil_r. exists g. split; [reflexivity|].
      split; auto. split; [apply delivers_nil|]. rewrite lenN_nil. repeat split; auto; lia.
    - replace (N.max (g_next g) head) with (g_next g) by lia.
      destruct (N.ltb_spec (g_next g) head) as [L|L]; [lia|].
      rewrite new_part_step in Hf |- *.
      destruct (read_from_log log ram (g_next g)) as [m|] eqn:E.
      + pose proof (read_log_seq _ _ _ _ LO E) as ES.
        destruct (issue_new c now m g) as (g1 & X & I1 & D1 & L1 & M1 & G1 & N1 & R1 & F1 & _); auto.
        { lia. }
        rewrite ES in X. rewrite X.
        destruct (IH (res ++ [m]) g1) as (g2 & X2 & I2 & D2 & R2 & L2 & M2 & G2 & N2 & F2); auto.
        { lia. } { congruence. }
        { rewrite lenN_app, lenN_cons, lenN_nil. lia. }
        { rewrite N1. simpl in Hf. lia. }
        rewrite lenN_app, lenN_cons, lenN_nil in *. rewrite N1 in *.
        replace (budget - (lenN res + (1 + 0))) with (budget - lenN res - 1) in * by lia.
        rewrite takeN_cons by lia. exists g2. split; [rewrite X2, <- app_assoc; reflexivity|].
        split; auto. split; [eapply delivers_app; eauto|].
        { intro Hi. apply (log_ok_ge _ (g_next g + 1)) in Hi; [lia|]. apply log_ok_takeN, new_part_ok; auto. }
        rewrite lenN_cons. split; [congruence|]. repeat split; try congruence; lia.
      + rewrite takeN_nil, app_nil_r. exists g. split; [reflexivity|].
        split; auto. split; [apply delivers_nil|]. rewrite lenN_nil. repeat split; auto; lia.
  Qed.

  Lemma clamp_head_low head g : inv0 g ->
    let g1 := fst (clamp_head head g) in head <= g_next g1 /\ (forall s, In s (g_red g1) -> head <= s).
  Proof.
    intros I. cbv zeta. destruct (clamp_fields head g) as (A & B & C & _). rewrite A, C. split.
    - simpl. destruct (N.ltb_spec (g_next g) (N.max head 1)); lia.
    - intros s Hs. apply clamped_red in Hs. lia.
  Qed.

  (** The exact result of a fetch. *)
  Theorem fetch_exact c gen limit now log ram head g : inv g -> log_ok log ram ->
    ensure_active c gen g = None ->
    let g1 := fst (clamp_head head g) in
    let budget := N.min limit (max_pend cfg - lenN (g_pend g1)) in
    let r1 := takeN budget (red_part log ram (g_red g1)) in
    let r2 := takeN (budget - lenN r1) (new_part log ram (g_next g1)) in
    exists g2, fetch cfg c gen limit now log ram head g = (g2, inr (r1 ++ r2)) /\ inv g2 /\
      delivers c now (r1 ++ r2) g1 g2 /\ g_red g2 = dropN (lenN r1) (g_red g1) /\ g_next g2 = g_next g1 + lenN r2 /\
      lenN (g_pend g2) = lenN (g_pend g1) + lenN (r1 ++ r2) /\ g_mem g2 = g_mem g /\ g_gen g2 = g_gen g /\ g_floor g2 = g_floor g1 /\
      (forall s, In s (seqs r1) -> ~ In s (seqs r2)) /\ NoDup (seqs r1).
  Proof.
    intros I LO EA. cbv zeta. unfold fetch. rewrite EA.
    pose proof (clamp_inv cfg head g I) as I1.
    destruct (clamp_head_low head g (proj1 I)) as (H1 & H2).
    destruct (clamp_fields head g) as (_ & _ & _ & _ & _ & HM & HG).
    assert (Hm : agetN c (g_mem (fst (clamp_head head g))) <> None).
    { rewrite HM. unfold ensure_active in EA. destruct (gen =? g_gen g); [|discriminate]. simpl in EA.
      destruct (agetN c (g_mem g)); [discriminate|discriminate]. }
    set (g1 := fst (clamp_head head g)) in *. set (budget := N.min limit _).
    assert (SEQ1 : forall n s, In s (seqs (takeN n (red_part log ram (g_red g1)))) -> In s (g_red g1)).
    { intros n s Hs. rewrite red_part_seqs in Hs by auto.
      rewrite <- (takeN_dropN _ (lenN (takeN n (red_part log ram (g_red g1)))) (g_red g1)). apply in_app_iff; left; exact Hs. }
    assert (DIS : forall a b s, In s (seqs (takeN a (red_part log ram (g_red g1)))) -> ~ In s (seqs (takeN b (new_part log ram (g_next g1))))).
    { intros a b s Hs Hb. apply SEQ1 in Hs. apply (i_rrange _ _ (proj1 I1)) in Hs.
      apply (log_ok_ge _ (g_next g1)) in Hb; [lia|]. apply log_ok_takeN, new_part_ok; auto. }
    assert (ND : forall n, NoDup (seqs (takeN n (red_part log ram (g_red g1))))).
    { intro n. rewrite red_part_seqs by auto. pose proof (i_rnd _ _ (proj1 I1)) as HR.
      rewrite <- (takeN_dropN _ (lenN (takeN n (red_part log ram (g_red g1)))) (g_red g1)) in HR.
      clear - HR. revert HR. generalize (takeN (lenN (takeN n (red_part log ram (g_red g1)))) (g_red g1)) as a.
      generalize (dropN (lenN (takeN n (red_part log ram (g_red g1)))) (g_red g1)) as b. intros b a.
      induction a as [|x a IH]; simpl; intro H; [constructor|]. inversion H; subst. constructor; auto.
      intro Hx; apply H2. apply in_app_iff; auto. }
    destruct (N.leb_spec (max_pend cfg) (lenN (g_pend g1))) as [B|B].
    - assert (budget = 0) as -> by (unfold budget; lia). rewrite !takeN_0, lenN_nil. change (0 - 0) with 0. simpl app.
      exists g1. split; auto. split; auto. split; [apply delivers_nil|]. split; [reflexivity|]. rewrite lenN_nil.
      repeat split; auto; try lia. constructor.
    - destruct (fetch_red_ok c now log ram head budget LO (g_red g1) [] g1) as (ga & X & Ia & Da & Ra & La & Ma & Ga & Na & Fa); auto.
      { rewrite lenN_nil. unfold budget. lia. }
      rewrite lenN_nil, N.sub_0_r in *. simpl app in X. rewrite X.
      set (r1 := takeN budget (red_part log ram (g_red g1))) in *.
      assert (Lb : lenN r1 <= budget) by (unfold r1; rewrite lenN_takeN; lia).
      destruct (fetch_new_ok c now log ram head budget LO (S (length log)) r1 ga) as (gb & X2 & Ib & Db & Rb & Lbb & Mb & Gb & Nb & Fb); auto.
      { lia. } { congruence. } { rewrite La. unfold budget in *. lia. }
      { pose proof (new_part_len log ram (g_next ga)). lia. }
      rewrite X2. rewrite Na in *. exists gb. split; auto. split; auto.
      split; [eapply delivers_app2; eauto|]. split; [congruence|]. split; [exact Nb|].
      split; [rewrite lenN_app; lia|]. repeat split; try congruence; eauto.
  Qed.

  (** ** Messages read from disk *)
  Definition deliverable (g : group) (s : N) : Prop := (exists n, abs g s = Waiting n) \/ s = g_next g.

  Lemma cold_one_ok c now head m g res : inv g -> head <= g_next g -> (forall s, In s (g_red g) -> head <= s) ->
    agetN c (g_mem g) <> None -> lenN (g_pend g) < max_pend cfg ->
    exists g1 ms, cold_one cfg c now head (g, res) m = (g1, res ++ ms) /\ inv g1 /\ delivers c now ms g g1 /\
      (ms = [] /\ g1 = g /\ (m_seq m < head \/ (~ In (m_seq m) (g_red g) /\ m_seq m <> g_next g)) \/
       ms = [m] /\ (In (m_seq m) (g_red g) \/ m_seq m = g_next g)) /\
      g_mem g1 = g_mem g /\ g_gen g1 = g_gen g /\ g_next g <= g_next g1 /\ g_floor g1 = g_floor g /\
      (forall s, In s (g_red g1) -> In s (g_red g)).
  Proof.
    intros I Hh Hr Hm Hl. unfold cold_one.
    destruct (N.ltb_spec (m_seq m) head) as [L|L].
    { exists g, []. rewrite app_nil_r. split; auto. split; auto. split; [apply delivers_nil|]. split; [left; auto|]. repeat split; auto; lia. }
    pose proof (i_fl _ _ (proj1 I)) as FL.
    destruct (nmem (m_seq m) (g_red g)) eqn:ER.
    - apply nmem_In in ER. simpl g_next. destruct (N.ltb_spec (g_next g) head); [lia|].
      pose proof (i_rrange _ _ (proj1 I) _ ER) as RR.
      destruct (N.eqb_spec (m_seq m) (N.max (g_next g) (N.max head 1))); [lia|]. simpl orb. cbv iota.
      destruct (issue_red c now m g I ER Hm Hl) as (g1 & X & I1 & D1 & L1 & M1 & G1 & N1 & R1 & F1 & _).
      rewrite X. exists g1, [m]. split; auto. split; auto. split; auto. split; [right; auto|].
      repeat split; auto; [lia|]. intros s Hs. rewrite R1 in Hs. apply nrem_In in Hs; tauto.
    - apply nmem_false in ER. destruct (N.ltb_spec (g_next g) head); [lia|]. simpl orb.
      replace (N.max (g_next g) (N.max head 1)) with (g_next g) by lia.
      destruct (N.eqb_spec (m_seq m) (g_next g)) as [E|E].
      + destruct (issue_new c now m g I E Hm Hl) as (g1 & X & I1 & D1 & L1 & M1 & G1 & N1 & R1 & F1 & _).
        rewrite X. exists g1, [m]. split; auto. split; auto. split; auto. split; [right; auto|].
        repeat split; auto; [lia|]. intros s Hs. congruence.
      + exists g, []. rewrite app_nil_r. split; auto. split; auto. split; [apply delivers_nil|]. split; [left; auto|]. repeat split; auto; lia.
  Qed.

  Lemma abs_waiting g s : inv0 g -> In s (g_red g) -> exists n, abs g s = Waiting n /\ 1 <= n < max_del cfg.
  Proof.
    intros I H. destruct (i_attr _ _ I s H) as (n & E & L). exists n. split; auto. unfold abs. rewrite (i_dis _ _ I _ H).
    apply nmem_In in H. rewrite H, E. reflexivity.
  Qed.
  Lemma abs_fresh g s : inv0 g -> (abs g s = Fresh <-> g_next g <= s).
  Proof.
    intros I. unfold abs. destruct (pget s (g_pend g)) eqn:E; [split; [discriminate|apply (i_prange _ _ I) in E; lia]|].
    destruct (nmem s (g_red g)) eqn:E1; [split; [discriminate|apply nmem_In, (i_rrange _ _ I) in E1; lia]|].
    destruct (nmem s (g_park g)) eqn:E2; [split; [discriminate|apply nmem_In, (i_park _ _ I) in E2; lia]|].
    destruct (N.ltb_spec s (g_next g)); split; try discriminate; auto; lia.
  Qed.

  (** every message of the result was deliverable when its turn came, and once given is not given again *)
  Lemma cold_loop_ok c now head : forall ms g res, inv g -> head <= g_next g -> (forall s, In s (g_red g) -> head <= s) ->
    agetN c (g_mem g) <> None ->
    exists g1 out, cold_loop cfg c now head ms (g, res) = (g1, res ++ out) /\ inv g1 /\ delivers c now out g g1 /\
      NoDup (seqs out) /\ (forall m, In m out -> In m ms /\ (In (m_seq m) (g_red g) \/ g_next g <= m_seq m)) /\
      g_mem g1 = g_mem g /\ g_gen g1 = g_gen g /\ g_floor g1 = g_floor g /\ g_next g <= g_next g1.
  Proof.
    induction ms as [|m ms IH]; intros g res I Hh Hr Hm; cbn [cold_loop fst].
    - exists g, []. rewrite app_nil_r. split; auto. split; auto. split; [apply delivers_nil|]. repeat split; auto; try constructor; try contradiction; lia.
    - destruct (N.leb_spec (max_pend cfg) (lenN (g_pend g))) as [B|B].
      { exists g, []. rewrite app_nil_r. split; auto. split; auto. split; [apply delivers_nil|]. repeat split; auto; try constructor; try contradiction; lia. }
      destruct (cold_one_ok c now head m g res I Hh Hr Hm B) as (g1 & d & X & I1 & D1 & C1 & M1 & G1 & N1 & F1 & R1).
      rewrite X.
      destruct (IH g1 (res ++ d)) as (g2 & o & X2 & I2 & D2 & ND & C2 & M2 & G2 & F2 & N2); auto.
      { lia. } { congruence. }
      rewrite X2. exists g2, (d ++ o). rewrite app_assoc. split; auto. split; auto.
      assert (DIS : forall s, In s (seqs d) -> ~ In s (seqs o)).
      { intros s Hs Ho. destruct C1 as [(-> & _ & _)|(-> & _)]; [contradiction|]. destruct Hs as [Hs|[]].
        apply in_map_iff in Ho. destruct Ho as (m' & E' & Ho). apply C2 in Ho. destruct Ho as (_ & Ho).
        specialize (D1 s). unfold given in D1. simpl in D1. rewrite Hs, N.eqb_refl in D1. simpl in D1.
        rewrite E' in Ho. destruct Ho as [Ho|Ho].
        - destruct (abs_waiting g1 s (proj1 I1) Ho) as (n & E & _). congruence.
        - apply (abs_fresh g1 s (proj1 I1)) in Ho. congruence. }
      split; [eapply delivers_app2; eauto|].
      split; [unfold seqs; rewrite map_app; apply nodup_app_intro; auto; destruct C1 as [(-> & _)|(-> & _)]; simpl; repeat constructor; simpl; auto|].
      split; [|repeat split; try congruence; lia].
      intros m' Hi. apply in_app_iff in Hi. destruct Hi as [Hi|Hi].
      + destruct C1 as [(-> & _)|(-> & Hc)]; [contradiction|]. destruct Hi as [<-|[]]. split; [left; reflexivity|]. destruct Hc as [Hc|Hc]; [left; exact Hc|right; lia].
      + destruct (C2 _ Hi) as (A & Bc). split; [right; exact A|]. destruct Bc as [Bc|Bc]; [left; auto|right; lia].
  Qed.

  Theorem cold_ok c gen now ms head g : inv g -> ensure_active c gen g = None ->
    let g1 := fst (clamp_head head g) in
    exists g2 out, register_cold cfg c gen now ms head g = (g2, inr out) /\ inv g2 /\ delivers c now out g1 g2 /\
      NoDup (seqs out) /\ (forall m, In m out -> In m ms /\ (In (m_seq m) (g_red g1) \/ g_next g1 <= m_seq m)) /\
      g_mem g2 = g_mem g /\ g_gen g2 = g_gen g /\ g_floor g2 = g_floor g1.
  Proof.
    intros I EA. cbv zeta. unfold register_cold. rewrite EA.
    pose proof (clamp_inv cfg head g I) as I1.
    destruct (clamp_head_low head g (proj1 I)) as (H1 & H2).
    destruct (clamp_fields head g) as (_ & _ & _ & _ & _ & HM & HG).
    assert (Hm : agetN c (g_mem (fst (clamp_head head g))) <> None).
    { rewrite HM. unfold ensure_active in EA. destruct (gen =? g_gen g); [|discriminate]. simpl in EA.
      destruct (agetN c (g_mem g)); [discriminate|discriminate]. }
    destruct (cold_loop_ok c now head ms (fst (clamp_head head g)) [] I1 H1 H2 Hm) as (g2 & o & X & I2 & D & ND & C & M2 & G2 & F2 & _).
    rewrite X. exists g2, o. simpl app. repeat (split; auto); congruence.
  Qed.
End G.
