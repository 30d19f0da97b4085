(** Proofs about the consuming loops of the SDK. *)
From Verif Require Import LibBase SdkLoopModel.
From Coq Require Import Permutation.

Section Loop.
  Variable A : Type.
  Variable conc : N.
  Variable isq : bool.
  Notation lrun := (lrun A conc isq).
  Notation lstep := (lstep A conc isq).
  Notation wstep := (wstep A isq).
  Arguments EStart {A}. Arguments EEnd {A}. Arguments EAck {A}. Arguments ENack {A}. Arguments ESkip {A}.
  Arguments starts {A}. Arguments ends {A}. Arguments ended {A}. Arguments acks {A}. Arguments nacks {A}. Arguments skips {A}. Arguments taken {A}.
  Arguments l_active {A}. Arguments l_up {A}. Arguments l_wait {A}. Arguments l_cur {A}. Arguments l_old {A}. Arguments l_got {A}. Arguments l_log {A}.
  Arguments b_q {A}. Arguments b_ws {A}. Arguments mkB {A}. Arguments Ready {A}. Arguments Busy {A}. Arguments Done {A}. Arguments Dead {A}.
  Arguments setw {A}. Arguments is_done {A}. Arguments is_dead {A}. Arguments sends_ok {A}.

  Definition limit : N := N.max 1 conc.
  Definition busy (ws : list (worker A)) : list A := flat_map (fun w => match w with Busy x => [x] | _ => [] end) ws.
  Definition bqs (b : option (batch A)) : list A := match b with Some b => b_q b | None => [] end.
  Definition bbusy (b : option (batch A)) : list A := match b with Some b => busy (b_ws b) | None => [] end.
  Record LI (s : loop A) : Prop := {
    li_old : l_old s = [];
    li_got : l_got s = taken (l_log s) ++ bqs (l_cur s);
    li_busy : Permutation (starts (l_log s)) (ends (l_log s) ++ bbusy (l_cur s));
    li_ws : forall b, l_cur s = Some b -> lenN (b_ws b) <= limit /\ b_ws b <> [] /\ (forall w, In w (b_ws b) -> w <> Dead) /\ (In Done (b_ws b) -> b_q b = []);
    li_wait : l_wait s = true -> l_cur s = None;
    li_ack : exists r, Permutation (ended true (l_log s)) (acks (l_log s) ++ r);
    li_nack : exists r, Permutation (ended false (l_log s) ++ skips (l_log s)) (nacks (l_log s) ++ r)
  }.
  Lemma fm_app {B C} (f : B -> list C) a b : flat_map f (a ++ b) = flat_map f a ++ flat_map f b.
  Proof. apply flat_map_app. Qed.
  Lemma setw_split i (w w0 : worker A) l : nth_error l i = Some w0 -> exists a b, l = a ++ w0 :: b /\ setw i w l = a ++ w :: b.
  Proof.
    intro H. exists (firstn i l), (skipn (S i) l). split; auto. rewrite <- (firstn_skipn i l) at 1. f_equal. revert l H. induction i as [|i IH]; intros [|x l] H; try discriminate; simpl in *; [injection H as ->; auto|]. apply IH; auto.
  Qed.
  Lemma busy_app a b : busy (a ++ b) = busy a ++ busy b. Proof. apply flat_map_app. Qed.
  Lemma LI0 : LI (loop0 A).
  Proof. constructor; simpl; auto; try discriminate; exists []; auto. Qed.

  Lemma work_ok active up b o : let bad := match o with WTake _ x => x | WEnd _ _ x => x end in bad = false ->
    lenN (b_ws b) <= limit /\ b_ws b <> [] /\ (forall w, In w (b_ws b) -> w <> Dead) /\ (In Done (b_ws b) -> b_q b = []) ->
    let b' := fst (wstep active up b o) in let e := snd (wstep active up b o) in
    (lenN (b_ws b') <= limit /\ b_ws b' <> [] /\ (forall w, In w (b_ws b') -> w <> Dead) /\ (In Done (b_ws b') -> b_q b' = [])) /\
    b_q b = taken e ++ b_q b' /\ Permutation (starts e ++ busy (b_ws b)) (ends e ++ busy (b_ws b')) /\
    (exists r, Permutation (ended true e) (acks e ++ r)) /\ (exists r, Permutation (ended false e ++ skips e) (nacks e ++ r)).
  Proof.
    intros bad HB (W1 & W2 & W3 & W4) b' e.
    assert (SAME : (lenN (b_ws b) <= limit /\ b_ws b <> [] /\ (forall w, In w (b_ws b) -> w <> Dead) /\ (In Done (b_ws b) -> b_q b = [])) /\
      b_q b = taken [] ++ b_q b /\ Permutation (@starts A [] ++ busy (b_ws b)) (ends [] ++ busy (b_ws b)) /\
      (exists r, Permutation (@ended A true []) (acks [] ++ r)) /\ (exists r, Permutation (@ended A false [] ++ skips []) (nacks [] ++ r))).
    { split; auto. split; auto. split; auto. split; exists []; auto. }
    assert (SET : forall i w w0 (q : list A), nth_error (b_ws b) i = Some w0 -> w <> Dead -> (w = Done -> q = []) -> (In Done (b_ws b) -> q = []) ->
      lenN (setw i w (b_ws b)) <= limit /\ setw i w (b_ws b) <> [] /\ (forall w', In w' (setw i w (b_ws b)) -> w' <> Dead) /\ (In Done (setw i w (b_ws b)) -> q = [])).
    { intros i w w0 q E N1 N2 N3. destruct (setw_split i w w0 (b_ws b) E) as (a & c & E1 & E2). rewrite E2. split; [|split; [|split]].
      - rewrite E1 in W1. revert W1. rewrite !lenN_app, !lenN_cons. auto.
      - destruct a; discriminate.
      - intros w' H. apply in_app_or in H. destruct H as [H|[<-|H]]; auto; apply W3; rewrite E1; apply in_or_app; auto. right; right; auto.
      - intro H. apply in_app_or in H. destruct H as [H|[H|H]]; auto; apply N3; rewrite E1; apply in_or_app; auto. right; right; auto. }
    assert (BUSY : forall i w w0, nth_error (b_ws b) i = Some w0 -> exists a c, busy (b_ws b) = a ++ busy [w0] ++ c /\ busy (setw i w (b_ws b)) = a ++ busy [w] ++ c).
    { intros i w w0 E. destruct (setw_split i w w0 (b_ws b) E) as (a & c & E1 & E2). rewrite E2, E1. exists (busy a), (busy c). rewrite !busy_app. change (w0 :: c) with ([w0] ++ c). change (w :: c) with ([w] ++ c). rewrite !busy_app. auto. }
    unfold b', e in *. destruct o as [i bd|i ok bd]; simpl in bad; subst bad; cbn [SdkLoopModel.wstep]; destruct (nth_error (b_ws b) i) as [[|x| |]|] eqn:E; try exact SAME.
    - destruct (b_q b) as [|x q] eqn:Q.
      + cbn [fst snd b_ws b_q]. split; [apply (SET i Done Ready []); auto; discriminate|]. split; auto. destruct (BUSY i Done Ready E) as (a & c & -> & ->). split; [reflexivity|]. split; exists []; auto.
      + assert (ND : In Done (b_ws b) -> q = []) by (intro H; specialize (W4 H); discriminate).
        destruct active.
        * cbn [fst snd b_ws b_q]. split; [apply (SET i (Busy x) Ready q); auto; discriminate|]. split; [reflexivity|]. destruct (BUSY i (Busy x) Ready E) as (a & c & -> & ->).
          split; [cbn; apply Permutation_middle|]. split; exists []; auto.
        * assert (BR : Permutation (busy (b_ws b)) (busy (setw i Ready (b_ws b)))) by (destruct (BUSY i Ready Ready E) as (a & c & -> & ->); auto).
          destruct (isq && up); [rewrite HB|]; cbn [fst snd b_ws b_q]; (split; [apply (SET i Ready Ready q); auto; discriminate|]; split; [reflexivity|]; split; [exact BR|]; split; [exists []; auto|]).
          -- exists []. simpl. auto.
          -- exists [x]. simpl. auto.
    - assert (BE : Permutation (busy (b_ws b)) (x :: busy (setw i Ready (b_ws b)))) by (destruct (BUSY i Ready (Busy x) E) as (a & c & -> & ->); cbn; symmetry; apply Permutation_middle).
      assert (S1 := SET i Ready (Busy x) (b_q b) E ltac:(discriminate) ltac:(discriminate) W4).
      destruct (negb up); [|rewrite HB]; cbn [fst snd b_ws b_q]; (split; [exact S1|]).
      + split; [reflexivity|]. split; [exact BE|]. destruct ok; split; try (exists []; simpl; auto; fail); exists [x]; simpl; auto.
      + destruct ok; [|destruct isq]; (split; [reflexivity|]; split; [exact BE|]; split; try (exists []; simpl; auto; fail); exists [x]; simpl; auto).
  Qed.

  Lemma perm_mid {B} (a b c d : list B) : Permutation ((a ++ b) ++ c ++ d) ((a ++ c) ++ b ++ d).
  Proof. rewrite <- !app_assoc. apply Permutation_app_head. rewrite !app_assoc. apply Permutation_app_tail. apply Permutation_app_comm. Qed.
  Lemma workers_pos n : 0 < n -> workers conc n <> O /\ N.of_nat (workers conc n) <= limit.
  Proof. unfold workers, limit. destruct (N.leb_spec conc 1); lia. Qed.
  Lemma busy_ready n : busy (repeat Ready n) = [].
  Proof. induction n; auto. Qed.

  Lemma LI_step s o : sends_ok o -> LI s -> LI (lstep s o).
  Proof.
    intros HO [O1 O2 O3 O4 O5 O6 O7]. destruct o as [|items| |o|k o| | |up]; cbn [SdkLoopModel.lstep].
    - destruct (l_cur s) eqn:C; [constructor; auto; rewrite ?C; auto|]. destruct (l_active s && negb (l_wait s)); constructor; cbn [SdkLoopModel.l_old SdkLoopModel.l_got SdkLoopModel.l_log SdkLoopModel.l_cur SdkLoopModel.l_wait] in *; rewrite ?C; auto; try discriminate.
    - destruct (l_wait s) eqn:W; [|constructor; auto; rewrite W; auto]. assert (C := O5 eq_refl). rewrite C in *. cbn [bqs bbusy] in *.
      constructor; cbn [SdkLoopModel.l_old SdkLoopModel.l_got SdkLoopModel.l_log SdkLoopModel.l_cur SdkLoopModel.l_wait] in *; auto; try discriminate.
      + rewrite O2, app_nil_r. destruct items; simpl; auto.
      + destruct items; [auto|]. cbn [bbusy batch_new SdkLoopModel.b_ws]. rewrite busy_ready. auto.
      + destruct items as [|i items]; [discriminate|]. intros b E. injection E as <-. unfold batch_new. cbn [SdkLoopModel.b_ws SdkLoopModel.b_q].
        destruct (workers_pos (lenN (i :: items))) as [P1 P2]; [rewrite lenN_cons; lia|].
        split; [unfold lenN at 1; rewrite repeat_length; auto|]. split; [destruct (workers conc (lenN (i :: items))); [lia|discriminate]|].
        split; [intros w H; apply repeat_spec in H; subst w; discriminate|]. intro H. apply repeat_spec in H. discriminate.
    - constructor; cbn [SdkLoopModel.l_old SdkLoopModel.l_got SdkLoopModel.l_log SdkLoopModel.l_cur SdkLoopModel.l_wait] in *; auto; discriminate.
    - destruct (l_cur s) as [b|] eqn:C; [|constructor; auto; rewrite ?C; auto].
      assert (BAD : match o with WTake _ x => x | WEnd _ _ x => x end = false) by (destruct o; exact HO).
      destruct (work_ok (l_active s) (l_up s) b o BAD (O4 b eq_refl)) as (N1 & N2 & N3 & (ra & N4) & (rn & N5)).
      destruct (wstep (l_active s) (l_up s) b o) as [b' e]. cbn [fst snd] in *.
      constructor; cbn [SdkLoopModel.l_old SdkLoopModel.l_got SdkLoopModel.l_log SdkLoopModel.l_cur SdkLoopModel.l_wait bqs bbusy] in *; auto.
      + rewrite O2, N2. unfold taken. rewrite fm_app, <- app_assoc. reflexivity.
      + unfold starts, ends in *. rewrite !fm_app, <- app_assoc. rewrite O3, <- N3. rewrite <- !app_assoc. apply Permutation_app_head. apply Permutation_app_comm.
      + intros b0 E. injection E as <-. auto.
      + intro W. specialize (O5 W). discriminate.
      + destruct O6 as [r O6]. exists (r ++ ra). unfold ended, acks in *. rewrite !fm_app, O6, N4. apply perm_mid.
      + destruct O7 as [r O7]. exists (r ++ rn). unfold ended, skips, nacks in *. rewrite !fm_app. rewrite perm_mid, O7, N5. apply perm_mid.
    - rewrite O1. replace (nth_error [] k) with (@None (batch A)) by (destruct k; auto). constructor; auto.
    - destruct (l_cur s) as [b|] eqn:C; [|constructor; auto; rewrite ?C; auto].
      destruct (O4 b eq_refl) as (W1 & W2 & W3 & W4).
      destruct (forallb is_done (b_ws b)) eqn:F.
      + assert (AD : forall w, In w (b_ws b) -> w = Done) by (intros w H; rewrite forallb_forall in F; specialize (F w H); destruct w; auto; discriminate).
        assert (Q : b_q b = []) by (apply W4; destruct (b_ws b) as [|w ws]; [congruence|]; rewrite (AD w) by (left; auto); left; auto).
        assert (BZ : busy (b_ws b) = []) by (clear - AD; induction (b_ws b) as [|w ws IH]; auto; simpl; rewrite (AD w) by (left; auto); apply IH; intros w' H; apply AD; right; auto).
        constructor; cbn [SdkLoopModel.l_old SdkLoopModel.l_got SdkLoopModel.l_log SdkLoopModel.l_cur SdkLoopModel.l_wait bqs bbusy] in *; auto; try discriminate.
        * rewrite O2, Q. auto.
        * rewrite <- BZ. auto.
      + destruct (existsb is_dead (b_ws b)) eqn:X; [|constructor; auto; rewrite ?C; auto].
        apply existsb_exists in X. destruct X as (w & H & H2). exfalso. apply (W3 w H). destruct w; auto; discriminate.
    - constructor; auto.
    - constructor; auto.
  Qed.
  Lemma LI_run os : Forall sends_ok os -> LI (lrun os).
  Proof.
    intro H. unfold SdkLoopModel.lrun. assert (G : forall l s, Forall sends_ok l -> LI s -> LI (fold_left lstep l s)).
    { intro l. induction l as [|o l IH]; intros s F I; simpl; auto. inversion F; subst. apply IH; auto. apply LI_step; auto. }
    apply G; auto. apply LI0.
  Qed.

  Lemma busy_len ws : lenN (busy ws) <= lenN ws.
  Proof. induction ws as [|w ws IH]; [reflexivity|]. unfold busy in *. cbn [flat_map]. rewrite lenN_app, lenN_cons. destruct w; rewrite ?lenN_cons; unfold lenN in *; cbn [length]; lia. Qed.
  Lemma perm_len {B} (a b : list B) : Permutation a b -> lenN a = lenN b.
  Proof. intro H. unfold lenN. rewrite (Permutation_length H). auto. Qed.

  Theorem loop_limit os : Forall sends_ok os ->
    let l := l_log (lrun os) in lenN (ends l) <= lenN (starts l) /\ lenN (starts l) <= lenN (ends l) + limit.
  Proof.
    intros H l. destruct (LI_run os H) as [_ _ B W _ _ _]. apply perm_len in B. rewrite lenN_app in B. fold l in B.
    assert (lenN (bbusy (l_cur (lrun os))) <= limit).
    { destruct (l_cur (lrun os)) as [b|]; [|cbn; unfold limit; lia]. cbn [bbusy]. specialize (W b eq_refl). pose proof (busy_len (b_ws b)). lia. }
    lia.
  Qed.

  (** no stop *)
  Definition no_stop (o : lop A) : Prop := match o with LStop _ => False | _ => True end.
  Lemma skip_step s o : no_stop o -> l_active s = true /\ skips (l_log s) = [] -> l_active (lstep s o) = true /\ skips (l_log (lstep s o)) = [].
  Proof.
    intros N [A1 A2]. assert (W : forall b o e b', wstep (l_active s) (l_up s) b o = (b', e) -> skips e = []).
    { intros b w e b'. rewrite A1. destruct w as [i bd|i ok bd]; cbn [SdkLoopModel.wstep]; repeat match goal with |- context [match ?x with _ => _ end] => destruct x end; intro E; injection E as <- <-; auto. }
    destruct o as [|items| |o|k o| | |up]; cbn [SdkLoopModel.lstep]; try contradiction; auto.
    - destruct (l_cur s); auto. destruct (_ && _); auto.
    - destruct (l_wait s); auto.
    - destruct (l_cur s) as [b|]; auto. destruct (wstep _ _ b o) as [b' e] eqn:E. cbn. split; auto. unfold skips in *. rewrite fm_app, A2. apply (W _ _ _ _ E).
    - destruct (nth_error _ k) as [b|]; auto. destruct (wstep _ _ b o) as [b' e] eqn:E. cbn. split; auto. unfold skips in *. rewrite fm_app, A2. apply (W _ _ _ _ E).
    - destruct (l_cur s) as [b|]; auto. destruct (forallb _ _); auto. destruct (existsb _ _); auto.
  Qed.
  Lemma skip_run os : Forall no_stop os -> skips (l_log (lrun os)) = [].
  Proof.
    intro H. unfold SdkLoopModel.lrun. assert (G : forall l s, Forall no_stop l -> l_active s = true /\ skips (l_log s) = [] -> l_active (fold_left lstep l s) = true /\ skips (l_log (fold_left lstep l s)) = []).
    { intro l. induction l as [|o l IH]; intros s F I; simpl; auto. inversion F; subst. apply IH; auto. apply skip_step; auto. }
    apply (G os (loop0 A)); auto.
  Qed.
  Lemma taken_noskip (l : list (ev A)) : skips l = [] -> taken l = starts l.
  Proof. induction l as [|e l IH]; auto. unfold skips, taken, starts in *. simpl. destruct e; simpl; intro H; try discriminate; try (rewrite IH; auto). Qed.

  (** handlers start in delivery order, each message once *)
  Theorem loop_order os : Forall sends_ok os -> exists rest, l_got (lrun os) = taken (l_log (lrun os)) ++ rest.
  Proof. intro H. destruct (LI_run os H) as [_ G _ _ _ _ _]. eauto. Qed.
  Theorem loop_all os : Forall sends_ok os -> l_cur (lrun os) = None -> l_got (lrun os) = taken (l_log (lrun os)) /\ Permutation (starts (l_log (lrun os))) (ends (l_log (lrun os))).
  Proof. intros H C. destruct (LI_run os H) as [_ G B _ _ _ _]. rewrite C in *. cbn [bqs bbusy] in *. rewrite app_nil_r in *. auto. Qed.

  (** connection up *)
  Definition stays_up (o : lop A) : Prop := match o with LConn _ _ => False | _ => True end.
  Definition answered (l : list (ev A)) : Prop := Permutation (ended true l) (acks l) /\ (isq = true -> Permutation (ended false l ++ skips l) (nacks l)).
  Lemma up_step s o : sends_ok o -> stays_up o -> l_up s = true /\ answered (l_log s) -> l_up (lstep s o) = true /\ answered (l_log (lstep s o)).
  Proof.
    intros S N [A1 [A2 A3]]. assert (W : forall b o e b', match o with WTake _ x => x | WEnd _ _ x => x end = false -> wstep (l_active s) (l_up s) b o = (b', e) -> answered e).
    { intros b w e b' BD. rewrite A1. clear A3. destruct w as [i bd|i ok bd]; cbn [SdkLoopModel.wstep negb]; rewrite BD; destruct (nth_error (b_ws b) i) as [[|x| |]|]; try (intro E; injection E as <- <-; split; cbn; auto; fail).
      - destruct (b_q b) as [|x q]; [|destruct (l_active s); [|destruct (isq && true) eqn:Q]]; intro E; injection E as <- <-; split; cbn; auto. rewrite andb_true_r in Q. congruence.
      - destruct ok; [|destruct isq eqn:Q]; intro E; injection E as <- <-; split; cbn; auto; congruence. }
    assert (APP : forall e, answered e -> answered (l_log s ++ e)).
    { intros e [E1 E2]. unfold answered, ended, acks, nacks, skips in *. rewrite !fm_app. split; [rewrite A2, E1; auto|]. intro Q. rewrite perm_mid, A3, E2; auto. }
    destruct o as [|items| |o|k o| | |up]; cbn [SdkLoopModel.lstep]; try contradiction; try (split; [auto|split; auto]; fail).
    - destruct (l_cur s); [|destruct (_ && _)]; split; auto; split; auto.
    - destruct (l_wait s); split; auto; split; auto.
    - destruct (l_cur s) as [b|]; [|split; auto; split; auto]. destruct (wstep _ _ b o) as [b' e] eqn:E. cbn. split; auto. apply APP. apply (W b o e b'); auto. destruct o; exact S.
    - destruct (nth_error _ k) as [b|]; [|split; auto; split; auto]. destruct (wstep _ _ b o) as [b' e] eqn:E. cbn. split; auto. apply APP. apply (W b o e b'); auto. destruct o; exact S.
    - destruct (l_cur s) as [b|]; [destruct (forallb _ _); [|destruct (existsb _ _)]|]; split; auto; split; auto.
  Qed.
  Theorem loop_answers os : Forall sends_ok os -> Forall stays_up os -> answered (l_log (lrun os)).
  Proof.
    intros H H2. unfold SdkLoopModel.lrun. assert (G : forall l s, Forall sends_ok l -> Forall stays_up l -> l_up s = true /\ answered (l_log s) -> l_up (fold_left lstep l s) = true /\ answered (l_log (fold_left lstep l s))).
    { intro l. induction l as [|o l IH]; intros s F F2 I; simpl; auto. inversion F; subst. inversion F2; subst. apply IH; auto. apply up_step; auto. }
    apply (G os (loop0 A)); auto. split; auto. split; cbn; auto.
  Qed.

  (** an acknowledgement only after its handler succeeded — whatever else goes wrong *)
  Definition sound (l : list (ev A)) : Prop := (exists r, Permutation (ended true l) (acks l ++ r)) /\ (exists r, Permutation (ended false l ++ skips l) (nacks l ++ r)).
  Lemma sound_app a b : sound a -> sound b -> sound (a ++ b).
  Proof.
    intros [[r1 A1] [r2 A2]] [[s1 B1] [s2 B2]]. unfold sound, ended, acks, nacks, skips in *. rewrite !fm_app. split; [exists (r1 ++ s1); rewrite A1, B1; apply perm_mid|].
    exists (r2 ++ s2). rewrite perm_mid, A2, B2. apply perm_mid.
  Qed.
  Lemma sound_w a u b o : sound (snd (wstep a u b o)).
  Proof.
    assert (Z : sound []) by (split; exists []; auto).
    destruct o as [i bd|i ok bd]; cbn [SdkLoopModel.wstep]; destruct (nth_error (b_ws b) i) as [[|x| |]|]; try exact Z.
    - destruct (b_q b) as [|x q]; [exact Z|]. destruct a; [split; exists []; cbn; auto|]. destruct (isq && u); [destruct bd|]; (split; [exists []; cbn; auto|]); [exists [x]|exists []|exists [x]]; cbn; auto.
    - destruct (negb u); [|destruct bd]; [destruct ok|destruct ok|destruct ok; [|destruct isq]]; split; try (exists []; cbn; auto; fail); exists [x]; cbn; auto.
  Qed.
  Theorem loop_sound os : sound (l_log (lrun os)).
  Proof.
    unfold SdkLoopModel.lrun. assert (G : forall l s, sound (l_log s) -> sound (l_log (fold_left lstep l s))).
    { intro l. induction l as [|o l IH]; intros s I; simpl; auto. apply IH. destruct o as [|items| |o|k o| | |up]; cbn [SdkLoopModel.lstep]; auto.
      - destruct (l_cur s); auto. destruct (_ && _); auto.
      - destruct (l_wait s); auto.
      - destruct (l_cur s) as [b|]; auto. pose proof (sound_w (l_active s) (l_up s) b o). destruct (wstep _ _ b o) as [b' e]. cbn in *. apply sound_app; auto.
      - destruct (nth_error _ k) as [b|]; auto. pose proof (sound_w (l_active s) (l_up s) b o). destruct (wstep _ _ b o) as [b' e]. cbn in *. apply sound_app; auto.
      - destruct (l_cur s) as [b|]; auto. destruct (forallb _ _); auto. destruct (existsb _ _); auto. }
    apply (G os (loop0 A)). split; exists []; auto.
  Qed.

  (** progress: an awaited batch always has a worker that can move, or its call settles *)
  Theorem loop_progress os : Forall sends_ok os -> forall b, l_cur (lrun os) = Some b ->
    (exists i, nth_error (b_ws b) i = Some Ready) \/ (exists i x, nth_error (b_ws b) i = Some (Busy x)) \/ l_cur (lstep (lrun os) (LNext A)) = None.
  Proof.
    intros H b C. destruct (LI_run os H) as [_ _ _ W _ _ _]. destruct (W b C) as (_ & _ & W3 & _). cbn [SdkLoopModel.lstep]. rewrite C.
    destruct (forallb is_done (b_ws b)) eqn:F; [auto|]. assert (X : exists w, In w (b_ws b) /\ is_done w = false).
    { clear - F. induction (b_ws b) as [|w ws IH]; [discriminate|]. simpl in F. destruct (is_done w) eqn:E; [destruct IH as (w' & H1 & H2); auto; exists w'; split; auto; right; auto|exists w; split; auto; left; auto]. }
    destruct X as (w & X1 & X2). pose proof (W3 w X1). apply In_nth_error in X1. destruct X1 as [i X1]. destruct w; try discriminate; try congruence; eauto.
  Qed.
End Loop.
