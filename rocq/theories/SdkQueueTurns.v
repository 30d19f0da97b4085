(** Queue subscriptions of the SDK: handing back, going on, one at a time. *)
From Verif Require Import LibBase SdkLoopModel SdkLoopProofs SdkQueueModel SdkQueueSpec SdkQueueProofs SdkQueueFlow.
From Coq Require Import Permutation.

Section T.
  Variable A : Type.
  Variable conc : N.
  Notation hstep := (hstep (A:=A) conc).
  Notation hrun := (hrun (A:=A) conc).
  Notation move := (move A conc).
  Implicit Types (h : handle A) (x : sub A) (k j : nat) (l : list (hev A)).

  Lemma ok_dec k x l : SI A conc k x l -> In (VOk k) l \/ ~ In (VOk k) l.
  Proof. intro I. rewrite (si_ok _ _ _ _ _ I). destruct (s_pc x); intuition congruence. Qed.
  (** ** messages passed over are handed back *)
  Lemma wstep_skip act u b o n1 y n2 : bad_op o = false -> u = true -> snd (wstep A true act u b o) = n1 ++ ESkip y :: n2 -> n1 = [] /\ n2 = [ENack y] /\ act = false.
  Proof.
    intros B -> E. destruct o as [i bad|i ok bad]; cbn in B; subst bad; cbn [wstep] in E; destruct (nth_error (b_ws b) i) as [[|z| |]|]; cbn [snd] in E; try (destruct n1; discriminate).
    - destruct (b_q b); [destruct n1; discriminate|]. destruct act; cbn in E; [destruct n1 as [|? [|? ?]]; discriminate|]. destruct n1 as [|? [|? [|? ?]]]; cbn in E; try discriminate. injection E as -> <-. auto.
    - cbn in E. destruct ok; cbn in E; destruct n1 as [|? [|? [|? ?]]]; discriminate.
  Qed.
  Lemma handed_back os k pre y post : Forall fine os -> h_log (hrun os) = pre ++ VDo k (ESkip y) :: post -> online pre = true ->
    In (VStop k) pre /\ exists rest, post = VDo k (ENack y) :: rest.
  Proof.
    revert post. induction os as [|o os IH] using rev_ind; intros post F H On; [destruct pre; discriminate|]. apply Forall_app in F. destruct F as [F1 F2]. inversion F2 as [|? ? Fo _]; subst.
    rewrite hrun_snoc in H. destruct (log_ext A conc (hrun os) o) as [es E]. pose proof H as H0. rewrite E in H.
    assert (K : forall l n2, h_log (hstep (hrun os) o) = h_log (hrun os) ++ l ++ VDo k (ESkip y) :: n2 -> pre = h_log (hrun os) ++ l -> In (VStop k) pre /\ exists rest, n2 = VDo k (ENack y) :: rest).
    { intros l n2 L Pr. apply own_at with (k := k) in L; [|reflexivity|discriminate|discriminate]. destruct L as (bad & x & x' & f & X & M & Fb). specialize (Fb Fo).
      pose proof (HI_run A conc os) as HI. pose proof (hi_sub _ _ _ HI k x X) as I. pose proof (move_about _ _ _ _ _ _ _ _ _ M) as Ab. apply Forall_app in Ab. destruct Ab as [Ab _].
      assert (U : h_up (hrun os) = true) by (rewrite <- (hi_up _ _ _ HI), <- On, Pr; symmetry; eapply online_about; eauto).
      remember (l ++ VDo k (ESkip y) :: n2) as es' eqn:Es. assert (IN : In (VDo k (ESkip y)) es') by (subst; apply in_or_app; right; left; auto).
      assert (TN : forall x'' g, turn A k x x'' g \/ fails A k x x'' g -> ~ In (VDo k (ESkip y)) g) by (intros x'' g T He; destruct (turn_got _ _ _ _ _ _ T He) as [r E']; discriminate).
      assert (W : forall b o', bad_op o' = false -> map (VDo k) (snd (wstep A true (s_act x) (h_up (hrun os)) b o')) = l ++ VDo k (ESkip y) :: n2 -> (s_act x = false /\ exists rest, n2 = VDo k (ENack y) :: rest)).
      { intros b o' B Em. apply map_eq_app in Em. destruct Em as (m1 & m2 & E1 & E2 & E3). destruct m2 as [|e m2]; [discriminate|]. cbn in E3. injection E3 as -> <-.
        destruct (wstep_skip _ _ _ _ _ _ _ B U E1) as (-> & -> & Ac). split; auto. exists []. reflexivity. }
      destruct M as [act n old|act n old|x x'' g T Ac U'|x x'' g T Ac|x x'' g T Ac|x i is P|x b o' P|x i b o' J|x P|x P1 P2 P3].
      + exfalso. destruct (h_up (hrun os)); cbn in IN; intuition discriminate.
      + exfalso. cbn in IN; intuition discriminate.
      + exfalso. apply in_app_or in IN. destruct IN as [IN|[IN|[]]]; [eapply TN; eauto|discriminate].
      + exfalso. eapply TN; eauto.
      + exfalso. apply in_app_or in IN. destruct IN as [IN|IN]; [eapply TN; eauto|apply repeat_spec in IN; discriminate].
      + exfalso. cbn in IN; intuition discriminate.
      + destruct (W b o' Fb Es) as [Ac R]. split; auto. rewrite Pr. apply in_or_app. left. apply (si_stop _ _ _ _ _ I). split; auto. apply (si_ok _ _ _ _ _ I). rewrite P. split; discriminate.
      + destruct (W b o' Fb Es) as [Ac R]. split; auto. rewrite Pr. apply in_or_app. left. apply (si_stop _ _ _ _ _ I). split; auto. 
        destruct (ok_dec k x _ I) as [Y|N]; auto. exfalso. apply (si_fresh _ _ _ _ _ I) in N. destruct N as (_ & _ & N). rewrite N in J. destruct i; discriminate.
      + exfalso. cbn in IN; intuition discriminate.
      + exfalso. cbn in IN; intuition discriminate. }
    destruct (app_eq_app _ _ _ _ H) as [l [[H1 H2]|[H1 H2]]].
    - destruct l as [|e' l].
      + cbn in H2. subst es. apply (K [] post); auto. rewrite H1, !app_nil_r. auto.
      + injection H2 as <- H2. subst post. destruct (IH l F1 H1 On) as [R1 [rest ->]]. split; auto. exists (rest ++ es). reflexivity.
    - subst es. apply (K l post); auto.
  Qed.

  (** ** going on *)
  Definition wcost (w : worker A) : nat := match w with Ready => 1 | Busy _ => 2 | _ => 0 end.
  Definition wsum (ws : list (worker A)) : nat := fold_right (fun w n => (wcost w + n)%nat) O ws.
  Definition cost x : nat := match s_pc x with PSleep => 1%nat | PBatch b => (2 + 3 * length (b_q b) + wsum (b_ws b))%nat | _ => O end.
  Lemma wsum_app a b : wsum (a ++ b) = (wsum a + wsum b)%nat.
  Proof. induction a as [|w a IH]; auto. cbn [app wsum fold_right]. change (fold_right _ O (a ++ b)) with (wsum (a ++ b)). change (fold_right _ O a) with (wsum a). rewrite IH. lia. Qed.
  Lemma wsum_setw i w w0 ws : nth_error ws i = Some w0 -> (wsum (setw A i w ws) + wcost w0 = wsum ws + wcost w)%nat.
  Proof. intro E. destruct (setw_split A i w w0 ws E) as (a & b & E1 & E2). rewrite E2, E1, !wsum_app. cbn [wsum fold_right]. lia. Qed.
  Lemma wsum_le ws : (wsum ws <= 2 * length ws)%nat.
  Proof. induction ws as [|w ws IH]; [cbn; lia|]. cbn [wsum fold_right length]. change (fold_right _ O ws) with (wsum ws). assert (wcost w <= 2)%nat by (destruct w; cbn; lia). lia. Qed.
  Lemma wstep_cost a u b o : wstep A true a u b o = (b, []) \/
    (3 * length (b_q (fst (wstep A true a u b o))) + wsum (b_ws (fst (wstep A true a u b o))) < 3 * length (b_q b) + wsum (b_ws b))%nat.
  Proof.
    destruct o as [i bad|i ok bad]; cbn [wstep]; destruct (nth_error (b_ws b) i) as [[|z| |]|] eqn:E; auto; right.
    - destruct (b_q b) as [|y q] eqn:Q.
      + cbn [fst b_q b_ws length]. pose proof (wsum_setw i Done _ _ E). cbn [wcost] in *. lia.
      + destruct a; [|cbn [andb]; destruct u; [destruct bad|]]; cbn [fst b_q b_ws length].
        * pose proof (wsum_setw i (Busy y) _ _ E). cbn [wcost] in *. lia.
        * pose proof (wsum_setw i Dead _ _ E). cbn [wcost] in *. lia.
        * pose proof (wsum_setw i Ready _ _ E). cbn [wcost] in *. lia.
        * pose proof (wsum_setw i Ready _ _ E). cbn [wcost] in *. lia.
    - destruct u; [destruct bad|]; cbn [negb fst b_q b_ws].
      * pose proof (wsum_setw i Dead _ _ E). cbn [wcost] in *. lia.
      * pose proof (wsum_setw i Ready _ _ E). cbn [wcost] in *. lia.
      * pose proof (wsum_setw i Ready _ _ E). cbn [wcost] in *. lia.
  Qed.
  Lemma put_same k x h : nth_error (h_subs h) k = Some x -> put k x [] h = h.
  Proof. intro E. unfold put. rewrite upd_id, app_nil_r by auto. destruct h; auto. Qed.
  Definition reached (k : nat) h h' : Prop := exists es, h_log h' = h_log h ++ es /\ (In (VAsk k) es \/ In (VStopped k) es).
  Lemma top_reached k x x0 h : nth_error (h_subs h) k = Some x0 -> h_up h = true -> (s_act x = false -> s_stops x <> O) -> reached k h (top k x h).
  Proof.
    intros E U S. unfold top, put, finish. destruct (s_act x).
    - rewrite U. exists [VAsk k]. cbn. auto.
    - eexists. split; [reflexivity|]. right. apply in_rep. split; auto.
  Qed.
  Definition cost_at k h : nat := match nth_error (h_subs h) k with Some x => cost x | None => O end.
  Lemma own_step h o k x : HI A conc h -> nth_error (h_subs h) k = Some x -> In (VOk k) (h_log h) -> h_up h = true -> own k o ->
    hstep h o = h \/ reached k h (hstep h o) \/
    ((cost_at k (hstep h o) < cost_at k h)%nat /\ h_up (hstep h o) = true /\ In (VOk k) (h_log (hstep h o))).
  Proof.
    intros I X OK U Ow. pose proof (nth_lt _ _ _ X) as L. pose proof (hi_sub _ _ _ I k x X) as SI.
    assert (SS : s_pc x <> PEnd -> s_act x = false -> s_stops x <> O) by (intros P Ac Z; apply (si_stops _ _ _ _ _ SI P OK) in Z; congruence).
    unfold cost_at. rewrite X. destruct o as [|j r|j|j r|j o|j i o|j|j|up]; cbn in Ow; try contradiction; subst j; cbn [SdkQueueModel.hstep]; rewrite X.
    - destruct (s_pc x) eqn:P; auto. right. left. apply (top_reached k x x); auto. intros Ac. apply SS; auto. congruence.
    - destruct (s_pc x) eqn:P; auto. destruct (wstep A true (s_act x) (h_up h) b o) as [b' e] eqn:W. destruct (wstep_cost (s_act x) (h_up h) b o) as [C|C]; rewrite W in C.
      + left. injection C as -> ->. cbn [map]. apply put_same. rewrite X. f_equal. destruct x; cbn in *; congruence.
      + right. right. cbn [fst] in C. unfold put. cbn [h_subs h_log h_up]. rewrite upd_same by auto. unfold cost. cbn [s_pc]. rewrite P. split; [lia|]. split; auto. apply in_or_app. auto.
    - destruct (s_pc x) eqn:P; auto. destruct (forallb (is_done A) (b_ws b)).
      + right. left. apply (top_reached k x x); auto. intros Ac. apply SS; auto. congruence.
      + destruct (existsb (is_dead A) (b_ws b)); auto. right. unfold caught. cbn [s_act s_stops s_old]. destruct (s_act x) eqn:Ac.
        * right. unfold put. cbn [h_subs h_log h_up]. rewrite upd_same by auto. unfold cost. cbn [s_pc]. rewrite P. split; [lia|]. split; auto. apply in_or_app. auto.
        * left. unfold finish. cbn [s_stops]. eexists. split; [reflexivity|]. right. apply in_rep. split; auto. apply SS; auto. congruence.
  Qed.
  Lemma all_real_cons os o ys : all_real conc os (o :: ys) -> hrun (os ++ [o]) <> hrun os /\ all_real conc (os ++ [o]) ys.
  Proof.
    intro R. split; [pose proof (R [] o ys eq_refl) as H; cbn [app] in H; rewrite app_nil_r in H; exact H|].
    intros a o' b ->. pose proof (R (o :: a) o' b eq_refl) as H. rewrite <- !app_assoc. exact H.
  Qed.
  Lemma turn_bound ys : forall os k, In (VOk k) (h_log (hrun os)) -> online (h_log (hrun os)) = true -> Forall (own k) ys -> all_real conc os ys ->
    (cost_at k (hrun os) < length ys)%nat -> reached k (hrun os) (hrun (os ++ ys)).
  Proof.
    induction ys as [|o ys IH]; intros os k OK On F R C; [cbn in C; lia|]. inversion F as [|? ? Fo F']; subst. destruct (all_real_cons _ _ _ R) as [R1 R2].
    destruct (sub_of A conc os k OK) as (x & X & SI). pose proof (HI_run A conc os) as I. rewrite (hi_up _ _ _ I) in On.
    replace (os ++ o :: ys) with ((os ++ [o]) ++ ys) by (rewrite <- app_assoc; auto). rewrite hrun_snoc in R1. destruct (log_grows A conc (os ++ [o]) ys) as [es' G].
    destruct (own_step (hrun os) o k x I X OK On Fo) as [H|[(es & H1 & H2)|(H1 & H2 & H3)]]; [congruence| |].
    - rewrite hrun_snoc, H1 in G. exists (es ++ es'). rewrite app_assoc. split; auto. rewrite !in_app_iff. tauto.
    - rewrite <- (hrun_snoc A conc) in H1, H2, H3. destruct (IH (os ++ [o]) k) as (es & E1 & E2); auto; [rewrite (hi_up _ _ _ (HI_run A conc (os ++ [o]))); auto|cbn in C; lia|].
      destruct (log_ext A conc (hrun os) o) as [e0 E0]. rewrite <- (hrun_snoc A conc) in E0. rewrite E0 in E1. exists (e0 ++ es). rewrite app_assoc. split; auto. rewrite !in_app_iff. tauto.
  Qed.
  Lemma cost_le os k : (cost_at k (hrun os) <= 2 + 3 * length (received k (h_log (hrun os))) + 2 * N.to_nat (N.max 1 conc))%nat.
  Proof.
    unfold cost_at. destruct (nth_error (h_subs (hrun os)) k) as [x|] eqn:X; [|lia]. pose proof (hi_sub _ _ _ (HI_run A conc os) k x X) as I. unfold cost. destruct (s_pc x) eqn:P; try lia.
    destruct (si_got _ _ _ _ _ I b P) as [G1 G2]. unfold limit, lenN in *. pose proof (wsum_le (b_ws b)). lia.
  Qed.
  (** enough of the subscription's own steps bring the next CONSUME, or end a stop() *)
  Lemma goes_on os k ys : In (VOk k) (h_log (hrun os)) -> online (h_log (hrun os)) = true -> Forall (own k) ys -> all_real conc os ys ->
    (2 + 3 * length (received k (h_log (hrun os))) + 2 * N.to_nat (N.max 1 conc) < length ys)%nat ->
    exists es, h_log (hrun (os ++ ys)) = h_log (hrun os) ++ es /\ (~ In (VStop k) (h_log (hrun os)) -> In (VAsk k) es) /\ (In (VStop k) (h_log (hrun os)) -> In (VStopped k) es).
  Proof.
    intros OK On F R L. destruct (turn_bound ys os k OK On F R) as (es & E1 & E2); [pose proof (cost_le os k); lia|]. exists es. split; auto. split; intro S.
    - destruct E2 as [E2|E2]; auto. exfalso. apply S. destruct (sub_of A conc (os ++ ys) k) as (x & X & I); [rewrite E1; apply in_or_app; auto|].
      assert (P : In (VStopped k) (h_log (hrun (os ++ ys)))) by (rewrite E1; apply in_or_app; auto).
      apply (si_stopped _ _ _ _ _ I) in P. destruct (si_end _ _ _ _ _ I P) as [Ac _].
      assert (T : In (VStop k) (h_log (hrun (os ++ ys)))) by (apply (si_stop _ _ _ _ _ I); split; auto; rewrite E1; apply in_or_app; auto).
      (* the own events do not call stop() *)
      clear - F T. revert T. induction ys as [|o ys IH] using rev_ind; [rewrite app_nil_r; auto|]. apply Forall_app in F. destruct F as [F1 F2]. inversion F2 as [|? ? Fo _]; subst. rewrite app_assoc, hrun_snoc. intro T.
      apply IH; auto. revert T. generalize (hrun (os ++ ys)) as h. intros h. destruct o as [|j r|j|j r|j o|j i o|j|j|up]; cbn in Fo; try contradiction; subst j; cbn [SdkQueueModel.hstep]; destruct (nth_error (h_subs h) k) as [x|]; auto; destruct (s_pc x); auto.
      + unfold top, put, finish. destruct (s_act x); [destruct (h_up h)|]; cbn [h_log]; rewrite in_app_iff; intros [H|H]; auto; try (apply repeat_spec in H; discriminate); cbn in H; intuition discriminate.
      + destruct (wstep A true (s_act x) (h_up h) b o) as [b' e]. unfold put. cbn [h_log]. rewrite in_app_iff. intros [H|H]; auto. apply in_map_iff in H. destruct H as (? & ? & _). discriminate.
      + destruct (forallb (is_done A) (b_ws b)); [unfold top, put, finish; destruct (s_act x); [destruct (h_up h)|]; cbn [h_log]; rewrite in_app_iff; intros [H|H]; auto; try (apply repeat_spec in H; discriminate); cbn in H; intuition discriminate|].
        destruct (existsb (is_dead A) (b_ws b)); auto. unfold caught, put, finish. cbn [s_act s_stops s_old]. destruct (s_act x); cbn [h_log]; rewrite in_app_iff; intros [H|H]; auto; [destruct H|apply repeat_spec in H; discriminate].
    - destruct E2 as [E2|E2]; auto. exfalso. apply in_split in S. destruct S as (a & b & S). rewrite S, <- app_assoc in E1. cbn [app] in E1. destruct (silent A conc (os ++ ys) k a (b ++ es) E1 (VAsk k)) as [Q _]; [apply in_or_app; auto|congruence].
  Qed.
  Lemma reached_ne k h h' : reached k h h' -> h' <> h.
  Proof. intros (es & E & H) ->. apply inv_nil in E. subst. destruct H as [[]|[]]. Qed.
  (** ... and one of them can always be made *)
  Lemma never_stuck os k : In (VOk k) (h_log (hrun os)) -> ~ In (VStopped k) (h_log (hrun os)) -> waiting k (h_log (hrun os)) = false -> online (h_log (hrun os)) = true ->
    exists o, own k o /\ fine o /\ hrun (os ++ [o]) <> hrun os.
  Proof.
    intros OK ST W On. destruct (sub_of A conc os k OK) as (x & X & I). pose proof (HI_run A conc os) as HI. rewrite (hi_up _ _ _ HI) in On. pose proof (nth_lt _ _ _ X) as L.
    assert (PE : s_pc x <> PEnd) by (rewrite <- (si_stopped _ _ _ _ _ I); auto). assert (PW : s_pc x <> PWait) by (intro P; apply (si_wait _ _ _ _ _ I) in P; congruence).
    destruct (proj1 (si_ok _ _ _ _ _ I) OK) as [PC PO].
    assert (SS : s_act x = false -> s_stops x <> O) by (intros Ac Z; apply (si_stops _ _ _ _ _ I PE OK) in Z; congruence).
    set (h := hrun os) in *.
    assert (ST' : forall o, hrun (os ++ [o]) = hstep h o) by (intro; apply hrun_snoc).
    destruct (s_pc x) eqn:P; try congruence.
    - exists (HWake k). split; [reflexivity|]. split; [exact Logic.I|]. rewrite ST'. cbn [SdkQueueModel.hstep]. rewrite X, P. eapply reached_ne. eapply top_reached; eauto.
    - assert (WK : forall o, (3 * length (b_q (fst (wstep A true (s_act x) (h_up h) b o))) + wsum (b_ws (fst (wstep A true (s_act x) (h_up h) b o))) < 3 * length (b_q b) + wsum (b_ws b))%nat -> hrun (os ++ [HWork k o]) <> h).
      { intros o C. rewrite ST'. cbn [SdkQueueModel.hstep]. rewrite X, P. destruct (wstep A true (s_act x) (h_up h) b o) as [b' e]. cbn [fst] in C. intro E. apply (f_equal (fun h => nth_error (h_subs h) k)) in E. unfold put in E. cbn [h_subs] in E.
        rewrite upd_same, X in E by auto. injection E as E. apply (f_equal s_pc) in E. cbn [s_pc] in E. rewrite P in E. injection E as <-. lia. }
      destruct (forallb (is_done A) (b_ws b)) eqn:D.
      + exists (HNext k). split; [reflexivity|]. split; [exact Logic.I|]. rewrite ST'. cbn [SdkQueueModel.hstep]. rewrite X, P, D. eapply reached_ne. eapply top_reached; eauto.
      + destruct (existsb (is_dead A) (b_ws b)) eqn:X2.
        * exists (HNext k). split; [reflexivity|]. split; [exact Logic.I|]. rewrite ST'. cbn [SdkQueueModel.hstep]. rewrite X, P, D, X2. intro E. apply (f_equal (fun h => nth_error (h_subs h) k)) in E. revert E. unfold caught, put, finish. cbn [s_act s_stops s_old].
          destruct (s_act x); cbn [h_subs]; rewrite upd_same, X by auto; intro E; injection E as E; apply (f_equal s_pc) in E; cbn in E; rewrite P in E; discriminate.
        * assert (NW : exists i w, nth_error (b_ws b) i = Some w /\ (w = Ready \/ exists y, w = Busy y)).
          { clear - D X2. induction (b_ws b) as [|w ws IH]; [discriminate|]. cbn in D, X2. apply orb_false_iff in X2. destruct X2 as [X1 X2]. destruct w; try discriminate.
            - exists O, Ready. auto.
            - exists O, (Busy x). eauto.
            - cbn in D. destruct (IH D X2) as (i & w & E & H). exists (S i), w. auto. }
          destruct NW as (i & w & E & [->|[y ->]]).
          -- exists (HWork k (WTake i false)). split; [reflexivity|]. split; [reflexivity|]. apply WK. destruct (wstep_cost (s_act x) (h_up h) b (WTake i false)) as [C|C]; auto. exfalso. cbn [wstep] in C. rewrite E in C.
             destruct (b_q b) as [|z q] eqn:Q; [|destruct (s_act x); [|destruct (h_up h)]; apply (f_equal snd) in C; discriminate].
             apply (f_equal (fun z => wsum (b_ws (fst z)))) in C. cbn [fst b_ws] in C. pose proof (wsum_setw i Done _ _ E) as Z. cbn [wcost] in Z. lia.
          -- exists (HWork k (WEnd i true false)). split; [reflexivity|]. split; [reflexivity|]. apply WK. destruct (wstep_cost (s_act x) (h_up h) b (WEnd i true false)) as [C|C]; auto. exfalso. cbn [wstep] in C. rewrite E in C. destruct (h_up h); cbn in C; discriminate.
  Qed.

  (** ** a handle can be used again *)
  Lemma free_again os : (forall k, In (VOk k) (h_log (hrun os)) -> In (VStopped k) (h_log (hrun os))) ->
    exists n, h_log (hrun (os ++ [HSub])) = h_log (hrun os) ++ [VCall n].
  Proof.
    intro S. rewrite hrun_snoc. cbn [SdkQueueModel.hstep]. pose proof (HI_run A conc os) as HI. destruct (h_flag (hrun os)) eqn:F; [|cbn; eauto].
    destruct (hi_flag _ _ _ HI F) as (k & x & X & (R1 & R2 & R3)). pose proof (hi_sub _ _ _ HI k x X) as I. exfalso. apply R3. apply (si_stopped _ _ _ _ _ I). apply S. apply (si_ok _ _ _ _ _ I). auto.
  Qed.

  (** ** one subscription at a time *)
  Definition live x : Prop := s_pc x <> POut /\ s_pc x <> PEnd.
  Definition ONE h : Prop := (forall i j x y, nth_error (h_subs h) i = Some x -> nth_error (h_subs h) j = Some y -> live x -> live y -> i = j) /\
    (forall i x, nth_error (h_subs h) i = Some x -> running A x -> h_flag h = true).
  Lemma move_live k up bad x x' es f : move k up bad x x' es f -> live x' -> live x.
  Proof.
    unfold live. intros M H. destruct M as [act n old|act n old|x x'' g T Ac U|x x'' g T Ac|x x'' g T Ac|x i is P|x b o P|x i b o J|x P|x P1 P2 P3]; cbn [s_pc] in *; try (split; congruence); try tauto.
    - destruct T; split; congruence.
    - destruct T as [T|T]; destruct T; split; congruence.
  Qed.
  Lemma ONE_step h o : HI A conc h -> (o = HSub -> forall k, In (VCall k) (h_log h) -> In (VOk k) (h_log h) \/ In (VThrew k) (h_log h)) -> ONE h -> ONE (hstep h o).
  Proof.
    intros I Q [O1 O2]. revert Q. destruct (step_case A conc h o) as [o|Fl|Fl|up|o k bad x x' es f E M Fb]; intro Q; [split; auto| | | |].
    - split; cbn [h_subs h_flag].
      + assert (N : forall i x, nth_error (h_subs h ++ [mkS POut false 0 []]) i = Some x -> live x -> nth_error (h_subs h) i = Some x).
        { intros i x H Lv. destruct (Nat.lt_ge_cases i (length (h_subs h))) as [L|L]; [rewrite nth_error_app1 in H; auto|]. rewrite nth_error_app2 in H by auto. destruct (i - length (h_subs h))%nat as [|n]; [injection H as <-; destruct Lv as [Lv _]; cbn in Lv; congruence|destruct n; discriminate]. }
        intros i j x y X Y Lx Ly. eapply O1; eauto.
      + auto.
    - assert (NR : forall i x, nth_error (h_subs h) i = Some x -> ~ live x).
      { intros i x X [L1 L2]. pose proof (hi_sub _ _ _ I i x X) as SI. destruct (s_pc x) eqn:P; try congruence.
        - destruct (si_check _ _ _ _ _ SI P) as [C1 C2]. destruct (Q eq_refl i C1) as [H|H]; auto. apply (si_ok _ _ _ _ _ SI) in H. destruct H. congruence.
        - rewrite (O2 i x X) in Fl; [discriminate|]. unfold running. rewrite P. repeat split; discriminate.
        - rewrite (O2 i x X) in Fl; [discriminate|]. unfold running. rewrite P. repeat split; discriminate.
        - rewrite (O2 i x X) in Fl; [discriminate|]. unfold running. rewrite P. repeat split; discriminate. }
      assert (N : forall i x, nth_error (h_subs h ++ [mkS PCheck false 0 []]) i = Some x -> live x -> i = length (h_subs h) /\ x = mkS PCheck false 0 []).
      { intros i x H Lv. destruct (Nat.lt_ge_cases i (length (h_subs h))) as [L|L]; [rewrite nth_error_app1 in H by auto; exfalso; eapply NR; eauto|]. rewrite nth_error_app2 in H by auto.
        destruct (i - length (h_subs h))%nat as [|n] eqn:D; [injection H as <-; split; [lia|auto]|destruct n; discriminate]. }
      split; cbn [h_subs h_flag].
      + intros i j x y X Y Lx Ly. destruct (N i x X Lx) as [-> _]. destruct (N j y Y Ly) as [-> _]. auto.
      + intros i x X (R1 & R2 & R3). destruct (N i x X (conj R2 R3)) as [_ ->]. cbn in R1. congruence.
    - split; auto.
    - pose proof (nth_lt _ _ _ E) as L. pose proof (move_running _ _ _ _ _ _ _ _ _ M) as R. pose proof (move_live _ _ _ _ _ _ _ M) as Lv.
      assert (N : forall i y, nth_error (upd k x' (h_subs h)) i = Some y -> live y -> exists z, nth_error (h_subs h) i = Some z /\ live z).
      { intros i y H H2. destruct (Nat.eq_dec i k) as [->|X]; [rewrite upd_same in H by auto; injection H as <-; eauto|rewrite upd_other in H by auto; eauto]. }
      split; cbn [h_subs h_flag].
      + intros i j y z Y Z Ly Lz. destruct (N i y Y Ly) as (y' & Y1 & Y2). destruct (N j z Z Lz) as (z' & Z1 & Z2). eapply O1; eauto.
      + intros i y Y Ry. assert (LvY : live y) by (destruct Ry as (_ & R2 & R3); split; auto). unfold flag'. destruct f as [[|]|]; auto.
        * exfalso. destruct R as [R1 R2]. destruct (N i y Y LvY) as (y' & Y1 & Y2). assert (i = k) by (eapply O1; eauto; destruct R1 as (_ & R3 & R4); split; auto). subst i.
          rewrite upd_same in Y by auto. injection Y as <-. destruct LvY. congruence.
        * destruct (Nat.eq_dec i k) as [->|X]; [|rewrite upd_other in Y by auto; eauto]. rewrite upd_same in Y by auto. injection Y as <-. apply (O2 k x E).
          remember None as f0 eqn:Ef in M. destruct M as [act n old|act n old|x x'' g T Ac U|x x'' g T Ac|x x'' g T Ac|x i is P|x b o' P|x i b o' J|x P|x P1 P2 P3]; try discriminate Ef; try (destruct Ry as (Y1 & Y2 & Y3); cbn in *; congruence); unfold running; try (rewrite P; repeat split; discriminate).
          -- destruct T; repeat split; congruence.
          -- destruct T as [T|T]; destruct T; repeat split; congruence.
          -- exact Ry.
          -- auto.
  Qed.
  Lemma ONE_run os : one_by_one conc os -> ONE (hrun os).
  Proof.
    induction os as [|o os IH] using rev_ind; intro Q; [split; [intros [|i]|intros [|i]]; discriminate|]. rewrite hrun_snoc. apply ONE_step; [apply HI_run| |].
    - intros ->. exact (Q os [] eq_refl).
    - apply IH. intros a b ->. apply (Q a (b ++ [o])). rewrite <- app_assoc. reflexivity.
  Qed.
  Lemma single os i j pre post : one_by_one conc os -> h_log (hrun os) = pre ++ VOk j :: post -> In (VOk i) pre -> In (VStopped i) pre.
  Proof.
    intros Q H Hi. destruct (log_at A conc os _ _ _ H) as (a & o & b & n1 & n2 & -> & L & ->). apply own_at with (k := j) in L; [|reflexivity|discriminate|discriminate]. destruct L as (bad & x & x' & f & X & M & _).
    assert (Qa : one_by_one conc a) by (intros c d ->; apply (Q c (d ++ o :: b)); rewrite <- app_assoc; reflexivity). destruct (ONE_run a Qa) as [O1 _].
    remember (n1 ++ VOk j :: n2) as es eqn:Es. assert (IN : In (VOk j) es) by (subst; apply in_or_app; right; left; auto).
    assert (TN : forall x'' g, turn A j x x'' g \/ fails A j x x'' g -> ~ In (VOk j) g) by (intros x'' g T He; destruct (turn_got _ _ _ _ _ _ T He) as [r E']; discriminate).
    destruct M as [act n old|act n old|x x'' g T Ac U|x x'' g T Ac|x x'' g T Ac|x i' is P|x b' o' P|x i' b' o' J|x P|x P1 P2 P3].
    - assert (n1 = []). { destruct n1 as [|e1 n1]; auto. exfalso. injection Es as _ Es. destruct (h_up (hrun a)); [destruct n1 as [|? [|? ?]]|destruct n1]; discriminate. }
      subst n1. rewrite app_nil_r in *. destruct (sub_of A conc a i Hi) as (y & Y & I). apply (si_stopped _ _ _ _ _ I). apply (si_ok _ _ _ _ _ I) in Hi. destruct Hi as [P1 P2].
      destruct (s_pc y) eqn:P; try congruence; exfalso.
      all: assert (i = j) by (eapply (O1 i j y _ Y X); split; try (rewrite P); discriminate); subst; rewrite X in Y; injection Y as <-; cbn in P; discriminate.
    - exfalso. cbn in IN; intuition discriminate.
    - exfalso. apply in_app_or in IN. destruct IN as [IN|[IN|[]]]; [eapply TN; eauto|discriminate].
    - exfalso. eapply TN; eauto.
    - exfalso. apply in_app_or in IN. destruct IN as [IN|IN]; [eapply TN; eauto|apply repeat_spec in IN; discriminate].
    - exfalso. cbn in IN; intuition discriminate.
    - exfalso. apply in_map_iff in IN. destruct IN as (? & ? & _). discriminate.
    - exfalso. apply in_map_iff in IN. destruct IN as (? & ? & _). discriminate.
    - exfalso. cbn in IN; intuition discriminate.
    - exfalso. cbn in IN; intuition discriminate.
  Qed.
End T.
