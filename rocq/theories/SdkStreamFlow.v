(** What follows for the stream subscription of the SDK. *)
From Verif Require Import LibBase StreamTopicModel SdkLoopModel SdkLoopProofs SdkStreamModel SdkStreamSpec SdkStreamProofs.
From Coq Require Import Permutation.

Section P.
  Variable conc : N.
  Notation cstep := (cstep conc).
  Notation kst := (kst conc).
  Notation klog := (klog conc).
  Notation fold := (fold_left (cnext conc)).

  Lemma fold_log ys : forall k l, fold ys (k, l) = (fst (fold ys (k, [])), l ++ snd (fold ys (k, []))).
  Proof.
    induction ys as [|o ys IH]; intros k l; simpl; [rewrite app_nil_r; auto|].
    unfold cnext at 2 4 6. cbn [fst snd]. destruct (cstep k o) as [k' es]. cbn [app]. rewrite (IH k' (l ++ es)), (IH k' es). cbn [fst snd]. rewrite app_assoc. reflexivity.
  Qed.
  Lemma klog_more c os ys : klog c (os ++ ys) = klog c os ++ snd (fold ys (kst c os, [])).
  Proof. unfold SdkStreamModel.klog, SdkStreamModel.kst, crun. rewrite fold_left_app. destruct (fold os (cli0, clog0 c)) as [k l]. cbn [fst snd]. rewrite fold_log. reflexivity. Qed.
  Lemma kst_more c os ys : kst c (os ++ ys) = fst (fold ys (kst c os, [])).
  Proof. unfold SdkStreamModel.kst, crun. rewrite fold_left_app. destruct (fold os (cli0, clog0 c)) as [k l]. cbn [fst snd]. rewrite fold_log. reflexivity. Qed.
  Lemma fold_evs ys zs k : snd (fold (ys ++ zs) (k, [])) = snd (fold ys (k, [])) ++ snd (fold zs (fst (fold ys (k, [])), [])).
  Proof. rewrite fold_left_app. destruct (fold ys (k, [])) as [k' l]. cbn [fst snd]. rewrite fold_log. reflexivity. Qed.
  Lemma fold_st ys zs k : fst (fold (ys ++ zs) (k, [])) = fst (fold zs (fst (fold ys (k, [])), [])).
  Proof. rewrite fold_left_app. destruct (fold ys (k, [])) as [k' l]. cbn [fst snd]. rewrite fold_log. reflexivity. Qed.
  Lemma fold1 o k : fold [o] (k, []) = cstep k o.
  Proof. simpl. unfold cnext. cbn [fst snd]. destruct (cstep k o). reflexivity. Qed.

  (** ** Along the log *)
  Lemma fetch_current c os a i b : klog c os = a ++ VFetch i :: b -> current a = Some i /\ online a = true.
  Proof. intro H. destruct (crun_ok conc c os) as [_ E]. destruct (E a (VFetch i) b H) as (X & _ & Y). auto. Qed.
  Lemma join_alone c os a b : klog c os = a ++ VJoin :: b -> current a = None.
  Proof. intro H. destruct (crun_ok conc c os) as [_ E]. apply (E a VJoin b H). Qed.
  Lemma start_current c os a i m b : klog c os = a ++ VDo (EStart item (i, m)) :: b -> current a = Some i.
  Proof. intro H. destruct (crun_ok conc c os) as [_ E]. apply (E a _ b H). Qed.
  Lemma ack_hand c os a i m b : klog c os = a ++ VDo (EAck item (i, m)) :: b -> in_hand a i m /\ In (VDo (EEnd item (i, m) true)) a /\ current a = Some i.
  Proof. intro H. destruct (crun_ok conc c os) as [_ E]. apply (E a _ b H). Qed.
  Lemma no_start c os a b : klog c os = a ++ VStop :: b -> forall i m, ~ In (VDo (EStart item (i, m))) b.
  Proof.
    intros H i m X. apply in_split in X. destruct X as (b1 & b2 & ->). destruct (crun_ok conc c os) as [_ E].
    destruct (E (a ++ VStop :: b1) (VDo (EStart item (i, m))) b2) as (_ & N & _); [rewrite H, <- app_assoc; reflexivity|]. apply N. apply in_or_app. right. left. auto.
  Qed.
  Lemma no_join c os a b : klog c os = a ++ VStop :: b -> ~ In VJoin b.
  Proof.
    intros H X. apply in_split in X. destruct X as (b1 & b2 & ->). destruct (crun_ok conc c os) as [_ E].
    destruct (E (a ++ VStop :: b1) VJoin b2) as (_ & N & _); [rewrite H, <- app_assoc; reflexivity|]. apply N. apply in_or_app. right. left. auto.
  Qed.
  Lemma all_over c os a b : klog c os = a ++ VStopped :: b ->
    In VStop a /\ Permutation (starts item (does a)) (ends item (does a)) /\ forall e, In e b -> ~ request e /\ forall x, e <> VDo x.
  Proof.
    intro H. destruct (crun_ok conc c os) as [_ E]. destruct (E a VStopped b H) as (S & N & Qa). split; auto. split; auto.
    intros e X. apply in_split in X. destruct X as (b1 & b2 & ->).
    assert (G : good (a ++ VStopped :: b1) e) by (apply (E _ e b2); rewrite H, <- app_assoc; reflexivity).
    assert (NE : In VEnd (a ++ VStopped :: b1)) by (apply in_or_app; auto).
    split.
    - destruct e; intro R; try exact R; cbn [good] in G; intuition.
    - intros x ->. destruct G as [G _]. auto.
  Qed.
  (** ** stop() writes LEAVE *)
  Lemma app_split {T} (l es a : list T) e b : l ++ es = a ++ e :: b -> (exists b', l = a ++ e :: b' /\ b = b' ++ es) \/ (exists a', a = l ++ a' /\ es = a' ++ e :: b).
  Proof.
    revert a. induction l as [|x l IH]; intros a H; [right; exists a; auto|]. destruct a as [|y a]; simpl in H; injection H as <- H.
    - left. exists l. auto.
    - destruct (IH a H) as [(b' & -> & ->)|(a' & -> & ->)]; [left; exists b'; auto|right; exists a'; auto].
  Qed.
  Definition calm (es : list tev) : Prop := ~ In VStop es.
  Lemma failed_calm r k : calm (snd (failed r k)).
  Proof. unfold calm, failed. destruct (k_active k); [destruct (r && k_up k)|]; simpl; intuition discriminate. Qed.
  Lemma poll_calm i k : calm (snd (poll i k)).
  Proof. unfold poll. destruct (k_up k); [unfold calm; simpl; intuition discriminate|apply failed_calm]. Qed.
  Lemma head_calm k : calm (snd (head k)).
  Proof. unfold head. destruct (k_active k); [destruct (k_id k); [apply poll_calm|destruct (k_up k); [unfold calm; simpl; intuition discriminate|apply failed_calm]]|unfold calm; simpl; intuition discriminate]. Qed.
  Lemma also_calm es r : calm es -> calm (snd r) -> calm (snd (also es r)).
  Proof. unfold calm, also. cbn [snd]. rewrite in_app_iff. intuition. Qed.
  Lemma only_stop k o : o <> CStop -> calm (snd (cstep k o)).
  Proof.
    assert (C0 : calm []) by (intros []).
    intro N. destruct o as [i|ms bad|recov|o| | | | | | |d]; cbn [SdkStreamModel.cstep].
    - destruct (k_pc k); auto; apply also_calm; try (unfold calm; simpl; intuition discriminate); [apply head_calm|apply poll_calm].
    - destruct (k_pc k); auto. destruct ms; [apply also_calm; [unfold calm; simpl; intuition discriminate|apply head_calm]|].
      destruct bad; [apply also_calm; [unfold calm; simpl; intuition discriminate|apply failed_calm]|unfold calm; simpl; intuition discriminate].
    - destruct (k_pc k); auto; try apply failed_calm. unfold calm; simpl; intuition discriminate.
    - destruct (k_pc k); auto. destruct (wstep _ _ _ _ _ _) as [b' es]. unfold calm. cbn [snd]. intro H. apply in_map_iff in H. destruct H as (x & H & _). discriminate H.
    - destruct (k_pc k); auto. destruct (forallb _ _); auto. apply head_calm.
    - destruct (k_pc k); auto. apply head_calm.
    - congruence.
    - auto.
    - destruct (k_pc k); auto. destruct (k_stop k && negb (k_leave k)); auto. unfold calm; simpl; intuition discriminate.
    - destruct (k_up k); auto. destruct (k_pc k); try (unfold calm; simpl; intuition discriminate); (apply also_calm; [unfold calm; simpl; intuition discriminate|apply failed_calm]).
    - destruct (k_up k); auto. unfold calm; simpl; intuition discriminate.
  Qed.
  Lemma never_ends c os : ~ In CStop os -> ~ In VEnd (klog c os) /\ k_active (kst c os) = true.
  Proof.
    intro N. assert (S : ~ In VStop (klog c os)).
    { induction os as [|o os IH] using rev_ind; [intros [H|[H|[]]]; discriminate H|]. rewrite klog_more, fold1. rewrite in_app_iff in *. intros [H|H]; [apply IH; auto|].
      revert H. apply only_stop. intros ->. apply N. right. left. auto. }
    destruct (crun_ok conc c os) as [K _]. assert (A : k_active (kst c os) = true) by (apply (ki_act _ _ K); auto).
    split; auto. intro H. apply (ki_end _ _ K) in H. apply (ki_ended _ _ K) in H. congruence.
  Qed.
  Theorem leave_written c os : forall a i b, klog c os = a ++ VStop :: b -> online a = true -> current a = Some i -> exists b', b = VLeave i :: b'.
  Proof.
    induction os as [|o os IH] using rev_ind; intros a i b H ON CU.
    - exfalso. cbv in H. destruct a as [|x [|y [|z a]]]; discriminate H.
    - rewrite klog_more, fold1 in H. destruct (crun_ok conc c os) as [K _]. apply app_split in H. destruct H as [(b' & H & ->)|(a' & -> & H)].
      + destruct (IH a i b' H ON CU) as (b'' & ->). exists (b'' ++ snd (cstep (kst c os) o)). reflexivity.
      + assert (o = CStop) as ->.
        { destruct o; auto; exfalso; (eapply only_stop; [|rewrite H; apply in_or_app; right; left; reflexivity]); discriminate. }
        cbn [SdkStreamModel.cstep] in H.
        assert (X : k_pc (kst c os) <> PStart -> k_pc (kst c os) <> PRefused -> exists b', b = VLeave i :: b').
        { intros N1 N2. revert K H ON CU N1 N2. generalize (kst c os), (klog c os). intros k l K H ON CU N1 N2.
          assert (H' : snd (match k_id k with
             | Some i => if k_up k then (mkCli false (k_up k) (k_id k) (k_pc k) true true, [VStop; VLeave i]) else (mkCli false (k_up k) (k_id k) (k_pc k) (k_leave k) true, [VStop])
             | None => (mkCli false (k_up k) (k_id k) (k_pc k) (k_leave k) true, [VStop]) end) = a' ++ VStop :: b) by (destruct (k_pc k); auto; congruence).
          clear H. destruct (k_id k) as [j|] eqn:I.
          - destruct (k_up k) eqn:U; cbn [snd] in H'.
            + destruct a' as [|x a']; [injection H' as <-|]; [|destruct a' as [|y [|z a']]; discriminate H'].
              rewrite app_nil_r in *. exists []. pose proof (ki_cur _ _ K) as C. f_equal. f_equal. destruct (k_pc k); try (destruct C; congruence). specialize (C i CU). congruence.
            + destruct a' as [|x [|y a']]; try discriminate H'. rewrite app_nil_r in ON. rewrite (ki_up _ _ K) in ON. congruence.
          - destruct a' as [|x [|y a']]; try discriminate H'. rewrite app_nil_r in CU. pose proof (ki_cur _ _ K) as C. destruct (k_pc k); try (destruct C; congruence). specialize (C i CU). congruence. }
        destruct (k_pc (kst c os)); try (apply X; discriminate); destruct a'; discriminate H.
  Qed.

  (** ** The loop always has a way on *)
  Definition alive (ws : list (worker item)) : Prop := ~ In (Dead item) ws.
  Definition nodead (k : cli) : Prop := forall i b, k_pc k = PRun i b -> alive (b_ws item b).
  Lemma setw_in j (w w0 : worker item) l x : nth_error l j = Some w0 -> In x (setw item j w l) -> x = w \/ In x l.
  Proof. intros N H. destruct (setw_split item j w w0 l N) as (a & b & E1 & E2). rewrite E2 in H. rewrite E1. rewrite in_app_iff in *. simpl in *. intuition. Qed.
  Lemma wstep_alive a u b o : alive (b_ws item b) -> alive (b_ws item (fst (wstep item false a u b o))).
  Proof.
    intros A. unfold wstep. destruct o as [j bad|j ok bad]; destruct (nth_error (b_ws item b) j) as [w|] eqn:N; auto.
    - destruct w; auto. destruct (b_q item b); [|destruct a]; cbn [fst andb b_ws]; intro H; apply (setw_in j _ _ _ _ N) in H; destruct H as [H|H]; try discriminate H; auto.
    - destruct w; auto. destruct (negb u); [|destruct bad]; cbn [fst b_ws]; intro H; apply (setw_in j _ _ _ _ N) in H; destruct H as [H|H]; try discriminate H; auto.
  Qed.
  Lemma new_alive l : alive (b_ws item (batch_new item conc l)).
  Proof. unfold alive, batch_new. cbn [b_ws]. intro H. apply repeat_spec in H. discriminate H. Qed.
  Lemma nodead_step k o : nodead k -> nodead (fst (cstep k o)).
  Proof.
    intros N. assert (HD : forall k', k_pc k' = k_pc k -> nodead (fst (head k'))).
    { intros k' E i b H. unfold head, poll, failed in H. repeat match type of H with context [if ?b then _ else _] => destruct b | context [match ?b with _ => _ end] => destruct b end; discriminate H. }
    assert (FD : forall r k', nodead (fst (failed r k'))).
    { intros r k' i b H. unfold failed in H. repeat match type of H with context [if ?b then _ else _] => destruct b end; discriminate H. }
    assert (PD : forall i k', nodead (fst (poll i k'))).
    { intros i k'. unfold poll. destruct (k_up k'); [intros j b H; discriminate H|apply FD]. }
    destruct o as [i|ms bad|recov|o| | | | | | |d]; cbn [SdkStreamModel.cstep].
    - destruct (k_pc k) eqn:P; try exact N; unfold also; cbn [fst]; [apply HD; auto|apply PD].
    - destruct (k_pc k) eqn:P; try exact N. destruct ms; [apply HD; auto|]. destruct bad; [apply FD|]. intros j b H. cbn [fst k_pc to_pc] in H. injection H as <- <-. apply new_alive.
    - destruct (k_pc k) eqn:P; try exact N; try apply FD. intros j b H; discriminate H.
    - destruct (k_pc k) as [| | | |i b| |] eqn:P; try exact N. pose proof (wstep_alive (k_active k) (k_up k) b o (N i b P)) as W. destruct (wstep _ _ _ _ _ _) as [b' es]. cbn [fst] in *.
      intros j d H. cbn [k_pc to_pc] in H. injection H as <- <-. exact W.
    - destruct (k_pc k) eqn:P; try exact N. destruct (forallb _ _); [apply HD; auto|exact N].
    - destruct (k_pc k) eqn:P; try exact N. apply HD; auto.
    - destruct (k_pc k) eqn:P; try exact N; destruct (k_id k); try destruct (k_up k); intros j d H; cbn [fst k_pc] in H; try discriminate H; injection H as <- <-; apply (N _ _ P).
    - intros j d H. apply (N j d H).
    - destruct (k_pc k) eqn:P; try exact N. destruct (k_stop k && negb (k_leave k)); [intros j d H; discriminate H|exact N].
    - destruct (k_up k); [|exact N]. destruct (k_pc k) eqn:P; try (unfold also; cbn [fst]; apply FD); intros j d H; cbn [fst k_pc to_pc] in H; try discriminate H. injection H as <- <-; apply (N _ _ P).
    - destruct (k_up k); [exact N|]. intros j b H. apply (N j b H).
  Qed.
  Lemma nodead_run c os : nodead (kst c os).
  Proof. induction os as [|o os IH] using rev_ind; [intros i b H; discriminate H|]. rewrite kst_more, fold1. apply nodead_step; auto. Qed.

  Definition wcost (w : worker item) : nat := match w with Busy _ _ => 2 | Ready _ => 1 | _ => 0 end.
  Definition cost (b : batch item) : nat := 3 * length (b_q item b) + list_sum (map wcost (b_ws item b)).
  Lemma sum_mid a w c : list_sum (map wcost (a ++ w :: c)) = (wcost w + list_sum (map wcost (a ++ c)))%nat.
  Proof. rewrite !map_app, !list_sum_app. simpl. lia. Qed.
  Lemma one_more ac u b : alive (b_ws item b) -> forallb (is_done item) (b_ws item b) = false -> exists o, (cost (fst (wstep item false ac u b o)) < cost b)%nat.
  Proof.
    intros A D. assert (X : exists w, In w (b_ws item b) /\ is_done item w = false).
    { clear A. induction (b_ws item b) as [|w ws IH]; [discriminate D|]. simpl in D. destruct (is_done item w) eqn:E; [destruct (IH D) as (w' & I & E'); exists w'; simpl; auto|exists w; simpl; auto]. }
    destruct X as (w & I & E). apply In_nth_error in I. destruct I as (j & N).
    destruct w as [|x| |]; try discriminate E; [| |exfalso; apply A; apply (nth_error_In _ _ N)].
    - exists (WTake j false). unfold wstep. rewrite N. destruct (b_q item b) as [|x q] eqn:Q.
      + destruct (setw_split item j (Done item) _ _ N) as (a & c & E1 & E2). unfold cost. cbn [fst b_q b_ws]. rewrite E2, E1, !sum_mid, Q. simpl. lia.
      + destruct ac; cbn [andb fst].
        * destruct (setw_split item j (Busy item x) _ _ N) as (a & c & E1 & E2). unfold cost. cbn [fst b_q b_ws]. rewrite E2, E1, !sum_mid, Q. simpl. lia.
        * destruct (setw_split item j (Ready item) _ _ N) as (a & c & E1 & E2). unfold cost. cbn [fst b_q b_ws]. rewrite E2, E1, !sum_mid, Q. simpl. lia.
    - exists (WEnd j false true). unfold wstep. rewrite N. destruct (setw_split item j (Ready item) _ _ N) as (a & c & E1 & E2).
      destruct (negb u); cbn [fst]; unfold cost; cbn [fst b_q b_ws]; rewrite E2, E1, !sum_mid; simpl; lia.
  Qed.
  Lemma finish n : forall k i b, k_pc k = PRun i b -> alive (b_ws item b) -> (cost b <= n)%nat ->
    exists ws b', fst (fold (map CWork ws) (k, [])) = to_pc (PRun i b') k /\ forallb (is_done item) (b_ws item b') = true.
  Proof.
    induction n as [|n IH]; intros k i b P A C.
    - destruct (forallb (is_done item) (b_ws item b)) eqn:D; [exists [], b; split; auto; destruct k; simpl in *; subst; auto|].
      destruct (one_more (k_active k) (k_up k) b A D) as (o & L). lia.
    - destruct (forallb (is_done item) (b_ws item b)) eqn:D; [exists [], b; split; auto; destruct k; simpl in *; subst; auto|].
      destruct (one_more (k_active k) (k_up k) b A D) as (o & L).
      pose proof (wstep_alive (k_active k) (k_up k) b o A) as A'. destruct (wstep item false (k_active k) (k_up k) b o) as [b1 es] eqn:W. cbn [fst] in L, A'.
      destruct (IH (to_pc (PRun i b1) k) i b1 eq_refl A') as (ws & b' & E & D'); [lia|].
      exists (o :: ws), b'. split; auto. change (map CWork (o :: ws)) with ([CWork o] ++ map CWork ws). rewrite fold_st, fold1. cbn [SdkStreamModel.cstep]. rewrite P, W. cbn [fst]. rewrite E. reflexivity.
  Qed.

  Lemma works_no_stop ws : ~ In CStop (map CWork ws).
  Proof. intro H. apply in_map_iff in H. destruct H as (x & H & _). discriminate H. Qed.

  Lemma next_fetch k : (forall i b, k_pc k = PFetch i \/ k_pc k = PRun i b -> k_id k = Some i) -> nodead k -> k_active k = true ->
    match k_pc k with PStart | PRefused | PEnd => False | PJoin | PFetch _ => k_up k = true | PSleep => k_id k = None | _ => True end ->
    exists ys i, ~ In CStop ys /\ In (VFetch i) (snd (fold ys (k, []))).
  Proof.
    intros I N A P. destruct (k_pc k) as [| | |i|i b| |] eqn:PC; try (exfalso; exact P).
    - exists [CJoined (0, 0)], (0, 0). split; [intros [H|[]]; discriminate H|]. rewrite fold1. cbn [SdkStreamModel.cstep]. rewrite PC. unfold also, poll. cbn [k_up with_id]. rewrite P. simpl. auto.
    - exists [CFetched [] false], i. split; [intros [H|[]]; discriminate H|]. rewrite fold1. cbn [SdkStreamModel.cstep]. rewrite PC. unfold also, head, poll. rewrite A, (I i (mkB item [] [])), P by auto. simpl. auto.
    - destruct (finish (cost b) k i b PC (N i b PC)) as (ws & b' & E & D); [lia|].
      exists (map CWork ws ++ [CUp 0; CNext]), i. split; [rewrite in_app_iff; intros [H|[H|[H|[]]]]; try discriminate H; apply (works_no_stop _ H)|].
      rewrite fold_evs. apply in_or_app. right. rewrite E. change [CUp 0; CNext] with ([CUp 0] ++ [CNext]). rewrite fold_evs, !fold1. apply in_or_app. right.
      cbn [SdkStreamModel.cstep to_pc k_up k_pc]. assert (II : k_id k = Some i) by (apply (I i b); auto).
      destruct (k_up k) eqn:U; cbn [fst k_pc to_pc SdkStreamModel.cstep]; rewrite ?D; unfold head, poll; cbn [k_active k_id k_up to_pc]; rewrite A, II, ?U; simpl; auto.
    - exists [CUp 0; CWake; CJoined (0, 0)], (0, 0). split; [intros [H|[H|[H|[]]]]; discriminate H|].
      change [CUp 0; CWake; CJoined (0, 0)] with ([CUp 0] ++ [CWake] ++ [CJoined (0, 0)]). rewrite !fold_evs, !fold1. apply in_or_app. right. apply in_or_app. right.
      cbn [SdkStreamModel.cstep]. destruct (k_up k) eqn:U; cbn [fst k_pc to_pc SdkStreamModel.cstep]; rewrite ?PC; unfold head, poll; cbn [k_active k_id k_up to_pc]; rewrite A, P, ?U; cbn [fst SdkStreamModel.cstep k_pc to_pc]; unfold also, poll; cbn [k_up with_id to_pc]; rewrite ?U; simpl; auto.
  Qed.
  Theorem goes_on c os : ~ In CStop os -> In VReady (klog c os) ->
    ~ In VEnd (klog c os) /\ exists ys i es, ~ In CStop ys /\ klog c (os ++ ys) = klog c os ++ es /\ In (VFetch i) es.
  Proof.
    intros N R. destruct (never_ends c os N) as [NE A]. split; auto. destruct (crun_ok conc c os) as [K _].
    pose proof (ki_cur _ _ K) as C. pose proof (ki_wait _ _ K) as W. apply (ki_ready _ _ K) in R. destruct R as [R1 R2].
    destruct (next_fetch (kst c os)) as (ys & i & NS & F); auto.
    - intros i b [H|H]; rewrite H in C; apply C.
    - apply nodead_run.
    - destruct (k_pc (kst c os)) eqn:P; auto; try (apply W); try (apply C). apply NE. apply (ki_end _ _ K). auto.
    - exists ys, i, (snd (fold ys (kst c os, []))). split; auto. split; auto. apply klog_more.
  Qed.

  (** ** stop() can always return *)
  Lemma end_stops k : k_pc k = PEnd -> k_stop k = true -> In VStopped (snd (fold [CLeft; CStopped] (k, []))).
  Proof.
    intros P S. change [CLeft; CStopped] with ([CLeft] ++ [CStopped]). rewrite fold_evs, !fold1. apply in_or_app. right. cbn [SdkStreamModel.cstep fst k_pc k_stop k_leave]. rewrite P, S. simpl. auto.
  Qed.
  Lemma reach_end k : nodead k -> k_active k = false -> k_pc k <> PStart -> k_pc k <> PRefused ->
    exists ys, k_pc (fst (fold ys (k, []))) = PEnd /\ k_stop (fst (fold ys (k, []))) = k_stop k.
  Proof.
    intros N A P1 P2. destruct (k_pc k) as [| | |i|i b| |] eqn:PC; try congruence.
    - exists [CRefused false]. rewrite fold1. cbn [SdkStreamModel.cstep]. rewrite PC. unfold failed. rewrite A. auto.
    - exists [CRefused false]. rewrite fold1. cbn [SdkStreamModel.cstep]. rewrite PC. unfold failed. rewrite A. auto.
    - destruct (finish (cost b) k i b PC (N i b PC)) as (ws & b' & E & D); [lia|]. exists (map CWork ws ++ [CNext]). rewrite fold_st, E, fold1. cbn [SdkStreamModel.cstep k_pc to_pc]. rewrite D. unfold head. cbn [k_active to_pc]. rewrite A. auto.
    - exists [CWake]. rewrite fold1. cbn [SdkStreamModel.cstep]. rewrite PC. unfold head. rewrite A. auto.
    - exists []. auto.
  Qed.
  Theorem stop_returns c os : In VReady (klog c os) ->
    exists ys es, klog c (os ++ CStop :: ys) = klog c os ++ VStop :: es /\ In VStopped es.
  Proof.
    intro R. destruct (crun_ok conc c os) as [K _]. apply (ki_ready _ _ K) in R. destruct R as [R1 R2].
    assert (X : exists es k1, cstep (kst c os) CStop = (k1, VStop :: es) /\ k_active k1 = false /\ k_stop k1 = true /\ k_pc k1 = k_pc (kst c os)).
    { cbn [SdkStreamModel.cstep]. destruct (k_pc (kst c os)) eqn:P; try congruence; destruct (k_id (kst c os)); try destruct (k_up (kst c os)); eauto 8. }
    destruct X as (es1 & k1 & E1 & A1 & S1 & P1).
    assert (ND : nodead k1) by (pose proof (nodead_step (kst c os) CStop (nodead_run c os)) as ND; rewrite E1 in ND; exact ND).
    destruct (reach_end k1 ND A1) as (ys & P2 & S2); try congruence.
    exists (ys ++ [CLeft; CStopped]), (es1 ++ snd (fold (ys ++ [CLeft; CStopped]) (k1, []))). change (CStop :: ys ++ [CLeft; CStopped]) with ([CStop] ++ ys ++ [CLeft; CStopped]).
    rewrite klog_more, fold_evs, !fold1, E1. cbn [fst snd]. split; [reflexivity|]. apply in_or_app. right. rewrite fold_evs. apply in_or_app. right. apply end_stops; auto. congruence.
  Qed.

  (** ** stop() on the log *)
  Lemma stopping_app l e : stopping (l ++ [e]) = match e with VStop => true | VStopped => false | _ => stopping l end.
  Proof. unfold stopping. rewrite fold_left_app. reflexivity. Qed.
  Lemma stopping_plain : forall es l, ~ In VStop es -> ~ In VStopped es -> stopping (l ++ es) = stopping l.
  Proof.
    induction es as [|e es IH]; intros l A B; [rewrite app_nil_r; auto|]. change (e :: es) with ([e] ++ es). rewrite app_assoc, IH; [|intro H; apply A; right; auto|intro H; apply B; right; auto].
    rewrite stopping_app. destruct e; auto; exfalso; [apply A|apply B]; left; auto.
  Qed.
  Definition stays (k : cli) (r : cli * list tev) : Prop := k_stop (fst r) = k_stop k /\ ~ In VStopped (snd r).
  Lemma stays_failed r k : stays k (failed r k).
  Proof. unfold failed. destruct (k_active k); [destruct (r && k_up k)|]; split; simpl; intuition discriminate. Qed.
  Lemma stays_poll i k : stays k (poll i k).
  Proof. unfold poll. destruct (k_up k); [split; simpl; intuition discriminate|apply stays_failed]. Qed.
  Lemma stays_head k : stays k (head k).
  Proof. unfold head. destruct (k_active k); [destruct (k_id k); [apply stays_poll|destruct (k_up k); [split; simpl; intuition discriminate|apply stays_failed]]|split; simpl; intuition discriminate]. Qed.
  Lemma stays_also es k k' r : k_stop k' = k_stop k -> ~ In VStopped es -> stays k' r -> stays k (also es r).
  Proof. intros E N [A B]. split; unfold also; cbn [fst snd]; [congruence|]. rewrite in_app_iff. intuition. Qed.
  Lemma step_stays k o : o <> CStop -> o <> CStopped -> stays k (cstep k o).
  Proof.
    assert (C0 : stays k (k, [])) by (split; auto).
    intros N1 N2. destruct o as [i|ms bad|recov|o| | | | | | |d]; cbn [SdkStreamModel.cstep]; try congruence.
    - destruct (k_pc k); auto; (eapply stays_also; [|simpl; intuition discriminate|]); [|apply stays_head| |apply stays_poll]; reflexivity.
    - destruct (k_pc k); auto. destruct ms; [eapply stays_also; [reflexivity|simpl; intuition discriminate|apply stays_head]|].
      destruct bad; [eapply stays_also; [reflexivity|simpl; intuition discriminate|apply stays_failed]|split; simpl; intuition discriminate].
    - destruct (k_pc k); auto; try apply stays_failed. split; simpl; intuition discriminate.
    - destruct (k_pc k); auto. destruct (wstep _ _ _ _ _ _) as [b' es]. split; [reflexivity|]. cbn [snd]. intro H. apply in_map_iff in H. destruct H as (x & H & _). discriminate H.
    - destruct (k_pc k); auto. destruct (forallb _ _); auto. apply stays_head.
    - destruct (k_pc k); auto. apply stays_head.
    - split; auto.
    - destruct (k_up k); auto. destruct (k_pc k); try (split; simpl; intuition discriminate); (eapply stays_also; [|simpl; intuition discriminate|apply stays_failed]; reflexivity).
    - destruct (k_up k); auto. split; simpl; intuition discriminate.
  Qed.
  Lemma stopping_state c os : k_stop (kst c os) = stopping (klog c os).
  Proof.
    induction os as [|o os IH] using rev_ind; [reflexivity|]. rewrite kst_more, klog_more, !fold1.
    assert (P : o <> CStop -> o <> CStopped -> k_stop (fst (cstep (kst c os) o)) = stopping (klog c os ++ snd (cstep (kst c os) o))).
    { intros N1 N2. destruct (step_stays (kst c os) o N1 N2) as [A B]. rewrite stopping_plain; auto; [congruence|]. apply only_stop. auto. }
    destruct o; try (apply P; discriminate); cbn [SdkStreamModel.cstep].
    - destruct (k_pc (kst c os)); try (cbn [fst snd]; rewrite app_nil_r; exact IH);
        destruct (k_id (kst c os)) as [x|]; try destruct (k_up (kst c os)); cbn [fst snd k_stop]; try (rewrite stopping_app; reflexivity);
        change (klog c os ++ [VStop; VLeave x]) with (klog c os ++ [VStop] ++ [VLeave x]); rewrite app_assoc, !stopping_app; reflexivity.
    - destruct (k_pc (kst c os)); try (cbn [fst snd]; rewrite app_nil_r; exact IH). destruct (_ && _); cbn [fst snd k_stop]; [rewrite stopping_app; reflexivity|rewrite app_nil_r; exact IH].
  Qed.
  Theorem stop_resolves c os : stopping (klog c os) = true -> exists ys es, klog c (os ++ ys) = klog c os ++ es /\ In VStopped es.
  Proof.
    rewrite <- stopping_state. intro S. destruct (crun_ok conc c os) as [K _]. pose proof (ki_stop _ _ K S) as V.
    assert (A : k_active (kst c os) = false) by (destruct (k_active (kst c os)) eqn:A; auto; apply (ki_act _ _ K) in A; contradiction).
    assert (P : ~ (k_pc (kst c os) = PStart \/ k_pc (kst c os) = PRefused)) by (intro P; apply (ki_new _ _ K P V)).
    destruct (reach_end (kst c os) (nodead_run c os) A) as (ys & P2 & S2); try (intro; apply P; auto).
    exists (ys ++ [CLeft; CStopped]). eexists. split; [apply klog_more|]. rewrite fold_evs. apply in_or_app. right. apply end_stops; auto. congruence.
  Qed.
End P.
