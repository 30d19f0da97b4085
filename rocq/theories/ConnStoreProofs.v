(** Store requests over a connection take effect one at a time. *)
From Verif Require Import LibBase LibMap WireModel CmdModel StoreModel StoreProofs ConnModel ConnProofs ConnFacts ConnStore ConnStoreSpec.

Section Lin.
  Variable json_ok : N -> bytes -> bool.
  Variable ttl_of : bytes -> option N.
  Variable emsg : dispatched -> bytes.
  Variables ticks dttl imax : N.
  Variables maxp cap : N.
  Notation conn := (ConnModel.conn seng dispatched).
  Notation hs := (s_hstep ttl_of emsg ticks dttl imax).
  Notation crun := (ConnModel.crun seng dispatched sx (s_start json_ok) hs (s_xstep ticks dttl imax) (fun e => e) (fun e => e) maxp cap).
  Notation cstep := (ConnModel.cstep seng dispatched sx (s_start json_ok) hs (s_xstep ticks dttl imax) (fun e => e) (fun e => e) maxp cap).
  Notation CI := (ConnProofs.CI seng dispatched (s_start json_ok) hs).
  Notation requests := (ConnModel.requests seng dispatched).
  Arguments c_eng {Eng Loc}. Arguments c_rd {Eng Loc}. Arguments c_num {Eng Loc}. Arguments c_hold {Eng Loc}. Arguments c_in {Eng Loc}.
  Arguments c_run {Eng Loc}. Arguments c_out {Eng Loc}. Arguments c_push {Eng Loc}. Arguments c_bridge {Eng Loc}. Arguments c_sent {Eng Loc}.
  Arguments c_lost {Eng Loc}. Arguments c_drop {Eng Loc}. Arguments c_phase {Eng Loc}.
  Arguments k_n {Loc}. Arguments k_f {Loc}. Arguments k_at {Loc}. Arguments k_poll {Loc}.
  Notation after := (after ticks dttl imax).
  Notation sstep := (sstep ticks dttl imax).
  Notation clock s := (snd (c_eng s)).

  (** what a step adds to the history *)
  Definition effect (s : conn) (x : cop sx) : list entry :=
    match x with
    | KTask _ i =>
      match nth_error (c_run s) i with
      | Some t => if k_poll t then match k_at t with
                                   | Inside _ d => match op_of ttl_of (clock s) d with Some o => [(Some (k_n t), clock s, o)] | None => [] end
                                   | _ => [] end else []
      | None => []
      end
    | KExt _ (SXOp o) => [(None, clock s, o)]
    | _ => []
    end.
  Fixpoint hist (s : conn) (xs : list (cop sx)) : list entry :=
    match xs with [] => [] | x :: r => effect s x ++ hist (cstep s x) r end.
  Lemma hist_app : forall xs ys s, hist s (xs ++ ys) = hist s xs ++ hist (crun s xs) ys.
  Proof. induction xs as [|x xs IH]; intros; auto. cbn [hist ConnModel.crun app]. rewrite IH, app_assoc. auto. Qed.

  (** engine *)
  Lemma eng_step s x : fst (c_eng (cstep s x)) = after (fst (c_eng s)) (effect s x) /\ clock s <= clock (cstep s x) /\
    (effect s x <> [] -> clock (cstep s x) = clock s).
  Proof.
    destruct x; cbn [ConnModel.cstep effect]; unfold task_step, sock_end, abort;
      try (repeat match goal with |- context[match ?e with _ => _ end] => destruct e eqn:? end; cbn; repeat split; auto; lia).
    - destruct (nth_error (c_run s) i) as [t|]; [|cbn; repeat split; auto; lia]. destruct (k_poll t); [|cbn; repeat split; auto; lia].
      destruct (k_at t) as [|d|r]; [cbn; repeat split; auto; lia| |].
      + unfold s_hstep. destruct (op_of ttl_of (clock s) d) as [o|].
        * unfold ConnStoreSpec.after. cbn [fold_left act snd]. destruct (sstep (fst (c_eng s)) o) as [s' r] eqn:E. cbn [fst].
          destruct r; cbn; repeat split; auto; lia.
        * destruct d as [c| |]; [destruct c|..]; cbn; repeat split; auto; lia.
      + repeat match goal with |- context[match ?e with _ => _ end] => destruct e eqn:? end; cbn; repeat split; auto; lia.
    - destruct x as [o|d]; cbn; repeat split; auto; try lia. congruence.
  Qed.
  Lemma after_app st a b : after st (a ++ b) = after (after st a) b.
  Proof. apply fold_left_app. Qed.
  Lemma eng_run : forall xs s, fst (c_eng (crun s xs)) = after (fst (c_eng s)) (hist s xs) /\ clock s <= clock (crun s xs).
  Proof.
    induction xs as [|x xs IH]; intro s; [cbn; split; auto; lia|]. cbn [ConnModel.crun hist]. destruct (IH (cstep s x)) as (A & B). destruct (eng_step s x) as (C & D & _).
    rewrite A, C, after_app. split; auto. lia.
  Qed.
  Lemma times : forall xs s, Forall (fun e => clock s <= time e /\ time e <= clock (crun s xs)) (hist s xs).
  Proof.
    induction xs as [|x xs IH]; intro s; [constructor|]. cbn [ConnModel.crun hist]. destruct (eng_step s x) as (_ & D & _). apply Forall_app. split.
    - pose proof (proj2 (eng_run xs (cstep s x))). apply Forall_forall. intros en H'.
      assert (T : time en = clock s); [|rewrite T; split; [apply N.le_refl|eapply N.le_trans; eauto]].
      destruct x; cbn [effect] in H'; try (now destruct H').
      + destruct (nth_error _ _) as [t|]; [|destruct H']. destruct (k_poll t); [|destruct H']. destruct (k_at t); try (now destruct H').
        destruct (op_of _ _ _); [|destruct H']. destruct H' as [<-|[]]. reflexivity.
      + destruct x; [|destruct H']. destruct H' as [<-|[]]. reflexivity.
    - eapply Forall_impl; [|apply IH]. cbn beta. intros e0 (A & B). split; auto. eapply N.le_trans; eauto.
  Qed.
  Lemma others_hist : forall xs s, map act (filter is_other (hist s xs)) = others xs.
  Proof.
    induction xs as [|x xs IH]; intro s; auto. cbn [hist]. rewrite filter_app, map_app, IH. unfold others. cbn [flat_map]. f_equal.
    destruct x; cbn [effect]; auto.
    - destruct (nth_error _ _) as [t|]; auto. destruct (k_poll t); auto. destruct (k_at t); auto. destruct (op_of _ _ _); auto.
    - destruct x; auto.
  Qed.

  (** own requests *)
  Lemma mine_app a b : mine (a ++ b) = mine a ++ mine b. Proof. apply flat_map_app. Qed.
  Definition early (t : task dispatched) : bool := match k_at t with Reply _ _ => false | _ => true end.
  Definition own_ok (fs : list inframe) (e : entry) : Prop :=
    forall n, who e = Some n -> exists f c, nth_error fs n = Some f /\ in_type f = TYPE_REQUEST /\ s_start json_ok f = DCmd c /\ asks ttl_of c (time e) (act e).
  Definition told (st : store) (h : list entry) (n : nat) (f : inframe) (a : response) : Prop :=
    in_type f = TYPE_REQUEST -> forall c, s_start json_ok f = DCmd c -> is_store c ->
    exists h1 e h2, h = h1 ++ e :: h2 /\ who e = Some n /\ says (snd (sstep (after st h1) (act e))) a.
  Lemma told_grows st h l n f a : told st h n f a -> told st (h ++ l) n f a.
  Proof. intros T A c B C. destruct (T A c B C) as (h1 & e & h2 & -> & E2 & E3). exists h1, e, (h2 ++ l). rewrite <- app_assoc. auto. Qed.
  Definition out_told (st : store) (h : list entry) (fs : list inframe) (x : option nat * outframe) : Prop :=
    forall n, fst x = Some n -> exists f r, nth_error fs n = Some f /\ snd x = OResponse (in_id f) r /\ told st h n f r.
  Record LI (st : store) (h : list entry) (s : conn) : Prop := {
    li_eng : fst (c_eng s) = after st h;
    li_nodup : NoDup (mine h);
    li_num : forall n, In n (mine h) -> (n < c_num s)%nat;
    li_hold : forall n f, c_hold s = Some (n, f) -> ~ In n (mine h);
    li_in : forall n f, In (n, f) (c_in s) -> ~ In n (mine h);
    li_early : forall t, In t (c_run s) -> early t = true -> ~ In (k_n t) (mine h);
    li_inside : forall t d, In t (c_run s) -> k_at t = Inside _ d -> d = s_start json_ok (k_f t);
    li_own : Forall (own_ok (requests s)) h;
    li_reply : forall t r, In t (c_run s) -> k_at t = Reply _ r -> told st h (k_n t) (k_f t) r;
    li_out : Forall (out_told st h (requests s)) (c_out s ++ c_sent s)
  }.
  Lemma LI_0 e : LI (fst e) [] (conn0 seng dispatched e).
  Proof. constructor; cbn; try constructor; intros; try contradiction; try discriminate; auto. Qed.

  Lemma own_grows fs l e : own_ok fs e -> own_ok (fs ++ l) e.
  Proof. intros O n H. destruct (O n H) as (f & c & A & B). exists f, c. split; auto. rewrite nth_error_app1; auto. apply nth_error_Some. congruence. Qed.
  Lemma out_told_grows st h l fs k x : out_told st h fs x -> out_told st (h ++ l) (fs ++ k) x.
  Proof. intros O n H. destruct (O n H) as (f & r & A & B & C). exists f, r. split; [rewrite nth_error_app1; auto; apply nth_error_Some; congruence|]. split; auto. apply told_grows; auto. Qed.
  Lemma in_swap' (x t : task dispatched) l i : In x (swap dispatched i t l) -> x = t \/ In x l.
  Proof. apply in_swap. Qed.

  Lemma op_of_asks now c : is_store c -> exists o, op_of ttl_of now (DCmd c) = Some o /\ asks ttl_of c now o.
  Proof. destruct c; cbn; intro H; try contradiction; eauto. Qed.
  Lemma op_of_some now d o : op_of ttl_of now d = Some o -> exists c, d = DCmd c /\ is_store c /\ asks ttl_of c now o.
  Proof. destruct d as [c| |]; cbn; try discriminate. destruct c; try discriminate; intro E; inversion E; subst; eexists; repeat split; cbn; auto. Qed.
  Lemma asks_out c now o st : asks ttl_of c now o -> snd (sstep st o) <> SSilent.
  Proof. destruct c; cbn; try contradiction; intros ->; cbn; try discriminate. - destruct (expiry _ _ _ _ _); discriminate. - destruct (do_get _ _ _); discriminate. Qed.

  (** steps that leave the history alone and move no request *)
  Lemma LI_same st h (s s' : conn) : LI st h s -> fst (c_eng s') = fst (c_eng s) -> c_num s' = c_num s -> c_hold s' = c_hold s -> c_in s' = c_in s ->
    (forall t, In t (c_run s') -> exists t', In t' (c_run s) /\ k_n t = k_n t' /\ k_f t = k_f t' /\ k_at t = k_at t') -> requests s' = requests s ->
    (forall x, In x (c_out s' ++ c_sent s') -> fst x = None \/ In x (c_out s ++ c_sent s)) -> LI st h s'.
  Proof.
    intros [L1 L2 L3 L4 L5 L6 L7 L8 L9 L10] E1 E2 E3 E4 R E6 O. constructor; rewrite ?E1, ?E2, ?E3, ?E4, ?E6; auto.
    - intros t H E. destruct (R t H) as (t' & A & B & C & D). rewrite B. apply L6; auto. unfold early in *. rewrite <- D. auto.
    - intros t d H E. destruct (R t H) as (t' & A & B & C & D). rewrite C. apply L7; congruence.
    - intros t r H E. destruct (R t H) as (t' & A & B & C & D). rewrite B, C. apply L9; congruence.
    - apply Forall_forall. intros x H. destruct (O x H) as [N|N]; [intros n E; congruence|]. rewrite Forall_forall in L10. auto.
  Qed.
  Ltac same := eapply LI_same; [eassumption|try reflexivity..|]; cbn; eauto.

  Lemma del_in (t : task dispatched) i l : In t (del dispatched i l) -> In t l.
  Proof. apply in_del. Qed.

  Lemma once s i t : CI s -> nth_error (c_run s) i = Some t -> (k_n t < c_num s)%nat /\
    (forall f, c_hold s <> Some (k_n t, f)) /\ (forall f, ~ In (k_n t, f) (c_in s)) /\
    (forall u, In u (del dispatched i (c_run s)) -> k_n u <> k_n t).
  Proof.
    intros C H. pose proof (ci_cnt _ _ _ _ _ C (k_n t)) as Y. rewrite cnt_seq in Y. rewrite (run_del _ _ s i t H) in Y.
    assert (Z : cnt (k_n t) [k_n t] = 1%nat) by (unfold cnt; cbn; destruct (Nat.eq_dec _ _); congruence).
    destruct (Nat.ltb_spec (k_n t) (c_num s)) as [L|L]; [|exfalso; lia].
    split; auto.
    assert (Y' : (cnt (k_n t) (holdn (c_hold s)) + cnt (k_n t) (map fst (c_in s)) + cnt (k_n t) (map k_n (del dispatched i (c_run s))) = 0)%nat) by (lia).
    assert (N0 : forall l, cnt (k_n t) l = 0%nat -> ~ In (k_n t) l) by (intros l E I; apply (count_occ_In Nat.eq_dec) in I; unfold cnt in E; lia).
    split; [|split].
    - intros f E. apply (N0 (holdn (c_hold s))); [lia|]. rewrite E. left; auto.
    - intros f I. apply (N0 (map fst (c_in s))); [lia|]. apply in_map_iff. exists (k_n t, f). auto.
    - intros u I E. apply (N0 (map k_n (del dispatched i (c_run s)))); [lia|]. apply in_map_iff. eauto.
  Qed.

  Lemma swap_del (x t : task dispatched) l i : In x (swap dispatched i t l) -> x = t \/ In x (del dispatched i l).
  Proof. unfold swap, del. intro H. apply in_app_or in H. destruct H as [H|[H|H]]; auto; right; apply in_or_app; auto. Qed.
  Lemma LI_task st h s i t : CI s -> LI st h s -> nth_error (c_run s) i = Some t -> k_poll t = true ->
    LI st (h ++ effect s (KTask _ i)) (task_step seng dispatched (s_start json_ok) hs cap i t s).
  Proof.
    intros C L HT HP. pose proof L as [L1 L2 L3 L4 L5 L6 L7 L8 L9 L10]. pose proof (nth_error_In _ _ HT) as IT. destruct (ci_run _ _ _ _ _ C t IT) as (R1 & R2).
    destruct (once s i t C HT) as (O1 & O2 & O3 & O4). cbn [effect]. rewrite HT, HP. unfold task_step. destruct (k_at t) as [|d|r] eqn:EA.
    - rewrite app_nil_r. constructor; cbn; auto.
      + intros u H E. apply in_swap in H. destruct H as [->|H]; [|auto]. cbn. apply L6; auto. unfold early. rewrite EA. auto.
      + intros u d H E. apply in_swap in H. destruct H as [->|H]; [|auto]. cbn in *. destruct (_ =? _); inversion E. auto.
      + intros u r H E. apply in_swap in H. destruct H as [->|H]; [|auto]. cbn in *. intro RQ. rewrite RQ in E. discriminate.
    - unfold stage_ok in R2. rewrite EA in R2. destruct R2 as (RT & _). pose proof (L7 t d IT EA) as ED. unfold s_hstep. destruct (op_of ttl_of (clock s) d) as [o|] eqn:EO.
      + destruct (op_of_some _ _ _ EO) as (c & Ec & Hc & Ha).
        assert (NI : ~ In (k_n t) (mine h)) by (apply L6; auto; unfold early; rewrite EA; auto).
        set (en := (Some (k_n t), clock s, o) : entry).
        assert (M : mine (h ++ [en]) = mine h ++ [k_n t]) by (rewrite mine_app; reflexivity).
        assert (NIN : forall n, n <> k_n t -> ~ In n (mine h) -> ~ In n (mine (h ++ [en]))) by (intros n D N I; rewrite M in I; apply in_app_or in I; destruct I as [I|[I|[]]]; auto).
        assert (OWN : Forall (own_ok (requests s)) (h ++ [en])).
        { apply Forall_app. split; auto. constructor; [|constructor]. intros n E. inversion E; subst n. exists (k_f t), c. repeat split; auto. congruence. }
        assert (ND : NoDup (mine (h ++ [en]))).
        { rewrite M. apply NoDup_snoc; auto. }
        assert (NUM : forall n, In n (mine (h ++ [en])) -> (n < c_num s)%nat) by (intros n I; rewrite M in I; apply in_app_or in I; destruct I as [I|[<-|[]]]; auto).
        assert (OUT : Forall (out_told st (h ++ [en]) (requests s)) (c_out s ++ c_sent s)).
        { eapply Forall_impl; [|exact L10]. intros x Hx. apply (out_told_grows st h [en] (requests s) []) in Hx. rewrite app_nil_r in Hx. auto. }
        pose proof (asks_out c (clock s) o (fst (c_eng s)) Ha) as NS.
        assert (ST : after st (h ++ [en]) = fst (sstep (fst (c_eng s)) o)) by (rewrite after_app, <- L1; reflexivity).
        assert (TOLD : forall a, says (snd (sstep (fst (c_eng s)) o)) a -> told st (h ++ [en]) (k_n t) (k_f t) a).
        { intros a Sa _ c' _ _. exists h, en, []. split; auto. split; auto. rewrite <- L1. exact Sa. }
        destruct (sstep (fst (c_eng s)) o) as [s' r]. cbn [fst snd] in *.
        assert (SW : forall a, says r a -> LI st (h ++ [en]) (set_run seng dispatched (swap dispatched i (mkTask dispatched (k_n t) (k_f t) (Reply dispatched a) true) (c_run s)) (set_eng seng dispatched (s', clock s) s))).
        { intros a Sa. constructor; cbn [c_eng c_num c_hold c_in c_run c_out c_sent set_run set_eng fst]; auto.
          - intros n f E. apply NIN; eauto. intros ->. eapply O2; eauto.
          - intros n f E. apply NIN; eauto. intros ->. eapply O3; eauto.
          - intros u H E. apply swap_del in H. destruct H as [->|H]; [discriminate|]. apply NIN; auto. apply L6; auto. eapply in_del; eauto.
          - intros u d' H E. apply in_swap in H. destruct H as [->|H]; [discriminate|auto].
          - intros u a' H E. apply swap_del in H. destruct H as [->|H]; [|apply told_grows; apply L9; auto; eapply in_del; eauto]. cbn in *. inversion E; subst. auto. }
        destruct r; try (apply SW; reflexivity); [|congruence].
        constructor; cbn [c_eng c_num c_hold c_in c_run c_out c_sent set_run set_lost set_eng fst]; auto.
        * intros n f E. apply NIN; eauto. intros ->. eapply O2; eauto.
        * intros n f E. apply NIN; eauto. intros ->. eapply O3; eauto.
        * intros u H E. apply NIN; auto. apply L6; auto. eapply in_del; eauto.
        * intros u d' H E. apply L7; auto. eapply in_del; eauto.
        * intros u a' H E. apply told_grows; apply L9; auto; eapply in_del; eauto.
      + rewrite app_nil_r.
        assert (SW : forall a, LI st h (set_run seng dispatched (swap dispatched i (mkTask dispatched (k_n t) (k_f t) (Reply dispatched a) true) (c_run s)) (set_eng seng dispatched (c_eng s) s))).
        { intro a. constructor; cbn; auto.
          - intros u H E. apply in_swap in H. destruct H as [->|H]; [discriminate|auto].
          - intros u d' H E. apply in_swap in H. destruct H as [->|H]; [discriminate|auto].
          - intros u a' H E. apply in_swap in H. destruct H as [->|H]; [|auto]. cbn in *. intros _ c Ec Hc. destruct (op_of_asks (clock s) c Hc) as (o & A & _). rewrite ED, Ec in EO. congruence. }
        destruct d as [c| |]; [destruct c|..]; apply SW.
    - rewrite app_nil_r. destruct (is_open _ _ s).
      + destruct (_ <? cap); auto. constructor; cbn; auto.
        * intros u H E. apply L6; auto. eapply in_del; eauto.
        * intros u d' H E. apply L7; auto. eapply in_del; eauto.
        * intros u a' H E. apply L9; auto; eapply in_del; eauto.
        * apply Forall_app in L10. destruct L10 as (A & B). repeat (apply Forall_app; split; auto). constructor; [|constructor]. intros n E. inversion E; subst n. exists (k_f t), r. auto.
      + same. intros u H. exists u. repeat split; auto. eapply in_del; eauto.
  Qed.
  Lemma LI_step st h s x : CI s -> LI st h s -> LI st (h ++ effect s x) (cstep s x).
  Proof.
    intros C L. pose proof L as [L1 L2 L3 L4 L5 L6 L7 L8 L9 L10].
    assert (SAME : forall s' : conn, fst (c_eng s') = fst (c_eng s) -> c_num s' = c_num s -> c_hold s' = c_hold s -> c_in s' = c_in s ->
      (forall t, In t (c_run s') -> exists t', In t' (c_run s) /\ k_n t = k_n t' /\ k_f t = k_f t' /\ k_at t = k_at t') -> requests s' = requests s ->
      (forall x, In x (c_out s' ++ c_sent s') -> fst x = None \/ In x (c_out s ++ c_sent s)) -> LI st h s') by (intros; eapply LI_same; eauto).
    assert (ID : forall t, In t (c_run s) -> exists t', In t' (c_run s) /\ k_n t = k_n t' /\ k_f t = k_f t' /\ k_at t = k_at t') by (intros t H; exists t; auto).
    assert (END : forall p, LI st h (sock_end seng dispatched p s)).
    { intro p. unfold sock_end. constructor; cbn; auto; try discriminate. apply Forall_app in L10. apply L10. }
    assert (ABORT : LI st h (abort seng dispatched s)).
    { unfold abort. constructor; cbn; auto; try contradiction; try discriminate; intros t; [intros I|intros d I|intros d I]; apply filter_In in I; destruct I; auto. }
    destruct x.
    10: destruct (nth_error (c_run s) i) as [t|] eqn:HT; [destruct (k_poll t) eqn:HP|].
    10: cbn [ConnModel.cstep]; rewrite HT, HP; apply LI_task; auto.
    all: cbn [effect]; rewrite ?HT, ?HP, ?app_nil_r; cbn [ConnModel.cstep]; rewrite ?HT, ?HP; auto.
    - destruct (is_open _ _ s); auto. destruct (feed_grows maxp (c_rd s) chunk) as (fs & E). constructor; cbn; auto; unfold ConnModel.requests; cbn; rewrite E.
      + eapply Forall_impl; [|exact L8]. intros. apply own_grows; auto.
      + eapply Forall_impl; [|exact L10]. intros a Ha. apply (out_told_grows st h [] _ fs) in Ha. rewrite app_nil_r in Ha. auto.
    - destruct (is_open _ _ s); auto. destruct (c_hold s) eqn:EH; auto. destruct (nth_error _ _) as [f|] eqn:EN; auto. constructor; cbn; auto.
      + intros n I. specialize (L3 n I). lia.
      + intros n f' E I. inversion E; subst. specialize (L3 _ I). lia.
    - destruct (c_hold s) as [[n0 f0]|] eqn:EH; auto. destruct (_ <? cap); auto. constructor; cbn; auto; try discriminate.
      intros n f Hf. apply in_app_or in Hf. destruct Hf as [Hf|[Hf|[]]]; eauto. inversion Hf; subst. eauto.
    - destruct (_ && _); auto.
    - destruct (_ && _); auto.
    - destruct (_ && _); auto.
    - destruct (c_hold s) eqn:EH; auto. destruct (c_out s) as [|o r] eqn:EO; auto. destruct (is_open _ _ s); auto. apply SAME; cbn; auto.
      intros x Hx. right. rewrite in_app_iff in *. cbn. rewrite in_app_iff in Hx. cbn in Hx. tauto.
    - destruct (c_in s) as [|[n0 f0] r] eqn:EI; auto. destruct (looping _ _ s); auto. constructor; cbn; auto.
      + intros n f Hf. apply (L5 n f). right; auto.
      + intros t Ht E. apply in_app_or in Ht. destruct Ht as [Ht|[<-|[]]]; auto. cbn. apply (L5 n0 f0). left; auto.
      + intros t d Ht E. apply in_app_or in Ht. destruct Ht as [Ht|[<-|[]]]; auto. discriminate.
      + intros t d Ht E. apply in_app_or in Ht. destruct Ht as [Ht|[<-|[]]]; auto. discriminate.
    - destruct (nth_error (c_run s) i) as [t|] eqn:E; auto. destruct (looping _ _ s); auto. apply SAME; cbn; auto. intros u H. apply in_swap in H. destruct H as [->|H]; auto.
      exists t. repeat split; auto. eapply nth_error_In; eauto.
    - destruct (nth_error (c_run s) i) as [t|] eqn:E; auto. destruct (looping _ _ s) eqn:EL; apply SAME; cbn; auto; intros u H.
      + apply in_swap in H. destruct H as [->|H]; auto. exists t. repeat split; auto. eapply nth_error_In; eauto.
      + apply in_del in H. auto.
    - destruct (c_bridge s); auto. destruct (c_push s); auto.
    - destruct (c_bridge s); auto. destruct (_ && _); auto. apply SAME; cbn; auto. intros x Hx. rewrite !in_app_iff in *. destruct Hx as [[Hx|[<-|[]]]|Hx]; auto.
    - destruct x as [o|d]; [|rewrite app_nil_r; apply SAME; cbn; auto]. set (en := (None, clock s, o)). change (list (option nat * N * sop)) with (list entry).
      assert (M : mine (h ++ [en : entry]) = mine h) by (rewrite mine_app; cbn; apply app_nil_r).
      constructor; cbn [c_eng c_num c_hold c_in c_run c_out c_sent set_eng fst]; unfold entry in *; rewrite ?M; auto.
      + cbn [s_xstep fst]. rewrite after_app, <- L1. reflexivity.
      + apply Forall_app. split; auto. constructor; [|constructor]. intros n E. discriminate.
      + intros. apply told_grows; auto.
      + eapply Forall_impl; [|exact L10]. intros a Ha. apply (out_told_grows st h [en] (requests s) []) in Ha. rewrite app_nil_r in Ha. auto.
    - destruct (c_phase s) as [|[|]| | |]; auto; (eapply LI_same; [exact ABORT|reflexivity..| |reflexivity|]; cbn; [intros t H; exists t; auto|auto]).
    - destruct (c_phase s); auto; apply SAME; cbn; auto.
    - destruct (c_phase s); auto; apply SAME; cbn; auto.
  Qed.
  Lemma LI_run : forall xs st h s, CI s -> LI st h s -> LI st (h ++ hist s xs) (crun s xs).
  Proof.
    induction xs as [|x xs IH]; intros st h s C L; [cbn; rewrite app_nil_r; auto|]. cbn [hist ConnModel.crun]. rewrite app_assoc. apply IH.
    - apply CI_step; auto.
    - apply LI_step; auto.
  Qed.

  (** the statement *)
  Notation linearized := (linearized json_ok ttl_of emsg ticks dttl imax maxp cap).
  Notation responses := (ConnModel.responses seng dispatched).
  Lemma crun_app' : forall xs ys s, crun s (xs ++ ys) = crun (crun s xs) ys.
  Proof. apply crun_app. Qed.
  Lemma told_pairs st h fs : forall l, Forall (out_told st h fs) l -> Forall (ConnProofs.out_ok seng dispatched (s_start json_ok) hs fs) l ->
    Forall2 (fun n o => exists f r, nth_error fs n = Some f /\ o = OResponse (in_id f) r /\ told st h n f r) (nums l) (filter is_response (map snd l)).
  Proof.
    induction 1 as [|[k o] l H _ IH]; intro F; cbn; [constructor|]. inversion F as [|x l' Fo Fl]; subst. unfold ConnProofs.out_ok in Fo. cbn in Fo. destruct k as [n|].
    - destruct (H n eq_refl) as (f & r & A & B & C). cbn in B. rewrite B. cbn. constructor; auto. exists f, r. auto.
    - rewrite Fo. auto.
  Qed.
  Lemma F2_impl {A B} (P Q : A -> B -> Prop) (PQ : forall a b, P a b -> Q a b) : forall l m, Forall2 P l m -> Forall2 Q l m.
  Proof. induction 1; constructor; auto. Qed.
  Theorem linearizable e : exists H, linearized e H.
  Proof.
    exists (hist (conn0 seng dispatched e)). intros xs. cbv zeta. set (s := crun (conn0 seng dispatched e) xs).
    pose proof (CI_run _ _ sx (s_start json_ok) hs (s_xstep ticks dttl imax) (fun e => e) (fun e => e) maxp cap xs _ (CI_0 _ _ (s_start json_ok) hs e)) as C. fold s in C.
    pose proof (LI_run xs (fst e) [] _ (CI_0 _ _ (s_start json_ok) hs e) (LI_0 e)) as L. fold s in L. cbn [app] in L. pose proof L as [L1 L2 L3 L4 L5 L6 L7 L8 L9 L10].
    split; [exact L1|]. split; [apply others_hist|]. split; [exact L2|]. split.
    { intros en n I W. rewrite Forall_forall in L8. destruct (L8 en I n W) as (f & c & A1 & A2 & A3 & A4). exists f, c. split; [exact A1|]. split; [split; auto|auto]. }
    split.
    { exists (nums (c_sent s)). split.
      - apply (NoDup_count_occ Nat.eq_dec). intro n. pose proof (ci_cnt _ _ _ _ _ C n) as Y. rewrite cnt_seq in Y. change (count_occ Nat.eq_dec (nums (c_sent s)) n) with (cnt n (nums (c_sent s))).
        destruct (_ <? _)%nat; lia.
      - assert (W : forall f r n, told (fst e) (hist (conn0 seng dispatched e) xs) n f r -> forall c, wants json_ok f c -> is_store c ->
          exists h1 e0 h2, hist (conn0 seng dispatched e) xs = h1 ++ e0 :: h2 /\ who e0 = Some n /\ says (snd (sstep (after (fst e) h1) (act e0))) r).
        { intros f r n T c (W1 & W2) Sc. exact (T W1 c W2 Sc). }
        eapply F2_impl; [|apply (told_pairs (fst e) (hist (conn0 seng dispatched e) xs) (requests s) (c_sent s))].
        + cbv beta. intros n o (f & r & A1 & A2 & A3). exists f, r. split; [exact A1|]. split; auto. exact (W f r n A3).
        + apply Forall_app in L10. apply L10.
        + pose proof (ci_out _ _ _ _ _ C) as Y. apply Forall_app in Y. apply Y. }
    intro ys. exists (hist s ys). split; [apply hist_app|]. unfold ConnStoreSpec.clock, state. rewrite (crun_app' xs ys (conn0 seng dispatched e)). apply times.
  Qed.

  (** A client that has its answer before it asks again sees its own write. *)
  Definition sweep_before (b : N) (o : sop) : Prop := match o with OSweep t | OSweepKey t _ => t < b | _ => True end.
  Lemma kept_key k v ex : forall h st, NoDup (akeys st) -> sget k st = Some (mkEntry v (Some ex)) -> Forall (fun e => ~ writes_key k (act e) /\ sweep_before ex (act e)) h ->
    sget k (after st h) = Some (mkEntry v (Some ex)).
  Proof.
    induction h as [|e h IH]; intros st ND G F; auto. inversion F as [|x y (F1 & F2) Fh]; subst. change (after st (e :: h)) with (after (fst (sstep st (act e))) h). apply IH; auto.
    - apply step_NoDup; auto.
    - destruct (act e) as [t k' v' l|t k'|k'|t|t k']; cbn [sstep] in *; cbn [writes_key sweep_before] in *.
      + unfold StoreModel.sstep. destruct (expiry _ _ _ _ _); cbn [fst]; auto. unfold do_set, sget. rewrite (aget_aput_other beqb beqb_eq); auto.
      + exact G.
      + unfold StoreModel.sstep, do_del, sget. cbn [fst]. rewrite (aget_adel_other beqb beqb_eq); auto.
      + unfold StoreModel.sstep, do_sweep. cbn [fst]. rewrite sget_filter by auto. rewrite G. unfold kept. cbn. replace (t <? ex) with true by (symmetry; apply N.ltb_lt; auto). auto.
      + unfold StoreModel.sstep. cbn [fst]. rewrite sget_filter by auto. rewrite G. unfold kept. cbn. replace (t <? ex) with true by (symmetry; apply N.ltb_lt; auto). rewrite orb_true_r. auto.
  Qed.

  Lemma all_after e xs ys : forall H, linearized e H -> exists fs, received json_ok ttl_of emsg ticks dttl imax maxp cap e (xs ++ ys) = received json_ok ttl_of emsg ticks dttl imax maxp cap e xs ++ fs.
  Proof.
    intros H _. unfold received, state. rewrite (crun_app' xs ys (conn0 seng dispatched e)). generalize (crun (conn0 seng dispatched e) xs). clear.
    induction ys as [|y ys IH]; intro s; [exists []; rewrite app_nil_r; auto|]. cbn [ConnModel.crun]. destruct (IH (cstep s y)) as (fs & E).
    assert (exists gs, requests (cstep s y) = requests s ++ gs) as (gs & G); [|exists (gs ++ fs); rewrite E, G, <- app_assoc; auto].
    clear. assert (Z : exists gs, requests s = requests s ++ gs) by (exists []; rewrite app_nil_r; auto).
    destruct y; cbn [ConnModel.cstep]; unfold task_step, sock_end, abort;
      try (repeat match goal with |- context[match ?e with _ => _ end] => destruct e eqn:? end; cbn; exact Z).
    destruct (is_open _ _ s); auto. destruct (feed_grows maxp (c_rd s) chunk) as (fs & E). exists fs. exact E.
  Qed.
  Lemma by_id (fs : list inframe) n m f g : NoDup (map in_id fs) -> nth_error fs n = Some f -> nth_error fs m = Some g -> in_id f = in_id g -> n = m.
  Proof.
    intros ND A B E. apply (proj1 (NoDup_nth_error (map in_id fs)) ND); [rewrite map_length; apply nth_error_Some; congruence|]. rewrite !nth_error_map, A, B. cbn. congruence.
  Qed.
  Lemma F2_in {A B} (P : A -> B -> Prop) : forall l m, Forall2 P l m -> forall b, In b m -> exists a, In a l /\ P a b.
  Proof. induction 1 as [|a b l m H _ IH]; intros x I; [destruct I|]. destruct I as [<-|I]; [exists a; split; auto; left; auto|]. destruct (IH x I) as (a' & A1 & A2). exists a'. split; auto. right; auto. Qed.
  Lemma NoDup_pre {A} : forall (l m : list A), NoDup (l ++ m) -> NoDup l.
  Proof. induction l as [|x l IH]; intros m H; [constructor|]. inversion H; subst. constructor; [rewrite in_app_iff in *; tauto|eauto]. Qed.
  (** the entry of a response *)
  Lemma entry_of e H xs n f r c : linearized e H -> let R := received json_ok ttl_of emsg ticks dttl imax maxp cap e xs in
    NoDup (map in_id R) -> nth_error R n = Some f -> wants json_ok f c -> is_store c -> In (OResponse (in_id f) r) (answered json_ok ttl_of emsg ticks dttl imax maxp cap e xs) ->
    exists h1 en h2, H xs = h1 ++ en :: h2 /\ who en = Some n /\ asks ttl_of c (time en) (act en) /\ says (snd (sstep (after (fst e) h1) (act en))) r.
  Proof.
    intros LH R ND NF W Sc I. destruct (LH xs) as (_ & _ & _ & OWN & (ns & N1 & F2) & _). destruct (F2_in _ _ _ F2 _ I) as (n' & _ & f' & r' & A1 & A2 & A3).
    inversion A2. subst r'. assert (n' = n) by (eapply by_id; eauto). subst n'. fold R in A1. rewrite NF in A1. inversion A1; subst f'.
    destruct (A3 c W Sc) as (h1 & en & h2 & B1 & B2 & B3). exists h1, en, h2. repeat split; auto.
    destruct (OWN en n) as (f0 & c0 & C1 & (C2 & C2') & C3); [rewrite B1; apply in_or_app; right; left; auto|auto|]. fold R in C1. rewrite NF in C1. inversion C1; subst f0.
    destruct W as (W1 & W2). congruence.
  Qed.
  Theorem own_write e xs ys zs n m f g k j v r :
    let rcv := received json_ok ttl_of emsg ticks dttl imax maxp cap e in let ans := answered json_ok ttl_of emsg ticks dttl imax maxp cap e in
    let clk := ConnStoreSpec.clock json_ok ttl_of emsg ticks dttl imax maxp cap e in
    NoDup (akeys (fst e)) -> NoDup (map in_id (rcv (xs ++ ys ++ zs))) ->
    (length (rcv xs) <= n)%nat -> nth_error (rcv (xs ++ ys)) n = Some f -> wants json_ok f (SSet k j v) -> In (OResponse (in_id f) ROk) (ans (xs ++ ys)) ->
    (length (rcv (xs ++ ys)) <= m)%nat -> nth_error (rcv (xs ++ ys ++ zs)) m = Some g -> wants json_ok g (SGet k) -> In (OResponse (in_id g) r) (ans (xs ++ ys ++ zs)) ->
    (forall i h c, i <> n -> nth_error (rcv (xs ++ ys ++ zs)) i = Some h -> wants json_ok h c -> ~ cmd_writes k c) ->
    Forall (fun o => ~ writes_key k o /\ sweep_by (clk (xs ++ ys ++ zs)) o) (others (xs ++ ys ++ zs)) ->
    clk (xs ++ ys ++ zs) < clk xs + life ttl_of ticks dttl j -> r = RData v.
  Proof.
    intros rcv ans clk NK ND Ln NF WF IF Lm MG WG IG OWNW OTH LIFE. destruct (linearizable e) as (H & LH).
    destruct (all_after e (xs ++ ys) zs H LH) as (fs & EF). rewrite <- app_assoc in EF. fold rcv in EF.
    assert (ND1 : NoDup (map in_id (rcv (xs ++ ys)))) by (rewrite EF, map_app in ND; eapply NoDup_pre; eauto).
    destruct (entry_of e H (xs ++ ys) n f ROk _ LH ND1 NF WF Logic.I IF) as (h1 & e1 & h2 & A1 & A2 & A3 & A4).
    destruct (entry_of e H (xs ++ ys ++ zs) m g r _ LH ND MG WG Logic.I IG) as (g1 & e2 & g2 & B1 & B2 & B3 & B4).
    destruct (LH xs) as (_ & _ & _ & OWN0 & _ & EXT0). destruct (EXT0 ys) as (l0 & E0 & T0).
    destruct (LH (xs ++ ys)) as (_ & _ & ND2 & OWN1 & _ & EXT1). destruct (EXT1 zs) as (l1 & E1 & T1). rewrite <- app_assoc in E1, T1.
    destruct (LH (xs ++ ys ++ zs)) as (_ & OT & NDM & OWN2 & _ & _).
    assert (TE : clk xs <= time e1).
    { assert (I : In e1 (H xs ++ l0)) by (rewrite <- E0, A1; apply in_or_app; right; left; auto). apply in_app_or in I. destruct I as [I|I].
      - destruct (OWN0 e1 n I A2) as (f0 & c0 & C1 & _). exfalso. assert (nth_error (rcv xs) n <> None) by (unfold rcv; congruence). apply nth_error_Some in H0. lia.
      - rewrite Forall_forall in T0. apply (T0 e1 I). }
    assert (TB : forall en, In en (H (xs ++ ys ++ zs)) -> time en <= clk (xs ++ ys ++ zs)).
    { intros en I. destruct (LH []) as (_ & OT0 & _ & OWN & _ & X). destruct (X (xs ++ ys ++ zs)) as (l & X1 & X2). cbn [app] in X1, X2. rewrite X1 in I. apply in_app_or in I. destruct I as [I|I].
      - exfalso. destruct (who en) as [q|] eqn:Wq; [destruct (OWN en q I Wq) as (f0 & c0 & C1 & _); destruct q; discriminate|].
        assert (Y : In en (filter is_other (H []))) by (apply filter_In; split; auto; unfold is_other; rewrite Wq; auto). apply (in_map act) in Y. rewrite OT0 in Y. destruct Y.
      - rewrite Forall_forall in X2. apply (X2 en I). }
    (* where the second entry is *)
    assert (SP : exists l1', g1 = (h1 ++ e1 :: h2) ++ l1').
    { rewrite E1, A1 in B1. apply app_eq_app in B1. destruct B1 as (w & [(P1 & P2)|(P1 & P2)]); [|eauto].
      destruct w as [|x w]; [exists []; rewrite app_nil_r in P1; rewrite app_nil_r; auto|]. exfalso. inversion P2; subst x.
      assert (I : In e2 (H (xs ++ ys))) by (rewrite A1, P1; apply in_or_app; right; left; auto). destruct (OWN1 e2 m I B2) as (f0 & c0 & C1 & _).
      assert (nth_error (rcv (xs ++ ys)) m <> None) by (unfold rcv; congruence). apply nth_error_Some in H0. lia. }
    destruct SP as (l1' & SP). cbn [asks] in A3, B3. rewrite A3 in A4. unfold StoreModel.sstep in A4. destruct (expiry ticks dttl imax (time e1) (ttl_of j)) as [ex|] eqn:EX; [|destruct A4].
    assert (EXL : ex = time e1 + life ttl_of ticks dttl j) by (unfold expiry in EX; unfold life; destruct (_ <=? imax); [inversion EX; auto|discriminate]).
    assert (BEF : after (fst e) g1 = after (after (fst e) (h1 ++ [e1])) (h2 ++ l1')).
    { rewrite <- after_app. f_equal. rewrite SP. rewrite <- !app_assoc. reflexivity. }
    assert (GK : sget k (after (fst e) g1) = Some (mkEntry v (Some ex))).
    { rewrite BEF. assert (NDK : forall h st, NoDup (akeys st) -> NoDup (akeys (after st h))) by (clear; induction h as [|x h IH]; intros st N; auto; apply (IH (fst (sstep st (act x)))); apply step_NoDup; auto).
      apply kept_key.
      - apply NDK; auto.
      - rewrite after_app. change (after (after (fst e) h1) [e1]) with (fst (sstep (after (fst e) h1) (act e1))). rewrite A3. unfold StoreModel.sstep. rewrite EX. cbn [fst]. unfold do_set, sget. apply (aget_aput_same beqb beqb_eq).
      - apply Forall_forall. intros en I.
        assert (IA : In en (H (xs ++ ys ++ zs))) by (rewrite B1, SP; rewrite !in_app_iff; cbn; rewrite in_app_iff in I; tauto).
        destruct (who en) as [q|] eqn:Wq.
        + destruct (OWN2 en q IA Wq) as (f0 & c0 & C1 & C2 & C3).
          assert (QN : q <> n).
          { intros ->. rewrite B1, SP in NDM. rewrite <- !app_assoc in NDM. cbn [app] in NDM. rewrite mine_app in NDM. unfold mine at 2 in NDM. cbn [flat_map] in NDM. rewrite A2 in NDM. fold mine in NDM. cbn [app] in NDM.
            apply NoDup_remove_2 in NDM. apply NDM. apply in_or_app. right. apply in_flat_map. exists en. split; [rewrite !in_app_iff; rewrite in_app_iff in I; tauto|]. rewrite Wq. left; auto. }
          pose proof (OWNW q f0 c0 QN C1 C2) as NW. destruct c0; cbn in C3; try contradiction; rewrite C3; cbn in *; auto.
        + assert (Y : In (act en) (others (xs ++ ys ++ zs))) by (rewrite <- OT; apply in_map; apply filter_In; split; auto; unfold is_other; rewrite Wq; auto).
          rewrite Forall_forall in OTH. destruct (OTH _ Y) as (O1 & O2). split; auto. destruct (act en); cbn in *; auto; lia. }
    rewrite B3 in B4. unfold StoreModel.sstep in B4. cbn [snd] in B4. unfold do_get in B4. rewrite GK in B4. cbn in B4.
    assert (time e2 <= clk (xs ++ ys ++ zs)) by (apply TB; rewrite B1; apply in_or_app; right; left; auto).
    destruct (N.ltb_spec ex (time e2)) as [L|L]; [lia|]. exact B4.
  Qed.
End Lin.
