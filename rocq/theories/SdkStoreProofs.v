(** Reads after writes over connections, on top of the order of ConnStoreProofs. *)
From Verif Require Import LibBase LibMap WireModel CmdModel StoreModel StoreProofs ConnModel ConnStore ConnStoreSpec ConnStoreProofs.

Section Reads.
  Variable json_ok : N -> bytes -> bool.
  Variable ttl_of : bytes -> option N.
  Variable emsg : dispatched -> bytes.
  Variables ticks dttl imax : N.
  Variables maxp cap : N.
  Variable e : seng.
  Notation lin := (linearized json_ok ttl_of emsg ticks dttl imax maxp cap e).
  Notation rcv := (received json_ok ttl_of emsg ticks dttl imax maxp cap e).
  Notation ans := (answered json_ok ttl_of emsg ticks dttl imax maxp cap e).
  Notation clk := (ConnStoreSpec.clock json_ok ttl_of emsg ticks dttl imax maxp cap e).
  Notation after := (ConnStoreSpec.after ticks dttl imax).
  Notation sstep := (StoreModel.sstep ticks dttl imax).

  Lemma after_app' st h1 h2 : after st (h1 ++ h2) = after (after st h1) h2.
  Proof. unfold ConnStoreSpec.after. apply fold_left_app. Qed.
  Lemma after_nodup h : forall st, NoDup (akeys st) -> NoDup (akeys (after st h)).
  Proof. induction h as [|x h IH]; intros st N; auto. apply (IH (fst (sstep st (act x)))). apply step_NoDup; auto. Qed.

  (** the entry of a response to a request received after [xs] *)
  Lemma read_entry H xs zs m g k r : lin H -> NoDup (map in_id (rcv (xs ++ zs))) -> (length (rcv xs) <= m)%nat -> nth_error (rcv (xs ++ zs)) m = Some g -> wants json_ok g (SGet k) ->
    In (OResponse (in_id g) r) (ans (xs ++ zs)) ->
    exists l e2 g2, H (xs ++ zs) = (H xs ++ l) ++ e2 :: g2 /\ act e2 = OGet (time e2) k /\ says (snd (sstep (after (fst e) (H xs ++ l)) (act e2))) r /\ clk xs <= time e2 /\ time e2 <= clk (xs ++ zs).
  Proof.
    intros LH ND Lm MG WG IG. destruct (entry_of json_ok ttl_of emsg ticks dttl imax maxp cap e H (xs ++ zs) m g r _ LH ND MG WG Logic.I IG) as (g1 & e2 & g2 & B1 & B2 & B3 & B4).
    destruct (LH xs) as (_ & _ & _ & OWN1 & _ & EXT1). destruct (EXT1 zs) as (l1 & E1 & T1).
    assert (NI : ~ In e2 (H xs)).
    { intro I. destruct (OWN1 e2 m I B2) as (f0 & c0 & C1 & _). assert (nth_error (rcv xs) m <> None) by congruence. apply nth_error_Some in H0. lia. }
    assert (SP : exists l, g1 = H xs ++ l).
    { rewrite E1 in B1. apply app_eq_app in B1. destruct B1 as (w & [(P1 & P2)|(P1 & P2)]); [|eauto].
      destruct w as [|x w]; [exists []; rewrite app_nil_r in *; auto|]. exfalso. inversion P2; subst x. apply NI. rewrite P1. apply in_or_app. right. left. auto. }
    destruct SP as (l & ->). exists l, e2, g2. split; [rewrite B1; rewrite <- app_assoc; auto|]. split; auto. split; auto.
    assert (I : In e2 l1). { assert (X : H xs ++ l1 = H xs ++ (l ++ e2 :: g2)) by (rewrite <- E1, B1, <- app_assoc; reflexivity). apply app_inv_head in X. rewrite X. apply in_or_app. right. left. auto. }
    rewrite Forall_forall in T1. apply (T1 e2 I).
  Qed.

  (** the time of an entry *)
  Lemma time_bound H xs en : lin H -> In en (H xs) -> time en <= clk xs.
  Proof.
    intros LH I. destruct (LH []) as (_ & OT0 & _ & OWN & _ & X). destruct (X xs) as (l & X1 & X2). cbn [app] in X1, X2. rewrite X1 in I. apply in_app_or in I. destruct I as [I|I].
    - exfalso. destruct (who en) as [q|] eqn:Wq; [destruct (OWN en q I Wq) as (f0 & c0 & C1 & _); destruct q; discriminate|].
      assert (Y : In en (filter is_other (H []))) by (apply filter_In; split; auto; unfold is_other; rewrite Wq; auto). apply (in_map act) in Y. rewrite OT0 in Y. destruct Y.
    - rewrite Forall_forall in X2. apply (X2 en I).
  Qed.
  Lemma late_entry H xs ys en n : lin H -> In en (H (xs ++ ys)) -> who en = Some n -> (length (rcv xs) <= n)%nat -> clk xs <= time en.
  Proof.
    intros LH I W L. destruct (LH xs) as (_ & _ & _ & OWN0 & _ & EXT0). destruct (EXT0 ys) as (l0 & E0 & T0). rewrite E0 in I. apply in_app_or in I. destruct I as [I|I].
    - destruct (OWN0 en n I W) as (f0 & c0 & C1 & _). exfalso. assert (nth_error (rcv xs) n <> None) by congruence. apply nth_error_Some in H0. lia.
    - rewrite Forall_forall in T0. apply (T0 en I).
  Qed.

  (** What a key holds after operations that do not write it: what it held, or nothing. *)
  Lemma left_key k : forall h st x, NoDup (akeys st) -> (sget k st = None \/ sget k st = Some x) -> Forall (fun e => ~ writes_key k (act e)) h ->
    sget k (after st h) = None \/ sget k (after st h) = Some x.
  Proof.
    induction h as [|en h IH]; intros st x ND G F; auto. inversion F as [|y z F1 Fh]; subst. change (after st (en :: h)) with (after (fst (sstep st (act en))) h). apply IH; auto.
    - apply step_NoDup; auto.
    - destruct (act en) as [t k' v' l|t k'|k'|t|t k']; cbn [writes_key] in *.
      + unfold StoreModel.sstep. destruct (expiry _ _ _ _ _); cbn [fst]; auto. unfold do_set, sget in *. rewrite (aget_aput_other beqb beqb_eq); auto.
      + exact G.
      + unfold StoreModel.sstep, do_del, sget in *. cbn [fst]. rewrite (aget_adel_other beqb beqb_eq); auto.
      + unfold StoreModel.sstep, do_sweep. cbn [fst]. rewrite sget_filter by auto. destruct G as [-> | ->]; auto. destruct (kept _ _); auto.
      + unfold StoreModel.sstep. cbn [fst]. rewrite sget_filter by auto. destruct G as [-> | ->]; auto. destruct (_ || _); auto.
  Qed.
  Lemma gone_key k : forall h st, NoDup (akeys st) -> sget k st = None -> Forall (fun e => ~ writes_key k (act e)) h -> sget k (after st h) = None.
  Proof.
    induction h as [|en h IH]; intros st ND G F; auto. inversion F as [|y z F1 Fh]; subst. change (after st (en :: h)) with (after (fst (sstep st (act en))) h). apply IH; auto.
    - apply step_NoDup; auto.
    - destruct (act en) as [t k' v' l|t k'|k'|t|t k']; cbn [writes_key] in *.
      + unfold StoreModel.sstep. destruct (expiry _ _ _ _ _); cbn [fst]; auto. unfold do_set, sget in *. rewrite (aget_aput_other beqb beqb_eq); auto.
      + exact G.
      + unfold StoreModel.sstep, do_del, sget in *. cbn [fst]. rewrite (aget_adel_other beqb beqb_eq); auto.
      + unfold StoreModel.sstep, do_sweep. cbn [fst]. rewrite sget_filter by auto. rewrite G. auto.
      + unfold StoreModel.sstep. cbn [fst]. rewrite sget_filter by auto. rewrite G. auto.
  Qed.

  (** the answer to a GET at time [t] behind a write and operations that are no writes *)
  Lemma said_set st h1 t0 k v o ex h t r : NoDup (akeys st) -> expiry ticks dttl imax t0 o = Some ex -> Forall (fun e => ~ writes_key k (act e)) h -> forall w, act w = OSet t0 k v o ->
    says (snd (sstep (after st (h1 ++ w :: h)) (OGet t k))) r ->
    (ex < t -> r = RNull) /\ (t <= ex -> Forall (fun e => sweep_before ex (act e)) h -> r = RData v).
  Proof.
    intros ND EX F w W S. rewrite after_app' in S. change (after (after st h1) (w :: h)) with (after (fst (sstep (after st h1) (act w))) h) in S. rewrite W in S.
    pose proof (after_nodup h1 st ND) as ND1. pose proof (step_NoDup ticks dttl imax (after st h1) (OSet t0 k v o) ND1) as ND2.
    assert (G : sget k (fst (sstep (after st h1) (OSet t0 k v o))) = Some (mkEntry v (Some ex))).
    { unfold StoreModel.sstep. rewrite EX. cbn [fst]. unfold do_set, sget. apply (aget_aput_same beqb beqb_eq). }
    set (s1 := fst (sstep (after st h1) (OSet t0 k v o))) in *. cbn [StoreModel.sstep snd] in S. unfold do_get in S. split.
    - intro L. destruct (left_key k h s1 _ ND2 (or_intror G) F) as [E|E]; rewrite E in S; cbn [e_exp e_val] in S; [exact S|]. rewrite (proj2 (N.ltb_lt ex t) L) in S. exact S.
    - intros L SW. assert (K : sget k (after s1 h) = Some (mkEntry v (Some ex))).
      { apply kept_key; auto. rewrite Forall_forall in *. intros x I. split; auto. }
      rewrite K in S. cbn [e_exp e_val] in S. rewrite (proj2 (N.ltb_ge ex t) L) in S. exact S.
  Qed.
  Lemma said_del st h1 k h t r : NoDup (akeys st) -> Forall (fun e => ~ writes_key k (act e)) h -> forall w, act w = ODel k ->
    says (snd (sstep (after st (h1 ++ w :: h)) (OGet t k))) r -> r = RNull.
  Proof.
    intros ND F w W S. rewrite after_app' in S. change (after (after st h1) (w :: h)) with (after (fst (sstep (after st h1) (act w))) h) in S. rewrite W in S.
    assert (ND2 : NoDup (akeys (fst (sstep (after st h1) (ODel k))))) by (apply step_NoDup; apply after_nodup; auto).
    assert (G : sget k (fst (sstep (after st h1) (ODel k))) = None).
    { unfold StoreModel.sstep. cbn [fst]. unfold do_del, sget. apply (aget_adel_same beqb). }
    set (s1 := fst (sstep (after st h1) (ODel k))) in *. cbn [StoreModel.sstep snd] in S. unfold do_get in S. rewrite (gone_key k h _ ND2 G F) in S. exact S.
  Qed.
  Lemma said_none h k t r : Forall (fun e => ~ writes_key k (act e)) h -> says (snd (sstep (after [] h) (OGet t k))) r -> r = RNull.
  Proof. intros F S. cbn [StoreModel.sstep snd] in S. unfold do_get in S. rewrite (gone_key k h []) in S; auto. constructor. Qed.

  (** entries that do not write, behind a write of this connection *)
  Lemma others_in H xs en : lin H -> In en (H xs) -> who en = None -> In (act en) (others xs).
  Proof. intros LH I W. destruct (LH xs) as (_ & O & _). rewrite <- O. apply in_map. apply filter_In. split; auto. unfold is_other. rewrite W. auto. Qed.
  Lemma own_writes H xs en q k : lin H -> In en (H xs) -> who en = Some q -> (forall f c, nth_error (rcv xs) q = Some f -> wants json_ok f c -> ~ cmd_writes k c) -> ~ writes_key k (act en).
  Proof. intros LH I W Q. destruct (LH xs) as (_ & _ & _ & OWN & _). destruct (OWN en q I W) as (f & c & C1 & C2 & C3). specialize (Q f c C1 C2). destruct c; cbn in C3; try contradiction; rewrite C3; cbn in *; auto. Qed.
  Lemma behind_own H xs n e1 h1 h k : lin H -> (exists g, H xs = (h1 ++ e1 :: h) ++ g) -> who e1 = Some n ->
    (forall i f c, i <> n -> nth_error (rcv xs) i = Some f -> wants json_ok f c -> ~ cmd_writes k c) -> Forall (fun o => ~ writes_key k o) (others xs) ->
    Forall (fun e => ~ writes_key k (act e)) h.
  Proof.
    intros LH (g & E) W OWNW OTH. apply Forall_forall. intros en I. assert (IA : In en (H xs)) by (rewrite E; apply in_or_app; left; apply in_or_app; right; right; auto).
    destruct (who en) as [q|] eqn:Wq.
    - eapply own_writes; eauto. intros f c. apply OWNW. intros ->. destruct (LH xs) as (_ & _ & NDM & _). rewrite E in NDM. rewrite <- app_assoc in NDM. cbn [app] in NDM. rewrite mine_app in NDM. unfold mine at 2 in NDM. cbn [flat_map] in NDM. rewrite W in NDM. fold mine in NDM. cbn [app] in NDM.
      apply NoDup_remove_2 in NDM. apply NDM. apply in_or_app. right. apply in_flat_map. exists en. split; [apply in_or_app; auto|]. rewrite Wq. left; auto.
    - pose proof (others_in H xs en LH IA Wq) as X. rewrite Forall_forall in OTH. auto.
  Qed.
  Lemma sweeps_by H xs h t : lin H -> (forall en, In en h -> In en (H xs)) -> Forall (sweep_by t) (others xs) -> forall ex, t < ex -> Forall (fun e => sweep_before ex (act e)) h.
  Proof.
    intros LH S O ex L. apply Forall_forall. intros en I. specialize (S en I). destruct (who en) as [q|] eqn:W.
    - destruct (LH xs) as (_ & _ & _ & OWN & _). destruct (OWN en q S W) as (f & c & _ & _ & C3). destruct c; cbn in C3; try contradiction; rewrite C3; cbn; auto.
    - pose proof (others_in H xs en LH S W) as X. rewrite Forall_forall in O. specialize (O _ X). destruct (act en); cbn in *; auto; lia.
  Qed.

  (** the operation of another client, answered at once *)
  Lemma other_entry H xs o zs : lin H -> exists h1 e1 h2, H (xs ++ [KExt _ (SXOp o)]) = h1 ++ e1 :: h2 /\ act e1 = o /\ Forall (fun e => is_other e = false) h2 /\
    exists l, H ((xs ++ [KExt _ (SXOp o)]) ++ zs) = (h1 ++ e1 :: h2) ++ l /\ map act (filter is_other l) = others zs.
  Proof.
    intros LH. destruct (LH (xs ++ [KExt _ (SXOp o)])) as (_ & O & _ & _ & _ & EXT). unfold others in O. rewrite flat_map_app in O. cbn [flat_map app] in O.
    assert (X : forall h w, map act (filter is_other h) = w ++ [o] -> exists h1 e1 h2, h = h1 ++ e1 :: h2 /\ act e1 = o /\ Forall (fun e => is_other e = false) h2).
    { clear. induction h as [|x h IH] using rev_ind; intros w E; [destruct w; discriminate|]. rewrite filter_app in E. cbn [filter] in E. destruct (is_other x) eqn:IO.
      - rewrite map_app in E. cbn [map] in E. apply app_inj_tail in E. destruct E as (_ & E). exists h, x, []. auto.
      - rewrite app_nil_r in E. destruct (IH _ E) as (h1 & e1 & h2 & -> & A & B). exists h1, e1, (h2 ++ [x]). rewrite <- app_assoc. split; auto. split; auto. apply Forall_app. split; auto. }
    destruct (X _ _ O) as (h1 & e1 & h2 & A & B & C). exists h1, e1, h2. repeat (split; auto). destruct (EXT zs) as (l & E & _). exists l. split; [rewrite E, A; auto|].
    destruct (LH ((xs ++ [KExt _ (SXOp o)]) ++ zs)) as (_ & O2 & _). rewrite E, filter_app, map_app in O2. unfold others in O2. rewrite flat_map_app in O2. change (flat_map _ zs) with (others zs) in O2.
    rewrite flat_map_app in O2. cbn [flat_map app] in O2. rewrite O in O2. apply app_inv_head in O2. auto.
  Qed.
End Reads.
