(** Each group operation preserves the invariant and changes the status of each
    message as the history says. *)
From Verif Require Import LibBase LibMap StreamTopicModel StreamGroupModel StreamGroupSpec StreamGroupProofs.

Lemma pget_filter (f : N * pmsg -> bool) s m : NoDup (akeys m) ->
  pget s (filter f m) = match pget s m with Some p => if f (s, p) then Some p else None | None => None end.
Proof.
  intro ND. destruct (pget s m) as [p|] eqn:E.
  - destruct (f (s, p)) eqn:F.
    + apply in_pget; [apply nodup_filter_keys; auto|]. apply filter_In. split; [apply pget_in; auto|auto].
    + destruct (pget s (filter f m)) as [q|] eqn:E2; auto. apply pget_in, filter_In in E2. destruct E2 as (E2 & F2).
      apply in_pget in E2; auto. congruence.
  - destruct (pget s (filter f m)) as [q|] eqn:E2; auto. apply pget_in, filter_In in E2. destruct E2 as (E2 & _).
    apply in_pget in E2; auto. congruence.
Qed.

Lemma in_order_In ord l kv : NoDup (akeys l) -> (In kv (in_order_of ord l) <-> In kv l).
Proof.
  intro ND. unfold in_order_of. rewrite in_app_iff, in_flat_map, filter_In. destruct kv as [s p]. split.
  - intros [(s' & _ & H)|(H & _)]; auto. destruct (pget s' l) as [q|] eqn:E; simpl in H; [|contradiction].
    destruct H as [H|[]]. inversion H; subst. apply pget_in; auto.
  - intro H. destruct (nmem s ord) eqn:E.
    + left. exists s. split; [apply nodup_In, nmem_In; auto|]. rewrite (in_pget _ _ _ ND H). simpl; auto.
    + right. split; auto. simpl. rewrite E. reflexivity.
Qed.
Lemma nodup_flat (l : list (N * pmsg)) ord : NoDup ord ->
  NoDup (akeys (flat_map (fun s => match pget s l with Some p => [(s, p)] | None => [] end) ord)) /\
  forall s, In s (akeys (flat_map (fun s => match pget s l with Some p => [(s, p)] | None => [] end) ord)) -> In s ord.
Proof.
  induction ord as [|x ord IH]; simpl; intro H; [split; [constructor|auto]|]. inversion H as [|? ? H1 H2]; subst.
  destruct (IH H2) as (A & B). destruct (pget x l); simpl.
  - split; [constructor; auto|]. intros s [E|E]; auto.
  - split; auto.
Qed.
Lemma nodup_app_intro A (a b : list A) : NoDup a -> NoDup b -> (forall x, In x a -> ~ In x b) -> NoDup (a ++ b).
Proof.
  induction a as [|x a IH]; simpl; intros Ha Hb H; auto. inversion Ha as [|? ? H1 H2]; subst.
  constructor; [rewrite in_app_iff; intros [Hx|Hx]; [auto|apply (H x); auto]|]. apply IH; auto.
Qed.
Lemma in_order_nodup ord l : NoDup (akeys l) -> NoDup (akeys (in_order_of ord l)).
Proof.
  intro ND. unfold in_order_of. rewrite akeys_app.
  destruct (nodup_flat l (nodup N.eq_dec ord) (NoDup_nodup _ _)) as (A & B).
  apply nodup_app_intro; auto; [apply nodup_filter_keys; auto|].
  intros s H1 H2. apply B in H1. apply nodup_In in H1. unfold akeys in H2. apply in_map_iff in H2.
  destruct H2 as ([s' p] & E & H2). simpl in E; subst. apply filter_In in H2. destruct H2 as (_ & H2). simpl in H2.
  apply nmem_In in H1. rewrite H1 in H2. discriminate.
Qed.
Lemma in_order_pget ord l s : NoDup (akeys l) -> pget s (in_order_of ord l) = pget s l.
Proof.
  intro ND. pose proof (in_order_nodup ord l ND) as ND2. destruct (pget s l) as [p|] eqn:E.
  - apply in_pget; auto. apply in_order_In; auto. apply pget_in; auto.
  - destruct (pget s (in_order_of ord l)) as [q|] eqn:E2; auto. apply pget_in, in_order_In in E2; auto.
    apply in_pget in E2; auto. congruence.
Qed.

Lemma aget_in_keys s p (m : list (N * pmsg)) : pget s m = Some p -> In s (akeys m).
Proof. intro H. apply (aget_Some_in N.eqb N_eqb_eq). exists p; exact H. Qed.

Lemma lenN_aset_absent V k (v : V) m : aget N.eqb k m = None -> lenN (aset N.eqb k v m) = lenN m + 1.
Proof.
  intro H. rewrite aset_absent.
  - rewrite lenN_app, lenN_cons, lenN_nil. lia.
  - exact N_eqb_eq.
  - apply (aget_None_notin N.eqb N_eqb_eq); auto.
Qed.

Lemma nmem_app x a b : nmem x (a ++ b) = nmem x a || nmem x b.
Proof. unfold nmem. apply existsb_app. Qed.
Lemma nmem_one x y : nmem x [y] = (y =? x).
Proof. unfold nmem; simpl. apply orb_false_r. Qed.
Lemma nmem_iff x l l' : (In x l <-> In x l') -> nmem x l = nmem x l'.
Proof. intro H. apply eq_true_iff_eq. rewrite !nmem_In. exact H. Qed.

Section G.
  Variable cfg : gcfg.
  Let inv0 := inv0 cfg.
  Let inv := inv cfg.

  Ltac keq s s' := destruct (N.eqb_spec s s') as [?E|?E]; [subst s|].

  (** ** Giving one message back *)
  Lemma release_one_inv0 g s p : inv0 g -> pget s (g_pend g) = Some p ->
    inv0 (release_one cfg g (s, p)).
  Proof.
    intros I Hp. destruct I as [i1 i2 i3 i4 i5 i6 i7 i8 i9 i10 i11 i12].
    pose proof (lenN_adel_le _ s (g_pend g)) as HL.
    assert (NR : ~ In s (g_red g)) by (intro Hi; apply i3 in Hi; congruence).
    unfold release_one, release_seq. simpl fst; simpl snd.
    destruct (N.leb_spec (max_del cfg) (p_cnt p)) as [L|L].
    - constructor; simpl; auto.
      + apply (NoDup_adel N.eqb N_eqb_eq); auto.
      + intros s' H. rewrite pget_adel. rewrite (i3 _ H). destruct (s' =? s); auto.
      + intros s' q H. rewrite pget_adel in H. destruct (s' =? s); [discriminate|eauto].
      + intros s' q H. rewrite pget_adel in H. rewrite agetN_adel. destruct (s' =? s); [discriminate|eauto].
      + intros s' H. rewrite agetN_adel. keq s' s; [contradiction|auto].
      + intros s' n H. rewrite agetN_adel in H. rewrite pget_adel. destruct (s' =? s); [discriminate|eauto].
      + intros s' q H. rewrite pget_adel in H. destruct (s' =? s); [discriminate|eauto].
      + lia.
      + intros s' H. rewrite pget_adel. apply nins_In in H. keq s' s.
        * pose proof (i4 _ _ Hp). split; [lia|]. split; auto.
        * destruct H as [H|H]; [contradiction|]. apply i12; auto.
    - simpl. destruct (nmem s (g_red g)) eqn:EM; [apply nmem_In in EM; contradiction|].
      constructor; simpl; auto.
      + apply (NoDup_adel N.eqb N_eqb_eq); auto.
      + apply NoDup_snoc; auto.
      + intros s' H. rewrite pget_adel. apply in_app_iff in H. keq s' s; auto.
        destruct H as [H|[H|[]]]; [auto|congruence].
      + intros s' q H. rewrite pget_adel in H. destruct (s' =? s); [discriminate|eauto].
      + intros s' H. apply in_app_iff in H. destruct H as [H|[H|[]]]; [auto|subst; apply (i4 _ _ Hp)].
      + intros s' q H. rewrite pget_adel in H. destruct (s' =? s); [discriminate|eauto].
      + intros s' H. apply in_app_iff in H. destruct H as [H|[H|[]]]; [auto|subst].
        destruct (i6 _ _ Hp) as (A & B). exists (p_cnt p). split; auto. lia.
      + intros s' n H. rewrite pget_adel, in_app_iff. keq s' s; [right; right; simpl; auto|].
        destruct (i8 _ _ H); auto.
      + intros s' q H. rewrite pget_adel in H. destruct (s' =? s); [discriminate|eauto].
      + lia.
      + intros s' H. rewrite pget_adel, in_app_iff. destruct (i12 _ H) as (A & B & C). split; auto.
        split; [destruct (s' =? s); auto|]. intros [D|[D|[]]]; [auto|congruence].
  Qed.
  Lemma release_one_abs g s p s' : inv0 g -> pget s (g_pend g) = Some p ->
    abs (release_one cfg g (s, p)) s' = if s' =? s then released cfg (p_cnt p) else abs g s'.
  Proof.
    intros I Hp. destruct I as [i1 i2 i3 i4 i5 i6 i7 i8 i9 i10 i11 i12].
    assert (NR : ~ In s (g_red g)) by (intro Hi; apply i3 in Hi; congruence).
    apply nmem_false in NR.
    unfold release_one, release_seq, released. simpl fst; simpl snd.
    destruct (N.leb_spec (max_del cfg) (p_cnt p)) as [L|L].
    - unfold abs; simpl. rewrite pget_adel, agetN_adel. keq s' s.
      + rewrite NR. destruct (nmem s (nins s (g_park g))) eqn:E; auto. apply nmem_false in E. exfalso; apply E.
        apply nins_In; auto.
      + destruct (pget s' (g_pend g)); auto. destruct (nmem s' (g_red g)); auto.
        rewrite (nmem_iff s' (nins s (g_park g)) (g_park g)); auto. rewrite nins_In. intuition.
    - simpl. rewrite NR. unfold abs; simpl. rewrite pget_adel, nmem_app, nmem_one. keq s' s.
      + rewrite N.eqb_refl, orb_true_r. destruct (i6 _ _ Hp) as (A & B). rewrite A. reflexivity.
      + destruct (pget s' (g_pend g)); auto. destruct (N.eqb_spec s s'); [congruence|]. rewrite orb_false_r. reflexivity.
  Qed.
  Lemma release_one_frame g s p :
    let g' := release_one cfg g (s, p) in
    g_pend g' = adel N.eqb s (g_pend g) /\ g_mem g' = g_mem g /\ g_next g' = g_next g /\ g_floor g' = g_floor g /\
    g_gen g' = g_gen g /\ g_cold g' = g_cold g /\ g_tok g' = g_tok g.
  Proof.
    cbv zeta. unfold release_one, release_seq. simpl fst; simpl snd.
    destruct (max_del cfg <=? p_cnt p); [simpl; repeat split|]. simpl. destruct (nmem s (g_red g)); simpl; repeat split.
  Qed.
  Lemma release_one_mem g kv m : release_one cfg (set_mem m g) kv = set_mem m (release_one cfg g kv).
  Proof.
    unfold release_one, release_seq. destruct (max_del cfg <=? p_cnt (snd kv)); [reflexivity|]. simpl.
    destruct (nmem (fst kv) (g_red g)); reflexivity.
  Qed.
  Lemma release_all_mem l : forall g m, fold_left (release_one cfg) l (set_mem m g) = set_mem m (fold_left (release_one cfg) l g).
  Proof. induction l as [|kv l IH]; intros g m; simpl; auto. rewrite release_one_mem. apply IH. Qed.

  Lemma release_all l : forall g, inv0 g -> NoDup (akeys l) -> (forall s p, In (s, p) l -> pget s (g_pend g) = Some p) ->
    let g' := fold_left (release_one cfg) l g in
    inv0 g' /\ (forall s, abs g' s = match pget s l with Some p => released cfg (p_cnt p) | None => abs g s end) /\
    (forall s, pget s (g_pend g') = match pget s l with Some _ => None | None => pget s (g_pend g) end) /\
    g_mem g' = g_mem g /\ g_next g' = g_next g /\ g_floor g' = g_floor g /\ g_gen g' = g_gen g.
  Proof.
    induction l as [|[s p] l IH]; intros g I ND H; simpl; [split; [exact I|repeat split; auto]|].
    simpl in ND; apply NoDup_cons_iff in ND; destruct ND as (N1 & N2).
    pose proof (H s p ltac:(left; auto)) as Hp.
    destruct (release_one_frame g s p) as (F1 & F2 & F3 & F4 & F5 & _).
    destruct (IH (release_one cfg g (s, p))) as (A & B & C & D & E & F & G); auto.
    - apply release_one_inv0; auto.
    - intros s' p' Hi. rewrite F1, pget_adel. keq s' s.
      + exfalso. apply N1. change s with (fst (s, p')). apply in_map. auto.
      + apply H; right; auto.
    - split; auto. cbv zeta in *.
      assert (PN : pget s l = None).
      { destruct (pget s l) eqn:Q; auto. exfalso. apply N1. eapply aget_in_keys; eauto. }
      split; [|split].
      + intro s'. rewrite B. rewrite release_one_abs by auto. unfold pget; simpl. fold (pget s' l).
        keq s' s; [rewrite PN; reflexivity|reflexivity].
      + intro s'. rewrite C, F1, pget_adel. unfold pget at 3; simpl. fold (pget s' l).
        keq s' s; [rewrite PN; reflexivity|reflexivity].
      + repeat split; congruence.
  Qed.

  (** ** Timeouts *)
  Lemma tick_ok ord now g : inv g ->
    let g' := fst (check_redelivery cfg ord now g) in
    inv g' /\ (forall s, abs g' s = match abs g s with Held _ t n => if ack_wait cfg <? now - t then released cfg n else abs g s | x => x end)
    /\ g_mem g' = g_mem g /\ g_gen g' = g_gen g /\ g_next g' = g_next g /\ g_floor g <= g_floor g'.
  Proof.
    intros (I & M). cbv zeta. unfold check_redelivery.
    set (ex := filter _ (g_pend g)).
    assert (ND : NoDup (akeys ex)) by (apply nodup_filter_keys, (i_pnd _ _ I)).
    assert (PG : forall s, pget s ex = match pget s (g_pend g) with Some p => if ack_wait cfg <? now - p_at p then Some p else None | None => None end).
    { intro s. unfold ex. rewrite pget_filter by apply (i_pnd _ _ I). reflexivity. }
    assert (AB : forall s, match pget s ex with Some p => released cfg (p_cnt p) | None => abs g s end =
       match abs g s with Held _ t n => if ack_wait cfg <? now - t then released cfg n else abs g s | x => x end).
    { intro s. rewrite PG. unfold abs. destruct (pget s (g_pend g)) as [p|]; [destruct (ack_wait cfg <? now - p_at p); auto|].
      destruct (nmem s (g_red g)); auto. destruct (nmem s (g_park g)); auto. destruct (s <? g_next g); auto. }
    destruct ex as [|kv ex'] eqn:EX.
    - simpl. split; [split; auto|]. split; [|repeat split; auto; lia]. intro s. rewrite <- AB. reflexivity.
    - rewrite <- EX in *. simpl fst.
      destruct (release_all (in_order_of ord ex) g) as (A & B & C & D & E & F & G); auto.
      { apply in_order_nodup; auto. }
      { intros s p Hi. apply in_order_In in Hi; auto. apply in_pget in Hi; auto. rewrite PG in Hi.
        destruct (pget s (g_pend g)) as [q|]; [|discriminate]. destruct (ack_wait cfg <? now - p_at q); congruence. }
      destruct (advance_inv _ _ A) as (A1 & A2). split; [exact A1|].
      split; [|simpl; repeat split; auto; simpl in A2; lia].
      intro s. rewrite advance_abs, B, in_order_pget by auto. apply AB.
  Qed.

  (** ** Leaving *)
  Lemma inv0_mem_del c g : inv0 g -> (forall s p, pget s (g_pend g) = Some p -> p_cons p <> c) ->
    inv0 (set_mem (adel N.eqb c (g_mem g)) g).
  Proof.
    intros [i1 i2 i3 i4 i5 i6 i7 i8 i9 i10 i11 i12] H. constructor; simpl; auto.
    intros s p Hp. rewrite agetN_adel. specialize (H _ _ Hp). destruct (N.eqb_spec (p_cons p) c); [contradiction|eauto].
  Qed.
  Lemma leave_ok ord c g : inv g ->
    let g' := fst (remove_member cfg ord c g) in
    inv g' /\ (forall s, abs g' s = match abs g s with Held c' _ n => if c' =? c then released cfg n else abs g s | x => x end)
    /\ (forall c', agetN c' (g_mem g') = if c' =? c then None else agetN c' (g_mem g)) /\ g_gen g' = g_gen g /\ g_next g' = g_next g /\ g_floor g <= g_floor g'.
  Proof.
    intros (I & M). cbv zeta. unfold remove_member. destruct (agetN c (g_mem g)) as [conn|] eqn:EM.
    - simpl fst. unfold release_consumer.
      set (ex := filter _ _). change (g_pend (set_mem (adel N.eqb c (g_mem g)) g)) with (g_pend g) in ex.
      assert (ND : NoDup (akeys ex)) by (apply nodup_filter_keys, (i_pnd _ _ I)).
      assert (PG : forall s, pget s ex = match pget s (g_pend g) with Some p => if p_cons p =? c then Some p else None | None => None end).
      { intro s. unfold ex. rewrite pget_filter by apply (i_pnd _ _ I). reflexivity. }
      assert (AB : forall s, match pget s ex with Some p => released cfg (p_cnt p) | None => abs g s end =
         match abs g s with Held c' _ n => if c' =? c then released cfg n else abs g s | x => x end).
      { intro s. rewrite PG. unfold abs. destruct (pget s (g_pend g)) as [p|]; [destruct (p_cons p =? c); auto|].
        destruct (nmem s (g_red g)); auto. destruct (nmem s (g_park g)); auto. destruct (s <? g_next g); auto. }
      rewrite release_all_mem.
      destruct (release_all (in_order_of ord ex) g) as (A & B & C & D & E & F & G); auto.
      { apply in_order_nodup; auto. }
      { intros s p Hi. apply in_order_In in Hi; auto. apply in_pget in Hi; auto. rewrite PG in Hi.
        destruct (pget s (g_pend g)) as [q|]; [|discriminate]. destruct (p_cons q =? c); congruence. }
      set (g1 := fold_left _ _ g) in *.
      assert (I2 : inv0 (set_mem (adel N.eqb c (g_mem g)) g1)).
      { rewrite <- D. apply inv0_mem_del; auto. intros s p Hp. rewrite C, in_order_pget, PG in Hp by auto.
        destruct (pget s (g_pend g)) as [q|]; [|discriminate]. destruct (N.eqb_spec (p_cons q) c); [discriminate|congruence]. }
      destruct (advance_inv _ _ I2) as (A1 & A2). split; [apply inv_token; exact A1|].
      split; [|split; [|simpl; repeat split; auto; simpl in A2; lia]].
      + intro s. etransitivity; [|apply AB]. rewrite <- (in_order_pget ord ex s ND). rewrite <- B. reflexivity.
      + intro c'. simpl. apply agetN_adel.
    - simpl. split; [split; auto|]. split; [|split; [|repeat split; auto; lia]].
      + intro s. unfold abs. destruct (pget s (g_pend g)) as [p|] eqn:EP.
        * destruct (N.eqb_spec (p_cons p) c); auto. exfalso. subst. apply (i_own _ _ I) in EP. contradiction.
        * destruct (nmem s (g_red g)); auto. destruct (nmem s (g_park g)); auto. destruct (s <? g_next g); auto.
      + intro c'. keq c' c; auto.
  Qed.

  (** ** Joining, seeking *)
  Lemma join_inv c conn g : inv g -> inv (add_member c conn g).
  Proof.
    intros ([i1 i2 i3 i4 i5 i6 i7 i8 i9 i10 i11 i12] & M). split; [|exact M]. constructor; simpl; auto.
    intros s p Hp. rewrite agetN_aset. destruct (p_cons p =? c); [discriminate|eauto].
  Qed.
  Lemma flag_inv b g : inv g -> inv (set_cold b g).
  Proof. intros (I & M). split; [apply inv0_cold; exact I|exact M]. Qed.
  Lemma reset_inv g : g_floor g + 1 = g_next g -> inv (reset_runtime g).
  Proof.
    intro E. split; [|left; exact E]. constructor; simpl; try (intros; contradiction || discriminate); try constructor; try lia. unfold lenN; simpl; lia.
  Qed.
  Lemma seekb_inv head g : inv (seek_beginning head g).
  Proof. apply reset_inv. simpl. lia. Qed.
  Lemma seeke_inv last g : inv (seek_end last g).
  Proof. apply reset_inv. simpl. lia. Qed.
  Lemma seekb_abs head g s : abs (seek_beginning head g) s = if s <? N.max head 1 then Done else Fresh.
  Proof. reflexivity. Qed.
  Lemma seeke_abs last g s : abs (seek_end last g) s = if s <=? last then Done else Fresh.
  Proof. unfold abs; simpl. destruct (N.ltb_spec s (last + 1)), (N.leb_spec s last); auto; lia. Qed.

  (** ** Acknowledging *)
  Lemma ack_ok c gen s g : inv g ->
    let g' := fst (ack c gen s g) in
    inv g' /\ (snd (ack c gen s g) <> None -> g' = g) /\
    (snd (ack c gen s g) = None -> forall s', abs g' s' = if s' =? s then Done else abs g s') /\
    g_mem g' = g_mem g /\ g_gen g' = g_gen g /\ g_next g' = g_next g /\ g_floor g <= g_floor g'.
  Proof.
    intros (I & M). cbv zeta. unfold ack. destruct (ensure_active c gen g); [simpl; split; [split; [exact I|exact M]|]; repeat split; auto; try congruence; try lia|].
    destruct (pget s (g_pend g)) as [p|] eqn:EP; [|simpl; split; [split; [exact I|exact M]|]; repeat split; auto; try congruence; try lia].
    destruct (p_cons p =? c); [|simpl; split; [split; [exact I|exact M]|]; repeat split; auto; try congruence; try lia].
    simpl fst; simpl snd.
    destruct I as [i1 i2 i3 i4 i5 i6 i7 i8 i9 i10 i11 i12].
    assert (NR : ~ In s (g_red g)) by (intro Hi; apply i3 in Hi; congruence).
    set (g1 := set_park _ _).
    assert (I1 : inv0 g1).
    { constructor; simpl; auto.
      + apply (NoDup_adel N.eqb N_eqb_eq); auto.
      + intros s' H. rewrite pget_adel. rewrite (i3 _ H). destruct (s' =? s); auto.
      + intros s' q H. rewrite pget_adel in H. destruct (s' =? s); [discriminate|eauto].
      + intros s' q H. rewrite pget_adel in H. rewrite agetN_adel. destruct (s' =? s); [discriminate|eauto].
      + intros s' H. rewrite agetN_adel. keq s' s; [contradiction|auto].
      + intros s' n H. rewrite agetN_adel in H. rewrite pget_adel. destruct (s' =? s); [discriminate|eauto].
      + intros s' q H. rewrite pget_adel in H. destruct (s' =? s); [discriminate|eauto].
      + pose proof (lenN_adel_le _ s (g_pend g)). lia.
      + intros s' H. rewrite pget_adel. apply nrem_In in H. destruct H as (H & Hn). destruct (i12 _ H) as (A & B & C).
        split; auto. split; auto. destruct (s' =? s); auto. }
    destruct (advance_inv _ _ I1) as (A1 & A2).
    split; [exact A1|]. split; [congruence|].
    split; [|repeat split; auto].
    intros _ s'. rewrite advance_abs. unfold abs, g1; simpl. rewrite pget_adel, agetN_adel.
    keq s' s.
    - apply nmem_false in NR. rewrite NR.
      destruct (nmem s (nrem s (g_park g))) eqn:E; [apply nmem_In, nrem_In in E; intuition congruence|].
      destruct (i4 _ _ EP). destruct (N.ltb_spec s (g_next g)); auto; lia.
    - destruct (pget s' (g_pend g)); auto. destruct (nmem s' (g_red g)); auto.
      rewrite (nmem_iff s' (nrem s (g_park g)) (g_park g)); auto. rewrite nrem_In. intuition.
  Qed.
End G.
