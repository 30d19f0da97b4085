(** Invariant of a consumer group and its agreement with the history. *)
From Verif Require Import LibBase LibMap StreamTopicModel StreamGroupModel StreamGroupSpec.

Lemma pget_aset k k' v m : pget k (aset N.eqb k' v m) = if k =? k' then Some v else pget k m.
Proof.
  unfold pget. destruct (N.eqb_spec k k') as [->|E].
  - apply (aget_aset_same N.eqb N_eqb_eq).
  - apply (aget_aset_other N.eqb N_eqb_eq); auto.
Qed.
Lemma pget_adel k k' m : pget k (adel N.eqb k' m) = if k =? k' then None else pget k m.
Proof.
  unfold pget. destruct (N.eqb_spec k k') as [->|E].
  - apply (aget_adel_same N.eqb).
  - apply (aget_adel_other N.eqb N_eqb_eq); auto.
Qed.
Lemma agetN_aset k k' v m : agetN k (aset N.eqb k' v m) = if k =? k' then Some v else agetN k m.
Proof.
  unfold agetN. destruct (N.eqb_spec k k') as [->|E].
  - apply (aget_aset_same N.eqb N_eqb_eq).
  - apply (aget_aset_other N.eqb N_eqb_eq); auto.
Qed.
Lemma agetN_adel k k' m : agetN k (adel N.eqb k' m) = if k =? k' then None else agetN k m.
Proof.
  unfold agetN. destruct (N.eqb_spec k k') as [->|E].
  - apply (aget_adel_same N.eqb).
  - apply (aget_adel_other N.eqb N_eqb_eq); auto.
Qed.
Lemma aget_filter_key V (f : N -> bool) k (m : list (N * V)) :
  aget N.eqb k (filter (fun kv => f (fst kv)) m) = if f k then aget N.eqb k m else None.
Proof.
  induction m as [|[k' v] m IH]; simpl; [destruct (f k); auto|].
  destruct (f k') eqn:F; simpl.
  - destruct (N.eqb k k') eqn:E; [apply N.eqb_eq in E; subst; rewrite F; reflexivity|exact IH].
  - destruct (N.eqb k k') eqn:E; [apply N.eqb_eq in E; subst; rewrite IH, F; reflexivity|exact IH].
Qed.
Lemma nodup_filter_keys V (f : N * V -> bool) (m : list (N * V)) : NoDup (akeys m) -> NoDup (akeys (filter f m)).
Proof.
  induction m as [|[k v] m IH]; simpl; intro H; auto. inversion H as [|? ? H1 H2]; subst.
  destruct (f (k, v)); simpl; auto. constructor; auto.
  intro Hi. apply H1. unfold akeys in *. apply in_map_iff in Hi. destruct Hi as ([k2 v2] & E & Hi).
  simpl in E; subst. apply filter_In in Hi. apply in_map_iff. exists (k, v2). tauto.
Qed.
Lemma lenN_filter A (f : A -> bool) l : lenN (filter f l) <= lenN l.
Proof. induction l as [|x l IH]; simpl; [lia|]. destruct (f x); rewrite !lenN_cons; lia. Qed.
Lemma filter_len_eq A (f : A -> bool) l : lenN (filter f l) = lenN l -> filter f l = l.
Proof.
  induction l as [|x l IH]; simpl; auto. pose proof (lenN_filter _ f l).
  destruct (f x); rewrite ?lenN_cons; intro E; [f_equal; apply IH; lia|lia].
Qed.
Lemma lenN_adel_le V k (m : list (N * V)) : lenN (adel N.eqb k m) <= lenN m.
Proof. induction m as [|[k' v] m IH]; simpl; [lia|]. destruct (k =? k'); rewrite ?lenN_cons; lia. Qed.

Lemma pget_in k p m : pget k m = Some p -> In (k, p) m.
Proof. apply (aget_In N.eqb N_eqb_eq). Qed.
Lemma in_pget k p m : NoDup (akeys m) -> In (k, p) m -> pget k m = Some p.
Proof. apply (In_aget N.eqb N_eqb_eq). Qed.

Section G.
  Variable cfg : gcfg.

  (** Everything but maximality of the floor. *)
  Record inv0 (g : group) : Prop := {
    i_pnd : NoDup (akeys (g_pend g));
    i_rnd : NoDup (g_red g);
    i_dis : forall s, In s (g_red g) -> pget s (g_pend g) = None;
    i_prange : forall s p, pget s (g_pend g) = Some p -> g_floor g < s /\ s < g_next g;
    i_rrange : forall s, In s (g_red g) -> g_floor g < s /\ s < g_next g;
    i_attp : forall s p, pget s (g_pend g) = Some p -> agetN s (g_att g) = Some (p_cnt p) /\ 1 <= p_cnt p <= max_del cfg;
    i_attr : forall s, In s (g_red g) -> exists n, agetN s (g_att g) = Some n /\ 1 <= n < max_del cfg;
    i_attk : forall s n, agetN s (g_att g) = Some n -> pget s (g_pend g) <> None \/ In s (g_red g);
    i_fl : g_floor g + 1 <= g_next g;
    i_own : forall s p, pget s (g_pend g) = Some p -> agetN (p_cons p) (g_mem g) <> None;
    i_len : lenN (g_pend g) <= max_pend cfg;
    i_park : forall s, In s (g_park g) -> 1 <= s < g_next g /\ pget s (g_pend g) = None /\ ~ In s (g_red g)
  }.
  Definition maximal (g : group) : Prop :=
    g_floor g + 1 = g_next g \/ pget (g_floor g + 1) (g_pend g) <> None \/ In (g_floor g + 1) (g_red g).
  Definition inv (g : group) : Prop := inv0 g /\ maximal g.

  Definition abs (g : group) (s : N) : status :=
    match pget s (g_pend g) with
    | Some p => Held (p_cons p) (p_at p) (p_cnt p)
    | None =>
      if nmem s (g_red g) then Waiting (match agetN s (g_att g) with Some n => n | None => 0 end)
      else if nmem s (g_park g) then Parked
      else if s <? g_next g then Done else Fresh
    end.

  (** ** Advancing the floor *)
  Lemma advance_spec : forall fuel fl nx pend red,
    fl + 1 <= nx -> nx - fl <= N.of_nat fuel ->
    (forall s p, pget s pend = Some p -> fl < s /\ s < nx) -> (forall s, In s red -> fl < s /\ s < nx) ->
    let f := advance fuel fl nx pend red in
    fl <= f /\ f + 1 <= nx /\
    (forall s p, pget s pend = Some p -> f < s) /\ (forall s, In s red -> f < s) /\
    (f + 1 = nx \/ pget (f + 1) pend <> None \/ In (f + 1) red).
  Proof.
    induction fuel as [|fuel IH]; intros fl nx pend red H1 H2 Hp Hr; simpl.
    - exfalso. simpl in H2. lia.
    - destruct (N.ltb_spec (fl + 1) nx) as [L|L]; simpl.
      + destruct (pget (fl + 1) pend) as [p|] eqn:EP; simpl.
        * repeat split; try lia. { intros s q Hq; apply Hp in Hq; lia. } { intros s Hs; apply Hr in Hs; lia. }
          right; left; congruence.
        * destruct (nmem (fl + 1) red) eqn:EM; simpl.
          -- apply nmem_In in EM. repeat split; try lia. { intros s q Hq; apply Hp in Hq; lia. } { intros s Hs; apply Hr in Hs; lia. }
             auto.
          -- apply nmem_false in EM.
             destruct (IH (fl + 1) nx pend red) as (A & B & C & D & E); try lia.
             { intros s q Hq. pose proof (Hp _ _ Hq). assert (s <> fl + 1) by (intros ->; congruence). lia. }
             { intros s Hs. pose proof (Hr _ Hs). assert (s <> fl + 1) by (intros ->; contradiction). lia. }
             repeat split; auto; lia.
      + repeat split; try lia. { intros s q Hq; apply Hp in Hq; lia. } { intros s Hs; apply Hr in Hs; lia. }
  Qed.

  Lemma advance_inv g : inv0 g -> inv (try_advance_floor g) /\ g_floor g <= g_floor (try_advance_floor g).
  Proof.
    intro I. unfold try_advance_floor, inv.
    pose proof (advance_spec (N.to_nat (g_next g - g_floor g)) (g_floor g) (g_next g) (g_pend g) (g_red g)
                  (i_fl g I) ltac:(lia) (i_prange g I) (i_rrange g I)) as H.
    cbv zeta in H. destruct H as (A & B & C & D & E).
    remember (advance (N.to_nat (g_next g - g_floor g)) (g_floor g) (g_next g) (g_pend g) (g_red g)) as f.
    destruct I as [i1 i2 i3 i4 i5 i6 i7 i8 i9 i10 i11 i12].
    split; [split|]; [|unfold maximal; simpl; exact E|simpl; lia].
    constructor; simpl; auto.
    - intros s p Hp. split; [eapply C; eauto|apply (i4 _ _ Hp)].
    - intros s Hs. split; [eapply D; eauto|apply (i5 _ Hs)].
  Qed.
  Lemma advance_abs g s : abs (try_advance_floor g) s = abs g s.
  Proof. reflexivity. Qed.

  (** A group nothing of which needs moving keeps its floor. *)
  Lemma advance_noop fuel fl nx pend red :
    (fl + 1 = nx \/ pget (fl + 1) pend <> None \/ In (fl + 1) red) -> advance fuel fl nx pend red = fl.
  Proof.
    intros H; destruct fuel as [|f]; simpl; auto.
    destruct H as [H|[H|H]].
    - destruct (N.ltb_spec (fl + 1) nx); [lia|reflexivity].
    - destruct (pget (fl + 1) pend); [|congruence]. rewrite andb_false_r. reflexivity.
    - apply nmem_In in H. rewrite H, andb_false_r. reflexivity.
  Qed.

  (** ** Clamping to the head *)
  Definition clamped (h : N) (g : group) : group :=
    mkG (if g_floor g <? h - 1 then h - 1 else g_floor g) (if g_next g <? h then h else g_next g)
        (filter (fun kv => h <=? fst kv) (g_pend g)) (filter (fun s => h <=? s) (g_red g))
        (filter (fun s => h <=? s) (g_park g))
        (filter (fun kv => h <=? fst kv) (filter (fun kv => negb (nmem (fst kv) (filter (fun s => s <? h) (akeys (g_pend g))))) (g_att g)))
        (g_mem g) (g_cold g) (g_gen g) (g_tok g).

  Lemma clamped_att h g s :
    agetN s (g_att (clamped h g)) = if h <=? s then agetN s (g_att g) else None.
  Proof.
    unfold clamped, agetN; simpl. rewrite aget_filter_key.
    destruct (N.leb_spec h s) as [L|L]; auto.
    rewrite (aget_filter_key _ (fun k => negb (nmem k (filter (fun s => s <? h) (akeys (g_pend g)))))).
    destruct (nmem s (filter (fun s0 : N => s0 <? h) (akeys (g_pend g)))) eqn:E; auto.
    apply nmem_In in E. apply filter_In in E. destruct E as (_ & E). lia.
  Qed.
  Lemma clamped_pend h g s : pget s (g_pend (clamped h g)) = if h <=? s then pget s (g_pend g) else None.
  Proof. unfold clamped, pget; simpl. apply aget_filter_key. Qed.
  Lemma clamped_red h g s : In s (g_red (clamped h g)) <-> In s (g_red g) /\ h <= s.
  Proof. unfold clamped; simpl. rewrite filter_In, N.leb_le. tauto. Qed.
  Lemma clamped_park h g s : In s (g_park (clamped h g)) <-> In s (g_park g) /\ h <= s.
  Proof. unfold clamped; simpl. rewrite filter_In, N.leb_le. tauto. Qed.

  Lemma clamped_inv0 h g : 1 <= h -> inv0 g -> inv0 (clamped h g).
  Proof.
    intros Hh I. pose proof I as [i1 i2 i3 i4 i5 i6 i7 i8 i9 i10 i11 i12].
    assert (FL : forall s, h <= s -> g_floor g < s -> g_floor (clamped h g) < s).
    { intros s Hs Hf. simpl. destruct (N.ltb_spec (g_floor g) (h - 1)); lia. }
    assert (NX : forall s, s < g_next g -> s < g_next (clamped h g)).
    { intros s Hs. simpl. destruct (N.ltb_spec (g_next g) h); lia. }
    constructor.
    - simpl. apply nodup_filter_keys; auto.
    - simpl. apply NoDup_filter'; auto.
    - intros s Hs. apply clamped_red in Hs. rewrite clamped_pend. rewrite i3 by tauto. destruct (h <=? s); auto.
    - intros s p Hp. rewrite clamped_pend in Hp. destruct (N.leb_spec h s); [|discriminate].
      specialize (i4 _ _ Hp). split; [apply FL|apply NX]; tauto.
    - intros s Hs. apply clamped_red in Hs. destruct Hs as (Hs & Hl). specialize (i5 _ Hs). split; [apply FL|apply NX]; tauto.
    - intros s p Hp. rewrite clamped_pend in Hp. rewrite clamped_att. destruct (h <=? s); [auto|discriminate].
    - intros s Hs. apply clamped_red in Hs. destruct Hs as (Hs & Hl). rewrite clamped_att.
      destruct (N.leb_spec h s); [auto|lia].
    - intros s n Hn. rewrite clamped_att in Hn. rewrite clamped_pend, clamped_red.
      destruct (N.leb_spec h s); [|discriminate]. destruct (i8 _ _ Hn); auto.
    - simpl. destruct (N.ltb_spec (g_floor g) (h - 1)), (N.ltb_spec (g_next g) h); lia.
    - intros s p Hp. rewrite clamped_pend in Hp. destruct (h <=? s); [|discriminate]. simpl. eauto.
    - simpl. pose proof (lenN_filter _ (fun kv : N * pmsg => h <=? fst kv) (g_pend g)). lia.
    - intros s Hs. apply clamped_park in Hs. destruct Hs as (Hs & Hl). destruct (i12 _ Hs) as (A & B & C).
      split; [split; [lia|apply NX; lia]|]. rewrite clamped_pend, clamped_red. rewrite B. split; [destruct (h <=? s); auto|tauto].
  Qed.

  Lemma clamp_head_eq head g :
    let h := N.max head 1 in
    fst (clamp_head head g) = clamped h g \/
    (fst (clamp_head head g) = new_token (try_advance_floor (set_cold false (clamped h g))) /\ snd (clamp_head head g) = true).
  Proof.
    cbv zeta. unfold clamp_head, clamped.
    match goal with |- context [if ?b then _ else _] => idtac end.
    set (b := (_ || _)). destruct b; [right; auto|left; reflexivity].
  Qed.

  Lemma lenb_true A (a b : list A) : negb (lenb a b) = false -> lenN a = lenN b.
  Proof. unfold lenb. rewrite negb_false_iff. apply N.eqb_eq. Qed.

  Lemma clamp_unchanged head g : snd (clamp_head head g) = false ->
    fst (clamp_head head g) = clamped (N.max head 1) g /\
    g_floor (clamped (N.max head 1) g) = g_floor g /\ g_next (clamped (N.max head 1) g) = g_next g /\
    g_pend (clamped (N.max head 1) g) = g_pend g /\ g_red (clamped (N.max head 1) g) = g_red g /\ g_park (clamped (N.max head 1) g) = g_park g.
  Proof.
    unfold clamp_head. set (b := (_ || _)). destruct b eqn:E; [discriminate|]. intros _. unfold b in E; clear b.
    repeat (apply orb_false_iff in E; let E2 := fresh in destruct E as (E & E2)).
    simpl. split; [reflexivity|].
    rewrite E, H3. split; [reflexivity|]. split; [reflexivity|].
    split; [|split]; apply filter_len_eq; apply lenb_true; assumption.
  Qed.

  Lemma inv0_cold b g : inv0 g -> inv0 (set_cold b g).
  Proof. intros [? ? ? ? ? ? ? ? ? ? ? ?]; constructor; simpl; auto. Qed.
  Lemma inv_token g : inv g -> inv (new_token g).
  Proof. intros ([? ? ? ? ? ? ? ? ? ? ? ?] & M); split; [constructor; simpl; auto|exact M]. Qed.

  Lemma clamp_inv head g : inv g -> inv (fst (clamp_head head g)).
  Proof.
    intros (I & M). pose proof (clamped_inv0 (N.max head 1) g ltac:(lia) I) as I1.
    destruct (snd (clamp_head head g)) eqn:E.
    - unfold clamp_head in *. set (b := (_ || _)) in *. destruct b; [|discriminate]. simpl.
      apply inv_token. apply advance_inv. apply inv0_cold. exact I1.
    - destruct (clamp_unchanged head g E) as (E0 & E1 & E2 & E3 & E4 & E5). rewrite E0. split; auto.
      unfold maximal in *. rewrite E1, E2, E3, E4. exact M.
  Qed.
  Lemma clamp_fields head g :
    let g' := fst (clamp_head head g) in let c := clamped (N.max head 1) g in
    g_next g' = g_next c /\ g_pend g' = g_pend c /\ g_red g' = g_red c /\ g_park g' = g_park c /\
    g_att g' = g_att c /\ g_mem g' = g_mem g /\ g_gen g' = g_gen g.
  Proof. cbv zeta. destruct (clamp_head_eq head g) as [E|(E & _)]; rewrite E; simpl; repeat split. Qed.
  Lemma abs_ext g g' s :
    g_next g' = g_next g -> g_pend g' = g_pend g -> g_red g' = g_red g -> g_park g' = g_park g -> g_att g' = g_att g ->
    abs g' s = abs g s.
  Proof. intros A B C D E. unfold abs. rewrite A, B, C, D, E. reflexivity. Qed.

  Lemma abs_0 g : inv0 g -> abs g 0 = Done.
  Proof.
    intros [i1 i2 i3 i4 i5 i6 i7 i8 i9 i10 i11 i12]. unfold abs.
    destruct (pget 0 (g_pend g)) eqn:E; [apply i4 in E; lia|].
    destruct (nmem 0 (g_red g)) eqn:E1; [apply nmem_In, i5 in E1; lia|].
    destruct (nmem 0 (g_park g)) eqn:E2; [apply nmem_In, i12 in E2; lia|].
    destruct (N.ltb_spec 0 (g_next g)); [reflexivity|lia].
  Qed.
  Lemma clamp_abs head g s : inv0 g -> abs (fst (clamp_head head g)) s = below head s (abs g s).
  Proof.
    intro I. destruct (clamp_fields head g) as (A & B & C & D & E & _ & _).
    rewrite (abs_ext (clamped (N.max head 1) g)) by assumption.
    set (h := N.max head 1) in *. unfold abs at 1. rewrite clamped_pend, clamped_att.
    assert (R : nmem s (g_red (clamped h g)) = nmem s (g_red g) && (h <=? s)).
    { apply eq_true_iff_eq. rewrite andb_true_iff, !nmem_In, clamped_red, N.leb_le. tauto. }
    assert (P : nmem s (g_park (clamped h g)) = nmem s (g_park g) && (h <=? s)).
    { apply eq_true_iff_eq. rewrite andb_true_iff, !nmem_In, clamped_park, N.leb_le. tauto. }
    rewrite R, P. unfold below. destruct (N.leb_spec h s) as [L|L].
    - rewrite !andb_true_r. destruct (N.ltb_spec s head); [lia|]. unfold abs.
      destruct (pget s (g_pend g)); auto. destruct (nmem s (g_red g)); auto. destruct (nmem s (g_park g)); auto.
      simpl. destruct (N.ltb_spec (g_next g) h), (N.ltb_spec s (g_next g)); try destruct (N.ltb_spec s h); auto; lia.
    - rewrite !andb_false_r. simpl.
      destruct (N.ltb_spec s head) as [L2|L2].
      + destruct (N.ltb_spec (g_next g) h); destruct (N.ltb_spec s h); destruct (N.ltb_spec s (g_next g)); auto; lia.
      + assert (s = 0) as -> by lia. rewrite abs_0 by auto.
        destruct (N.ltb_spec (g_next g) h); [destruct (N.ltb_spec 0 h); [auto|lia]|].
        destruct (N.ltb_spec 0 (g_next g)); [auto|]. pose proof (i_fl g I). lia.
  Qed.
End G.
