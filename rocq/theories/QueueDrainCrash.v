(** Facts for C77: deliveries over restarts of the server. *)
From Verif Require Import LibBase LibMap QueueModel QueueSpec QueueObs QueueProofs QueueRefine QueueTrace QueueFacts QueueFacts2 QueuePersistModel QueuePersistProofs QueuePersistInv QueuePersistSys QueuePersistCrash QueuePersistOrder QueueDrain.

(** what an event hands to consumers *)
Definition served_at (cfg : qconfig) (s : psys) (e : pev) : list message :=
  match e with EReq o => ret (qouts cfg (p_mem s) o) | _ => [] end.
(** a message that has had all its deliveries *)
Definition used_up (cfg : qconfig) (m : message) : bool := N.max 1 (c_max cfg) <=? m_att m.
(** everything written *)
Definition written (s : psys) : Prop := p_chan s = [] /\ p_batch s = [].
(** what a restart may add: when everything was written, one delivery for each
    message in flight that had had all of them; otherwise all deliveries anew for
    what is listed after it *)
Inductive adds (cfg : qconfig) : psys -> pev -> psys -> N -> Prop :=
| adds_not : forall s e s', is_crash e = false -> adds cfg s e s' 0
| adds_written : forall s clk s', written s -> adds cfg s (ECrash clk) s' (lenN (filter (used_up cfg) (obs_fly (p_mem s))))
| adds_lossy : forall s clk s', adds cfg s (ECrash clk) s' (N.max 1 (c_max cfg) * lenN (obs_wait (p_mem s') ++ obs_fly (p_mem s'))).
(** a run with what it delivers and what its restarts add *)
Inductive life (cfg : qconfig) : psys -> list pev -> list message -> N -> psys -> Prop :=
| life_nil : forall s, life cfg s [] [] 0 s
| life_snoc : forall s evs ms x s1 e s2 y, life cfg s evs ms x s1 -> pstep cfg s1 e s2 -> adds cfg s1 e s2 y ->
    life cfg s (evs ++ [e]) (ms ++ served_at cfg s1 e) (x + y) s2.

Definition wchances (cfg : qconfig) (m : message) : N := N.max 1 (chances cfg m).
Fixpoint wtotal (cfg : qconfig) (l : list message) : N :=
  match l with [] => 0 | m :: l' => wchances cfg m + wtotal cfg l' end.
Lemma wtotal_app : forall cfg a b, wtotal cfg (a ++ b) = wtotal cfg a + wtotal cfg b.
Proof. intros cfg a b; induction a as [|m a IH]; cbn [app wtotal]; lia. Qed.
Lemma wtotal_perm : forall cfg a b, Permutation a b -> wtotal cfg a = wtotal cfg b.
Proof. intros cfg a b H; induction H; cbn [wtotal]; lia. Qed.
Lemma wtotal_filter_le : forall cfg f l, wtotal cfg (filter f l) <= wtotal cfg l.
Proof. intros cfg f l; induction l as [|m l IH]; cbn [filter wtotal]; [lia|]. destruct (f m); cbn [wtotal]; lia. Qed.
Lemma wtotal_without : forall cfg m l, In m l -> wchances cfg m + wtotal cfg (without (m_id m) l) <= wtotal cfg l.
Proof.
  intros cfg m l; induction l as [|x l IH]; intros [].
  - subst x. unfold without. cbn [filter wtotal]. rewrite N.eqb_refl. cbn [negb].
    pose proof (wtotal_filter_le cfg (fun y => negb (m_id y =? m_id m)) l). lia.
  - specialize (IH H). unfold without in *. cbn [filter wtotal]. destruct (negb (m_id x =? m_id m)); cbn [wtotal]; lia.
Qed.
Lemma wtotal_same : forall cfg f l, (forall m, m_att (f m) = m_att m) -> wtotal cfg (map f l) = wtotal cfg l.
Proof. intros cfg f l H; induction l as [|m l IH]; cbn [map wtotal]; auto. unfold wchances, chances. rewrite H, IH. reflexivity. Qed.
Lemma wtotal_back : forall cfg l, wtotal cfg (map requeued (filter (fun m => negb (exhausted cfg m)) l)) <= total cfg l.
Proof.
  intros cfg l; induction l as [|m l IH]; cbn [filter map wtotal total]; [lia|].
  destruct (exhausted cfg m) eqn:E; cbn [negb map wtotal]; [lia|].
  unfold exhausted in E. apply N.leb_gt in E. unfold wchances, chances in *. cbn [requeued m_att]. lia.
Qed.
Definition phi (cfg : qconfig) (S : qspec) : N := wtotal cfg (s_wait S) + total cfg (s_fly S).
Lemma take_phi : forall cfg clk n k S,
  let r := a_take cfg n k clk S in lenN (snd r) + phi cfg (fst r) <= phi cfg S.
Proof.
  intros cfg clk n; induction n as [|n IH]; intros k S r; subst r; cbn [a_take].
  - cbn [fst snd]. unfold lenN. cbn [length]. lia.
  - unfold a_pop. destruct (best (s_wait S)) as [b|] eqn:E.
    + destruct (best_spec _ _ E) as [Hi _].
      set (T := mkSpec (without (m_id b) (s_wait S)) (ins_dl (delivered (due_at (clk k) (c_vt cfg)) b) (s_fly S)) (s_dead S)).
      specialize (IH (Datatypes.S k) T). cbn zeta in IH.
      destruct (a_take cfg n (Datatypes.S k) clk T) as [S2 ms]. cbn [fst snd] in *.
      assert (H : 1 + phi cfg T <= phi cfg S).
      { subst T. unfold phi. cbn [s_wait s_fly]. rewrite (total_perm _ _ _ (ins_dl_perm _ _)). cbn [total].
        pose proof (wtotal_without cfg b _ Hi) as Hw. unfold wchances, chances in *. cbn [m_att delivered]. lia. }
      unfold lenN in *. cbn [length]. lia.
    + cbn [fst snd]. unfold lenN. cbn [length]. lia.
Qed.
Lemma step_phi : forall cfg S o, SInv S ->
  lenN (ret (a_out cfg S o)) + phi cfg (a_next cfg S o) <= phi cfg S + N.max 1 (c_max cfg) * gives o.
Proof.
  intros cfg S o HI.
  assert (HL : lenN (@nil message) = 0) by reflexivity.
  unfold a_out, a_next. destruct o as [id payload prio now|now|max clk|id|id reason now|now1 now2|id|id|]; cbn [a_step gives].
  - cbn [fst snd ret]. unfold phi. cbn [s_wait s_fly]. rewrite HL, wtotal_app. cbn [wtotal]. unfold wchances, chances. cbn [msg_pushed m_att]. lia.
  - pose proof (take_phi cfg (fun _ => now) 1 0 S) as H. cbn zeta in H. cbn [a_take] in H.
    destruct (a_pop cfg now S) as [S' [m|]]; cbn [fst snd ret] in *; unfold lenN in *; cbn [length] in *; lia.
  - pose proof (take_phi cfg clk (N.to_nat (N.min max (lenN (s_wait S)))) 0 S) as H. cbn zeta in H.
    destruct (a_take cfg _ 0 clk S) as [S' ms]; cbn [fst snd ret] in *. lia.
  - destruct (find_id id _); cbn [fst snd ret]; rewrite HL; [|lia]. unfold phi, without. cbn [s_wait s_fly].
    pose proof (wtotal_filter_le cfg (fun m => negb (m_id m =? id)) (s_wait S)).
    pose proof (total_filter_le cfg (fun m => negb (m_id m =? id)) (s_fly S)). lia.
  - destruct (find_id id _) as [m|] eqn:E; [|cbn [fst snd ret]; lia].
    apply find_id_some in E. destruct E as [Hi Hid].
    destruct (exhausted cfg m) eqn:Ex; [|destruct (m_state m) eqn:Est]; cbn [fst snd ret]; rewrite HL; unfold phi; cbn [s_wait s_fly].
    + unfold without. pose proof (wtotal_filter_le cfg (fun m => negb (m_id m =? id)) (s_wait S)).
      pose proof (total_filter_le cfg (fun m => negb (m_id m =? id)) (s_fly S)). lia.
    + rewrite wtotal_same; [lia|]. intro x. destruct (m_id x =? id); reflexivity.
    + assert (Hf : In m (s_fly S)).
      { apply in_app_or in Hi. destruct Hi as [Hi|Hi]; auto. rewrite (si_w _ HI m Hi) in Est; discriminate. }
      pose proof (total_without cfg m _ Hf) as Hw. rewrite Hid in Hw. unfold exhausted in Ex. apply N.leb_gt in Ex.
      rewrite wtotal_app. cbn [wtotal]. unfold wchances, chances in *. cbn [requeued noted m_att]. lia.
  - destruct (existsb _ _); cbn [fst snd ret]; rewrite HL; [|lia]. unfold phi. cbn [s_wait s_fly].
    rewrite wtotal_app. pose proof (total_filter cfg (overdue now2) (s_fly S)).
    pose proof (wtotal_back cfg (filter (overdue now2) (s_fly S))). lia.
  - destruct (find _ (s_dead S)) as [d|]; cbn [fst snd ret]; rewrite ?HL; [|lia]. unfold phi. cbn [s_wait s_fly].
    rewrite wtotal_app. cbn [wtotal]. unfold wchances, chances. cbn [revived msg_pushed m_att]. lia.
  - destruct (find _ (s_dead S)) as [d|]; cbn [fst snd ret]; unfold phi; cbn [s_wait s_fly]; rewrite ?HL; lia.
  - cbn [fst snd ret]. unfold phi. cbn [s_wait s_fly]. rewrite HL. lia.
Qed.
(** the same read off the listings *)
Definition lphi (cfg : qconfig) (i : inner) : N := wtotal cfg (obs_wait i) + total cfg (obs_fly i).
Lemma lphi_phi : forall cfg i S, RI i S -> lphi cfg i = phi cfg S.
Proof. intros cfg i S HR. unfold lphi, phi. rewrite (wtotal_perm _ _ _ (obs_wait_perm _ _ HR)), (obs_fly_eq _ _ HR). reflexivity. Qed.
Lemma total_le_wtotal : forall cfg l, total cfg l <= wtotal cfg l.
Proof. intros cfg l; induction l as [|m l IH]; cbn [total wtotal]; [lia|]. unfold wchances. lia. Qed.
Lemma wtotal_used : forall cfg l, wtotal cfg l <= total cfg l + lenN (filter (used_up cfg) l).
Proof.
  intros cfg l; induction l as [|m l IH]; cbn [total wtotal filter]; [lia|].
  unfold used_up at 1. unfold lenN in *. destruct (N.leb_spec (N.max 1 (c_max cfg)) (m_att m)); cbn [length]; unfold wchances, chances in *; lia.
Qed.
Lemma wtotal_len : forall cfg l, wtotal cfg l <= N.max 1 (c_max cfg) * lenN l.
Proof.
  intros cfg l; induction l as [|m l IH]; cbn [wtotal]; unfold lenN in *; cbn [length]; [lia|].
  rewrite Nat2N.inj_succ, N.mul_succ_r. unfold wchances, chances in *. lia.
Qed.
Lemma wtotal_rows : forall cfg i j, Permutation (rows i) (rows j) -> wtotal cfg (obs_wait i ++ obs_fly i) = wtotal cfg (obs_wait j ++ obs_fly j).
Proof.
  intros cfg i j H. unfold rows in H.
  set (g := fix g (l : list (N * row)) : N := match l with [] => 0 | e :: l' => N.max 1 (N.max 1 (c_max cfg) - w_att (snd e)) + g l' end).
  assert (G : forall l, wtotal cfg l = g (map (fun m => (m_id m, row_of m)) l)).
  { induction l as [|m l IH]; cbn [map wtotal]; [reflexivity|]. rewrite IH. reflexivity. }
  assert (P : forall a b, Permutation a b -> g a = g b).
  { intros a b Hp; induction Hp; cbn [g]; lia. }
  rewrite !G. apply P. exact H.
Qed.
Lemma life_steps : forall cfg s evs ms x s', life cfg s evs ms x s' -> psteps cfg s evs s'.
Proof. intros cfg s evs ms x s' H; induction H; [constructor|econstructor; eauto]. Qed.
Lemma reqs_app' : forall a b, reqs (a ++ b) = reqs a ++ reqs b.
Proof. intros; apply flat_map_app. Qed.
Lemma given_all_app : forall a b, given_all (a ++ b) = given_all a + given_all b.
Proof. intros a b; induction a as [|o a IH]; cbn [app given_all]; lia. Qed.
Lemma life_bound : forall cfg evs ms x s, life cfg sys0 evs ms x s -> fresh (reqs evs) ->
  lenN ms + lphi cfg (p_mem s) <= N.max 1 (c_max cfg) * given_all (reqs evs) + x.
Proof.
  intros cfg evs ms x s H. remember sys0 as s0 eqn:E0. induction H as [s|s evs ms x s1 e s2 y H IH Hp Ha]; intro Hf; subst.
  - change (lenN (@nil message)) with 0. change (lphi cfg (p_mem sys0)) with 0. lia.
  - rewrite reqs_app' in Hf. pose proof (life_steps _ _ _ _ _ _ H) as Hs.
    assert (Hf1 : fresh (reqs evs)).
    { unfold fresh in *. rewrite pushed_app, map_app in Hf. apply NoDup_app_inv in Hf. tauto. }
    specialize (IH eq_refl Hf1). rewrite reqs_app', given_all_app.
    assert (HL : forall l : list message, lenN (ms ++ l) = lenN ms + lenN l) by (intro l; unfold lenN; rewrite app_length; lia).
    rewrite HL. clear HL.
    assert (HF0 : fresh (reqs (evs ++ [e]))) by (rewrite reqs_app'; exact Hf).
    destruct (sys_reach cfg evs s1 Hs Hf1) as [S HI]. pose proof (si_ri _ _ _ HI) as HR.
    assert (Hs2 : psteps cfg sys0 (evs ++ [e]) s2) by (econstructor; eauto).
    destruct (sys_reach cfg _ s2 Hs2 HF0) as [S2 HI2]. pose proof (si_ri _ _ _ HI2) as HR2.
    destruct Ha as [s e s' Hc|s clk s' [Hw1 Hw2]|s clk s'].
    + destruct e as [o| | |clk]; try discriminate; inversion Hp; subst; cbn [served_at p_mem] in *.
      * assert (Ho : op_fresh S o).
        { apply (fresh_from_cons cfg i S o [] HR). split.
          - unfold fresh in *. rewrite pushed_app, map_app in Hf. apply NoDup_app_inv in Hf. tauto.
          - unfold fresh in Hf. rewrite pushed_app, map_app in Hf. apply NoDup_app_inv in Hf. destruct Hf as [_ [_ Hf3]].
            intros z Hz Ha. apply ids_body_mem in Ha. destruct Ha as [b' [Hb <-]].
            apply (Hf3 (body_id b')); [|exact Hz]. apply in_map. apply (si_b _ _ _ HI); auto. }
        destruct (step_refines cfg i S o HR Ho) as [HR' HO]. rewrite HO.
        rewrite (lphi_phi _ _ _ HR) in IH. rewrite (lphi_phi _ _ _ HR').
        pose proof (step_phi cfg S o (RI_SInv _ _ HR)) as Hst.
        change (given_all (reqs [EReq o])) with (gives o + 0). rewrite N.add_0_r, N.mul_add_distr_l. lia.
      * change (given_all (reqs [ERecv])) with 0. change (lenN (@nil message)) with 0. rewrite N.add_0_r. lia.
      * change (given_all (reqs [EFlush])) with 0. change (lenN (@nil message)) with 0. rewrite N.add_0_r. lia.
    + change (given_all (reqs [ECrash clk])) with 0. cbn [served_at]. change (lenN (@nil message)) with 0. rewrite !N.add_0_r.
      destruct (restart_restores cfg evs s clk s' Hs Hf1 Hw1 Hw2 Hp) as [Hr _].
      pose proof (wtotal_rows cfg _ _ Hr) as Hw. rewrite !wtotal_app in Hw. unfold lphi in *.
      pose proof (total_le_wtotal cfg (obs_fly (p_mem s'))). pose proof (wtotal_used cfg (obs_fly (p_mem s))). lia.
    + change (given_all (reqs [ECrash clk])) with 0. cbn [served_at]. change (lenN (@nil message)) with 0. rewrite !N.add_0_r.
      pose proof (wtotal_len cfg (obs_wait (p_mem s') ++ obs_fly (p_mem s'))) as Hw. rewrite wtotal_app in Hw.
      pose proof (total_le_wtotal cfg (obs_fly (p_mem s'))). unfold lphi in *. lia.
Qed.
