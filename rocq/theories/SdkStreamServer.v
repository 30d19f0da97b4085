(** Membership of consumer groups under everything a server does, for the SDK's
    stream subscription. *)
From Verif Require Import LibBase LibMap StreamTopicModel StreamGroupModel StreamGroupSpec StreamGroupFacts StreamStoreModel StreamSysModel StreamSysHist ConnReleaseProofs.

(** * The generation under the operations of a group *)
Section Gen.
  Variable cfg : gcfg.
  Lemma gen_adv g : g_gen (try_advance_floor g) = g_gen g.
  Proof. reflexivity. Qed.
  Lemma gen_clamp h g : g_gen (fst (clamp_head h g)) = g_gen g.
  Proof. unfold clamp_head. destruct (_ || _); reflexivity. Qed.
  Lemma gen_issue c now m g : g_gen (fst (issue_delivery cfg c now m g)) = g_gen g.
  Proof. unfold issue_delivery. destruct (_ <? _); reflexivity. Qed.
  Lemma gen_relseq s n g : g_gen (release_seq cfg s n g) = g_gen g.
  Proof. unfold release_seq. destruct (_ <=? _); [reflexivity|]. destruct (nmem _ _); reflexivity. Qed.
  Lemma gen_rel1 : forall l g, g_gen (fold_left (release_one cfg) l g) = g_gen g.
  Proof. induction l as [|kv l IH]; intro g; simpl; auto. rewrite IH. unfold release_one. rewrite gen_relseq. reflexivity. Qed.
  Lemma gen_relcons ord c g : g_gen (release_consumer cfg ord c g) = g_gen g.
  Proof. unfold release_consumer. rewrite gen_adv, gen_rel1. reflexivity. Qed.
  Lemma gen_remove ord c g : g_gen (fst (remove_member cfg ord c g)) = g_gen g.
  Proof. unfold remove_member. destruct (agetN c (g_mem g)); auto. cbn [fst]. unfold new_token. cbn [g_gen]. rewrite gen_relcons. reflexivity. Qed.
  Lemma gen_redeliver ord now g : g_gen (fst (check_redelivery cfg ord now g)) = g_gen g.
  Proof. unfold check_redelivery. destruct (filter _ _); auto. cbn [fst]. rewrite gen_adv, gen_rel1. reflexivity. Qed.
  Lemma gen_ack c gen s g : g_gen (fst (ack c gen s g)) = g_gen g.
  Proof. unfold ack. destruct (ensure_active c gen g); auto. destruct (pget s (g_pend g)) as [p|]; auto. destruct (_ =? _); reflexivity. Qed.
  Lemma gen_fred c now log ram head b : forall red res g, g_gen (fst (fetch_red cfg c now log ram head b red res g)) = g_gen g.
  Proof.
    induction red as [|s red IH]; intros res g; cbn [fetch_red]; [reflexivity|]. destruct (_ <=? _); [reflexivity|]. destruct (_ <? _); [rewrite IH; reflexivity|].
    destruct (read_from_log log ram s) as [m|]; [|reflexivity]. destruct (issue_delivery cfg c now m (set_red red g)) as [g1 o] eqn:E. rewrite IH.
    replace g1 with (fst (issue_delivery cfg c now m (set_red red g))) by (rewrite E; auto). rewrite gen_issue. reflexivity.
  Qed.
  Lemma gen_fnew c now log ram head b : forall k res g, g_gen (fst (fetch_new cfg k c now log ram head b res g)) = g_gen g.
  Proof.
    induction k as [|k IH]; intros res g; cbn [fetch_new]; [reflexivity|]. destruct (_ <=? _); [reflexivity|].
    set (g' := if g_next g <? head then _ else g). assert (G : g_gen g' = g_gen g) by (unfold g'; destruct (_ <? _); reflexivity).
    destruct (read_from_log _ _ _) as [m|]; [|exact G].
    destruct (issue_delivery cfg c now m _) as [g1 o] eqn:E. rewrite IH. rewrite <- G.
    match type of E with issue_delivery _ _ _ _ ?x = _ => replace g1 with (fst (issue_delivery cfg c now m x)) by (rewrite E; auto) end. rewrite gen_issue. reflexivity.
  Qed.
  Lemma gen_fetch c gen l now log ram head g : g_gen (fst (fetch cfg c gen l now log ram head g)) = g_gen g.
  Proof.
    unfold fetch. destruct (ensure_active c gen g); auto. rewrite <- (gen_clamp head g). set (g0 := fst (clamp_head head g)). destruct (_ <=? _); auto.
    destruct (fetch_red _ _ _ _ _ _ _ _ _ _) as [g1 r1] eqn:E1. destruct (fetch_new _ _ _ _ _ _ _ _ _ _) as [g2 r2] eqn:E2. cbn [fst].
    pose proof (gen_fnew c now log ram head (N.min l (max_pend cfg - lenN (g_pend g0))) (S (length log)) r1 g1) as A. rewrite E2 in A. cbn [fst] in A. rewrite A.
    pose proof (gen_fred c now log ram head (N.min l (max_pend cfg - lenN (g_pend g0))) (g_red g0) [] g0) as B. rewrite E1 in B. exact B.
  Qed.
  Lemma gen_cold1 c now head acc m : g_gen (fst (cold_one cfg c now head acc m)) = g_gen (fst acc).
  Proof.
    destruct acc as [g res]. unfold cold_one. destruct (_ <? _); [reflexivity|]. set (ga := if nmem (m_seq m) (g_red g) then _ else g).
    assert (A : g_gen ga = g_gen g) by (unfold ga; destruct (nmem _ _); reflexivity). set (gb := if g_next ga <? head then _ else ga).
    assert (B : g_gen gb = g_gen g) by (unfold gb; destruct (_ <? head); auto). cbn [fst]. destruct (_ || _); [|exact B].
    set (gc := if _ =? _ then set_next _ gb else gb). assert (C : g_gen gc = g_gen g) by (unfold gc; destruct (_ =? _); auto).
    destruct (issue_delivery cfg c now m gc) as [g1 o] eqn:E. cbn [fst]. replace g1 with (fst (issue_delivery cfg c now m gc)) by (rewrite E; auto). rewrite gen_issue. auto.
  Qed.
  Lemma gen_coldl c now head : forall ms acc, g_gen (fst (cold_loop cfg c now head ms acc)) = g_gen (fst acc).
  Proof. induction ms as [|m ms IH]; intro acc; cbn [cold_loop]; auto. destruct (_ <=? _); auto. rewrite IH. apply gen_cold1. Qed.
  Lemma gen_regcold c gen now ms head g : g_gen (fst (register_cold cfg c gen now ms head g)) = g_gen g.
  Proof.
    unfold register_cold. destruct (ensure_active c gen g); auto. destruct (cold_loop cfg c now head ms _) as [g1 r] eqn:E. cbn [fst].
    pose proof (gen_coldl c now head ms (fst (clamp_head head g), [])) as A. rewrite E in A. cbn [fst] in A. rewrite A. apply gen_clamp.
  Qed.
End Gen.

Section Srv.
  Variable crc : bytes -> N.
  Variable cfg : gcfg.
  Variable smax : N.
  Notation sstep := (sstep crc cfg smax).
  Notation grun := (grun cfg).
  Definition member (c : N) (g : group) : bool := isSome (agetN c (g_mem g)).

  (** One operation of a group, for one consumer *)
  Lemma gop_member op g c : let g' := fst (gstep cfg g op) in
    match op with
    | GJoin c' _ => g_gen g' = g_gen g /\ member c g' = (c =? c') || member c g
    | GLeave _ c' => g_gen g' = g_gen g /\ member c g' = negb (c =? c') && member c g
    | GSeekB _ | GSeekE _ => g_gen g' = g_gen g + 1 /\ member c g' = false
    | _ => g_gen g' = g_gen g /\ member c g' = member c g
    end.
  Proof.
    unfold member. destruct op as [c' conn|ord c'|c' gen limit now log ram head|c' gen now ms head|c' gen s|ord now|head|last|head|b]; cbn [gstep].
    - cbn [fst]. unfold add_member. cbn [g_mem g_gen set_mem]. rewrite agetN_aset. destruct (c =? c'); auto.
    - cbn [fst]. rewrite gen_remove. split; auto. destruct (mem_remove cfg ord c' g) as [->|[E ->]]; [rewrite agetN_adel; destruct (c =? c'); auto|].
      destruct (N.eqb_spec c c') as [->|]; auto. rewrite E. reflexivity.
    - pose proof (mem_fetch cfg c' gen limit now log ram head g) as M. pose proof (gen_fetch cfg c' gen limit now log ram head g) as G. destruct (fetch _ _ _ _ _ _ _ _ _) as [g' r]. cbn [fst] in *. rewrite M. auto.
    - pose proof (mem_regcold cfg c' gen now ms head g) as M. pose proof (gen_regcold cfg c' gen now ms head g) as G. destruct (register_cold _ _ _ _ _ _ _) as [g' r]. cbn [fst] in *. rewrite M. auto.
    - pose proof (mem_ack c' gen s g) as M. pose proof (gen_ack c' gen s g) as G. destruct (ack _ _ _ _) as [g' r]. cbn [fst] in *. rewrite M. auto.
    - cbn [fst]. rewrite mem_redeliver, gen_redeliver. auto.
    - cbn. auto.
    - cbn. auto.
    - cbn [fst]. rewrite mem_clamp, gen_clamp. auto.
    - cbn. auto.
  Qed.
  Lemma grun_cons op ops g : snd (grun g [] (op :: ops)) = snd (grun (fst (gstep cfg g op)) [] ops).
  Proof. simpl. destruct (gstep cfg g op) as [g' o]. cbn [fst]. apply grun_state. Qed.
  (** who is not removed stays, or the generation has moved on *)
  Lemma grun_keep c : forall ops g, (forall ord, ~ In (GLeave ord c) ops) -> let g' := snd (grun g [] ops) in
    g_gen g <= g_gen g' /\ (g_gen g' = g_gen g -> member c g = true -> member c g' = true).
  Proof.
    induction ops as [|op ops IH]; intros g N; cbv zeta; [simpl; split; [lia|auto]|]. rewrite grun_cons.
    destruct (IH (fst (gstep cfg g op))) as [A B]; [intros ord H; apply (N ord); right; auto|]. pose proof (gop_member op g c) as M. cbv zeta in M.
    destruct op; destruct M as [M1 M2]; (split; [lia|]); intros E K; try (apply B; [lia|]; rewrite M2; auto; try (rewrite K; apply orb_true_r)); try lia.
    destruct (N.eqb_spec c c0) as [->|]; auto. exfalso. apply (N ord). left. auto.
  Qed.
  (** who is no member stays out, in the same generation *)
  Lemma grun_out c : forall ops g, (forall conn, ~ In (GJoin c conn) ops) -> (forall h, ~ In (GSeekB h) ops) -> (forall h, ~ In (GSeekE h) ops) ->
    let g' := snd (grun g [] ops) in g_gen g' = g_gen g /\ (member c g = false -> member c g' = false).
  Proof.
    induction ops as [|op ops IH]; intros g N1 N2 N3; cbv zeta; [simpl; auto|]. rewrite grun_cons.
    destruct (IH (fst (gstep cfg g op))) as [A B]; [intros x H; apply (N1 x); right; auto|intros x H; apply (N2 x); right; auto|intros x H; apply (N3 x); right; auto|].
    pose proof (gop_member op g c) as M. cbv zeta in M.
    destruct op; destruct M as [M1 M2]; try (exfalso; eapply N2; left; reflexivity); try (exfalso; eapply N3; left; reflexivity); (split; [congruence|]); intro K; apply B; rewrite M2, ?K; auto.
    - rewrite orb_false_r. apply N.eqb_neq. intros ->. eapply N1. left. reflexivity.
    - apply andb_false_r.
  Qed.

  (** operation [o] does not take consumer [c] out of group [gid] *)
  Definition spares (gid : bytes) (c : N) (s : sys) (o : sop) : Prop :=
    match o with
    | SLeave _ _ c' _ => c' <> c
    | SDisc _ conn => forall l, aget N.eqb conn (s_clients s) = Some l -> ~ In (gid, c) l
    | _ => True
    end.
  Lemma srv_keep gid c s o g : gget gid s = Some g -> spares gid c s o ->
    exists g', gget gid (fst (sstep s o)) = Some g' /\ g_gen g <= g_gen g' /\ (g_gen g' = g_gen g -> member c g = true -> member c g' = true).
  Proof.
    intros G S. rewrite step_group, G. eexists. split; [reflexivity|]. apply grun_keep. intros od H. destruct o; simpl in H; try contradiction.
    - destruct (beqb gid gid0); [|contradiction]. destruct H as [H|[H|[]]]; discriminate H.
    - destruct (beqb gid gid0 && _); [|contradiction]. destruct H as [H|[]]. injection H as _ H. apply S. auto.
    - cbn [spares] in S. destruct (aget N.eqb conn (s_clients s)) as [l|]; [|contradiction]. apply in_map_iff in H. destruct H as ([k c'] & H & I). injection H as _ <-. apply filter_In in I. destruct I as [I B]. cbn [fst] in B. apply beqb_eq in B. subst k. apply (S l eq_refl I).
    - destruct (beqb gid gid0); [|contradiction]. destruct H as [H|[H|[]]]; discriminate H.
    - destruct (beqb gid gid0); [|contradiction]. destruct H as [H|[]]; destruct beginning; discriminate H.
    - destruct (beqb gid gid0); [|contradiction]. destruct H as [H|H]; [discriminate H|]. destruct (is_backpressured _ _); [contradiction|]. destruct H as [H|H]; [discriminate H|].
      destruct (snd _); try contradiction. destruct H as [H|[]]; discriminate H.
    - destruct (nth_error (s_colds s) i) as [k|]; [|contradiction]. destruct (beqb gid (k_gid k)); [|contradiction]. destruct (k_res k); [|contradiction]. destruct H as [H|H]; [discriminate H|].
      destruct (k_tok k =? g_tok g); [|contradiction]. destruct H as [H|[H|[]]]; discriminate H.
    - destruct (s_ret s); [|contradiction]. destruct (_ =? _); [contradiction|]. destruct H as [H|[]]; discriminate H.
    - destruct H as [H|[]]; discriminate H.
  Qed.
  Lemma srv_out gid c s o g : gget gid s = Some g -> (forall g' conn, o <> SJoin g' c conn) -> (forall b, o <> SSeek b gid) ->
    exists g', gget gid (fst (sstep s o)) = Some g' /\ g_gen g' = g_gen g /\ (member c g = false -> member c g' = false).
  Proof.
    intros G NJ NS. rewrite step_group, G. eexists. split; [reflexivity|].
    assert (X : forall op, In op (gtrace crc cfg smax gid g s o) -> (forall conn, op <> GJoin c conn) /\ (forall h, op <> GSeekB h) /\ (forall h, op <> GSeekE h)).
    { intros op H. destruct o; simpl in H; try contradiction.
      - destruct (beqb gid gid0); [|contradiction]. destruct H as [H|[H|[]]]; subst op; repeat split; try discriminate. intros cn E. injection E as -> _. eapply NJ; reflexivity.
      - destruct (beqb gid gid0 && _); [|contradiction]. destruct H as [H|[]]; subst op; repeat split; discriminate.
      - destruct (aget N.eqb conn (s_clients s)) as [l|]; [|contradiction]. apply in_map_iff in H. destruct H as ([k c'] & H & I). subst op. repeat split; discriminate.
      - destruct (beqb gid gid0); [|contradiction]. destruct H as [H|[H|[]]]; subst op; repeat split; discriminate.
      - destruct (beqb gid gid0) eqn:B; [|contradiction]. apply beqb_eq in B. subst gid0. exfalso. eapply NS; reflexivity.
      - destruct (beqb gid gid0); [|contradiction]. destruct H as [H|H]; [subst op; repeat split; discriminate|]. destruct (is_backpressured _ _); [contradiction|]. destruct H as [H|H]; [subst op; repeat split; discriminate|].
        destruct (snd _); try contradiction. destruct H as [H|[]]; subst op; repeat split; discriminate.
      - destruct (nth_error (s_colds s) i) as [k|]; [|contradiction]. destruct (beqb gid (k_gid k)); [|contradiction]. destruct (k_res k); [|contradiction]. destruct H as [H|H]; [subst op; repeat split; discriminate|].
        destruct (k_tok k =? g_tok g); [|contradiction]. destruct H as [H|[H|[]]]; subst op; repeat split; discriminate.
      - destruct (s_ret s); [|contradiction]. destruct (_ =? _); [contradiction|]. destruct H as [H|[]]; subst op; repeat split; discriminate.
      - destruct H as [H|[]]; subst op; repeat split; discriminate. }
    apply grun_out; intros x H; apply X in H; destruct H as (H1 & H2 & H3); [apply (H1 x)|apply (H2 x)|apply (H3 x)]; reflexivity.
  Qed.
  Lemma srv_join gid c conn s : exists g' f, sstep s (SJoin gid c conn) = (fst (sstep s (SJoin gid c conn)), RJoin f (g_gen g')) /\ gget gid (fst (sstep s (SJoin gid c conn))) = Some g' /\ member c g' = true.
  Proof.
    cbn [StreamSysModel.sstep]. unfold op_join. destruct (clamp_head _ _) as [g1 cl]. cbn [fst]. exists (add_member c conn g1), (g_floor (add_member c conn g1)). split; [reflexivity|]. rewrite StreamSysHist.gget_mark.
    change (gget gid (set_clients ?x ?y)) with (gget gid y). rewrite gget_gput_same. split; auto. unfold member, add_member. cbn [g_mem set_mem]. rewrite agetN_aset, N.eqb_refl. reflexivity.
  Qed.

  (** ** Bindings of connections *)
  Lemma drop_clients ord : forall l s, s_clients (fold_left (drop_member cfg ord) l s) = s_clients s.
  Proof.
    induction l as [|b l IH]; intro s; simpl; auto. rewrite IH. unfold drop_member. destruct (gget (fst b) s) as [g|]; auto. destruct (remove_member _ _ _ _) as [g' [k|]]; auto.
  Qed.
  Lemma srv_clients s o conn l b : aget N.eqb conn (s_clients (fst (sstep s o))) = Some l -> In b l ->
    (exists l0, aget N.eqb conn (s_clients s) = Some l0 /\ In b l0) \/ o = SJoin (fst b) (snd b) conn.
  Proof.
    intros A I.
    assert (PL : (forall gid c conn, o <> SJoin gid c conn) -> (forall ord gid c gen, o <> SLeave ord gid c gen) -> (forall ord conn, o <> SDisc ord conn) ->
      (exists l0, aget N.eqb conn (s_clients s) = Some l0 /\ In b l0) \/ o = SJoin (fst b) (snd b) conn).
    { intros H1 H2 H3. destruct (step_plain crc cfg smax 0 s o H1 H2 H3) as [E _]. rewrite E in A. eauto. }
    destruct o; try (apply PL; discriminate); clear PL.
    - cbn [StreamSysModel.sstep] in A. rewrite join_clients in A. destruct (N.eq_dec conn conn0) as [->|NE].
      + rewrite (aget_aset_same N.eqb N.eqb_eq) in A. injection A as <-. apply in_app_or in I. destruct I as [I|[<-|[]]]; [|right; reflexivity].
        left. destruct (aget N.eqb conn0 (s_clients s)) as [l0|]; [eauto|destruct I].
      + rewrite (aget_aset_other N.eqb N.eqb_eq) in A by auto. eauto.
    - cbn [StreamSysModel.sstep] in A. unfold op_leave in A. destruct (gget gid s) as [g|]; [|eauto]. destruct (negb _); [eauto|]. destruct (remove_member _ _ _ _) as [g' [k|]]; [|eauto].
      cbn [fst] in A. change (aget N.eqb conn (drop_binding gid c k (s_clients s)) = Some l) in A. unfold drop_binding in A. destruct (aget N.eqb k (s_clients s)) as [l1|] eqn:K; [|eauto].
      destruct (N.eq_dec conn k) as [->|NE].
      + set (l2 := filter _ l1) in A. assert (X : l = l2).
        { destruct l2 eqn:L2; [rewrite (aget_adel_same N.eqb) in A; discriminate A|rewrite (aget_aset_same N.eqb N.eqb_eq) in A; congruence]. }
        subst l. left. exists l1. split; auto. apply filter_In in I. apply I.
      + left. exists l. split; auto. destruct (filter _ l1); [rewrite (aget_adel_other N.eqb N.eqb_eq) in A|rewrite (aget_aset_other N.eqb N.eqb_eq) in A]; auto.
    - cbn [StreamSysModel.sstep fst] in A. unfold op_disconnect in A. destruct (aget N.eqb conn0 (s_clients s)) as [l1|] eqn:K; [|eauto].
      rewrite drop_clients in A. cbn [s_clients set_clients] in A. destruct (N.eq_dec conn conn0) as [->|NE].
      + rewrite (aget_adel_same N.eqb) in A. discriminate A.
      + rewrite (aget_adel_other N.eqb N.eqb_eq) in A by auto. eauto.
  Qed.

  (** ** All ids in the server's tables have been given out *)
  Record known (U : list N) (s : sys) : Prop := {
    kn_mem : forall gid g c, gget gid s = Some g -> member c g = true -> In c U;
    kn_bind : forall conn l gid c, aget N.eqb conn (s_clients s) = Some l -> In (gid, c) l -> In c U
  }.
  Definition gives (o : sop) (U : list N) : list N := match o with SJoin _ c _ => c :: U | _ => U end.
  Lemma gives_in o U c : In c U -> In c (gives o U).
  Proof. destruct o; simpl; auto. Qed.
  Lemma known_step U s o : known U s -> known (gives o U) (fst (sstep s o)).
  Proof.
    intros [KM KB]. constructor.
    - intros gid g' c G M. destruct (in_dec N.eq_dec c (gives o U)) as [Y|Y]; auto. exfalso.
      assert (NJ : forall gd conn, o <> SJoin gd c conn) by (intros gd conn ->; apply Y; left; auto).
      rewrite step_group in G.
      assert (X : forall g, member c g = false -> member c (snd (grun g [] (gtrace crc cfg smax gid g s o))) = true -> False).
      { intros g Mg Mg'. assert (H : forall ops g, (forall conn, ~ In (GJoin c conn) ops) -> member c g = false -> member c (snd (grun g [] ops)) = false).
        { clear - cfg. induction ops as [|op ops IH]; intros g N E; [exact E|]. rewrite grun_cons. apply IH; [intros x H; apply (N x); right; auto|]. pose proof (gop_member op g c) as W. cbv zeta in W.
          destruct op; destruct W as [_ W]; rewrite W, ?E; auto; [|apply andb_false_r]. rewrite orb_false_r. apply N.eqb_neq. intros ->. eapply N. left. reflexivity. }
        rewrite H in Mg'; auto; [discriminate Mg'|]. intros conn HI. destruct o; simpl in HI; try contradiction.
        - destruct (beqb gid gid0); [|contradiction]. destruct HI as [HI|[HI|[]]]; [discriminate HI|]. injection HI as -> ->. eapply NJ; reflexivity.
        - destruct (beqb gid gid0 && _); [|contradiction]. destruct HI as [HI|[]]; discriminate HI.
        - destruct (aget N.eqb conn0 (s_clients s)) as [l|]; [|contradiction]. apply in_map_iff in HI. destruct HI as ([k c'] & HI & _). discriminate HI.
        - destruct (beqb gid gid0); [|contradiction]. destruct HI as [HI|[HI|[]]]; discriminate HI.
        - destruct (beqb gid gid0); [|contradiction]. destruct HI as [HI|[]]; destruct beginning; discriminate HI.
        - destruct (beqb gid gid0); [|contradiction]. destruct HI as [HI|HI]; [discriminate HI|]. destruct (is_backpressured _ _); [contradiction|]. destruct HI as [HI|HI]; [discriminate HI|]. match type of HI with context [match ?x with _ => _ end] => destruct x end; try contradiction. destruct HI as [HI|[]]; discriminate HI.
        - destruct (nth_error (s_colds s) i) as [k|]; [|contradiction]. destruct (beqb gid (k_gid k)); [|contradiction]. destruct (k_res k); [|contradiction]. destruct HI as [HI|HI]; [discriminate HI|]. destruct (k_tok k =? g_tok g); [|contradiction]. destruct HI as [HI|[HI|[]]]; discriminate HI.
        - destruct (s_ret s); [|contradiction]. destruct (_ =? _); [contradiction|]. destruct HI as [HI|[]]; discriminate HI.
        - destruct HI as [HI|[]]; discriminate HI. }
      destruct (gget gid s) as [g|] eqn:E.
      + injection G as <-. destruct (member c g) eqn:Mg; [apply Y, gives_in, (KM gid g c E Mg)|]. apply (X g Mg M).
      + destruct (creates gid o); [|discriminate G]. injection G as <-. exact (X (group_new (t_head (s_top s))) eq_refl M).
    - intros conn l gid c A I. destruct (srv_clients s o conn l (gid, c) A I) as [(l0 & A0 & I0)| ->]; [apply gives_in, (KB conn l0 gid c A0 I0)|left; auto].
  Qed.
End Srv.
