(** A cleanly ended connection leaves nothing behind. *)
From Verif Require Import LibBase LibMap WireModel CmdModel PubSubModel PubSubSpec PubSubTree PubSubProofs PubSubConcModel StreamTopicModel StreamGroupModel StreamStoreModel StreamSysModel ConnModel ConnRelease.

Lemma beqb_spec a b : reflect (a = b) (beqb a b).
Proof. destruct (beqb a b) eqn:E; constructor; [apply beqb_eq; auto|]. intro H. apply beqb_eq in H. congruence. Qed.

(** * Membership under the operations of a group *)
Section Mem.
  Variable cfg : gcfg.
  Lemma mem_adv g : g_mem (try_advance_floor g) = g_mem g.
  Proof. reflexivity. Qed.
  Lemma mem_clamp h g : g_mem (fst (clamp_head h g)) = g_mem g.
  Proof. unfold clamp_head. destruct (_ || _); reflexivity. Qed.
  Lemma mem_issue c now m g : g_mem (fst (issue_delivery cfg c now m g)) = g_mem g.
  Proof. unfold issue_delivery. destruct (_ <? _); reflexivity. Qed.
  Lemma mem_relseq s n g : g_mem (release_seq cfg s n g) = g_mem g.
  Proof. unfold release_seq. destruct (_ <=? _); [reflexivity|]. destruct (nmem _ _); reflexivity. Qed.
  Lemma mem_rel1 : forall l g, g_mem (fold_left (release_one cfg) l g) = g_mem g.
  Proof. induction l as [|kv l IH]; intro g; simpl; auto. rewrite IH. unfold release_one. rewrite mem_relseq. reflexivity. Qed.
  Lemma mem_relcons ord c g : g_mem (release_consumer cfg ord c g) = g_mem g.
  Proof. unfold release_consumer. rewrite mem_adv, mem_rel1. reflexivity. Qed.
  Lemma mem_remove ord c g : g_mem (fst (remove_member cfg ord c g)) = adel N.eqb c (g_mem g) \/ agetN c (g_mem g) = None /\ g_mem (fst (remove_member cfg ord c g)) = g_mem g.
  Proof. unfold remove_member. destruct (agetN c (g_mem g)); auto. left. cbn [fst]. unfold new_token. cbn [g_mem]. rewrite mem_relcons. reflexivity. Qed.
  Lemma mem_redeliver ord now g : g_mem (fst (check_redelivery cfg ord now g)) = g_mem g.
  Proof. unfold check_redelivery. destruct (filter _ _); auto. cbn [fst]. rewrite mem_adv, mem_rel1. reflexivity. Qed.
  Lemma mem_ack c gen s g : g_mem (fst (ack c gen s g)) = g_mem g.
  Proof. unfold ack. destruct (ensure_active c gen g); auto. destruct (pget s (g_pend g)) as [p|]; auto. destruct (_ =? _); reflexivity. Qed.
  Lemma mem_fred c now log ram head b : forall red res g, g_mem (fst (fetch_red cfg c now log ram head b red res g)) = g_mem g.
  Proof.
    induction red as [|s red IH]; intros res g; cbn [fetch_red]; [reflexivity|]. destruct (_ <=? _); [reflexivity|]. destruct (_ <? _); [rewrite IH; reflexivity|].
    destruct (read_from_log log ram s) as [m|]; [|reflexivity]. destruct (issue_delivery cfg c now m (set_red red g)) as [g1 o] eqn:E. rewrite IH.
    replace g1 with (fst (issue_delivery cfg c now m (set_red red g))) by (rewrite E; auto). rewrite mem_issue. reflexivity.
  Qed.
  Lemma mem_fnew c now log ram head b : forall k res g, g_mem (fst (fetch_new cfg k c now log ram head b res g)) = g_mem g.
  Proof.
    induction k as [|k IH]; intros res g; cbn [fetch_new]; [reflexivity|]. destruct (_ <=? _); [reflexivity|].
    set (g' := if g_next g <? head then _ else g). assert (G : g_mem g' = g_mem g) by (unfold g'; destruct (_ <? _); reflexivity).
    destruct (read_from_log _ _ _) as [m|]; [|exact G].
    destruct (issue_delivery cfg c now m _) as [g1 o] eqn:E. rewrite IH. rewrite <- G.
    match type of E with issue_delivery _ _ _ _ ?x = _ => replace g1 with (fst (issue_delivery cfg c now m x)) by (rewrite E; auto) end. rewrite mem_issue. reflexivity.
  Qed.
  Lemma mem_fetch c gen l now log ram head g : g_mem (fst (fetch cfg c gen l now log ram head g)) = g_mem g.
  Proof.
    unfold fetch. destruct (ensure_active c gen g); auto. rewrite <- (mem_clamp head g). set (g0 := fst (clamp_head head g)). destruct (_ <=? _); auto.
    destruct (fetch_red _ _ _ _ _ _ _ _ _ _) as [g1 r1] eqn:E1. destruct (fetch_new _ _ _ _ _ _ _ _ _ _) as [g2 r2] eqn:E2. cbn [fst].
    pose proof (mem_fnew c now log ram head (N.min l (max_pend cfg - lenN (g_pend g0))) (S (length log)) r1 g1) as A. rewrite E2 in A. cbn [fst] in A. rewrite A.
    pose proof (mem_fred c now log ram head (N.min l (max_pend cfg - lenN (g_pend g0))) (g_red g0) [] g0) as B. rewrite E1 in B. exact B.
  Qed.
  Lemma mem_cold1 c now head acc m : g_mem (fst (cold_one cfg c now head acc m)) = g_mem (fst acc).
  Proof.
    destruct acc as [g res]. unfold cold_one. destruct (_ <? _); [reflexivity|]. set (ga := if nmem (m_seq m) (g_red g) then _ else g).
    assert (A : g_mem ga = g_mem g) by (unfold ga; destruct (nmem _ _); reflexivity). set (gb := if g_next ga <? head then _ else ga).
    assert (B : g_mem gb = g_mem g) by (unfold gb; destruct (_ <? head); auto). cbn [fst]. destruct (_ || _); [|exact B].
    set (gc := if _ =? _ then set_next _ gb else gb). assert (C : g_mem gc = g_mem g) by (unfold gc; destruct (_ =? _); auto).
    destruct (issue_delivery cfg c now m gc) as [g1 o] eqn:E. cbn [fst]. replace g1 with (fst (issue_delivery cfg c now m gc)) by (rewrite E; auto). rewrite mem_issue. auto.
  Qed.
  Lemma mem_coldl c now head : forall ms acc, g_mem (fst (cold_loop cfg c now head ms acc)) = g_mem (fst acc).
  Proof. induction ms as [|m ms IH]; intro acc; cbn [cold_loop]; auto. destruct (_ <=? _); auto. rewrite IH. apply mem_cold1. Qed.
  Lemma mem_regcold c gen now ms head g : g_mem (fst (register_cold cfg c gen now ms head g)) = g_mem g.
  Proof.
    unfold register_cold. destruct (ensure_active c gen g); auto. destruct (cold_loop cfg c now head ms _) as [g1 r] eqn:E. cbn [fst].
    pose proof (mem_coldl c now head ms (fst (clamp_head head g), [])) as A. rewrite E in A. cbn [fst] in A. rewrite A. apply mem_clamp.
  Qed.
End Mem.

(** * Every membership of a connection is listed under the connection *)
Section Bind.
  Variable crc : bytes -> N.
  Variable cfg : gcfg.
  Variable smax : N.
  Variable me : N.
  Notation sstep := (sstep crc cfg smax).
  Definition mine (s : sys) (gid : bytes) (c : N) : Prop := exists g, gget gid s = Some g /\ agetN c (g_mem g) = Some me.
  Definition bound (s : sys) (gid : bytes) (c : N) : Prop := exists l, aget N.eqb me (s_clients s) = Some l /\ In (gid, c) l.
  Definition binds (s : sys) : Prop := forall gid c, mine s gid c -> bound s gid c.

  Lemma agetN_adel c c' m : agetN c (adel N.eqb c' m) = if c =? c' then None else agetN c m.
  Proof. unfold agetN. destruct (N.eqb_spec c c') as [->|H]; [apply aget_adel_same; apply N.eqb_eq|apply aget_adel_other; auto; apply N.eqb_eq]. Qed.
  Lemma agetN_aset c c' v m : agetN c (aset N.eqb c' v m) = if c =? c' then Some v else agetN c m.
  Proof. unfold agetN. destruct (N.eqb_spec c c') as [->|H]; [apply aget_aset_same; apply N.eqb_eq|apply aget_aset_other; auto; apply N.eqb_eq]. Qed.
  Lemma gget_put gid gid' g s : gget gid (gput gid' g s) = if beqb gid gid' then Some g else gget gid s.
  Proof. unfold gget, gput. cbn [s_groups set_groups]. destruct (beqb_spec gid gid') as [->|H]; [apply aget_aset_same; apply beqb_eq|apply aget_aset_other; auto; apply beqb_eq]. Qed.
  Lemma gget_mark b gid s : gget gid (mark b s) = gget gid s. Proof. destruct b; reflexivity. Qed.
  Lemma clients_mark b s : s_clients (mark b s) = s_clients s. Proof. destruct b; reflexivity. Qed.

  (** the memberships of [me] only shrink *)
  Definition shrinks (s s' : sys) : Prop := forall gid c, mine s' gid c -> mine s gid c.
  Lemma shrinks_refl s : shrinks s s. Proof. intros gid c H; exact H. Qed.
  Lemma shrinks_same s s' : s_groups s' = s_groups s -> shrinks s s'.
  Proof. intros E gid c (g & G & M). exists g. unfold gget in *. rewrite <- E. auto. Qed.
  Lemma shrinks_put gid g g' s : gget gid s = Some g -> g_mem g' = g_mem g -> shrinks s (gput gid g' s).
  Proof.
    intros E M gid' c (g1 & G & A). rewrite gget_put in G. destruct (beqb_spec gid' gid) as [->|H]; [|exists g1; auto]. injection G as <-. exists g. rewrite <- M. auto.
  Qed.
  Lemma shrinks_mark b s s' : shrinks s s' -> shrinks s (mark b s').
  Proof. intros H gid c (g & G & M). rewrite gget_mark in G. apply H. exists g; auto. Qed.
  Lemma shrinks_colds l s s' : shrinks s s' -> shrinks s (set_colds l s').
  Proof. intros H gid c (g & G & M). apply H. exists g. auto. Qed.
  Lemma gget_map f gid s : (forall e, fst (f e) = fst e) -> gget gid (set_groups (map f (s_groups s)) s) = match gget gid s with Some g => Some (snd (f (gid, g))) | None => None end.
  Proof.
    intro F. unfold gget. cbn [s_groups set_groups]. induction (s_groups s) as [|[k g] l IH]; simpl; auto. specialize (F (k, g)) as Fk. destruct (f (k, g)) as [k' g'] eqn:E. simpl in Fk. subst k'.
    destruct (beqb_spec gid k) as [->|H]; auto. rewrite E. reflexivity.
  Qed.
  Lemma shrinks_map f s s' : s_groups s' = map f (s_groups s) -> (forall e, fst (f e) = fst e /\ g_mem (snd (f e)) = g_mem (snd e)) -> shrinks s s'.
  Proof.
    intros E F gid c (g & G & M). assert (G2 : gget gid (set_groups (map f (s_groups s)) s) = Some g) by (unfold gget in *; cbn [s_groups set_groups]; congruence).
    rewrite gget_map in G2 by (intro e; apply F). destruct (gget gid s) as [g0|] eqn:E0; [|discriminate]. injection G2 as <-. exists g0. split; auto. change (g_mem g0) with (g_mem (snd (gid, g0))). rewrite <- (proj2 (F (gid, g0))). exact M.
  Qed.

  Lemma step_plain s o : (forall gid c conn, o <> SJoin gid c conn) -> (forall ord gid c gen, o <> SLeave ord gid c gen) -> (forall ord conn, o <> SDisc ord conn) ->
    s_clients (fst (sstep s o)) = s_clients s /\ shrinks s (fst (sstep s o)).
  Proof.
    intros NJ NL ND. destruct o; cbn [StreamSysModel.sstep].
    - unfold op_publish. destruct (append ts pay (s_top s)) as [t n]. split; [reflexivity|]. apply shrinks_same. reflexivity.
    - cbn [fst]. unfold op_send. destruct (nth_error (s_box s) i); (split; [reflexivity|]; apply shrinks_same; reflexivity).
    - exfalso; eapply NJ; eauto.
    - exfalso; eapply NL; eauto.
    - exfalso; eapply ND; eauto.
    - unfold op_ack. destruct (gget gid s) as [g|] eqn:E; [|split; [reflexivity|apply shrinks_refl]].
      destruct (ack c gen seq (fst (clamp_head (t_head (s_top s)) g))) as [g' o] eqn:EA.
      assert (M : g_mem g' = g_mem g). { pose proof (mem_ack c gen seq (fst (clamp_head (t_head (s_top s)) g))) as X. rewrite EA in X. cbn [fst] in X. rewrite X. apply mem_clamp. }
      destruct o as [e|]; cbn [fst]; (split; [reflexivity|]); [exact (shrinks_put _ _ _ _ E M)|].
      intros gid' c' (g1 & G & A). apply (shrinks_put _ _ _ _ E M). exists g1. auto.
    - cbn [fst]. unfold op_seek. split; [reflexivity|]. intros gid' c (g1 & G & A). change (gget gid' (gput gid (if beginning then seek_beginning (t_head (s_top s)) (match gget gid s with Some g => g | None => group_new (t_head (s_top s)) end)
        else seek_end (t_next (s_top s) - 1) (match gget gid s with Some g => g | None => group_new (t_head (s_top s)) end)) s) = Some g1) in G. rewrite gget_put in G.
      destruct (beqb gid' gid); [|exists g1; auto]. injection G as <-. destruct beginning; cbn in A; discriminate.
    - unfold op_try. destruct (gget gid s) as [g0|] eqn:E; [|split; [reflexivity|apply shrinks_refl]].
      destruct (clamp_head (t_head (s_top s)) g0) as [g1 cl] eqn:EC. assert (M1 : g_mem g1 = g_mem g0) by (pose proof (mem_clamp (t_head (s_top s)) g0) as X; rewrite EC in X; exact X).
      destruct (is_backpressured cfg g1); [split; [reflexivity|]; exact (shrinks_put _ _ _ _ E M1)|].
      destruct (fetch cfg c gen limit now _ _ _ g1) as [g2 r] eqn:EF. assert (M2 : g_mem g2 = g_mem g0) by (rewrite <- M1; pose proof (mem_fetch cfg c gen limit now (t_log (s_top s)) (t_ram (s_top s)) (t_head (s_top s)) g1) as X; rewrite EF in X; exact X).
      destruct r as [e|[|m ms]]; cbn [fst]; [split; [reflexivity|]; exact (shrinks_put _ _ _ _ E M2)| |rewrite clients_mark; split; [reflexivity|]; apply shrinks_mark; exact (shrinks_put _ _ _ _ E M2)].
      destruct (g_cold g2); cbn [fst]; [rewrite clients_mark; split; [reflexivity|]; apply shrinks_mark; exact (shrinks_put _ _ _ _ E M2)|].
      destruct (_ && _); cbn [fst]; [|rewrite clients_mark; split; [reflexivity|]; apply shrinks_mark; exact (shrinks_put _ _ _ _ E M2)].
      cbn [s_clients set_colds]. rewrite clients_mark. split; [reflexivity|]. apply shrinks_colds, shrinks_mark. apply (shrinks_put _ g0 _ _ E); exact M2.
    - cbn [fst]. unfold op_cold_run. destruct (nth_error (s_colds s) i); (split; [reflexivity|]; apply shrinks_same; reflexivity).
    - unfold op_cold_done. destruct (nth_error (s_colds s) i) as [k|]; [|split; [reflexivity|apply shrinks_refl]]. destruct (k_res k) as [ms|]; [|split; [reflexivity|apply shrinks_refl]].
      set (s1 := set_colds (remove_nth i (s_colds s)) s). assert (S1 : shrinks s s1) by (apply shrinks_same; reflexivity).
      assert (TR : forall s', shrinks s1 s' -> shrinks s s') by (intros s' H gid c K; apply S1, H, K).
      destruct (gget (k_gid k) s1) as [g0|] eqn:E; [|split; [reflexivity|auto]]. destruct (negb _); cbn [fst]; [split; [reflexivity|]; apply TR; apply (shrinks_put _ _ _ _ E); reflexivity|].
      destruct (clamp_head (t_head (s_top s1)) (set_cold false g0)) as [g2 cl] eqn:EC. assert (M1 : g_mem g2 = g_mem g0) by (pose proof (mem_clamp (t_head (s_top s1)) (set_cold false g0)) as X; rewrite EC in X; exact X).
      destruct (register_cold cfg (k_c k) (k_gen k) now ms (t_head (s_top s1)) g2) as [g3 r] eqn:ER.
      assert (M2 : g_mem g3 = g_mem g0) by (rewrite <- M1; pose proof (mem_regcold cfg (k_c k) (k_gen k) now ms (t_head (s_top s1)) g2) as X; rewrite ER in X; exact X).
      destruct r; cbn [fst]; rewrite ?clients_mark; (split; [reflexivity|]); apply TR; try apply shrinks_mark; exact (shrinks_put _ _ _ _ E M2).
    - split; [reflexivity|]. apply shrinks_same. reflexivity.
    - split; [reflexivity|]. apply shrinks_same. reflexivity.
    - split; [reflexivity|]. apply shrinks_same. reflexivity.
    - cbn [fst]. unfold op_collect. destruct (s_dirty s); (split; [reflexivity|]; apply shrinks_same; reflexivity).
    - cbn [fst]. unfold op_save. destruct (s_save s); (split; [reflexivity|]; apply shrinks_same; reflexivity).
    - cbn [fst]. unfold op_retain. destruct (apply_retention _ _ _ _) as [st h]. split; [reflexivity|]; apply shrinks_same; reflexivity.
    - cbn [fst]. unfold op_head. destruct (s_ret s) as [h|]; [|split; [reflexivity|apply shrinks_refl]]. destruct (_ =? _); cbn [fst]; [split; [reflexivity|]; apply shrinks_same; reflexivity|].
      rewrite clients_mark. split; [reflexivity|]. apply shrinks_mark. apply (shrinks_map (fun e => (fst e, fst (clamp_head h (snd e))))); [cbn [s_groups set_groups]; rewrite map_map; reflexivity|].
      intro e. split; [reflexivity|]. apply mem_clamp.
    - cbn [fst]. unfold op_tick. cbn [fst]. rewrite clients_mark. split; [reflexivity|]. apply shrinks_mark. apply (shrinks_map (fun e => (fst e, fst (check_redelivery cfg (ord (fst e)) now (snd e))))); [cbn [s_groups set_groups]; rewrite map_map; reflexivity|].
      intro e. split; [reflexivity|]. apply mem_redeliver.
    - split; [reflexivity|]. apply shrinks_same. reflexivity.
    - split; [reflexivity|]. apply shrinks_same. reflexivity.
  Qed.

  Lemma join_clients gid c conn s : s_clients (fst (op_join gid c conn s)) =
    aset N.eqb conn (match aget N.eqb conn (s_clients s) with Some l => l | None => [] end ++ [(gid, c)]) (s_clients s).
  Proof. unfold op_join. destruct (clamp_head _ _) as [g1 cl]. cbn [fst]. rewrite clients_mark. reflexivity. Qed.
  Lemma join_mine gid c conn s gid' c' : mine (fst (op_join gid c conn s)) gid' c' -> gid' = gid /\ c' = c /\ conn = me \/ mine s gid' c'.
  Proof.
    unfold op_join. destruct (clamp_head _ _) as [g1 cl] eqn:E. cbn [fst]. intros (g & G & M). rewrite gget_mark in G.
    change (gget gid' (gput gid (add_member c conn g1) s) = Some g) in G. rewrite gget_put in G. destruct (beqb_spec gid' gid) as [->|H]; [|right; exists g; auto].
    injection G as <-. unfold add_member in M. cbn [g_mem set_mem] in M. rewrite agetN_aset in M. destruct (N.eqb_spec c' c) as [->|H]; [left; split; auto; split; auto; congruence|].
    right. pose proof (mem_clamp (t_head (s_top s)) (match gget gid s with Some g => g | None => group_new (t_head (s_top s)) end)) as X. rewrite E in X. cbn [fst] in X. rewrite X in M.
    destruct (gget gid s) as [g0|] eqn:E0; [exists g0; auto|]. cbn in M. discriminate.
  Qed.
  Lemma removed ord c g : forall c' k, agetN c' (g_mem (fst (remove_member cfg ord c g))) = Some k -> c' <> c /\ agetN c' (g_mem g) = Some k.
  Proof.
    intros c' k H. destruct (mem_remove cfg ord c g) as [E|[E1 E]]; rewrite E in H.
    - rewrite agetN_adel in H. destruct (N.eqb_spec c' c); [discriminate|auto].
    - split; auto. intros ->. congruence.
  Qed.
  Lemma drop_spec ord s b : s_clients (drop_member cfg ord s b) = s_clients s /\ forall gid c, mine (drop_member cfg ord s b) gid c -> mine s gid c /\ (gid, c) <> b.
  Proof.
    destruct b as [gid0 c0]. unfold drop_member. cbn [fst snd]. destruct (gget gid0 s) as [g|] eqn:E.
    - pose proof (removed (ord c0) c0 g) as R. destruct (remove_member cfg (ord c0) c0 g) as [g' [k|]] eqn:ER; cbn [fst] in R.
      + split; [reflexivity|]. intros gid c (g1 & G & M). change (gget gid (gput gid0 g' s) = Some g1) in G. rewrite gget_put in G. destruct (beqb_spec gid gid0) as [->|H].
        * injection G as <-. destruct (R _ _ M) as [R1 R2]. split; [exists g; auto|congruence].
        * split; [exists g1; auto|congruence].
      + split; [reflexivity|]. intros gid c (g1 & G & M). split; [exists g1; auto|]. intro Q. injection Q as -> ->. rewrite E in G. injection G as <-.
        unfold remove_member in ER. unfold agetN in *. rewrite M in ER. discriminate.
    - split; [reflexivity|]. intros gid c (g1 & G & M). split; [exists g1; auto|]. intro Q. injection Q as -> ->. congruence.
  Qed.
  Lemma drops_spec ord : forall l s, s_clients (fold_left (drop_member cfg ord) l s) = s_clients s /\
    forall gid c, mine (fold_left (drop_member cfg ord) l s) gid c -> mine s gid c /\ ~ In (gid, c) l.
  Proof.
    induction l as [|b l IH]; intro s; simpl; [split; auto|]. destruct (IH (drop_member cfg ord s b)) as [A B]. destruct (drop_spec ord s b) as [C D]. split; [congruence|].
    intros gid c H. destruct (B _ _ H) as [B1 B2]. destruct (D _ _ B1) as [D1 D2]. split; auto. intros [->|K]; auto.
  Qed.
  Lemma disc_mine ord s : binds s -> (forall gid c, ~ mine (op_disconnect cfg ord me s) gid c) /\ aget N.eqb me (s_clients (op_disconnect cfg ord me s)) = None.
  Proof.
    intro B. unfold op_disconnect. destruct (aget N.eqb me (s_clients s)) as [l|] eqn:E.
    - destruct (drops_spec ord l (set_clients (adel N.eqb me (s_clients s)) s)) as [C D]. split.
      + intros gid c H. destruct (D _ _ H) as [(g & G & M) D2]. destruct (B gid c) as (l' & E' & I); [exists g; auto|]. rewrite E in E'. injection E' as <-. auto.
      + rewrite C. cbn [s_clients set_clients]. apply aget_adel_same.
    - split; auto. intros gid c H. destruct (B gid c H) as (l' & E' & I). congruence.
  Qed.

  Lemma binds_step s o : binds s -> binds (fst (sstep s o)).
  Proof.
    intros B. assert (PL : (forall gid c conn, o <> SJoin gid c conn) -> (forall ord gid c gen, o <> SLeave ord gid c gen) -> (forall ord conn, o <> SDisc ord conn) -> binds (fst (sstep s o))).
    { intros N1 N2 N3. destruct (step_plain s o N1 N2 N3) as [C S]. intros gid c H. destruct (B gid c (S gid c H)) as (l & E & I). exists l. rewrite C. auto. }
    destruct o; try (apply PL; intros; discriminate); clear PL; cbn [StreamSysModel.sstep].
    - intros gid' c' H. apply join_mine in H. unfold bound. rewrite join_clients. destruct (N.eqb_spec me conn) as [<-|HN].
      + rewrite aget_aset_same by (apply N.eqb_eq). eexists. split; [reflexivity|]. apply in_or_app. destruct H as [(-> & -> & _)|H]; [right; left; auto|].
        left. destruct (B _ _ H) as (l & E & I). rewrite E. auto.
      + rewrite aget_aset_other by (auto; apply N.eqb_eq). destruct H as [(_ & _ & ->)|H]; [congruence|]. exact (B _ _ H).
    - unfold op_leave. destruct (gget gid s) as [g|] eqn:E; [|exact B]. destruct (negb _); [exact B|]. pose proof (removed ord c g) as R.
      destruct (remove_member cfg ord c g) as [g' [k|]] eqn:ER; [|exact B]. cbn [fst] in *. intros gid' c' (g1 & G & M).
      change (gget gid' (gput gid g' s) = Some g1) in G. rewrite gget_put in G.
      assert (K : mine s gid' c' /\ (gid', c') <> (gid, c)).
      { destruct (beqb_spec gid' gid) as [->|H]; [|split; [exists g1; auto|congruence]]. injection G as <-. destruct (R _ _ M). split; [exists g; auto|congruence]. }
      destruct K as [K1 K2]. destruct (B _ _ K1) as (l & E2 & I). unfold bound. cbn [s_clients set_clients set_dirty]. unfold drop_binding.
      destruct (aget N.eqb k (s_clients s)) as [lk|] eqn:EK; [|exists l; auto]. set (lk0 := filter _ lk). remember lk0 as lk' eqn:EL; unfold lk0 in EL; clear lk0. destruct (N.eqb_spec me k) as [<-|HN].
      + assert (lk = l) by congruence. subst lk. assert (I' : In (gid', c') lk').
        { rewrite EL. apply filter_In. split; auto. cbn [fst snd]. destruct (beqb_spec gid' gid) as [->|]; auto. destruct (N.eqb_spec c' c) as [->|]; auto. }
        destruct lk' as [|b lk2]; [destruct I'|]. rewrite aget_aset_same by (apply N.eqb_eq). eexists. split; [reflexivity|]. exact I'.
      + destruct lk'; [rewrite aget_adel_other by (auto; apply N.eqb_eq)|rewrite aget_aset_other by (auto; apply N.eqb_eq)]; exists l; auto.
    - cbn [fst]. destruct (N.eqb_spec me conn) as [<-|HN].
      + destruct (disc_mine ord s B) as [D _]. intros gid c H. destruct (D gid c H).
      + unfold op_disconnect. destruct (aget N.eqb conn (s_clients s)) as [l|]; [|exact B]. destruct (drops_spec ord l (set_clients (adel N.eqb conn (s_clients s)) s)) as [C D].
        intros gid c H. destruct (D _ _ H) as [(g & G & M) _]. destruct (B gid c) as (l' & E' & I); [exists g; auto|]. exists l'. rewrite C. cbn [s_clients set_clients]. rewrite aget_adel_other by (auto; apply N.eqb_eq). auto.
  Qed.
  (** once gone, gone: nothing but a join of this connection brings a membership back *)
  Lemma gone_step s o : (forall gid c, o <> SJoin gid c me) -> (forall gid c, ~ mine s gid c) /\ aget N.eqb me (s_clients s) = None ->
    (forall gid c, ~ mine (fst (sstep s o)) gid c) /\ aget N.eqb me (s_clients (fst (sstep s o))) = None.
  Proof.
    intros NJ [A C]. assert (B : binds s) by (intros gid c H; destruct (A gid c H)).
    assert (NEW : aget N.eqb me (s_clients (fst (sstep s o))) = None -> (forall gid c, ~ mine (fst (sstep s o)) gid c) /\ aget N.eqb me (s_clients (fst (sstep s o))) = None).
    { intro E. split; auto. intros gid c H. destruct (binds_step s o B gid c H) as (l & E' & _). congruence. }
    apply NEW. assert (PL : (forall gid c conn, o <> SJoin gid c conn) -> (forall ord gid c gen, o <> SLeave ord gid c gen) -> (forall ord conn, o <> SDisc ord conn) -> aget N.eqb me (s_clients (fst (sstep s o))) = None).
    { intros N1 N2 N3. rewrite (proj1 (step_plain s o N1 N2 N3)). exact C. }
    destruct o; try (apply PL; intros; discriminate); clear PL NEW; cbn [StreamSysModel.sstep].
    - rewrite join_clients. rewrite aget_aset_other; auto; [apply N.eqb_eq|]. intros <-. apply (NJ gid c). reflexivity.
    - unfold op_leave. destruct (gget gid s) as [g|]; auto. destruct (negb _); auto. destruct (remove_member cfg ord c g) as [g' [k|]]; auto. cbn [fst s_clients set_clients set_dirty].
      unfold drop_binding. destruct (aget N.eqb k (s_clients s)) as [l|] eqn:E; auto. assert (me <> k) by congruence. destruct (filter _ l); [rewrite aget_adel_other by (auto; apply N.eqb_eq)|rewrite aget_aset_other by (auto; apply N.eqb_eq)]; auto.
    - cbn [fst]. unfold op_disconnect. destruct (aget N.eqb conn (s_clients s)) as [l|] eqn:E; auto. rewrite (proj1 (drops_spec ord l _)). cbn [s_clients set_clients].
      rewrite aget_adel_other; auto; [apply N.eqb_eq|congruence].
  Qed.
End Bind.

(** * The connection *)
Section End.
  Variable json_ok : N -> bytes -> bool.
  Variable crc : bytes -> N.
  Variable cfg : gcfg.
  Variables smax ticks inst_max default_ttl me : N.
  Variables uuid clock : inframe -> N.
  Variable ord : N -> list N.
  Variables cap maxp : N.
  Notation conn := (conn reng rloc).
  Notation START := (r_start json_ok me uuid clock).
  Notation HSTEP := (r_hstep ticks inst_max default_ttl me).
  Notation XSTEP := (r_xstep crc cfg smax ticks inst_max default_ttl).
  Notation BYE1 := (r_bye1 ticks inst_max default_ttl me).
  Notation BYE2 := (r_bye2 cfg me ord).
  Notation cstep := (cstep reng rloc rx START HSTEP XSTEP BYE1 BYE2 maxp cap).
  Notation crun := (crun reng rloc rx START HSTEP XSTEP BYE1 BYE2 maxp cap).
  Notation eng := (c_eng reng rloc).
  Notation exec1 := (exec1 ticks inst_max default_ttl).

  Lemma exec_reg i p s : p <> QConn me -> regget me (h_cl s) = None -> regget me (h_cl (fst (exec1 i p s))) = None.
  Proof.
    intros H N. assert (AS : forall c v, regget c (h_cl s) <> None -> regget me (aset N.eqb c v (h_cl s)) = None).
    { intros c v E. unfold regget. rewrite aget_aset_other; auto; [apply N.eqb_eq|]. intros <-. auto. }
    assert (DE : forall c, regget me (adel N.eqb c (h_cl s)) = None).
    { intros c. unfold regget. destruct (N.eqb_spec me c) as [->|Hn]; [apply aget_adel_same|rewrite aget_adel_other; auto; apply N.eqb_eq]. }
    destruct p; cbn [PubSubConcModel.exec1]; auto.
    - cbn [fst h_cl]. unfold regget. rewrite aget_aset_other; auto; [apply N.eqb_eq|congruence].
    - destruct (regget c (h_cl s)) eqn:E; auto. cbn [fst h_cl]. apply AS. congruence.
    - cbn [fst h_cl]. destruct (regget c (h_cl s)) eqn:E; auto. cbn [h_cl]. apply AS. congruence.
    - destruct (regget c (h_cl s)) eqn:E; auto. cbn [fst h_cl]. auto.
    - destruct rt; auto. destruct data; auto. destruct (ret_new _ _ _ _ _); auto.
    - destruct todo as [|c todo]; auto. destruct (regget c (h_cl s)); auto. destruct (nmem _ _); auto.
    - destruct zombies as [|c z]; auto. destruct (regget c (h_cl s)); cbn [fst h_cl]; auto.
  Qed.
  Lemma bye1_reg e : regget me (h_cl (r_ps (BYE1 e))) = None.
  Proof.
    unfold r_bye1. cbn [PubSubConcModel.exec1]. destruct (regget me (h_cl (r_ps e))) eqn:E; cbn; auto. unfold regget. apply aget_adel_same.
  Qed.

  (** What a step of the others leaves of the registration and of the subscriptions. *)
  Lemma x_ps e x : r_ps (XSTEP e x) = match x with
    | RXp p => let (s1, p1) := exec1 0 p (r_ps e) in match p1 with QDisc1 _ _ | QPub4 _ _ _ => fst (exec1 0 p1 s1) | _ => s1 end
    | RXs _ => r_ps e end.
  Proof. destruct x; cbn [r_xstep]; auto. destruct (exec1 0 p (r_ps e)); reflexivity. Qed.
  Lemma x_reg e x : foreign me x -> regget me (h_cl (r_ps e)) = None -> regget me (h_cl (r_ps (XSTEP e x))) = None.
  Proof.
    intros F N. rewrite x_ps. destruct x as [p|o]; auto. pose proof (exec_reg 0 p (r_ps e) ltac:(intros ->; cbn in F; congruence) N) as A.
    destruct (exec1 0 p (r_ps e)) as [s1 p1]. cbn [fst] in A. destruct p1; auto; apply exec_reg; auto; discriminate.
  Qed.
  (** no publish finds this connection under a pattern of [ps], except those it is
      still registered with *)
  Definition clear_of (ps : list bytes) (e : reng) : Prop := forall pat, In pat ps -> found_at me e pat -> In pat (patterns me e).
  Definition clean_of (ps : list bytes) (e : reng) : Prop := forall pat, In pat ps -> ~ found_at me e pat.
  Lemma unsub_gone ps t pat : In pat ps -> ~ In me (subs_at (split pat) (unsub_all me ps t)).
  Proof. intros I H. apply unsub_all_subs in H. destruct H as [_ H]. apply H. split; auto. exists pat. split; auto. Qed.
  Lemma unsub_less c ps t q : In me (subs_at q (unsub_all c ps t)) -> In me (subs_at q t).
  Proof. intro H. apply unsub_all_subs in H. tauto. Qed.
  Lemma exec_found p s q : (forall pat now, p <> QSub1 me pat now) -> In me (subs_at q (h_tree (fst (exec1 0 p s)))) -> In me (subs_at q (h_tree s)).
  Proof.
    intros H. destruct p; cbn [PubSubConcModel.exec1]; auto.
    - cbn [fst h_tree]. rewrite subs_at_cleanup. auto.
    - destruct (regget _ _); auto.
    - cbn [fst h_tree]. intro I. apply subs_at_insert in I. destruct I as [I|[-> _]]; auto. exfalso; eapply H; eauto.
    - cbn [fst]. destruct (regget _ _); auto.
    - cbn [fst h_tree]. intro I. apply subs_at_rem in I. tauto.
    - destruct (regget _ _); auto.
    - cbn [fst h_tree]. apply unsub_less.
    - destruct rt; auto. destruct data; [cbn [fst h_tree]; rewrite subs_at_set; auto|]. destruct (ret_new _ _ _ _ _); auto. cbn [fst h_tree]. rewrite subs_at_set. auto.
    - destruct todo as [|c todo]; auto. destruct (regget c (h_cl s)); auto. destruct (nmem _ _); auto.
    - destruct zombies as [|c z]; auto. destruct (regget c (h_cl s)); auto.
    - cbn [fst h_tree]. apply unsub_less.
  Qed.
  Lemma x_found e x pat : foreign me x -> found_at me (XSTEP e x) pat -> found_at me e pat.
  Proof.
    intros F. unfold found_at. rewrite x_ps. destruct x as [p|o]; auto. pose proof (exec_found p (r_ps e) (split pat) ltac:(intros pat' now ->; cbn in F; congruence)) as A.
    destruct (exec1 0 p (r_ps e)) as [s1 p1]. cbn [fst] in A. destruct p1; auto; intro I; apply A; (apply exec_found in I; [exact I|discriminate]).
  Qed.
  Lemma x_clean ps e x : foreign me x -> clean_of ps e -> clean_of ps (XSTEP e x).
  Proof. intros F C pat I H. apply (C pat I). eapply x_found; eauto. Qed.
  Lemma x_clear ps e x : foreign me x -> clear_of ps e -> clear_of ps (XSTEP e x).
  Proof.
    intros F C pat I H. pose proof (C pat I (x_found e x pat F H)) as R. unfold patterns in *. unfold found_at in H. rewrite x_ps in *. destruct x as [p|o]; [|exact R].
    assert (AS : forall c v, c <> me -> regget me (aset N.eqb c v (h_cl (r_ps e))) = regget me (h_cl (r_ps e))) by (intros; unfold regget; rewrite aget_aset_other; auto; apply N.eqb_eq).
    assert (DE : forall c, c <> me -> regget me (adel N.eqb c (h_cl (r_ps e))) = regget me (h_cl (r_ps e))) by (intros; unfold regget; rewrite aget_adel_other; auto; apply N.eqb_eq).
    destruct p; cbn [PubSubConcModel.exec1 foreign] in *; try exact R.
    - cbn [h_cl]. rewrite AS; auto.
    - destruct (regget c (h_cl (r_ps e))) eqn:E; [|exact R]. cbn [h_cl]. rewrite AS; auto.
    - destruct (regget c (h_cl (r_ps e))) eqn:E; [|exact R]. cbn [h_cl]. rewrite AS; auto.
    - destruct (regget c (h_cl (r_ps e))) as [l|] eqn:E; [|exact R]. cbn [PubSubConcModel.exec1 fst h_cl h_tree] in *.
      destruct (N.eq_dec c me) as [->|HN]; [|rewrite DE; auto]. rewrite E in R. exfalso. eapply unsub_gone; eauto.
    - destruct rt; [|exact R]. destruct data; [exact R|]. destruct (ret_new _ _ _ _ _); exact R.
    - destruct todo as [|c todo]; [exact R|]. destruct (regget c (h_cl (r_ps e))); [|exact R]. destruct (nmem _ _); exact R.
    - destruct zombies as [|c z]; [exact R|]. destruct (regget c (h_cl (r_ps e))) as [l|] eqn:E; [|exact R]. cbn [PubSubConcModel.exec1 fst h_cl h_tree] in *.
      destruct (N.eq_dec c me) as [->|HN]; [|rewrite DE; auto]. rewrite E in R. exfalso. eapply unsub_gone; eauto.
  Qed.
  Lemma bye1_clean ps e : clear_of ps e -> clean_of ps (BYE1 e).
  Proof.
    intros C pat I H. unfold r_bye1, found_at, clear_of, found_at, patterns in *. cbn [PubSubConcModel.exec1] in H. destruct (regget me (h_cl (r_ps e))) as [l|] eqn:E; cbn in H.
    - apply (unsub_gone l (h_tree (r_ps e)) pat); auto. apply (C pat I). eapply unsub_less; eauto.
    - destruct (C pat I H).
  Qed.

  Definition eb (s : conn) : Prop := binds me (r_st (eng s)).
  Lemma eb_step s x : eb s -> eb (cstep s x).
  Proof.
    unfold eb. intro B. assert (H1 : forall l, binds me (r_st (fst (HSTEP (eng s) l)))).
    { intros [p|g c|]; cbn [r_hstep]; auto.
      - destruct (exec1 0 p (r_ps (eng s))); exact B.
      - pose proof (binds_step crc cfg smax me (r_st (eng s)) (SJoin g c me) B) as X. cbn [StreamSysModel.sstep] in X. destruct (op_join g c me (r_st (eng s))) as [s' []]; exact X. }
    destruct x; cbn [ConnModel.cstep]; unfold task_step, sock_end, abort;
      repeat match goal with
             | |- context[match HSTEP ?e ?l with _ => _ end] => specialize (H1 l); destruct (HSTEP e l) eqn:?; cbn [fst] in H1
             | |- context[match ?e with _ => _ end] => destruct e eqn:?
             end; cbn [ConnModel.c_eng set_rd set_num set_hold set_in set_run set_out set_push set_bridge set_sent set_lost set_drop set_phase set_eng]; auto.
    - destruct x as [p|o]; cbn [r_xstep]; [destruct (exec1 0 p (r_ps (eng s))); exact B|]. apply binds_step. exact B.
    - unfold r_bye1. destruct (exec1 0 (QDisc0 me) (r_ps (eng s))). exact B.
    - cbn [r_bye2 r_st]. intros gid c H. destruct (disc_mine cfg me ord (r_st (eng s)) B) as [D _]. destruct (D gid c H).
  Qed.
  Lemma eb_run : forall xs s, eb s -> eb (crun s xs).
  Proof. induction xs as [|x xs IH]; intros s B; auto. cbn [ConnModel.crun]. apply IH, eb_step, B. Qed.

  Definition after (ps : list bytes) (s : conn) : Prop := c_run _ _ s = [] /\ eb s /\
    (c_phase _ _ s = Aborted /\ clear_of ps (eng s) \/ c_phase _ _ s = Left /\ (regget me (h_cl (r_ps (eng s))) = None /\ clean_of ps (eng s)) \/
     c_phase _ _ s = Gone true /\ released me (eng s) /\ clean_of ps (eng s)).
  Lemma rel_x e x : foreign me x -> released me e -> released me (XSTEP e x).
  Proof.
    intros F (A & C & R).
    assert (R' : ~ registered me (XSTEP e x)).
    { intro H. apply H. apply x_reg; auto. unfold registered in R. destruct (regget me (h_cl (r_ps e))); auto. exfalso; apply R; discriminate. }
    destruct x as [p|o].
    - assert (E : r_st (XSTEP e (RXp p)) = r_st e) by (cbn [r_xstep]; destruct (exec1 0 p (r_ps e)); reflexivity).
      split; [|split; [rewrite E; exact C|exact R']]. intros gid c (g & G & M). apply (A gid c). exists g. rewrite <- E. auto.
    - assert (NJ : forall gid c, o <> SJoin gid c me) by (intros gid c ->; cbn in F; congruence).
      destruct (gone_step crc cfg smax me (r_st e) o NJ (conj A C)) as [A' C']. split; [exact A'|]. split; [exact C'|exact R'].
  Qed.
  Lemma after_step ps s x : (forall y, x = KExt rx y -> foreign me y) -> after ps s -> after ps (cstep s x).
  Proof.
    intros F (R & B & P). split; [|split; [apply eb_step; auto|]].
    - destruct P as [[P _]|[[P _]|[P _]]]; destruct x; cbn [ConnModel.cstep]; unfold is_open, looping; rewrite ?R, ?P, ?nth_error_nil;
        repeat match goal with |- context[match ?e with _ => _ end] => destruct e eqn:? end; cbn; auto; try (rewrite R; reflexivity);
        match goal with H : nth_error [] ?i = Some _ |- _ => destruct i; discriminate | _ => idtac end.
    - assert (NN : forall i, nth_error (c_run _ _ s) i = None) by (rewrite R; intros []; reflexivity).
      destruct x; cbn [ConnModel.cstep]; unfold is_open, looping; rewrite ?NN;
        try (destruct P as [[P _P]|[[P _P]|[P _P]]]; rewrite ?P; cbn [andb];
          repeat match goal with |- context[match ?e with _ => _ end] => destruct e eqn:? end; cbn; auto; fail).
      + match goal with Y : rx |- _ => rename Y into x end. specialize (F x eq_refl). cbn [ConnModel.c_eng set_phase set_eng ConnModel.c_phase]. destruct P as [[P Q]|[[P [Q K]]|[P [Q K]]]].
        * left. split; auto. apply x_clear; auto.
        * right; left. split; auto. split; [apply x_reg; auto|apply x_clean; auto].
        * right; right. split; auto. split; [apply rel_x; auto|apply x_clean; auto].
      + destruct P as [[P Q]|[[P Q]|[P Q]]]; rewrite P; auto. right; left. split; [reflexivity|]. cbn [ConnModel.c_eng set_phase set_eng]. split; [apply bye1_reg|apply bye1_clean; exact Q].
      + destruct P as [[P Q]|[[P [Q K]]|[P Q]]]; rewrite P; auto. right; right. split; [reflexivity|]. cbn [ConnModel.c_eng set_phase set_eng].
        destruct (disc_mine cfg me ord (r_st (eng s)) B) as [D1 D2]. split; [|exact K]. split; [exact D1|]. split; [exact D2|]. intro H. apply H. exact Q.
  Qed.
  Lemma after_run ps : forall xs s, others_only me xs -> after ps s -> after ps (crun s xs).
  Proof.
    induction xs as [|x xs IH]; intros s O A; auto. cbn [ConnModel.crun]. apply IH; [intros y H; apply O; right; auto|]. apply after_step; auto. intros y ->. apply O. left; auto.
  Qed.

  (** A connection that ends cleanly, no request of it being run at that moment, has
      released everything when it is gone, and nothing comes back. *)
  Theorem clean_end_releases e xs1 xs2 : binds me (r_st e) -> let s1 := crun (conn0 reng rloc e) xs1 in
    c_phase _ _ s1 = SockDone true -> (forall t, In t (c_run _ _ s1) -> k_poll _ t = false) -> others_only me xs2 ->
    let s2 := crun s1 (KEnd rx :: xs2) in c_phase _ _ s2 = Gone true ->
    released me (eng s2) /\ forall pat, In pat (patterns me (eng s1)) -> ~ found_at me (eng s2) pat.
  Proof.
    intros B s1 P T O s2 G. assert (A : after (patterns me (eng s1)) (cstep s1 (KEnd rx))).
    { split; [|split; [apply eb_step; apply eb_run; exact B|left]].
      - cbn [ConnModel.cstep]. rewrite P. cbn. clear - T. induction (c_run _ _ s1) as [|t l IH]; auto. simpl. rewrite (T t) by (left; auto). apply IH. intros t' H. apply T. right; auto.
      - cbn [ConnModel.cstep]. rewrite P. split; [reflexivity|]. cbn [ConnModel.c_eng set_phase]. unfold abort. cbn. intros pat I _. exact I. }
    pose proof (after_run _ xs2 _ O A) as (_ & _ & X). change (crun s1 (KEnd rx :: xs2)) with (crun (cstep s1 (KEnd rx)) xs2) in *. fold s2 in X.
    destruct X as [[X _]|[[X _]|[_ X]]]; [congruence|congruence|exact X].
  Qed.

  (** A connection that ended by an error: no step of it changes the brokers again. *)
  Definition own_step (x : cop rx) : Prop := match x with KExt _ _ => False | _ => True end.
  Definition dead (s : conn) : Prop := c_run _ _ s = [] /\ c_phase _ _ s = Gone false.
  Lemma dead_step s x : own_step x -> dead s -> dead (cstep s x) /\ eng (cstep s x) = eng s.
  Proof.
    intros N [R P]. assert (NN : forall i, nth_error (c_run _ _ s) i = None) by (rewrite R; intros []; reflexivity).
    unfold dead. destruct x; cbn [ConnModel.cstep own_step] in *; try contradiction; unfold sock_end, abort, is_open, looping; rewrite ?P, ?NN; cbn [andb];
      repeat match goal with |- context[match ?e with _ => _ end] => destruct e eqn:? end; cbn; auto.
  Qed.
  Theorem error_end_keeps xs : forall s, (forall x, In x xs -> own_step x) -> dead s -> eng (crun s xs) = eng s.
  Proof.
    induction xs as [|x xs IH]; intros s N P; auto. cbn [ConnModel.crun]. destruct (dead_step s x (N x (or_introl eq_refl)) P) as [A B]. rewrite IH; auto. intros y H; apply N; right; auto.
  Qed.
End End.
