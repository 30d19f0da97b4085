(** From the topic's operations to the histories of its consumer groups. *)
From Verif Require Import LibBase LibMap StreamTopicModel StreamGroupModel StreamGroupSpec StreamGroupFetch StreamGroupFacts StreamTopicProofs StreamStoreModel StreamSysModel StreamSysProofs.

Section Sys.
  Variable crc : bytes -> N.
  Variable cfg : gcfg.
  Variable smax : N.
  Notation sstep := (sstep crc cfg smax).

  (** What operation [o] does to group [gid] whose state is [g]. *)
  Definition gtrace (gid : bytes) (g : group) (s : sys) (o : sop) : list gop :=
    let t := s_top s in
    match o with
    | SJoin gid' c conn => if beqb gid gid' then [GClamp (t_head t); GJoin c conn] else []
    | SLeave ord gid' c gen => if beqb gid gid' && (g_gen g =? gen) then [GLeave ord c] else []
    | SDisc ord conn =>
      match aget N.eqb conn (s_clients s) with
      | Some l => map (fun b => GLeave (ord (snd b)) (snd b)) (filter (fun b => beqb gid (fst b)) l)
      | None => []
      end
    | SAck gid' c gen seq => if beqb gid gid' then [GClamp (t_head t); GAck c gen seq] else []
    | SSeek b gid' => if beqb gid gid' then [if b then GSeekB (t_head t) else GSeekE (t_next t - 1)] else []
    | STry gid' c gen limit now tok =>
      if beqb gid gid' then
        let g1 := fst (clamp_head (t_head t) g) in
        GClamp (t_head t) ::
        (if is_backpressured cfg g1 then []
         else GFetch c gen limit now (t_log t) (t_ram t) (t_head t) ::
              (match snd (sstep s o) with RCold _ => [GFlag true] | _ => [] end))
      else []
    | SColdDone i now =>
      match nth_error (s_colds s) i with
      | Some k => if beqb gid (k_gid k) then
                    match k_res k with
                    | None => []
                    | Some ms => GFlag false :: (if k_tok k =? g_tok g then [GClamp (t_head t); GCold (k_c k) (k_gen k) now ms (t_head t)] else [])
                    end
                  else []
      | None => []
      end
    | SHead => match s_ret s with Some h => if h =? t_head t then [] else [GClamp h] | None => [] end
    | STick ord now => [GTick (ord gid) now]
    | _ => []
    end.
  Definition creates (gid : bytes) (o : sop) : bool :=
    match o with SJoin gid' _ _ | SSeek _ gid' => beqb gid gid' | _ => false end.

  Lemma gget_gput_same gid g s : gget gid (gput gid g s) = Some g.
  Proof. apply (aget_aset_same beqb beqb_eq). Qed.
  Lemma gget_gput_other gid gid' g s : gid <> gid' -> gget gid (gput gid' g s) = gget gid s.
  Proof. apply (aget_aset_other beqb beqb_eq). Qed.
  Lemma gget_mark b gid s : gget gid (mark b s) = gget gid s.
  Proof. destruct b; reflexivity. Qed.
  Lemma gget_gput gid gid' g s : gget gid (gput gid' g s) = if beqb gid gid' then Some g else gget gid s.
  Proof.
    destruct (beqb gid gid') eqn:E.
    - apply beqb_eq in E. subst. apply gget_gput_same.
    - apply beqb_neq in E. apply gget_gput_other; auto.
  Qed.
  Lemma aget_map_vals {V W} (f : bytes -> V -> W) gid (l : list (bytes * V)) :
    aget beqb gid (map (fun e => (fst e, f (fst e) (snd e))) l) = option_map (f gid) (aget beqb gid l).
  Proof.
    induction l as [|[k v] l IH]; simpl; auto. destruct (beqb gid k) eqn:E; auto. apply beqb_eq in E. subst. reflexivity.
  Qed.
  Definition base (gid : bytes) (s : sys) : group := match gget gid s with Some g => g | None => group_new (t_head (s_top s)) end.
  Lemma grun_app : forall a b g h, grun cfg g h (a ++ b) = grun cfg (snd (grun cfg g h a)) (fst (grun cfg g h a)) b.
  Proof. induction a as [|x a IH]; intros b g h; simpl; auto. destruct (gstep cfg g x) as [g' o]. apply IH. Qed.
  Lemma grun_state : forall ops g h, snd (grun cfg g h ops) = snd (grun cfg g [] ops).
  Proof.
    induction ops as [|x ops IH]; intros g h; simpl; auto. destruct (gstep cfg g x) as [g' o]. rewrite IH. symmetry. apply IH.
  Qed.

  Lemma disc_group ord gid : forall l s,
    gget gid (fold_left (drop_member cfg ord) l s) =
    match gget gid s with
    | Some g => Some (snd (grun cfg g [] (map (fun b => GLeave (ord (snd b)) (snd b)) (filter (fun b => beqb gid (fst b)) l))))
    | None => None
    end.
  Proof.
    induction l as [|[k c] l IH]; intros s; simpl.
    - destruct (gget gid s); reflexivity.
    - rewrite IH. unfold drop_member at 1. cbn [fst snd]. destruct (beqb gid k) eqn:E.
      + apply beqb_eq in E. subst k. destruct (gget gid s) as [g|] eqn:EG; [|rewrite EG; reflexivity].
        simpl. destruct (remove_member cfg (ord c) c g) as [g' [conn|]] eqn:ER.
        * change (gget gid (set_dirty true (gput gid g' s))) with (gget gid (gput gid g' s)). rewrite gget_gput_same. simpl. rewrite (grun_state _ g' [_]). reflexivity.
        * rewrite EG. assert (g' = g) as -> by (unfold remove_member in ER; destruct (agetN c (g_mem g)); inversion ER; auto). simpl. rewrite (grun_state _ g [_]). reflexivity.
      + destruct (gget k s) as [gk|]; auto. destruct (remove_member cfg (ord c) c gk) as [g' [conn|]]; auto.
        change (gget gid (set_dirty true (gput k g' s))) with (gget gid (gput k g' s)). rewrite gget_gput, E. reflexivity.
  Qed.

  Lemma same_groups gid s s' : s_groups s' = s_groups s ->
    gget gid s' = match gget gid s with Some g => Some (snd (grun cfg g [] [])) | None => None end.
  Proof. unfold gget. intros ->. destruct (aget beqb gid (s_groups s)); reflexivity. Qed.
  (** Every operation acts on each group exactly as its trace says. *)
  Theorem step_group gid s o :
    gget gid (fst (sstep s o)) =
    match gget gid s with
    | Some g => Some (snd (grun cfg g [] (gtrace gid g s o)))
    | None => if creates gid o then Some (snd (grun cfg (group_new (t_head (s_top s))) [] (gtrace gid (group_new (t_head (s_top s))) s o))) else None
    end.
  Proof.
    destruct o; cbn [creates gtrace]; try (apply same_groups; reflexivity).
    - apply same_groups. simpl. unfold op_send. destruct (nth_error (s_box s) i); reflexivity.
    - (* join *)
      cbn [StreamSysModel.sstep]. unfold op_join. destruct (clamp_head (t_head (s_top s)) match gget gid0 s with Some g => g | None => group_new (t_head (s_top s)) end) as [g1 cl] eqn:EC.
      cbn [fst]. rewrite gget_mark. change (gget gid (set_clients ?x ?y)) with (gget gid y). rewrite gget_gput.
      destruct (beqb gid gid0) eqn:E.
      + apply beqb_eq in E. subst gid0. destruct (gget gid s) as [g|]; simpl; rewrite EC; reflexivity.
      + destruct (gget gid s); reflexivity.
    - (* leave *)
      cbn [StreamSysModel.sstep]. unfold op_leave. destruct (beqb gid gid0) eqn:E.
      + apply beqb_eq in E. subst gid0. destruct (gget gid s) as [g|] eqn:EG; [|simpl; rewrite EG; reflexivity].
        destruct (g_gen g =? gen) eqn:EN; simpl; [|rewrite EG; reflexivity].
        destruct (remove_member cfg ord c g) as [g' [conn|]] eqn:ER; simpl.
        * change (gget gid (set_dirty true (set_clients ?x ?y))) with (gget gid y). rewrite gget_gput_same. reflexivity.
        * assert (g' = g) as -> by (unfold remove_member in ER; destruct (agetN c (g_mem g)); inversion ER; auto). rewrite EG. reflexivity.
      + simpl andb. cbv iota. assert (X : gget gid (fst (match gget gid0 s with None => (s, RErr NoGroup) | Some g => if negb (g_gen g =? gen) then (s, RErr (Group Fenced)) else match remove_member cfg ord c g with (_, None) => (s, RErr (Group NotMember)) | (g', Some conn) => (set_dirty true (set_clients (drop_binding gid0 c conn (s_clients s)) (gput gid0 g' s)), RUnit) end end)) = gget gid s).
        { destruct (gget gid0 s); auto. destruct (negb (g_gen g =? gen)); auto. destruct (remove_member cfg ord c g) as [g' [conn|]]; auto. simpl.
          change (gget gid (set_dirty true (set_clients ?x ?y))) with (gget gid y). rewrite gget_gput, E. reflexivity. }
        rewrite X. destruct (gget gid s); reflexivity.
    - (* disconnect *)
      cbn [StreamSysModel.sstep fst]. unfold op_disconnect. destruct (aget N.eqb conn (s_clients s)) as [l|].
      + rewrite disc_group. change (gget gid (set_clients ?x ?y)) with (gget gid y). reflexivity.
      + destruct (gget gid s); reflexivity.
    - (* ack *)
      cbn [StreamSysModel.sstep]. unfold op_ack. destruct (beqb gid gid0) eqn:E.
      + apply beqb_eq in E. subst gid0. destruct (gget gid s) as [g|] eqn:EG; [|simpl; rewrite EG; reflexivity]. simpl.
        destruct (ack c gen seq (fst (clamp_head (t_head (s_top s)) g))) as [g' [e|]] eqn:EA; simpl.
        * rewrite gget_gput_same. reflexivity.
        * change (gget gid (set_dirty true ?y)) with (gget gid y). rewrite gget_gput_same. reflexivity.
      + destruct (gget gid0 s) as [g0|]; [|simpl; destruct (gget gid s); reflexivity].
        destruct (ack c gen seq (fst (clamp_head (t_head (s_top s)) g0))) as [g' [e|]]; simpl; change (gget gid (set_dirty true ?y)) with (gget gid y); rewrite gget_gput, E; destruct (gget gid s); reflexivity.
    - (* seek *)
      cbn [StreamSysModel.sstep fst]. unfold op_seek. change (gget gid (set_dirty true ?y)) with (gget gid y). rewrite gget_gput. destruct (beqb gid gid0) eqn:E.
      + apply beqb_eq in E. subst gid0. destruct (gget gid s) as [g|]; destruct beginning; reflexivity.
      + destruct (gget gid s); reflexivity.
    - (* try *)
      cbn [StreamSysModel.sstep]. destruct (beqb gid gid0) eqn:E.
      + apply beqb_eq in E. subst gid0. unfold op_try. destruct (gget gid s) as [g|] eqn:EG; [|simpl; rewrite EG; reflexivity].
        cbv zeta. destruct (clamp_head (t_head (s_top s)) g) as [g1 cl] eqn:EC. cbn [fst]. destruct (is_backpressured cfg g1) eqn:EB.
        * simpl. rewrite gget_gput_same. rewrite EC. reflexivity.
        * destruct (fetch cfg c gen limit now (t_log (s_top s)) (t_ram (s_top s)) (t_head (s_top s)) g1) as [g2 [e|[|m ms]]] eqn:EF.
          -- simpl. rewrite gget_gput_same, EC. simpl. rewrite EF. reflexivity.
          -- destruct (g_cold g2) eqn:EK.
             ++ cbn [fst snd]. rewrite gget_mark, gget_gput_same. simpl. rewrite EC. simpl. rewrite EF. reflexivity.
             ++ destruct ((next_fetch_seq (t_head (s_top s)) g2 <? t_next (s_top s)) && (next_fetch_seq (t_head (s_top s)) g2 <? t_ram (s_top s))); cbn [fst snd].
                ** change (gget gid (set_colds ?x ?y)) with (gget gid y). rewrite gget_mark, gget_gput_same. simpl. rewrite EC. simpl. rewrite EF. reflexivity.
                ** rewrite gget_mark, gget_gput_same. simpl. rewrite EC. simpl. rewrite EF. reflexivity.
          -- cbn [fst snd]. rewrite gget_mark, gget_gput_same. simpl. rewrite EC. simpl. rewrite EF. reflexivity.
      + assert (X : gget gid (fst (op_try cfg gid0 c gen limit now tok s)) = gget gid s); [|rewrite X; destruct (gget gid s); reflexivity].
        unfold op_try. destruct (gget gid0 s) as [g|]; auto. destruct (clamp_head (t_head (s_top s)) g) as [g1 cl].
        destruct (is_backpressured cfg g1); [simpl; rewrite gget_gput, E; reflexivity|].
        destruct (fetch _ _ _ _ _ _ _ _ _) as [g2 [e|[|m ms]]]; cbn [fst]; rewrite ?gget_mark, ?gget_gput, ?E; auto.
        destruct (g_cold g2); cbn [fst]; rewrite ?gget_mark, ?gget_gput, ?E; auto.
        destruct (_ && _); cbn [fst]; [change (gget gid (set_colds ?x ?y)) with (gget gid y)|]; rewrite ?gget_mark, ?gget_gput, ?E; auto.
    - apply same_groups. simpl. unfold op_cold_run. destruct (nth_error (s_colds s) i); reflexivity.
    - (* cold done *)
      cbn [StreamSysModel.sstep]. unfold op_cold_done. destruct (nth_error (s_colds s) i) as [k|]; [|simpl; destruct (gget gid s); reflexivity].
      destruct (k_res k) as [ms|]; [|simpl; destruct (beqb gid (k_gid k)); destruct (gget gid s); reflexivity].
      set (s1 := set_colds (remove_nth i (s_colds s)) s). assert (GE : forall x, gget x s1 = gget x s) by reflexivity. rewrite GE.
      destruct (beqb gid (k_gid k)) eqn:E.
      + apply beqb_eq in E. rewrite <- E. destruct (gget gid s) as [g|] eqn:EG; [|simpl; rewrite GE, EG; reflexivity].
        destruct (k_tok k =? g_tok g); simpl negb; cbv iota.
        * destruct (clamp_head (t_head (s_top s1)) (set_cold false g)) as [g2 cl] eqn:EC.
          destruct (register_cold cfg (k_c k) (k_gen k) now ms (t_head (s_top s1)) g2) as [g3 [e|r]] eqn:ER; cbn [fst]; rewrite ?gget_mark, gget_gput_same; simpl; change (t_head (s_top s1)) with (t_head (s_top s)) in *; rewrite EC; simpl; rewrite ER; reflexivity.
        * simpl. rewrite gget_gput_same. reflexivity.
      + assert (X : forall (b : bool), gget gid s1 = gget gid s) by (intros; reflexivity).
        destruct (gget (k_gid k) s) as [g|]; [|simpl; rewrite GE; destruct (gget gid s); reflexivity].
        destruct (negb (k_tok k =? g_tok g)); [simpl; rewrite gget_gput, E, GE; destruct (gget gid s); reflexivity|].
        destruct (clamp_head _ _) as [g2 cl]. destruct (register_cold _ _ _ _ _ _ _) as [g3 [e|r]]; cbn [fst]; rewrite ?gget_mark, gget_gput, E, GE; destruct (gget gid s); reflexivity.
    - apply same_groups. simpl. unfold op_collect. destruct (s_dirty s); reflexivity.
    - apply same_groups. simpl. unfold op_save. destruct (s_save s); reflexivity.
    - (* head *)
      cbn [StreamSysModel.sstep fst]. unfold op_head. destruct (s_ret s) as [h|]; [|simpl; destruct (gget gid s); reflexivity].
      destruct (h =? t_head (s_top s)); [apply same_groups; reflexivity|].
      cbn [fst]. rewrite gget_mark. unfold gget at 1. cbn [s_groups set_groups]. rewrite map_map. cbn [fst snd].
      rewrite (aget_map_vals (fun _ g => fst (clamp_head h g))). fold (gget gid s). destruct (gget gid s); reflexivity.
    - (* tick *)
      cbn [StreamSysModel.sstep fst]. unfold op_tick. cbn [fst]. rewrite gget_mark. unfold gget at 1. cbn [s_groups set_groups]. rewrite map_map. cbn [fst snd].
      rewrite (aget_map_vals (fun k g => fst (check_redelivery cfg (ord k) now g))). fold (gget gid s). destruct (gget gid s); reflexivity.
  Qed.

  Lemma top_step s o : s_top (fst (sstep s o)) = s_top s \/
    (exists ts pay, o = SPub ts pay /\ s_top (fst (sstep s o)) = fst (append ts pay (s_top s))) \/
    (o = SEvict /\ s_top (fst (sstep s o)) = evict (s_evp s) (s_top s)) \/
    (exists h, o = SHead /\ s_ret s = Some h /\ s_top (fst (sstep s o)) = apply_head h (s_top s)).
  Proof.
    assert (MK : forall b x, s_top (mark b x) = s_top x) by (intros [|] x; reflexivity).
    destruct o; cbn [StreamSysModel.sstep].
    - right. left. exists ts, pay. split; reflexivity.
    - left. simpl. unfold op_send. destruct (nth_error _ _); reflexivity.
    - left. unfold op_join. destruct (clamp_head _ _). cbn [fst]. rewrite MK. reflexivity.
    - left. unfold op_leave. destruct (gget gid s); auto. destruct (negb _); auto. destruct (remove_member _ _ _ _) as [g' [x|]]; reflexivity.
    - left. cbn [fst]. unfold op_disconnect. destruct (aget _ _ _) as [l|]; auto.
      assert (F : forall l x, s_top (fold_left (drop_member cfg ord) l x) = s_top x).
      { clear. induction l as [|b l IH]; intro x; simpl; auto. rewrite IH. unfold drop_member. destruct (gget _ _); auto. destruct (remove_member _ _ _ _) as [g' [y|]]; reflexivity. }
      rewrite F. reflexivity.
    - left. unfold op_ack. destruct (gget gid s); auto. destruct (ack _ _ _ _) as [g' [x|]]; reflexivity.
    - left. reflexivity.
    - left. unfold op_try. destruct (gget gid s); auto. destruct (clamp_head _ _) as [g1 cl]. destruct (is_backpressured cfg g1); [reflexivity|].
      destruct (fetch _ _ _ _ _ _ _ _ _) as [g2 [e|[|m ms]]]; cbn [fst]; rewrite ?MK; try reflexivity.
      destruct (g_cold g2); cbn [fst]; rewrite ?MK; [reflexivity|]. destruct (_ && _); cbn [fst]; [|rewrite MK; reflexivity]. destruct cl; reflexivity.
    - left. simpl. unfold op_cold_run. destruct (nth_error _ _); reflexivity.
    - left. unfold op_cold_done. destruct (nth_error _ _) as [k|]; auto. destruct (k_res k); auto.
      destruct (gget _ _); [|reflexivity]. destruct (negb _); [reflexivity|]. destruct (clamp_head _ _) as [g2 cl].
      destruct (register_cold _ _ _ _ _ _ _) as [g3 [e|r]]; cbn [fst]; rewrite ?MK; reflexivity.
    - left. reflexivity.
    - left. reflexivity.
    - right. right. left. split; reflexivity.
    - left. simpl. unfold op_collect. destruct (s_dirty s); reflexivity.
    - left. simpl. unfold op_save. destruct (s_save s); reflexivity.
    - left. reflexivity.
    - cbn [fst]. unfold op_head. destruct (s_ret s) as [h|] eqn:ER; [|left; reflexivity]. destruct (h =? t_head (s_top s)); [left; reflexivity|].
      right. right. right. exists h. split; [reflexivity|]. split; [reflexivity|]. cbn [fst]. rewrite MK. reflexivity.
    - left. unfold op_tick. cbn [fst]. rewrite MK. reflexivity.
    - left. reflexivity.
    - left. reflexivity.
  Qed.

  (** ** Memory is always a run of consecutive numbers, in every run *)
  Record mem_ok (s : sys) : Prop := {
    m_top : exists f A, init_ok f A (s_top s);
    m_names : forall n, In n (akeys (d_segs (s_store s))) -> n <= t_next (s_top s);
    m_ctx : forall c, d_ctx (s_store s) = Some c -> c_active c <= t_next (s_top s);
    m_box : forall m, In m (s_box s) -> m_seq m <= t_next (s_top s);
    m_ret : forall h, s_ret s = Some h -> h <= t_next (s_top s)
  }.
  Lemma mem_new soft : mem_ok (sys_new soft).
  Proof.
    constructor; simpl; try tauto; try discriminate. exists 1, []. apply new_ok.
  Qed.
  Lemma keys_bput {V} n (v : V) : forall l x, In x (akeys (bput n v l)) -> x = n \/ In x (akeys l).
  Proof.
    induction l as [|[k w] l IH]; simpl; intros x H; [intuition|].
    destruct (n =? k); simpl in *; [intuition|]. destruct (n <? k); simpl in *; [intuition|]. destruct H as [H|H]; auto. apply IH in H. intuition.
  Qed.
  Lemma last_seg_in {V} (l : list (N * V)) n v : last_seg l = Some (n, v) -> In n (akeys l).
  Proof.
    unfold last_seg. induction l as [|a [|b r] IH]; simpl in *; intro H; [discriminate| |].
    - inversion H; subst. auto.
    - right. apply IH. exact H.
  Qed.
  Lemma keys_append_file n b segs x : In x (akeys (append_file n b segs)) -> x = n \/ In x (akeys segs).
  Proof. unfold append_file. destruct (aget N.eqb n segs); apply keys_bput. Qed.
  Lemma keys_sync_file n segs x : In x (akeys (sync_file n segs)) -> x = n \/ In x (akeys segs).
  Proof. unfold sync_file. destruct (aget N.eqb n segs); [apply keys_bput|auto]. Qed.
  Lemma keys_map {V W} (f : N * V -> W) (l : list (N * V)) : akeys (map (fun e => (fst e, f e)) l) = akeys l.
  Proof. unfold akeys. rewrite map_map. apply map_ext. reflexivity. Qed.
  Lemma flush_keys st : akeys (d_segs (flush_all st)) = akeys (d_segs st) /\ (forall c, d_ctx (flush_all st) = Some c -> exists c', d_ctx st = Some c' /\ c_active c = c_active c').
  Proof.
    unfold flush_all. destruct (d_dirty st); destruct (d_ctx st) as [c0|]; try destruct (0 <? c_high c0); simpl;
      (split; [apply (keys_map (fun e => sync (snd e)))|]); intros c E; inversion E; subst; eauto.
  Qed.
  Lemma top_next_le s o : t_next (s_top s) <= t_next (s_top (fst (sstep s o))).
  Proof.
    destruct (top_step s o) as [E|[(ts & pay & _ & E)|[(_ & E)|(h & _ & _ & E)]]]; rewrite E; simpl; try lia.
    unfold evict. destruct (evict_loop _ _ _ _ _). simpl. lia.
  Qed.
  Lemma mem_step s o : mem_ok s -> mem_ok (fst (sstep s o)).
  Proof.
    intros [(f & A & K & HR & HN) B C D E]. pose proof (top_next_le s o) as NX.
    assert (T : exists f A, init_ok f A (s_top (fst (sstep s o)))).
    { destruct (top_step s o) as [X|[(ts & pay & _ & X)|[(_ & X)|(h & _ & HE & X)]]]; rewrite X.
      - exists f, A. split; auto.
      - exists f, (A ++ [mkMsg (t_next (s_top s)) ts pay]). split; [exact (append_ok f A (s_top s) ts pay K)|].
        simpl. destruct (t_log (s_top s)); lia.
      - exists f, A. apply (init_evict f A (s_top s) (s_evp s)). split; auto.
      - exists f, A. destruct (apply_head_ok f A (s_top s) h K) as (K1 & K2). split; auto. split; auto. simpl.
        specialize (E h HE). pose proof (k_pos _ _ _ K). lia. }
    assert (P1 : 1 <= t_next (s_top s)) by apply (k_pos _ _ _ K).
    assert (SAME : core s = core (fst (sstep s o)) -> mem_ok (fst (sstep s o))).
    { unfold core. intro X. inversion X as [[X1 X2 X3 X4 X5]]. constructor; auto; rewrite <- ?X1, <- ?X2, <- ?X3, <- ?X4; auto. }
    destruct (consumer_op o) eqn:EO; [apply SAME; symmetry; apply consumer_core; auto|].
    destruct o; simpl in EO; try discriminate EO; clear SAME.
    - (* publish *) constructor; auto; simpl in *.
      + intros n H. specialize (B n H). lia.
      + intros c H. specialize (C c H). lia.
      + intros m H. apply in_app_or in H. destruct H as [H|[<-|[]]]; simpl; [specialize (D m H)|]; lia.
      + intros h H. specialize (E h H). lia.
    - (* send *) cbn [StreamSysModel.sstep fst] in *. unfold op_send in *. destruct (nth_error (s_box s) i) as [m|] eqn:EM; [|constructor; auto].
      pose proof (D m (nth_error_In _ _ EM)) as LM.
      assert (OC : c_active (open_ctx (s_store s)) <= t_next (s_top s)).
      { unfold open_ctx. destruct (d_ctx (s_store s)) as [c|] eqn:EC; [apply C; auto|]. destruct (last_seg (d_segs (s_store s))) as [[n x]|] eqn:EL; simpl; [|lia]. apply B. eapply last_seg_in; eauto. }
      constructor; auto; cbn [s_store s_top s_box s_ret set_box set_store] in *.
      + unfold handle_append, write_batch. cbn [d_segs]. intros n H. apply keys_append_file in H. destruct H as [->|H].
        * destruct (_ && _); auto.
        * destruct (_ && _); auto. apply keys_sync_file in H. destruct H as [->|H]; auto.
      + unfold handle_append, write_batch. cbn [d_ctx]. intros c H. inversion H; subst; clear H. cbn [c_active]. destruct (_ && _); auto.
      + intros x H. apply D. apply in_app_or in H. destruct H as [H|H]; [rewrite <- (firstn_skipn i); apply in_or_app; auto|rewrite <- (firstn_skipn (S i)); apply in_or_app; auto].
    - (* load *) constructor; auto.
    - (* evict *) constructor; auto; cbn [StreamSysModel.sstep fst op_evict set_top s_store s_top s_box s_ret] in *; unfold op_evict in *; cbn [set_top s_store s_top s_box s_ret] in *.
      + intros n H. specialize (B n H). lia.
      + intros c H. specialize (C c H). lia.
      + intros m H. specialize (D m H). lia.
      + intros h H. specialize (E h H). lia.
    - (* save *) cbn [StreamSysModel.sstep fst] in *. unfold op_save in *. destruct (s_save s); constructor; auto.
    - (* retain *) cbn [StreamSysModel.sstep fst] in *. unfold op_retain in *. destruct (apply_retention vis age maxb (s_store s)) as [st h] eqn:ER.
      unfold apply_retention in ER. inversion ER; subst st; clear ER.
      assert (FB : forall n, In n (akeys (filter (fun nf => nmem (fst nf) (akeys (retain age maxb (seen vis (s_store s))))) (d_segs (s_store s)))) -> n <= t_next (s_top s)).
      { intros n H. apply B. unfold akeys in *. apply in_map_iff in H. destruct H as (x & <- & H). apply filter_In in H. apply in_map. tauto. }
      constructor; auto; cbn [set_ret set_store s_store s_top s_box s_ret d_segs d_ctx] in *; auto.
      intros h' X. inversion X; subst. unfold head_of. destruct (filter _ _) as [|[n x] r] eqn:EF; [lia|]. apply FB. simpl. auto.
    - (* head *) cbn [StreamSysModel.sstep fst] in *. unfold op_head in *. destruct (s_ret s) as [h|] eqn:EH; [|constructor; auto; simpl; rewrite EH; discriminate].
      destruct (h =? t_head (s_top s)); [constructor; auto; simpl; discriminate|].
      constructor; auto; revert T NX; cbn [fst]; destruct (existsb _ _); simpl; intros; auto; discriminate.
    - (* flush *) destruct (flush_keys (s_store s)) as (F1 & F2). constructor; auto; cbn [StreamSysModel.sstep fst set_store s_store s_top s_box s_ret] in *; auto.
      + rewrite F1. auto.
      + intros c H. destruct (F2 c H) as (c' & H' & ->). auto.
    - (* sync *) constructor; auto; cbn [StreamSysModel.sstep fst set_store s_store s_top s_box s_ret partial_sync d_segs d_ctx] in *; auto.
      intros n H. apply B. unfold partial_sync in H. cbn [d_segs] in H. unfold akeys in *. rewrite map_map in H. exact H.
  Qed.

  (** ** Runs *)
  Fixpoint run (s : sys) (ops : list sop) : sys :=
    match ops with [] => s | o :: r => run (fst (sstep s o)) r end.
  (** The history of group [gid] along a run: where it started and its events. *)
  Definition ev_step (gid : bytes) (s : sys) (o : sop) (e : option (N * list gev)) : option (N * list gev) :=
    match gget gid s, e with
    | Some g, Some (st, h) => Some (st, fst (grun cfg g h (gtrace gid g s o)))
    | None, _ => let head := t_head (s_top s) in
                 if creates gid o then Some (N.max head 1, fst (grun cfg (group_new head) [] (gtrace gid (group_new head) s o))) else None
    | Some _, None => None
    end.
  Fixpoint events (gid : bytes) (s : sys) (ops : list sop) (e : option (N * list gev)) : option (N * list gev) :=
    match ops with [] => e | o :: r => events gid (fst (sstep s o)) r (ev_step gid s o e) end.
  Lemma gtrace_ok gid g s o : mem_ok s -> Forall gop_ok (gtrace gid g s o).
  Proof.
    intro M. destruct M as [(f & A & K & _) _ _ _ _]. pose proof (topic_log_ok _ _ _ K) as LO.
    destruct o; cbn [gtrace]; try apply Forall_nil.
    - destruct (beqb gid gid0); repeat constructor.
    - destruct (_ && _); repeat constructor.
    - destruct (aget _ _ _); [|constructor]. apply Forall_forall. intros x H. apply in_map_iff in H. destruct H as (y & <- & _). exact Logic.I.
    - destruct (beqb gid gid0); repeat constructor.
    - destruct (beqb gid gid0); repeat constructor. destruct beginning; exact Logic.I.
    - destruct (beqb gid gid0); [|constructor]. constructor; [exact Logic.I|]. destruct (is_backpressured _ _); constructor; [exact LO|]. destruct (snd _); repeat constructor.
    - destruct (nth_error _ _) as [k|]; [|constructor]. destruct (beqb gid (k_gid k)); [|constructor]. destruct (k_res k); constructor; [exact Logic.I|]. destruct (_ =? _); repeat constructor.
    - destruct (s_ret s) as [h|]; [|constructor]. destruct (_ =? _); repeat constructor.
    - repeat constructor.
  Qed.
  Definition tracked (gid : bytes) (s : sys) (e : option (N * list gev)) : Prop :=
    match gget gid s with
    | Some g => exists st h, e = Some (st, h) /\ hist cfg st h g
    | None => e = None
    end.
  Lemma tracked_step gid s o e : mem_ok s -> tracked gid s e -> tracked gid (fst (sstep s o)) (ev_step gid s o e).
  Proof.
    intros M T. unfold tracked, ev_step in *. rewrite step_group. destruct (gget gid s) as [g|].
    - destruct T as (st & h & -> & H). eexists; eexists. split; [reflexivity|]. rewrite <- (grun_state _ g h). apply grun_hist; auto. apply gtrace_ok; auto.
    - destruct (creates gid o); auto. eexists; eexists. split; [reflexivity|]. apply grun_hist; [apply hist_new; reflexivity|apply gtrace_ok; auto].
  Qed.
  Theorem run_tracked gid : forall ops s e, mem_ok s -> tracked gid s e -> mem_ok (run s ops) /\ tracked gid (run s ops) (events gid s ops e).
  Proof.
    induction ops as [|o ops IH]; intros s e M T; simpl; auto. apply IH; [apply mem_step; auto|apply tracked_step; auto].
  Qed.
  (** Every consumer group of every run from an empty topic has the history its
      operations give it. *)
  Theorem run_hist soft ops gid g : gget gid (run (sys_new soft) ops) = Some g ->
    exists st h, events gid (sys_new soft) ops None = Some (st, h) /\ hist cfg st h g.
  Proof.
    intro H. destruct (run_tracked gid ops (sys_new soft) None (mem_new soft) eq_refl) as (_ & T). unfold tracked in T. rewrite H in T. exact T.
  Qed.
  Lemma events_snoc gid o : forall ops s e, events gid s (ops ++ [o]) e = ev_step gid (run s ops) o (events gid s ops e).
  Proof. induction ops as [|x ops IH]; intros s e; simpl; auto. Qed.
  Lemma run_snoc o : forall ops s, run s (ops ++ [o]) = fst (sstep (run s ops) o).
  Proof. induction ops as [|x ops IH]; intros s; simpl; auto. Qed.

  (** ** Answers are the events *)
  (** A fetch that answers messages at once put exactly that answer in the history. *)
  Lemma try_answer gid c gen limit now tok s g st h ms : gget gid s = Some g -> ms <> [] ->
    snd (sstep s (STry gid c gen limit now tok)) = RMsgs ms ->
    ev_step gid s (STry gid c gen limit now tok) (Some (st, h)) =
    Some (st, (GFetch c gen limit now (t_log (s_top s)) (t_ram (s_top s)) (t_head (s_top s)), OMsgs ms) :: (GClamp (t_head (s_top s)), OUnit) :: h).
  Proof.
    intros HG NE R. unfold ev_step. rewrite HG. cbn [gtrace]. rewrite beqb_refl. cbn [StreamSysModel.sstep] in *. unfold op_try in *. rewrite HG in *. cbv zeta in *.
    destruct (clamp_head (t_head (s_top s)) g) as [g1 cl] eqn:EC. cbn [fst]. destruct (is_backpressured cfg g1); [simpl in R; congruence|].
    destruct (fetch cfg c gen limit now (t_log (s_top s)) (t_ram (s_top s)) (t_head (s_top s)) g1) as [g2 [e|[|m r]]] eqn:EF; simpl in R; try congruence.
    - destruct (g_cold g2); simpl in R; try congruence. destruct (_ && _); simpl in R; congruence.
    - inversion R; subst. cbn [snd]. simpl. rewrite EC. simpl. rewrite EF. reflexivity.
  Qed.
  (** A fetch answered from disk likewise. *)
  Lemma cold_answer i now s k res g st h ms : nth_error (s_colds s) i = Some k -> k_res k = Some res -> gget (k_gid k) s = Some g -> ms <> [] ->
    snd (sstep s (SColdDone i now)) = RMsgs ms ->
    ev_step (k_gid k) s (SColdDone i now) (Some (st, h)) =
    Some (st, (GCold (k_c k) (k_gen k) now res (t_head (s_top s)), OMsgs ms) :: (GClamp (t_head (s_top s)), OUnit) :: (GFlag false, OUnit) :: h).
  Proof.
    intros HN HR HG NE R. unfold ev_step. rewrite HG. cbn [gtrace]. rewrite HN, beqb_refl, HR. cbn [StreamSysModel.sstep] in R. unfold op_cold_done in R. rewrite HN, HR in R. cbv zeta in R.
    change (gget (k_gid k) (set_colds (remove_nth i (s_colds s)) s)) with (gget (k_gid k) s) in R. rewrite HG in R.
    destruct (k_tok k =? g_tok g); simpl negb in R; cbv iota in R; [|simpl in R; congruence].
    change (t_head (s_top (set_colds (remove_nth i (s_colds s)) s))) with (t_head (s_top s)) in R.
    destruct (clamp_head (t_head (s_top s)) (set_cold false g)) as [g2 cl] eqn:EC.
    destruct (register_cold cfg (k_c k) (k_gen k) now res (t_head (s_top s)) g2) as [g3 [e|r]] eqn:ER; simpl in R; [congruence|]. inversion R; subst.
    simpl. rewrite EC. simpl. rewrite ER. reflexivity.
  Qed.
  (** An acknowledgement is answered without error exactly when the group took it. *)
  Lemma ack_answer gid c gen seq s g st h : gget gid s = Some g ->
    ev_step gid s (SAck gid c gen seq) (Some (st, h)) =
    Some (st, (GAck c gen seq, match snd (sstep s (SAck gid c gen seq)) with RErr (Group e) => OErr e | _ => OUnit end) :: (GClamp (t_head (s_top s)), OUnit) :: h).
  Proof.
    intro HG. unfold ev_step. rewrite HG. cbn [gtrace]. rewrite beqb_refl. cbn [StreamSysModel.sstep]. unfold op_ack. rewrite HG. simpl.
    destruct (ack c gen seq (fst (clamp_head (t_head (s_top s)) g))) as [g' [e|]]; reflexivity.
  Qed.

  (** ** Groups do not touch each other (C61) *)
  Definition about (o : sop) : option bytes :=
    match o with
    | SJoin gid _ _ | SLeave _ gid _ _ | SAck gid _ _ _ | SSeek _ gid | STry gid _ _ _ _ _ => Some gid
    | _ => None
    end.
  Theorem group_apart gid s o : about o <> None -> about o <> Some gid -> gget gid (fst (sstep s o)) = gget gid s.
  Proof.
    intros H1 H2. rewrite step_group. destruct o; simpl in H1, H2; try congruence;
      (destruct (beqb gid gid0) eqn:E; [apply beqb_eq in E; congruence|]); simpl; rewrite ?E; simpl; destruct (gget gid s); reflexivity.
  Qed.
  Theorem group_log_apart s o : about o <> None -> s_top (fst (sstep s o)) = s_top s /\ s_store (fst (sstep s o)) = s_store s /\ s_box (fst (sstep s o)) = s_box s.
  Proof.
    intro H. assert (C : consumer_op o = true) by (destruct o; simpl in *; try reflexivity; congruence). pose proof (consumer_core crc cfg smax s o C) as E. unfold core in E. inversion E. auto.
  Qed.
End Sys.
