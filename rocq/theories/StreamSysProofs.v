(** Topic, storage actor and background tasks together: what stays true when
    publishers hand over their messages in order. *)
From Verif Require Import LibBase LibMap StreamTopicModel StreamGroupModel StreamStoreModel StreamStoreCodec StreamStoreProofs StreamStoreFacts StreamGroupSpec StreamGroupFetch StreamTopicProofs StreamSysModel.

Section Sys.
  Variable crc : bytes -> N.
  Hypothesis crc32 : forall b, crc b < 2 ^ 32.
  Variable cfg : gcfg.
  Variable smax : N.
  Notation enc := (enc_msgs crc).
  Notation store_ok := (store_ok crc).
  Notation sstep := (sstep crc cfg smax).

  (** What the environment of an operation guarantees: bytes surely written are
      visible; file ages grow towards the front; messages fit their records (numbers
      and clock in 64 bits, payloads in 32 bits). *)
  Definition op_ok (s : sys) (o : sop) : Prop :=
    match o with
    | SPub ts pay => t_next (s_top s) < 2 ^ 64 /\ ts < 2 ^ 64 /\ lenN pay < 2 ^ 32 - 16
    | SColdRun _ vis => vis_ok vis (s_store s)
    | SRetain vis age _ => vis_ok vis (s_store s) /\
        (forall old, age = Some old -> forall a b, In a (akeys (d_segs (s_store s))) -> In b (akeys (d_segs (s_store s))) -> a < b -> old b = true -> old a = true)
    | _ => True
    end.
  (** Publishers hand their messages to storage in the order of their numbers. *)
  Definition orderly (o : sop) : Prop := match o with SSend i => i = 0%nat | _ => True end.

  Definition core (s : sys) := (s_top s, s_store s, s_box s, s_ret s, s_evp s).

  Record inv_at (f : N) (A W : list msg) (dh : N) (bl : list blk) (s : sys) : Prop := {
    i_topic : init_ok f A (s_top s);
    i_all : A = W ++ s_box s;
    i_store : store_ok dh bl (s_store s);
    i_disk : msgs_of bl = dropN (dh - f) W;
    i_dh : f <= dh;
    i_tot : dh + lenN (msgs_of bl) = f + lenN W;
    i_head : t_head (s_top s) <= dh;
    i_ret : forall h, s_ret s = Some h -> t_head (s_top s) <= h /\ h = dh;
    i_ram : t_ram (s_top s) <= dh + lenN (sure_msgs bl);
    i_ram2 : t_ram (s_top s) <= t_next (s_top s);
    i_evp : s_evp s < dh + lenN (sure_msgs bl);
    i_box : Forall msg_ok (s_box s);
    i_pos : 1 <= t_head (s_top s) /\ (s_ret s = None -> t_head (s_top s) = dh)
  }.
  (** [A]: all messages numbered [f] and up; [W]: those handed to storage. *)
  Definition sys_ok (f : N) (A : list msg) (s : sys) : Prop := exists W dh bl, inv_at f A W dh bl s.

  Lemma inv_core f A W dh bl s s' : core s = core s' -> inv_at f A W dh bl s -> inv_at f A W dh bl s'.
  Proof.
    unfold core. intros E [A1 A2 A3 A4 A5 A6 A7 A8 A9 A10 A11 A12 A13]. inversion E as [[E1 E2 E3 E4 E5]].
    constructor; rewrite <- ?E1, <- ?E2, <- ?E3, <- ?E4, <- ?E5; auto.
  Qed.

  Lemma core_mark b s : core (mark b s) = core s.
  Proof. destruct b; reflexivity. Qed.
  Lemma core_gput g x s : core (gput g x s) = core s.
  Proof. reflexivity. Qed.
  (** Requests of consumers change nothing of the topic or the files. *)
  Lemma core_drop ord s b : core (drop_member cfg ord s b) = core s.
  Proof.
    unfold drop_member. destruct (gget (fst b) s); auto. destruct (remove_member cfg (ord (snd b)) (snd b) g) as [g' [x|]]; auto.
  Qed.
  Lemma core_fold ord l : forall s, core (fold_left (drop_member cfg ord) l s) = core s.
  Proof. induction l as [|b l IH]; intro s; simpl; auto. rewrite IH. apply core_drop. Qed.
  Definition consumer_op (o : sop) : bool :=
    match o with
    | SJoin _ _ _ | SLeave _ _ _ _ | SDisc _ _ | SAck _ _ _ _ | SSeek _ _ | STry _ _ _ _ _ _ | SColdRun _ _ | SColdDone _ _ | SColdAbort _ | SCollect | STick _ _ => true
    | _ => false
    end.
  Lemma consumer_core s o : consumer_op o = true -> core (fst (sstep s o)) = core s.
  Proof.
    destruct o; simpl; intro E; try discriminate; auto.
    - unfold op_join. destruct (clamp_head _ _) as [g1 cl]. simpl. rewrite core_mark. reflexivity.
    - unfold op_leave. destruct (gget gid s); auto. destruct (negb _); auto. destruct (remove_member _ _ _ _) as [g' [x|]]; reflexivity.
    - unfold op_disconnect. destruct (aget _ _ _); auto. rewrite core_fold. reflexivity.
    - unfold op_ack. destruct (gget gid s); auto. destruct (ack _ _ _ _) as [g' [x|]]; reflexivity.
    - unfold op_try. destruct (gget gid s); auto. destruct (clamp_head _ _) as [g1 cl]. destruct (is_backpressured cfg g1); [reflexivity|].
      destruct (fetch _ _ _ _ _ _ _ _ _) as [g2 [e|[|m ms]]]; simpl; rewrite ?core_mark; try reflexivity.
      destruct (g_cold g2); simpl; rewrite ?core_mark; [reflexivity|]. destruct (_ && _); simpl; [|rewrite core_mark; reflexivity].
      destruct cl; reflexivity.
    - unfold op_cold_run. destruct (nth_error _ _); reflexivity.
    - unfold op_cold_done. destruct (nth_error _ _) as [k|]; auto. destruct (k_res k); auto.
      destruct (gget _ _); [|reflexivity]. destruct (negb _); [reflexivity|]. destruct (clamp_head _ _) as [g2 cl].
      destruct (register_cold _ _ _ _ _ _ _) as [g3 [e|r]]; simpl; rewrite ?core_mark; reflexivity.
    - unfold op_collect. destruct (s_dirty s); reflexivity.
    - unfold op_tick. cbn [fst]. rewrite core_mark. reflexivity.
  Qed.

  Lemma log_ok_in l n s : log_ok l n -> n <= s -> s < n + lenN l -> exists m, In m l /\ m_seq m = s.
  Proof.
    intros L A B. destruct (nth_error l (N.to_nat (s - n))) as [m|] eqn:E.
    - exists m. split; [eapply nth_error_In; eauto|]. apply L in E. lia.
    - apply nth_error_None in E. unfold lenN in B. lia.
  Qed.
  Lemma dropN_snoc A k (l : list A) x : k <= lenN l -> dropN k (l ++ [x]) = dropN k l ++ [x].
  Proof. intro L. unfold dropN, lenN in *. rewrite skipn_app. replace (N.to_nat k - length l)%nat with 0%nat by lia. reflexivity. Qed.

  (** The messages [o] adds. *)
  Definition adds (s : sys) (o : sop) : list msg :=
    match o with SPub ts pay => [mkMsg (t_next (s_top s)) ts pay] | _ => [] end.

  Lemma evict_fields p t : t_next (evict p t) = t_next t /\ t_head (evict p t) = t_head t /\ t_soft (evict p t) = t_soft t.
  Proof. unfold evict. destruct (evict_loop _ _ _ _ _). auto. Qed.
  Lemma init_evict f A t p : init_ok f A t -> init_ok f A (evict p t).
  Proof.
    intros (K & HR & HN). destruct (evict_ok f A t p K HR) as (K1 & K2). destruct (evict_fields p t) as (N1 & N2 & _).
    split; [exact K1|split; [exact K2|rewrite N1, N2; exact HN]].
  Qed.
  (** Eviction moves the memory's start at most just past the mark. *)
  Lemma evict_ram f A t p : init_ok f A t -> t_ram t <= t_next t -> t_ram (evict p t) = t_ram t \/ t_ram (evict p t) <= p + 1 \/ t_ram (evict p t) <= t_head t.
  Proof.
    intros (K & HR & HN) HL. pose proof (topic_log_ok _ _ _ K) as LO. unfold evict.
    assert (G : forall log ram, log_ok log ram -> let r := evict_loop p (t_head t) (t_soft t) log ram in snd r = ram \/ snd r <= p + 1 \/ snd r <= t_head t).
    { induction log as [|m log IH]; intros ram L; simpl; auto. apply log_ok_cons in L. destruct L as (E & L).
      destruct (t_soft t <? lenN (m :: log)); simpl; auto. destruct (N.leb_spec (m_seq m) p) as [LE|LE]; simpl; auto.
      assert (L2 : log_ok log (N.max (m_seq m + 1) (t_head t)) \/ N.max (m_seq m + 1) (t_head t) <= t_head t) by (destruct (N.le_ge_cases (t_head t) (m_seq m + 1)); [left; replace (N.max (m_seq m + 1) (t_head t)) with (ram + 1) by lia; exact L|right; lia]).
      destruct L2 as [L2|L2].
      - destruct (IH _ L2) as [X|[X|X]]; auto. rewrite X. lia.
      - (* the head is beyond: what remains is unchanged or moves on *)
        assert (G2 : forall l r, r <= N.max (p + 1) (t_head t) -> snd (evict_loop p (t_head t) (t_soft t) l r) <= N.max (p + 1) (t_head t)).
        { induction l as [|x l IHl]; intros r R; simpl; auto. destruct (t_soft t <? lenN (x :: l)); simpl; auto. destruct (N.leb_spec (m_seq x) p); simpl; auto. apply IHl. lia. }
        specialize (G2 log (N.max (m_seq m + 1) (t_head t)) ltac:(lia)). lia. }
    specialize (G (t_log t) (t_ram t) LO). destruct (evict_loop p (t_head t) (t_soft t) (t_log t) (t_ram t)) as [log ram]. exact G.
  Qed.
  Lemma evict_ram_next f A t p : init_ok f A t -> t_ram t <= t_next t -> t_ram (evict p t) <= t_next (evict p t).
  Proof.
    intros I HL. pose proof (init_evict f A t p I) as (K1 & K2 & K3). pose proof I as (K & HR & HN).
    destruct (t_log (evict p t)) as [|m l] eqn:EL.
    - destruct (evict_fields p t) as (N1 & N2 & _). rewrite N1.
      pose proof (topic_log_ok _ _ _ K) as LO. unfold evict in *.
      assert (G : forall log ram, log_ok log ram -> ram + lenN log <= t_next t -> snd (evict_loop p (t_head t) (t_soft t) log ram) <= t_next t).
      { induction log as [|x log IH]; intros ram L B; simpl in *; [lia|]. pose proof L as L0. apply log_ok_cons in L. destruct L as (E & L). rewrite lenN_cons in B.
        destruct (t_soft t <? lenN (x :: log)); simpl; [|lia]. destruct (m_seq x <=? p); simpl; [|lia].
        destruct (N.le_ge_cases (t_head t) (m_seq x + 1)).
        - apply IH; [replace (N.max (m_seq x + 1) (t_head t)) with (ram + 1) by lia; exact L|lia].
        - assert (G2 : forall l r, r <= t_next t -> Forall (fun y => m_seq y < t_next t) l -> snd (evict_loop p (t_head t) (t_soft t) l r) <= t_next t).
          { induction l as [|y l IHl]; intros r R F; simpl; auto. inversion F; subst. destruct (t_soft t <? lenN (y :: l)); simpl; auto. destruct (m_seq y <=? p); simpl; auto. apply IHl; auto. lia. }
          apply G2; [lia|]. apply Forall_forall. intros y HY. apply (log_lt _ _ _ L) in HY. lia. }
      specialize (G (t_log t) (t_ram t) LO). destruct (evict_loop p (t_head t) (t_soft t) (t_log t) (t_ram t)) as [log ram]. simpl in *. apply G.
      destruct (k_log _ _ _ K) as (k & E & F). destruct (t_log t) as [|y r] eqn:ET; [rewrite lenN_nil; lia|].
      destruct F as (F1 & F2); [discriminate|]. rewrite E, lenN_dropN. rewrite (k_next _ _ _ K). lia.
    - destruct (k_log _ _ _ K1) as (k & E & F). destruct F as (F1 & F2); [rewrite EL; discriminate|]. rewrite F1, (k_next _ _ _ K1). lia.
  Qed.

  Lemma inv_pub f A W dh bl s ts pay : inv_at f A W dh bl s -> op_ok s (SPub ts pay) ->
    inv_at f (A ++ adds s (SPub ts pay)) W dh bl (fst (sstep s (SPub ts pay))).
  Proof.
    intros [A1 A2 A3 A4 A5 A6 A7 A8 A9 A10 A11 A12 A13] (O1 & O2 & O3). simpl. destruct A1 as (K & HR & HN).
    pose proof (append_ok f A (s_top s) ts pay K) as K1. unfold append in K1; simpl in K1.
    constructor; cbn [s_top s_box s_store s_ret s_evp set_box set_top t_head t_next t_ram].
    - split; [exact K1|]. cbn [t_head t_ram t_next]. split; [destruct (t_log (s_top s)); lia|lia].
    - rewrite A2 at 1. rewrite <- app_assoc. reflexivity.
    - exact A3.
    - exact A4.
    - exact A5.
    - exact A6.
    - exact A7.
    - exact A8.
    - destruct (t_log (s_top s)) eqn:EL; [|exact A9]. pose proof (k_ram _ _ _ K EL). lia.
    - destruct (t_log (s_top s)); lia.
    - exact A11.
    - apply Forall_app. split; auto. constructor; [|constructor]. split; auto.
    - exact A13.
  Qed.
  Lemma inv_send f A W dh bl s : inv_at f A W dh bl s -> exists W' bl', inv_at f A W' dh bl' (op_send crc smax 0 s).
  Proof.
    intros H. unfold op_send. destruct (s_box s) as [|m box] eqn:EB; simpl; [exists W, bl; exact H|].
    destruct H as [A1 A2 A3 A4 A5 A6 A7 A8 A9 A10 A11 A12 A13]. rewrite EB in *. inversion A12; subst.
    assert (SM : m_seq m = dh + lenN (msgs_of bl)).
    { destruct A1 as (K & _). pose proof (k_all _ _ _ K) as LO. apply log_ok_app in LO. destruct LO as (_ & LO). apply log_ok_cons in LO. lia. }
    destruct (append_store crc smax [m] dh bl (s_store s) A3) as (bl' & B1 & B2 & B3 & _ & B5).
    { discriminate. } { intros [|[|i]] x E; simpl in E; inversion E; subst. simpl. lia. } { constructor; auto. }
    exists (W ++ [m]), bl'. constructor; cbn [s_top s_box s_store s_ret s_evp set_box set_store]; auto.
    - rewrite <- app_assoc. reflexivity.
    - rewrite B2, A4. rewrite dropN_snoc; auto. rewrite A4, lenN_dropN in A6. lia.
    - rewrite B2, !lenN_app, !lenN_cons, !lenN_nil. lia.
    - lia.
    - lia.
  Qed.
  Lemma inv_store_same f A W dh bl s bl' st : inv_at f A W dh bl s -> store_ok dh bl' st -> msgs_of bl' = msgs_of bl ->
    lenN (sure_msgs bl) <= lenN (sure_msgs bl') -> inv_at f A W dh bl' (set_store st s).
  Proof.
    intros [A1 A2 A3 A4 A5 A6 A7 A8 A9 A10 A11 A12 A13] B C D. constructor; cbn [s_top s_box s_store s_ret s_evp set_store]; auto; try lia; rewrite ?C; auto.
  Qed.
  Lemma full_sure_le bl : lenN (sure_msgs bl) <= lenN (sure_msgs (map (full crc) bl)).
  Proof. rewrite (full_sure crc). apply sure_le. Qed.
  Lemma akeys_blk bl : akeys (map (file_of crc) bl) = map b_name bl.
  Proof. unfold akeys. rewrite map_map. reflexivity. Qed.

  Theorem step_ok f A s o : sys_ok f A s -> op_ok s o -> orderly o -> sys_ok f (A ++ adds s o) (fst (sstep s o)).
  Proof.
    intros (W & dh & bl & H) OK OR.
    destruct (consumer_op o) eqn:EC.
    { assert (adds s o = []) as -> by (destruct o; try discriminate; reflexivity). rewrite app_nil_r. exists W, dh, bl.
      eapply inv_core; [|exact H]. symmetry. apply consumer_core; auto. }
    destruct o; simpl in EC; try discriminate; cbn [adds]; rewrite ?app_nil_r.
    - exists W, dh, bl. exact (inv_pub f A W dh bl s ts pay H OK).
    - simpl in OR. subst i. destruct (inv_send f A W dh bl s H) as (W' & bl' & H'). exists W', dh, bl'. exact H'.
    - (* load *)
      exists W, dh, bl. simpl. destruct H as [A1 A2 A3 A4 A5 A6 A7 A8 A9 A10 A11 A12 A13]. constructor; auto. simpl. apply (so_pers _ _ _ _ A3).
    - (* evict *)
      exists W, dh, bl. simpl. destruct H as [A1 A2 A3 A4 A5 A6 A7 A8 A9 A10 A11 A12 A13].
      destruct (evict_fields (s_evp s) (s_top s)) as (N1 & N2 & _). unfold op_evict.
      constructor; cbn [s_top s_box s_store s_ret s_evp set_top]; auto; rewrite ?N2; auto.
      + apply init_evict; auto.
      + destruct (evict_ram f A (s_top s) (s_evp s) A1 A10) as [X|[X|X]]; lia.
      + apply (evict_ram_next f A); auto.
    - (* save *)
      simpl. unfold op_save. destruct (s_save s) as [gs|]; [|exists W, dh, bl; exact H]. exists W, dh, bl.
      apply (inv_core f A W dh bl (set_store (save_groups crc gs (s_store s)) s)); [reflexivity|].
      apply (inv_store_same f A W dh bl s bl); auto; [|lia]. apply groups_store. apply (i_store _ _ _ _ _ _ H).
    - (* retention *)
      simpl. destruct OK as (V & MO). destruct H as [A1 A2 A3 A4 A5 A6 A7 A8 A9 A10 A11 A12 A13].
      rewrite (so_segs _ _ _ _ A3), akeys_blk in MO.
      destruct (retention_store crc crc32 vis age maxb dh bl (s_store s) A3 V MO) as (k & dh' & R). cbv zeta in R.
      destruct R as (R1 & R2 & R3 & _ & R5 & R6 & R7 & R8). unfold op_retain.
      destruct (apply_retention vis age maxb (s_store s)) as [st h]. simpl in R1, R2, R7. subst h.
      exists W, dh', (skipn k bl). constructor; cbn [s_top s_box s_store s_ret s_evp set_store set_ret]; auto.
      + rewrite R6, A4. rewrite dropN_dropN. f_equal. lia.
      + lia.
      + lia.
      + lia.
      + intros h E. inversion E; subst. split; [lia|reflexivity].
      + assert (dh + lenN (sure_msgs bl) <= dh' + lenN (sure_msgs (skipn k bl))); [|lia].
        pose proof (sure_le (firstn k bl)) as SL. rewrite <- (firstn_skipn k bl) at 1. rewrite sure_app, lenN_app.
        assert (lenN (msgs_of bl) = lenN (msgs_of (firstn k bl)) + lenN (msgs_of (skipn k bl))) by (rewrite <- (firstn_skipn k bl) at 1; rewrite msgs_of_app, lenN_app; reflexivity). lia.
      + assert (dh + lenN (sure_msgs bl) <= dh' + lenN (sure_msgs (skipn k bl))); [|lia].
        pose proof (sure_le (firstn k bl)) as SL. rewrite <- (firstn_skipn k bl) at 1. rewrite sure_app, lenN_app.
        assert (lenN (msgs_of bl) = lenN (msgs_of (firstn k bl)) + lenN (msgs_of (skipn k bl))) by (rewrite <- (firstn_skipn k bl) at 1; rewrite msgs_of_app, lenN_app; reflexivity). lia.
      + split; [apply A13|discriminate].
    - (* head *)
      simpl. unfold op_head. destruct (s_ret s) as [h|] eqn:ER; [|exists W, dh, bl; exact H].
      destruct H as [A1 A2 A3 A4 A5 A6 A7 A8 A9 A10 A11 A12 A13]. destruct (A8 h ER) as (HL & HU).
      destruct (N.eqb_spec h (t_head (s_top s))) as [EH|NH].
      + exists W, dh, bl. constructor; auto; simpl; [discriminate|]. split; [apply A13|]. intros _. lia.
      + exists W, dh, bl. cbn [fst]. eapply inv_core; [symmetry; apply core_mark|].
        pose proof A1 as (K & HR & HN). destruct (apply_head_ok f A (s_top s) h K) as (K1 & K2).
        assert (DN : dh <= t_next (s_top s)).
        { rewrite (k_next _ _ _ K), A2, lenN_app. lia. }
        assert (RM : t_ram (apply_head h (s_top s)) <= N.max (t_ram (s_top s)) h \/ t_ram (apply_head h (s_top s)) <= dh).
        { unfold apply_head. destruct (drop_below_spec (N.max h 1) (t_log (s_top s))) as (pre & E1 & E2 & E3). pose proof (topic_log_ok _ _ _ K) as LO.
          destruct (drop_below (N.max h 1) (t_log (s_top s))) as [|m post] eqn:ED; simpl.
          - rewrite app_nil_r in E1. destruct (t_log (s_top s)) as [|x r] eqn:EL.
            + pose proof (k_ram _ _ _ K EL). left. lia.
            + right. destruct (k_log _ _ _ K) as (k & E & F). destruct F as (F1 & F2); [rewrite EL; discriminate|].
              assert (LX : exists y, In y (x :: r) /\ m_seq y + 1 = t_next (s_top s)).
              { destruct (last_msg_some (x :: r)) as (y & EY); [discriminate|]. exists y. split.
                - clear - EY. revert x EY. induction r as [|z r IH]; intros x EY; [inversion EY; left; auto|]. right. apply (IH z). exact EY.
                - pose proof (last_msg_seq _ _ _ LO EY) as Z. rewrite Z, (k_next _ _ _ K). rewrite EL in E. rewrite E, lenN_dropN, F1. lia. }
              destruct LX as (y & HY & SY). rewrite <- E1 in E2. rewrite Forall_forall in E2. specialize (E2 y HY). lia.
          - left. rewrite E1 in LO. apply log_ok_app in LO. destruct LO as (LP & LO). apply log_ok_cons in LO. destruct LO as (SM & _).
            destruct pre as [|y pre]; [rewrite lenN_nil in SM; lia|].
            assert (EP : exists z, In z (y :: pre) /\ m_seq z + 1 = m_seq m).
            { destruct (last_msg_some (y :: pre)) as (z & EZ); [discriminate|]. exists z. split.
              - clear - EZ. revert y EZ. induction pre as [|w r IH]; intros y EZ; [inversion EZ; left; auto|]. right. apply (IH w). exact EZ.
              - pose proof (last_msg_seq _ _ _ LP EZ). lia. }
            destruct EP as (z & HZ & SZ). rewrite Forall_forall in E2. specialize (E2 z HZ). lia. }
        constructor; cbn [s_top s_box s_store s_ret s_evp set_top set_groups set_ret]; auto.
        * split; [exact K1|split; [exact K2|]]. simpl. lia.
        * simpl. lia.
        * discriminate.
        * lia.
        * simpl t_next. destruct RM; lia.
        * simpl. lia.
    - (* flush *)
      exists W, dh, (map (full crc) bl). simpl. apply (inv_store_same f A W dh bl s); auto.
      + apply flush_store. apply (i_store _ _ _ _ _ _ H).
      + apply (full_msgs crc).
      + apply full_sure_le.
    - exists W, dh, (map (part crc upto) bl). simpl. apply (inv_store_same f A W dh bl s); auto.
      + apply part_store. apply (i_store _ _ _ _ _ _ H).
      + apply (part_msgs crc).
      + apply (part_sure crc).
  Qed.

  Lemma new_sys_ok soft : sys_ok 1 [] (sys_new soft).
  Proof.
    exists [], 1, []. constructor; simpl; auto; try lia; try (intros; discriminate).
    - apply new_ok.
    - constructor; simpl; auto; try lia; try (intros; discriminate).
  Qed.
End Sys.
