(** The server's side of stream consumers end to end: a record is given out again only
    after it was taken back. *)
From Verif Require Import LibBase LibMap SdkLoopModel SdkStreamModel StreamTopicModel StreamGroupModel StreamStoreModel StreamStoreCodec StreamStoreProofs StreamStoreFacts StreamGroupSpec StreamGroupProofs StreamGroupFetch StreamGroupHist StreamGroupFacts StreamTopicProofs StreamSysModel StreamSysProofs StreamSysHist StreamSysFacts StreamSysBoot StreamSysLife SdkStreamSys SdkStreamNetModel SdkStreamNetSpec SdkStreamNetServer.

Section Once.
  Variable crc : bytes -> N.
  Hypothesis crc32 : forall b, crc b < 2 ^ 32.
  Variable cfg : gcfg.
  Variable smax : N.
  Hypothesis MD : 1 <= max_del cfg.
  Notation sstep := (sstep crc cfg smax).
  Notation gtrace := (gtrace crc cfg smax).
  Notation srv := (srv crc cfg smax).
  Notation status_of := (status_of cfg).
  Notation takes_from := (takes_from cfg).

  Lemma backs_fold soft gid q : forall L, fst (fold_left (back_step crc cfg smax gid q) L (sys_new soft, (None, 0))) = srv soft L.
  Proof.
    intro L. unfold SdkStreamNetSpec.srv. assert (X : forall L s x, fst (fold_left (back_step crc cfg smax gid q) L (s, x)) = fold_left (srv_step crc cfg smax) L s).
    { clear. induction L as [|e L IH]; intros s [a b]; [reflexivity|]. cbn [fold_left back_step]. apply IH. }
    apply X.
  Qed.
  Lemma backs_snoc soft gid q L e : backs crc cfg smax soft gid q (L ++ [e]) =
    let (h, n) := backs crc cfg smax soft gid q L in let s := srv soft L in
    let b := resets gid e || match h with Some x => takes_from gid s e x | None => false end in
    (match holder_of gid q s e with Some x => Some x | None => if b || acked_by gid q e then None else h end, if b then n + 1 else n).
  Proof.
    unfold backs. rewrite fold_left_app. cbn [fold_left]. pose proof (backs_fold soft gid q L) as F. destruct (fold_left _ L _) as [s [h n]]. cbn [fst snd] in *. subst s. reflexivity.
  Qed.

  (** what the status of a number says about how often it was given out ([giv]) and taken back ([bk]) *)
  Definition P (x : status) (hold : option (N * N)) (giv bk : N) : Prop :=
    match x with Fresh | Waiting _ | Parked => giv <= bk | Held c t _ => hold = Some (c, t) /\ giv <= 1 + bk | Done => giv <= 1 + bk end.
  Lemma P_done x hold hold' giv bk : P x hold giv bk -> P Done hold' giv bk.
  Proof. destruct x; cbn; lia. Qed.
  Lemma P_back x hold x' hold' giv bk : P x hold giv bk -> (forall c t n, x' <> Held c t n) -> P x' hold' giv (bk + 1).
  Proof. intros H N. assert (giv <= 1 + bk) by (destruct x; cbn in H; lia). destruct x'; cbn; try lia. exfalso. eapply N; eauto. Qed.
  Lemma P_same x hold giv bk hold' : P x hold giv bk -> (forall c t n, x <> Held c t n) -> P x hold' giv bk.
  Proof. intros H N. destruct x; cbn in *; auto. exfalso. eapply N; eauto. Qed.

  Definition soft_op (op : gop) : bool := match op with GLeave _ _ | GTick _ _ | GSeekB _ | GSeekE _ => false | _ => true end.
  Lemma handed_grow q : forall ops g h, forallb soft_op ops = true -> handed h q <= handed (fst (grun cfg g h ops)) q.
  Proof.
    induction ops as [|op ops IH]; intros g h S; cbn [forallb] in S; [cbn; lia|]. apply andb_prop in S. destruct S as (S1 & S2). cbn [grun]. destruct (gstep cfg g op) as [g' o].
    specialize (IH g' ((op, o) :: h) S2). cbn [handed fst] in IH. destruct op; try discriminate; cbn [is_seek] in IH; lia.
  Qed.
  Lemma soft_status st q : forall ops g h, forallb soft_op ops = true -> handed (fst (grun cfg g h ops)) q = handed h q ->
    status_of st (fst (grun cfg g h ops)) q = status_of st h q \/ status_of st (fst (grun cfg g h ops)) q = Done.
  Proof.
    induction ops as [|op ops IH]; intros g h S E; cbn [forallb] in S; [left; reflexivity|]. apply andb_prop in S. destruct S as (S1 & S2). cbn [grun] in *. destruct (gstep cfg g op) as [g' o] eqn:G.
    pose proof (handed_grow q ops g' ((op, o) :: h) S2) as HG. assert (E1 : handed ((op, o) :: h) q = handed h q) by (cbn [handed fst] in *; destruct op; try discriminate; cbn [is_seek] in *; lia).
    assert (X : status_of st ((op, o) :: h) q = status_of st h q \/ status_of st ((op, o) :: h) q = Done).
    { cbn [handed fst] in E1. unfold delivers_msg in E1. cbn [snd] in E1. cbn [StreamGroupSpec.status_of].
      assert (BL : forall hd, StreamGroupSpec.below hd q (status_of st h q) = status_of st h q \/ StreamGroupSpec.below hd q (status_of st h q) = Done) by (intro hd; unfold StreamGroupSpec.below; destruct (_ <? _); auto).
      destruct op; try discriminate; cbn [is_seek] in E1; auto.
      - destruct o; auto. unfold given. destruct (in_out q ms); [lia|]. apply BL.
      - destruct o; auto. unfold given. destruct (in_out q ms0); [lia|]. apply BL.
      - destruct o; auto. destruct (q =? s); auto. }
    rewrite <- E1 in E. destruct (IH g' _ S2 E) as [Y|Y]; rewrite Y; auto.
  Qed.

  Lemma leaves_status st q ord : forall (cs : list (bytes * N)) g h,
    match status_of st h q with
    | Held c t n => if existsb (fun b => snd b =? c) cs then forall c' t' n', status_of st (fst (grun cfg g h (map (fun b => GLeave (ord (snd b)) (snd b)) cs))) q <> Held c' t' n'
                    else status_of st (fst (grun cfg g h (map (fun b => GLeave (ord (snd b)) (snd b)) cs))) q = Held c t n
    | x => status_of st (fst (grun cfg g h (map (fun b => GLeave (ord (snd b)) (snd b)) cs))) q = x
    end.
  Proof.
    induction cs as [|b cs IH]; intros g h; cbn [map grun existsb fst]; [destruct (status_of st h q); reflexivity|].
    cbn [gstep]. specialize (IH (fst (remove_member cfg (ord (snd b)) (snd b) g)) ((GLeave (ord (snd b)) (snd b), OUnit) :: h)). cbn [StreamGroupSpec.status_of] in IH.
    destruct (status_of st h q) as [|c t n| | |]; auto. rewrite (N.eqb_sym (snd b) c). destruct (c =? snd b); cbn [orb]; auto. unfold released in IH. destruct (max_del cfg <=? n); rewrite IH; discriminate.
  Qed.

  Lemma held_member st h g q c t n : hist cfg st h g -> status_of st h q = Held c t n -> agetN c (g_mem g) <> None.
  Proof.
    intros H E. pose proof (where_it_is cfg MD st h g q H) as W. rewrite E in W. destruct W as (W & _). destruct (hist_agrees cfg MD _ _ _ H) as [(I & _) _ _ _]. exact (i_own _ _ I q _ W).
  Qed.
  Lemma gives_holder gid q s e : gives_out gid q s e = true <-> holder_of gid q s e <> None.
  Proof.
    unfold gives_out, holder_of. destruct e as [c e|who o r|a b]; try (split; [discriminate|congruence]). destruct o; cbn [fetch_of]; try (destruct r; split; [discriminate|congruence]); destruct r; try (split; [discriminate|congruence]).
    - destruct (beqb gid gid0 && in_out q ms); split; congruence.
    - destruct (nth_error (s_colds s) i) as [k|]; [|split; [discriminate|congruence]]. destruct (beqb gid (k_gid k) && in_out q ms); split; congruence.
  Qed.

  Lemma step_P st soft L A s who o gid g h q hold giv bk : slog crc cfg smax soft L A s -> gget gid s = Some g -> hist cfg st h g ->
    P (status_of st h q) hold giv bk ->
    let e := OServer who o (snd (sstep s o)) in let b := resets gid e || match hold with Some x => takes_from gid s e x | None => false end in
    P (status_of st (fst (grun cfg g h (gtrace gid g s o))) q) (match holder_of gid q s e with Some x => Some x | None => if b || acked_by gid q e then None else hold end)
      (giv + (if gives_out gid q s e then 1 else 0)) (if b then bk + 1 else bk).
  Proof.
    intros S HG HH HP e b. pose proof (calm_all crc crc32 cfg smax MD A s (slog_calm _ _ _ _ _ _ _ S)) as CO. pose proof (c_mem _ _ _ CO) as MO.
    pose proof (grun_hist cfg st (gtrace gid g s o) g h HH (gtrace_ok crc cfg smax gid g s o MO)) as HH'.
    pose proof (step_handed crc crc32 cfg smax MD gid s g o who h q HG) as HD. fold e in HD.
    (* nothing given out and nothing that takes back *)
    assert (SOFT : forallb soft_op (gtrace gid g s o) = true -> resets gid e = false -> b = false -> gives_out gid q s e = false -> (acked_by gid q e = true -> status_of st (fst (grun cfg g h (gtrace gid g s o))) q = Done) ->
      P (status_of st (fst (grun cfg g h (gtrace gid g s o))) q) (match holder_of gid q s e with Some x => Some x | None => if b || acked_by gid q e then None else hold end)
        (giv + (if gives_out gid q s e then 1 else 0)) (if b then bk + 1 else bk)).
    { intros F RS B GO AK. assert (HO : holder_of gid q s e = None) by (destruct (holder_of gid q s e) eqn:X; auto; assert (Y : holder_of gid q s e <> None) by congruence; apply gives_holder in Y; congruence).
      rewrite HO, B, GO, N.add_0_r. cbn [orb]. rewrite RS, GO, N.add_0_r in HD. destruct (soft_status st q _ g h F HD) as [X|X]; [|rewrite X; eapply P_done; eauto].
      destruct (acked_by gid q e); [rewrite AK by auto; eapply P_done; eauto|]. rewrite X. auto. }
    assert (OTHER : gtrace gid g s o = [] -> resets gid e = false -> b = false -> gives_out gid q s e = false -> acked_by gid q e = false ->
      P (status_of st (fst (grun cfg g h (gtrace gid g s o))) q) (match holder_of gid q s e with Some x => Some x | None => if b || acked_by gid q e then None else hold end)
        (giv + (if gives_out gid q s e then 1 else 0)) (if b then bk + 1 else bk)).
    { intros T RS B GO AK. apply SOFT; auto; [rewrite T; reflexivity|congruence]. }
    assert (BN : (forall x, takes_from gid s e x = false) -> resets gid e = false -> b = false) by (intros T RS; unfold b; rewrite RS; destruct hold; cbn [orb]; [apply T|reflexivity]).
    assert (GN : fetch_of gid s o = false -> gives_out gid q s e = false) by (intro F; unfold gives_out, e; rewrite F; destruct (snd _); reflexivity).
    destruct o; try (solve [apply OTHER; try reflexivity; solve [apply BN; reflexivity|apply GN; reflexivity]]).
    - (* join *) apply SOFT; try reflexivity; [cbn [StreamSysHist.gtrace]; destruct (beqb gid gid0); reflexivity|apply BN; reflexivity|apply GN; reflexivity|intro AK; discriminate].
    - (* leave *) rewrite (GN eq_refl), N.add_0_r. cbn [holder_of]. cbn [e resets acked_by] in *. cbn [orb] in b. subst b. cbn [StreamSysHist.gtrace].
      destruct (beqb gid gid0) eqn:EG; cbn [andb].
      + apply beqb_eq in EG. subst gid0. destruct (g_gen g =? gen) eqn:EN.
        * cbn [grun gstep fst]. cbn [StreamGroupSpec.status_of]. unfold e. cbn [SdkStreamNetSpec.takes_from]. rewrite beqb_refl. cbn [andb].
          destruct (status_of st h q) as [|c' t n| | |] eqn:ES; cbn [P] in HP.
          -- destruct (snd _); try (destruct hold; exact HP). destruct hold as [x|]; [|exact HP]. destruct (c =? fst x); cbn [orb P]; lia.
          -- destruct HP as (-> & HP). cbn [fst]. rewrite (N.eqb_sym c' c). destruct (c =? c') eqn:EC.
             ++ apply N.eqb_eq in EC. subst c'.
                assert (RU : snd (sstep s (SLeave ord gid c gen)) = RUnit).
                { cbn [StreamSysModel.sstep]. unfold op_leave. rewrite HG, EN. cbn [negb]. destruct (remove_member cfg ord c g) as [g' [x|]] eqn:RM; auto. exfalso.
                  unfold remove_member in RM. destruct (agetN c (g_mem g)) eqn:EM; [inversion RM|]. exact (held_member st h g q c t n HH ES EM). }
                rewrite RU. cbn [orb]. unfold released. destruct (max_del cfg <=? n); cbn; lia.
             ++ destruct (snd _); cbn; auto.
          -- destruct (snd _); try (destruct hold; exact HP). destruct hold as [x|]; [|exact HP]. destruct (c =? fst x); cbn [orb P]; lia.
          -- destruct (snd _); try (destruct hold; exact HP). destruct hold as [x|]; [|exact HP]. destruct (c =? fst x); cbn [orb P]; lia.
          -- destruct (snd _); try (destruct hold; exact HP). destruct hold as [x|]; [|exact HP]. destruct (c =? fst x); cbn [orb P]; lia.
        * assert (RU : snd (sstep s (SLeave ord gid c gen)) = RErr (Group Fenced)) by (cbn [StreamSysModel.sstep]; unfold op_leave; rewrite HG, EN; reflexivity).
          unfold e. rewrite RU. cbn. destruct hold; exact HP.
      + cbn [grun fst]. unfold e. cbn [SdkStreamNetSpec.takes_from]. rewrite EG. cbn [andb]. destruct (snd _); destruct hold; exact HP.
    - (* disconnect *) rewrite (GN eq_refl), N.add_0_r. cbn [holder_of]. cbn [e resets acked_by orb] in *. subst b. unfold e. cbn [SdkStreamNetSpec.takes_from StreamSysHist.gtrace].
      destruct (aget N.eqb conn (s_clients s)) as [l|]; [|destruct hold; exact HP]. set (cs := filter (fun b => beqb gid (fst b)) l).
      assert (EX : forall c, existsb (fun b => beqb gid (fst b) && (snd b =? c)) l = existsb (fun b => snd b =? c) cs).
      { intro c. unfold cs. clear. induction l as [|b l IH]; cbn; auto. destruct (beqb gid (fst b)); cbn; rewrite IH; reflexivity. }
      pose proof (leaves_status st q ord cs g h) as X.
      destruct (status_of st h q) as [|c' t n| | |] eqn:ES.
      + rewrite X. destruct hold as [x|]; [|exact HP]. destruct (existsb _ l); cbn in *; lia.
      + cbn [P] in HP. destruct HP as (-> & HP). cbn [fst]. rewrite EX. destruct (existsb _ cs).
        * cbn [orb]. eapply P_back; [|exact X]. instantiate (1 := None). instantiate (1 := Done). exact HP.
        * rewrite X. cbn. auto.
      + rewrite X. destruct hold as [x|]; [|exact HP]. destruct (existsb _ l); cbn in *; lia.
      + rewrite X. destruct hold as [x|]; [|exact HP]. destruct (existsb _ l); cbn in *; lia.
      + rewrite X. destruct hold as [x|]; [|exact HP]. destruct (existsb _ l); cbn in *; lia.
    - (* acknowledge *) apply SOFT; try reflexivity; [cbn [StreamSysHist.gtrace]; destruct (beqb gid gid0); reflexivity|apply BN; reflexivity|apply GN; reflexivity|].
      intro AK. unfold e in AK. cbn [acked_by] in AK. destruct (snd (sstep s (SAck gid0 c gen seq))) eqn:RU; try discriminate. apply andb_prop in AK. destruct AK as (AK & EQ). apply beqb_eq in AK. apply N.eqb_eq in EQ. subst gid0 seq.
      pose proof (ack_answer crc cfg smax gid c gen q s g st h HG) as X. unfold ev_step in X. rewrite HG in X. match type of X with Some (_, ?a) = Some (_, ?b) => assert (XX : a = b) by congruence; clear X; rewrite XX end. rewrite RU.
      cbn [StreamGroupSpec.status_of]. rewrite N.eqb_refl. reflexivity.
    - (* seek *) rewrite (GN eq_refl), N.add_0_r. cbn [holder_of]. subst b. unfold e. cbn [resets SdkStreamNetSpec.takes_from acked_by]. cbn [StreamSysHist.gtrace]. destruct (beqb gid gid0) eqn:EG; cbn [orb].
      + eapply P_back; eauto. intros c t n. destruct beginning; cbn; destruct (_ <? _) || destruct (_ <=? _); discriminate.
      + destruct hold; exact HP.
    - (* fetch *) destruct (gives_out gid q s e) eqn:GO; [|apply SOFT; [|reflexivity|apply BN; reflexivity|reflexivity|intro AK; discriminate]].
      + cbn [e gives_out fetch_of] in GO. destruct (snd (sstep s (STry gid0 c gen limit now tok))) eqn:R; try discriminate. apply andb_prop in GO. destruct GO as (G1 & G2). apply beqb_eq in G1. subst gid0.
        subst b. unfold e. cbn [resets SdkStreamNetSpec.takes_from holder_of]. rewrite ?R, beqb_refl, G2. cbn [andb orb].
        assert (NE : ms <> []) by (intros ->; discriminate). pose proof (try_answer crc cfg smax gid c gen limit now tok s g st h ms HG NE R) as X. unfold ev_step in X. rewrite HG in X. match type of X with Some (_, ?a) = Some (_, ?b) => assert (XX : a = b) by congruence; clear X; rewrite XX in * end.
        destruct (out_status cfg MD _ _ _ _ _ HH') as (_ & OS). apply in_out_In in G2. destruct (OS q G2) as (OS1 & _). apply in_out_In in G2. cbn [StreamGroupSpec.status_of] in *. unfold given. rewrite G2.
        assert (HB : giv <= bk) by (unfold StreamGroupSpec.below in OS1; destruct (q <? _) in OS1; [destruct OS1 as [Y|(n & Y & _)]; discriminate|destruct OS1 as [Y|(n & Y & _)]; rewrite Y in HP; exact HP]).
        destruct hold; cbn; split; auto; lia.
      + cbn [StreamSysHist.gtrace]. destruct (beqb gid gid0); [|reflexivity]. cbn [forallb soft_op andb]. destruct (is_backpressured _ _); [reflexivity|]. cbn [forallb soft_op andb]. destruct (snd _); reflexivity.
    - (* cold *) destruct (gives_out gid q s e) eqn:GO; [|apply SOFT; [|reflexivity|apply BN; reflexivity|reflexivity|intro AK; discriminate]].
      + cbn [e gives_out fetch_of] in GO. destruct (snd (sstep s (SColdDone i now))) eqn:R; try discriminate. apply andb_prop in GO. destruct GO as (G1 & G2). destruct (nth_error (s_colds s) i) as [k|] eqn:EK; [|discriminate]. apply beqb_eq in G1. subst gid.
        subst b. unfold e. cbn [resets SdkStreamNetSpec.takes_from holder_of]. rewrite ?R, EK, beqb_refl, G2. cbn [andb orb].
        assert (NE : ms <> []) by (intros ->; discriminate). destruct (k_res k) as [res|] eqn:KR; [|cbn [StreamSysModel.sstep] in R; unfold op_cold_done in R; rewrite EK, KR in R; discriminate R].
        pose proof (cold_answer crc cfg smax i now s k res g st h ms EK KR HG NE R) as X. unfold ev_step in X. rewrite HG in X. match type of X with Some (_, ?a) = Some (_, ?b) => assert (XX : a = b) by congruence; clear X; rewrite XX in * end.
        destruct (out_status cfg MD _ _ _ _ _ HH') as (_ & OS). apply in_out_In in G2. destruct (OS q G2) as (OS1 & _). apply in_out_In in G2. cbn [StreamGroupSpec.status_of] in *. unfold given. rewrite G2.
        assert (HB : giv <= bk) by (unfold StreamGroupSpec.below in OS1; destruct (q <? _) in OS1; [destruct OS1 as [Y|(n & Y & _)]; discriminate|destruct OS1 as [Y|(n & Y & _)]; rewrite Y in HP; exact HP]).
        destruct hold; cbn; split; auto; lia.
      + cbn [StreamSysHist.gtrace]. destruct (nth_error _ _) as [k|]; [|reflexivity]. destruct (beqb gid (k_gid k)); [|reflexivity]. destruct (k_res k); [|reflexivity]. cbn [forallb soft_op andb]. destruct (_ =? _); reflexivity.
    - (* head *) apply SOFT; [|reflexivity|apply BN; reflexivity|apply GN; reflexivity|intro AK; discriminate]. cbn [StreamSysHist.gtrace]. destruct (s_ret s); [|reflexivity]. destruct (_ =? _); reflexivity.
    - (* check *) rewrite (GN eq_refl), N.add_0_r. cbn [holder_of]. subst b. unfold e. cbn [resets SdkStreamNetSpec.takes_from acked_by orb StreamSysHist.gtrace grun gstep fst StreamGroupSpec.status_of].
      destruct (status_of st h q) as [|c' t n| | |] eqn:ES; cbn [P] in HP; try (destruct hold as [x|]; [destruct (ack_wait cfg <? now - snd x); cbn [orb P]; lia|exact HP]).
      destruct HP as (-> & HP). cbn [snd]. destruct (ack_wait cfg <? now - t); cbn [orb]; [unfold released; destruct (max_del cfg <=? n); cbn; lia|cbn; auto].
  Qed.

  Notation given_out := (given_out crc cfg smax).
  Notation hold soft gid q L := (fst (backs crc cfg smax soft gid q L)).
  Notation taken_back := (taken_back crc cfg smax).
  Definition BI soft gid q L s : Prop := match gget gid s with
    | Some g => exists st h, hist cfg st h g /\ P (status_of st h q) (hold soft gid q L) (given_out soft gid q L) (taken_back soft gid q L)
    | None => given_out soft gid q L <= taken_back soft gid q L
    end.
  Lemma bi_most soft gid q L s : BI soft gid q L s -> given_out soft gid q L <= 1 + taken_back soft gid q L.
  Proof. unfold BI. destruct (gget gid s); [intros (st & h & _ & H)|lia]. destruct (status_of st h q); cbn in H; lia. Qed.
  Lemma slog_bi soft L A s gid q : slog crc cfg smax soft L A s -> BI soft gid q L s.
  Proof.
    induction 1 as [|L A s who o S IH OK OR SH|L A s soft' vis S IH V B F|L A s c x S IH].
    - cbn. lia.
    - pose proof (slog_srv _ _ _ _ _ _ _ S) as ES. set (e := OServer who o (snd (sstep s o))).
      pose proof (backs_snoc soft gid q L e) as BS. rewrite ES in BS. unfold SdkStreamNetSpec.taken_back in *.
      destruct (backs crc cfg smax soft gid q L) as [hd bk] eqn:EB. cbv zeta in BS. unfold BI. unfold SdkStreamNetSpec.taken_back. rewrite BS. cbn [fst snd]. rewrite (given_snoc crc cfg smax), ES.
      unfold BI in IH. unfold SdkStreamNetSpec.taken_back in IH. rewrite EB in IH. cbn [fst snd] in IH. rewrite (step_group crc cfg smax). destruct (gget gid s) as [g|] eqn:EG.
      + destruct IH as (st & h & HH & HP). exists st, (fst (grun cfg g h (gtrace gid g s o))). split.
        * pose proof (calm_all crc crc32 cfg smax MD A s (slog_calm _ _ _ _ _ _ _ S)) as CO. pose proof (c_mem _ _ _ CO) as MO. rewrite <- (grun_state cfg _ g h). apply grun_hist; auto. apply gtrace_ok; auto.
        * apply (step_P st soft L A s who o gid g h q hd _ bk S EG HH HP).
      + assert (GO : gives_out gid q s e = false) by (apply (nogroup_nothing crc cfg smax); auto).
        assert (HO : holder_of gid q s e = None) by (destruct (holder_of gid q s e) eqn:X; auto; assert (Y : holder_of gid q s e <> None) by congruence; apply gives_holder in Y; congruence).
        rewrite GO, HO, N.add_0_r. destruct (creates gid o) eqn:EC.
        * set (g0 := group_new (t_head (s_top s))). exists (N.max (t_head (s_top s)) 1), (fst (grun cfg g0 [] (gtrace gid g0 s o))). split.
          -- pose proof (calm_all crc crc32 cfg smax MD A s (slog_calm _ _ _ _ _ _ _ S)) as CO. pose proof (c_mem _ _ _ CO) as MO. apply grun_hist; [apply hist_new; reflexivity|apply gtrace_ok; auto].
          -- assert (NH : forall c t n, status_of (N.max (t_head (s_top s)) 1) (fst (grun cfg g0 [] (gtrace gid g0 s o))) q <> Held c t n).
             { intros c t n. destruct o; cbn [creates] in EC; try discriminate; cbn [StreamSysHist.gtrace]; rewrite EC; try (destruct beginning); cbn [grun gstep fst StreamGroupSpec.status_of]; unfold StreamGroupSpec.below; repeat match goal with |- context [if ?x then _ else _] => destruct x end; discriminate. }
             destruct (resets gid e || _); [|]; destruct (status_of _ _ q) eqn:X; cbn [P]; try lia; exfalso; eapply NH; eauto.
        * destruct (resets gid e || _); lia.
    - pose proof (bi_most _ _ _ _ _ IH) as M. pose proof (backs_snoc soft gid q L (OBoot soft' vis)) as BS. unfold BI. unfold SdkStreamNetSpec.taken_back in *. destruct (backs crc cfg smax soft gid q L) as [hd bk]. cbn [resets orb holder_of] in BS. rewrite BS. cbn [fst snd] in *. rewrite (given_snoc crc cfg smax). cbn [gives_out]. rewrite N.add_0_r.
      set (s2 := boot crc soft' (crash vis (s_store s))).
      assert (GR : s_groups s2 = map (fun e => (fst e, group_restore (snd e) (t_head (s_top s2)))) (match d_groups (s_store s) with Some b => load_groups crc b | None => [] end)).
      { unfold s2, boot. unfold recover_topic. simpl. reflexivity. }
      unfold gget. rewrite GR. rewrite (aget_map_vals (fun _ fl => group_restore fl (t_head (s_top s2)))). destruct (aget beqb gid _) as [fl|]; cbn [option_map]; [|lia].
      exists (N.max (N.max fl (t_head (s_top s2) - 1) + 1) (N.max (t_head (s_top s2)) 1)), []. split; [apply hist_restore; reflexivity|].
      cbn [StreamGroupSpec.status_of]. destruct (_ <? _); cbn; lia.
    - unfold BI in *. unfold SdkStreamNetSpec.taken_back in *. rewrite backs_snoc. destruct (backs crc cfg smax soft gid q L) as [hd bk]. cbv zeta. rewrite (given_snoc crc cfg smax). cbn [resets SdkStreamNetSpec.takes_from holder_of acked_by gives_out orb fst snd] in *. rewrite N.add_0_r. destruct hd; exact IH.
  Qed.
  Theorem once_back soft L A s gid q : slog crc cfg smax soft L A s -> given_out soft gid q L <= 1 + taken_back soft gid q L.
  Proof. intro S. eapply bi_most. eapply slog_bi; eauto. Qed.

  (** ** after an accepted acknowledgement *)
  Lemma slog_last soft L A s e L' : slog crc cfg smax soft L A s -> L = L' ++ [e] -> exists A' s', slog crc cfg smax soft L' A' s' /\
    match e with
    | OServer who o r => r = snd (sstep s' o) /\ s = fst (sstep s' o)
    | OBoot _ _ => True
    | OClient _ _ => s = s'
    end.
  Proof.
    intros S E. destruct S as [|L A s who o S OK OR SH|L A s soft' vis S V B F|L A s c x S]; [destruct L'; discriminate| | |]; apply app_inj_tail in E; destruct E as (-> & <-); eauto.
  Qed.
  Lemma done_run st q : forall ops g h, hist cfg st h g -> Forall gop_ok ops -> forallb (fun op => negb (is_seek op)) ops = true -> status_of st h q = Done -> status_of st (fst (grun cfg g h ops)) q = Done /\ handed (fst (grun cfg g h ops)) q = handed h q.
  Proof.
    induction ops as [|op ops IH]; intros g h H F N D; [split; auto|]. cbn [forallb] in N. apply andb_prop in N. destruct N as (N1 & N2). inversion F as [|? ? F1 F2]; subst. cbn [grun]. destruct (gstep cfg g op) as [g' o] eqn:E.
    assert (H' : hist cfg st ((op, o) :: h) g') by (eapply hist_step; eauto). apply negb_true_iff in N1.
    destruct (done_step cfg MD st h g' (op, o) q H' (or_introl D) N1) as (D1 & D2). assert (D3 : status_of st ((op, o) :: h) q = Done) by (destruct D2 as [X|X]; [exact (eq_trans X D)|exact X]).
    destruct (IH g' ((op, o) :: h) H' F2 N2 D3) as (X & Y). split; auto. rewrite Y. cbn [handed fst]. rewrite N1, D1. lia.
  Qed.
  Lemma no_seek_trace gid g s o who r : resets gid (OServer who o r) = false -> forallb (fun op => negb (is_seek op)) (gtrace gid g s o) = true.
  Proof.
    destruct o; cbn [resets StreamSysHist.gtrace]; intro R; try reflexivity.
    - destruct (beqb _ _); reflexivity.
    - destruct (_ && _); reflexivity.
    - destruct (aget _ _ _); [|reflexivity]. apply forallb_forall. intros x H. apply in_map_iff in H. destruct H as (y & <- & _). reflexivity.
    - destruct (beqb _ _); reflexivity.
    - rewrite R. reflexivity.
    - destruct (beqb _ _); [|reflexivity]. cbn. destruct (is_backpressured _ _); [reflexivity|]. cbn. destruct (snd _); reflexivity.
    - destruct (nth_error _ _) as [k|]; [|reflexivity]. destruct (beqb _ _); [|reflexivity]. destruct (k_res k); [|reflexivity]. cbn. destruct (_ =? _); reflexivity.
    - destruct (s_ret s); [|reflexivity]. destruct (_ =? _); reflexivity.
  Qed.
  Theorem acked_final soft a e b A s gid q : slog crc cfg smax soft (a ++ e :: b) A s -> acked_by gid q e = true -> forallb (fun e => negb (resets gid e)) b = true ->
    given_out soft gid q (a ++ e :: b) = given_out soft gid q a.
  Proof.
    intros S AK NR.
    assert (X : given_out soft gid q (a ++ e :: b) = given_out soft gid q a /\ exists g st h, gget gid s = Some g /\ hist cfg st h g /\ status_of st h q = Done); [|tauto].
    revert A s S NR. induction b as [|x b IH] using rev_ind; intros A s S NR.
    - destruct (slog_last _ _ _ _ e a S eq_refl) as (A' & s' & S' & HE). destruct e as [|who o r|]; try discriminate. destruct o; try discriminate. destruct HE as (-> & ->). cbn [acked_by] in AK.
      destruct (snd (sstep s' (SAck gid0 c gen seq))) eqn:RU; try discriminate. apply andb_prop in AK. destruct AK as (AK & EQ). apply beqb_eq in AK. apply N.eqb_eq in EQ. subst gid0 seq. split; [rewrite given_snoc; cbn; lia|].
      assert (EG : exists g, gget gid s' = Some g) by (cbn [StreamSysModel.sstep] in RU; unfold op_ack in RU; destruct (gget gid s'); [eauto|discriminate RU]). destruct EG as (g & EG).
      destruct (si_grp _ _ _ _ _ _ (slog_si crc crc32 cfg smax MD _ _ _ _ S') gid g EG) as (st & h & HH & _).
      pose proof (calm_all crc crc32 cfg smax MD A' s' (slog_calm _ _ _ _ _ _ _ S')) as CO. pose proof (c_mem _ _ _ CO) as MO.
      pose proof (grun_hist cfg st (gtrace gid g s' (SAck gid c gen q)) g h HH (gtrace_ok crc cfg smax gid g s' _ MO)) as HH'.
      pose proof (ack_answer crc cfg smax gid c gen q s' g st h EG) as X. unfold ev_step in X. rewrite EG in X. match type of X with Some (_, ?u) = Some (_, ?v) => assert (XX : u = v) by congruence; clear X end. rewrite RU in XX.
      exists (snd (grun cfg g h (gtrace gid g s' (SAck gid c gen q)))), st, (fst (grun cfg g h (gtrace gid g s' (SAck gid c gen q)))). split; [|split; [exact HH'|rewrite XX; cbn [StreamGroupSpec.status_of]; rewrite N.eqb_refl; reflexivity]].
      rewrite (step_group crc cfg smax), EG, (grun_state cfg _ g h). reflexivity.
    - rewrite app_comm_cons, app_assoc in S. rewrite forallb_app in NR. apply andb_prop in NR. destruct NR as (NR & NX). cbn [forallb] in NX. rewrite andb_true_r in NX. apply negb_true_iff in NX.
      destruct (slog_last _ _ _ _ x _ S eq_refl) as (A' & s' & S' & HE). destruct (IH A' s' S' NR) as (G & g & st & h & EG & HH & D). pose proof (slog_srv _ _ _ _ _ _ _ S') as ES.
      rewrite app_comm_cons, app_assoc, given_snoc, ES, G. destruct x as [c x|who o r|]; [subst s; split; [cbn; lia|eauto 7]| |discriminate NX].
      destruct HE as (-> & ->). pose proof (calm_all crc crc32 cfg smax MD A' s' (slog_calm _ _ _ _ _ _ _ S')) as CO. pose proof (c_mem _ _ _ CO) as MO.
      pose proof (gtrace_ok crc cfg smax gid g s' o MO) as GK. pose proof (grun_hist cfg st (gtrace gid g s' o) g h HH GK) as HH'.
      destruct (done_run st q _ g h HH GK (no_seek_trace gid g s' o who _ NX) D) as (D1 & D2). pose proof (step_handed crc crc32 cfg smax MD gid s' g o who h q EG) as SH. rewrite NX in SH. split; [lia|].
      exists (snd (grun cfg g h (gtrace gid g s' o))), st, (fst (grun cfg g h (gtrace gid g s' o))). split; [|split; auto]. rewrite (step_group crc cfg smax), EG, (grun_state cfg _ g h). reflexivity.
  Qed.
End Once.
