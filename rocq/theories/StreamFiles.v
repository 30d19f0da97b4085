(** Segment files are as full as they can be. *)
From Verif Require Import LibBase LibMap StreamTopicModel StreamGroupModel StreamStoreModel StreamStoreCodec StreamStoreProofs StreamStoreFacts StreamGroupSpec StreamGroupProofs StreamGroupFetch StreamGroupHist StreamGroupFacts StreamTopicProofs StreamSysModel StreamSysProofs StreamSysHist StreamSysFacts StreamSysBoot StreamSysLife StreamSaved StreamProgress StreamApi.

Section Sys.
  Variable crc : bytes -> N.
  Hypothesis crc32 : forall b, crc b < 2 ^ 32.
  Variable cfg : gcfg.
  Variable smax : N.
  Notation sstep := (sstep crc cfg smax).
  Notation run := (run crc cfg smax).
  Notation life := (life crc cfg smax).

  Definition noroom (a b : bytes) : Prop := exists m rest, msg_ok m /\ b = enc_msgs crc [m] ++ rest /\ smax < lenN a + lenN (enc_msgs crc [m]).
  (** The files in the order of their names: every one begins with a record that had
      no room in the one before. *)
  Definition packed (l : list bytes) : Prop := forall pre a b post, l = pre ++ a :: b :: post -> noroom a b.
  Definition contents (s : sys) : list bytes := map (fun x => f_bytes (snd x)) (d_segs (s_store s)).

  Lemma packed_nil : packed []. Proof. intros [|x pre] a b post E; discriminate. Qed.
  Lemma packed_one x : packed [x]. Proof. intros [|y [|z pre]] a b post E; discriminate. Qed.
  Lemma packed_skip k l : packed l -> packed (skipn k l).
  Proof. intros P pre a b post E. apply (P (firstn k l ++ pre) a b post). rewrite <- app_assoc, <- E. symmetry. apply firstn_skipn. Qed.
  Lemma noroom_app a b c : noroom a b -> noroom a (b ++ c).
  Proof. intros (m & rest & MO & -> & L). exists m, (rest ++ c). split; auto. split; auto. rewrite app_assoc. reflexivity. Qed.
  Lemma split_last {T} (i : list T) z pre a b post : i ++ [z] = pre ++ a :: b :: post ->
    (exists post', i = pre ++ a :: b :: post' /\ post = post' ++ [z]) \/ (i = pre ++ [a] /\ b = z /\ post = []).
  Proof.
    intro E. destruct (exists_last (l := b :: post)) as (r & x & ER); [discriminate|]. rewrite ER in E. replace (pre ++ a :: r ++ [x]) with ((pre ++ a :: r) ++ [x]) in E by (rewrite <- app_assoc; reflexivity).
    apply app_inj_tail in E. destruct E as (-> & ->). destruct r as [|y r]; simpl in ER; inversion ER; subst; [right; auto|left]. exists r. auto.
  Qed.
  Lemma packed_snoc i z : packed i -> (forall i' a, i = i' ++ [a] -> noroom a z) -> packed (i ++ [z]).
  Proof.
    intros P H pre a b post E. apply split_last in E. destruct E as [(p & E & _)|(E & -> & _)]; [eapply P; eauto|eapply H; eauto].
  Qed.
  Lemma packed_init i z : packed (i ++ [z]) -> packed i.
  Proof. intros P pre a b post E. apply (P pre a b (post ++ [z])). rewrite E, <- app_assoc. reflexivity. Qed.
  Lemma packed_last i z z' : packed (i ++ [z]) -> (forall a, noroom a z -> noroom a z') -> packed (i ++ [z']).
  Proof.
    intros P H. apply packed_snoc; [eapply packed_init; eauto|]. intros i' a ->. apply H. apply (P i' a z []). rewrite <- app_assoc. reflexivity.
  Qed.

  Lemma packed_step A s o : sys_ok crc 1 A s -> op_ok s o -> orderly o -> packed (contents s) -> packed (contents (fst (sstep s o))).
  Proof.
    intros HS OK OR C. destruct (consumer_op o) eqn:EC.
    - destruct (store_step crc cfg smax s o (or_introl EC)) as (E1 & _). unfold contents. rewrite E1. exact C.
    - destruct o; try discriminate EC.
      + exact C.
      + simpl in OR. subst i. cbn [StreamSysModel.sstep fst]. unfold op_send. destruct HS as (W & dh & bl & H). pose proof (i_store _ _ _ _ _ _ _ H) as SO.
        destruct (s_box s) as [|m box] eqn:EB; [exact C|]. cbn [nth_error firstn skipn app fst]. unfold contents in *. cbn [set_box set_store s_store].
        assert (MO : msg_ok m) by (pose proof (i_box _ _ _ _ _ _ _ H) as FB; rewrite EB in FB; inversion FB; auto).
        assert (SQ : m_seq m = dh + lenN (msgs_of bl)).
        { pose proof (k_all _ _ _ (proj1 (i_topic _ _ _ _ _ _ _ H))) as LO. rewrite (i_all _ _ _ _ _ _ _ H), EB in LO. apply log_ok_app in LO. destruct LO as (_ & LO). apply log_ok_cons in LO. destruct LO as (LO & _).
          pose proof (i_tot _ _ _ _ _ _ _ H). lia. }
        unfold handle_append, write_batch. cbn [last_msg d_segs].
        pose proof (so_segs _ _ _ _ SO) as SS. pose proof (so_chain _ _ _ _ SO) as CH.
        destruct bl as [|b0 bl0] eqn:EBL.
        * destruct (so_first _ _ _ _ SO eq_refl) as (_ & CN). unfold open_ctx. rewrite CN, SS. cbn [map last_seg last c_size c_active]. rewrite andb_false_r. apply packed_one.
        * rewrite <- EBL in *. assert (NB : bl <> []) by (rewrite EBL; discriminate). clear EBL b0 bl0. destruct (exists_last NB) as (i & lb & EI).
          assert (C0 : c_active (open_ctx (s_store s)) = b_name lb /\ c_size (open_ctx (s_store s)) = lenN (enc_msgs crc (b_ms lb))).
          { unfold open_ctx. destruct (d_ctx (s_store s)) as [c|] eqn:EX.
            - destruct (so_ctx _ _ _ _ SO c EX) as (i' & n & ms' & sr & E' & A1 & B1 & _). rewrite EI in E'. apply app_inj_tail in E'. destruct E' as (-> & ->). simpl. auto.
            - rewrite SS, EI, map_app. simpl map. rewrite last_seg_snoc. simpl. auto. }
          destruct C0 as (CA & CS). rewrite CA, CS. pose proof CH as CH'. rewrite EI in CH'. pose proof (names_lt crc _ _ _ CH') as NL.
          assert (SE : d_segs (s_store s) = map (file_of crc) i ++ [(b_name lb, mkFile (enc_msgs crc (b_ms lb)) (b_sure lb))]) by (rewrite SS, EI, map_app; reflexivity).
          assert (CE : map (fun x => f_bytes (snd x)) (d_segs (s_store s)) = map (fun x => f_bytes (snd x)) (map (file_of crc) i) ++ [enc_msgs crc (b_ms lb)]) by (rewrite SE, map_app; reflexivity).
          destruct ((smax <? lenN (enc_msgs crc (b_ms lb)) + lenN (enc_msgs crc [m])) && (0 <? lenN (enc_msgs crc (b_ms lb)))) eqn:ROT.
          -- unfold sync_file. rewrite SE, aget_last by exact NL. rewrite bput_last by exact NL.
             assert (NL2 : forall k w, In (k, w) (map (file_of crc) i ++ [(b_name lb, sync (mkFile (enc_msgs crc (b_ms lb)) (b_sure lb)))]) -> k < m_seq m).
             { intros k w HI. apply in_app_iff in HI. assert (ALL : forall k w, In (k, w) (map (file_of crc) bl) -> k < m_seq m) by (apply (names_lt_all crc bl dh (m_seq m)); [exact CH|lia]).
               rewrite EI, map_app in ALL. destruct HI as [HI|[HI|[]]]; [eapply ALL; apply in_or_app; left; eauto|]. inversion HI; subst. eapply ALL. apply in_or_app. right. left. reflexivity. }
             unfold append_file. rewrite aget_absent by exact NL2. rewrite bput_snoc by exact NL2. rewrite !map_app. cbn [map snd f_bytes sync]. rewrite CE in C.
             apply packed_snoc; [exact C|]. intros i' a E. apply app_inj_tail in E. destruct E as (_ & <-). apply andb_true_iff in ROT. destruct ROT as (ROT & _). apply N.ltb_lt in ROT.
             exists m, []. split; auto. split; [rewrite app_nil_r; reflexivity|exact ROT].
          -- unfold append_file. rewrite SE, aget_last by exact NL. rewrite bput_last by exact NL. rewrite map_app. cbn [map snd f_bytes]. rewrite CE in C.
             apply (packed_last _ _ _ C). intros a. apply noroom_app.
      + exact C.
      + destruct (store_step crc cfg smax s SEvict) as (E1 & _); [tauto|]. unfold contents. rewrite E1. exact C.
      + simpl. unfold op_save. destruct (s_save s); exact C.
      + destruct HS as (W & dh & bl & H). pose proof (i_store _ _ _ _ _ _ _ H) as SO. simpl. unfold op_retain.
        destruct OK as (V & MO). assert (NM : akeys (d_segs (s_store s)) = map b_name bl) by (rewrite (so_segs _ _ _ _ SO); unfold akeys; rewrite map_map; reflexivity). rewrite NM in MO. destruct (retention_store crc crc32 vis age maxb dh bl (s_store s) SO V MO) as (k & dh' & R). cbv zeta in R. destruct R as (R1 & _).
        destruct (apply_retention vis age maxb (s_store s)) as [st h]. cbn [fst snd] in *. unfold contents in *. cbn [set_store set_ret s_store] in *. rewrite (so_segs _ _ _ _ SO) in C.
        rewrite (so_segs _ _ _ _ R1), <- !skipn_map. apply packed_skip. exact C.
      + destruct (store_step crc cfg smax s SHead) as (E1 & _); [tauto|]. unfold contents. rewrite E1. exact C.
      + unfold contents in *. simpl. assert (EQ : d_segs (flush_all (s_store s)) = map (fun nf => (fst nf, sync (snd nf))) (d_segs (s_store s))).
        { unfold flush_all. destruct (d_dirty (s_store s)), (d_ctx (s_store s)) as [c|]; try reflexivity. destruct (0 <? c_high c); reflexivity. }
        rewrite EQ, map_map. exact C.
      + unfold contents in *. simpl. rewrite map_map. exact C.
  Qed.
  Lemma packed_boot A s soft vis : sys_ok crc 1 A s -> vis_ok vis (s_store s) -> whole crc vis s -> packed (contents s) -> packed (contents (boot crc soft (crash vis (s_store s)))).
  Proof.
    intros (W & dh & bl & H) V WH C. pose proof (i_store _ _ _ _ _ _ _ H) as SO. pose proof (vis_visible crc vis dh bl _ SO V) as VI. pose proof (so_chain _ _ _ _ SO) as CH.
    assert (EC : contents (boot crc soft (crash vis (s_store s))) = map snd (seen vis (s_store s))).
    { unfold boot. destruct (recover_topic _ _) as [[head ms] gs]. unfold contents. cbn [s_store store_open d_segs crash k_segs]. rewrite map_map. reflexivity. }
    rewrite EC. unfold contents in C. rewrite (so_segs _ _ _ _ SO) in C. unfold whole in WH. rewrite (seen_blk crc vis bl _ dh SO) in *. rewrite map_map in *. cbn [snd] in *.
    destruct bl as [|b0 bl0] eqn:EBL; [apply packed_nil|]. rewrite <- EBL in *. assert (NB : bl <> []) by (rewrite EBL; discriminate). clear EBL b0 bl0. destruct (exists_last NB) as (i & lb & EI). subst bl.
    rewrite map_app in *. cbn [map] in *. apply chain_app in CH. destruct CH as (_ & CL & FI). assert (Z : [lb] <> []) by discriminate. specialize (FI Z).
    apply Forall_app in VI. destruct VI as (VI & _). apply Forall_app in WH. destruct WH as (_ & WL). inversion WL as [|? ? WL1 _]; subst. destruct WL1 as (W1 & W2). cbn [snd] in W1, W2.
    match goal with |- packed (?x ++ _) => assert (EM : x = map (fun b => f_bytes (snd (file_of crc b))) i) end.
    { apply map_ext_in. intros b HB. unfold file_of. cbn [snd f_bytes]. rewrite Forall_forall in FI, VI. specialize (FI _ HB). specialize (VI _ HB). apply takeN_all. lia. }
    rewrite EM. clear EM.
    apply (packed_last _ _ _ C). intros a (m & rest & MO & E & L). unfold file_of in E. cbn [snd f_bytes] in E.
      destruct CL as (_ & NE & _ & MA & _). rewrite (load_cut crc crc32) in W1, W2 by exact MA. rewrite W2.
      destruct (complete_prefix (b_ms lb) (vis (b_name lb))) as (post & EP). destruct (complete (vis (b_name lb)) (b_ms lb)) as [|x r]; [congruence|].
      assert (XM : msg_ok x) by (rewrite EP in MA; inversion MA; auto).
      pose proof (load_all crc crc32 _ MA) as E2. rewrite E, (load_prefix crc crc32) in E2 by (constructor; auto). rewrite EP in E2. simpl in E2. inversion E2; subst x.
      exists m, (enc_msgs crc r). split; [exact MO|]. split; [|exact L]. exact (enc_msgs_app crc [m] r).
  Qed.
  Theorem life_packed A s : life A s -> packed (contents s).
  Proof.
    induction 1 as [soft|A s o L IH OK OR|A s soft vis L IH V W].
    - apply packed_nil.
    - apply (packed_step A); auto. apply (life_ok crc crc32 cfg smax A s L).
    - apply (packed_boot A); auto. apply (life_ok crc crc32 cfg smax A s L).
  Qed.

  (** The first message after any crash never goes below the first file. *)
  Theorem never_below A s soft vis ts pay : life A s -> vis_ok vis (s_store s) ->
    exists n, snd (sstep (boot crc soft (crash vis (s_store s))) (SPub ts pay)) = RSeq n /\ 1 <= n /\ first_file s <= n.
  Proof.
    intros L V. exists (t_next (s_top (boot crc soft (crash vis (s_store s))))). split; [reflexivity|].
    pose proof (life_ok crc crc32 cfg smax A s L) as HS.
    destruct (last_seg (seen vis (s_store s))) as [l|] eqn:LS.
    - destruct (load_segment crc (snd l)) as [|m r] eqn:LD.
      + unfold boot, recover_topic. cbn [k_segs crash]. rewrite LS. destruct l as [n b]. cbn [snd] in LD. rewrite LD.
        unfold topic_restore. cbn [last_msg s_top t_next]. unfold first_file, head_of, seen. destruct (d_segs (s_store s)) as [|[k f] segs]; simpl; lia.
      + assert (X : In m (on_disk crc vis s)).
        { unfold on_disk. apply in_flat_map. exists l. split; [|rewrite LD; left; auto]. destruct (exists_last (l := seen vis (s_store s))) as (i & z & E); [intro X; rewrite X in LS; discriminate|].
          rewrite E, last_seg_snoc in LS. inversion LS; subst. rewrite E. apply in_or_app. right. left. auto. }
        pose proof (no_reuse crc crc32 soft 1 A s vis l HS V LS ltac:(rewrite LD; discriminate) m X) as Y.
        destruct (disk_piece crc crc32 1 A s vis HS V) as (n & ED & _). rewrite ED in X.
        assert (Z : In m (from (first_file s) A)) by (rewrite <- (takeN_dropN _ n (from _ _)); apply in_or_app; auto). unfold from in Z. apply filter_In in Z. destruct Z as (Z1 & Z2). lia.
    - assert (E : seen vis (s_store s) = []).
      { destruct (seen vis (s_store s)) as [|x r] eqn:E; auto. destruct (exists_last (l := x :: r)) as (i & z & E2); [discriminate|]. rewrite E2, last_seg_snoc in LS. discriminate. }
      unfold boot, recover_topic. cbn [k_segs crash]. rewrite E. unfold topic_restore. cbn [last_msg s_top t_next last_seg map last]. unfold first_file, head_of. unfold seen in E. apply map_eq_nil in E. rewrite E. lia.
  Qed.
End Sys.
