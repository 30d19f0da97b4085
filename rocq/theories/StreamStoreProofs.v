(** Segment files of one topic: appends, rotation, flushes, cold reads, retention. *)
From Verif Require Import LibBase LibMap StreamTopicModel StreamStoreModel StreamStoreCodec StreamGroupSpec StreamGroupFetch StreamTopicProofs.

Section Store.
  Variable crc : bytes -> N.
  Hypothesis crc32 : forall b, crc b < 2 ^ 32.
  Notation enc := (enc_msgs crc).

  (** A segment file: name, the messages written to it, bytes surely on disk. *)
  Record blk := mkB { b_name : N; b_ms : list msg; b_sure : N }.
  Definition file_of (b : blk) : N * file := (b_name b, mkFile (enc (b_ms b)) (b_sure b)).
  Definition msgs_of (bl : list blk) : list msg := flat_map b_ms bl.

  (** Files follow each other: each is named after its first message, numbers are
      consecutive throughout, and only the last may have bytes on the way. *)
  Fixpoint chain (n : N) (bl : list blk) : Prop :=
    match bl with
    | [] => True
    | b :: r => b_name b = n /\ b_ms b <> [] /\ log_ok (b_ms b) n /\ Forall msg_ok (b_ms b) /\
                b_sure b <= lenN (enc (b_ms b)) /\ (r <> [] -> b_sure b = lenN (enc (b_ms b))) /\
                chain (n + lenN (b_ms b)) r
    end.

  Lemma log_ok_app a b n : log_ok (a ++ b) n <-> log_ok a n /\ log_ok b (n + lenN a).
  Proof.
    split.
    - intro H. split.
      + intros i m E. apply H. rewrite nth_error_app1; auto. apply nth_error_Some. congruence.
      + intros i m E. specialize (H (length a + i)%nat m). rewrite nth_error_app2 in H by lia.
        replace (length a + i - length a)%nat with i in H by lia. apply H in E. unfold lenN. lia.
    - intros (A & B) i m E. destruct (Nat.lt_ge_cases i (length a)) as [L|L].
      + rewrite nth_error_app1 in E by auto. auto.
      + rewrite nth_error_app2 in E by auto. apply B in E. unfold lenN in E. lia.
  Qed.
  Lemma log_ok_nil n : log_ok [] n. Proof. intros [|i] m E; discriminate. Qed.
  Lemma chain_log : forall bl n, chain n bl -> log_ok (msgs_of bl) n.
  Proof.
    induction bl as [|b bl IH]; intros n H; [apply log_ok_nil|]. destruct H as (A & B & C & D & E & F & G).
    simpl. apply log_ok_app. split; auto.
  Qed.
  Lemma chain_msgs : forall bl n, chain n bl -> Forall msg_ok (msgs_of bl).
  Proof.
    induction bl as [|b bl IH]; intros n H; [constructor|]. destruct H as (A & B & C & D & E & F & G). simpl. apply Forall_app. split; eauto.
  Qed.
  Lemma msgs_of_app a b : msgs_of (a ++ b) = msgs_of a ++ msgs_of b.
  Proof. apply flat_map_app. Qed.
  Lemma chain_app : forall a b n, chain n (a ++ b) <->
    chain n a /\ chain (n + lenN (msgs_of a)) b /\ (b <> [] -> Forall (fun x => b_sure x = lenN (enc (b_ms x))) a).
  Proof.
    induction a as [|x a IH]; intros b n; simpl.
    - replace (n + lenN []) with n by (rewrite lenN_nil; lia). intuition.
    - rewrite IH. rewrite lenN_app. replace (n + (lenN (b_ms x) + lenN (msgs_of a))) with (n + lenN (b_ms x) + lenN (msgs_of a)) by lia.
      split.
      + intros (A & B & C & D & E & F & G & H & I). repeat split; auto; try (intros; apply F; destruct a, b; simpl in *; congruence).
        intro NB. constructor; auto. apply F. destruct a; simpl; [auto|discriminate].
      + intros ((A & B & C & D & E & F & G) & H & I). repeat split; auto.
        * intro NE. destruct b; [apply F; rewrite app_nil_r in NE; auto|]. assert (Z : b :: b0 <> []) by discriminate. specialize (I Z). inversion I; auto.
        * intro NB. specialize (I NB). inversion I; auto.
  Qed.
  Lemma chain_lt : forall bl n b, chain n bl -> In b bl -> n <= b_name b.
  Proof.
    induction bl as [|x bl IH]; intros n b H HI; [contradiction|]. destruct H as (A & B & C & D & E & F & G).
    destruct HI as [->|HI]; [lia|]. apply (IH _ _ G) in HI. lia.
  Qed.
  Lemma chain_before : forall a b n x y, chain n (a ++ b) -> In x a -> In y b -> b_name x < b_name y.
  Proof.
    induction a as [|z a IH]; intros b n x y H HX HY; [contradiction|]. destruct H as (A & B & C & D & E & F & G).
    destruct HX as [->|HX]; [|eauto]. assert (Y : n + lenN (b_ms x) <= b_name y) by (apply (chain_lt _ _ _ G); apply in_or_app; auto).
    destruct (b_ms x); [congruence|]. rewrite lenN_cons in Y. lia.
  Qed.

  (** ** Sorted file lists *)
  Lemma aget_last {V} (l : list (N * V)) n v : (forall k w, In (k, w) l -> k < n) -> aget N.eqb n (l ++ [(n, v)]) = Some v.
  Proof.
    intro H. rewrite aget_app. destruct (aget N.eqb n l) as [w|] eqn:E; [|simpl; rewrite N.eqb_refl; auto].
    apply (aget_In N.eqb N_eqb_eq) in E. apply H in E. lia.
  Qed.
  Lemma aget_absent {V} (l : list (N * V)) n : (forall k w, In (k, w) l -> k < n) -> aget N.eqb n l = None.
  Proof.
    intro H. destruct (aget N.eqb n l) as [w|] eqn:E; auto. apply (aget_In N.eqb N_eqb_eq) in E. apply H in E. lia.
  Qed.
  Lemma bput_snoc {V} (l : list (N * V)) n v : (forall k w, In (k, w) l -> k < n) -> bput n v l = l ++ [(n, v)].
  Proof.
    induction l as [|[k w] l IH]; intro H; simpl; auto. assert (k < n) by (eapply H; left; reflexivity).
    destruct (N.ltb_spec n k); [lia|]. destruct (N.eqb_spec n k); [lia|]. rewrite IH; auto. intros; eapply H; right; eauto.
  Qed.
  Lemma bput_last {V} (l : list (N * V)) n v w : (forall k w, In (k, w) l -> k < n) -> bput n v (l ++ [(n, w)]) = l ++ [(n, v)].
  Proof.
    induction l as [|[k x] l IH]; intro H; simpl.
    - destruct (N.ltb_spec n n); [lia|]. rewrite N.eqb_refl. reflexivity.
    - assert (k < n) by (eapply H; left; reflexivity). destruct (N.ltb_spec n k); [lia|]. destruct (N.eqb_spec n k); [lia|].
      rewrite IH; auto. intros; eapply H; right; eauto.
  Qed.
  Lemma last_seg_snoc {A} (l : list (N * A)) x : last_seg (l ++ [x]) = Some x.
  Proof. unfold last_seg. rewrite map_app. simpl. apply last_last. Qed.

  (** ** The store *)
  (** The messages whose records are surely on disk. *)
  Definition sure_msgs (bl : list blk) : list msg := flat_map (fun b => complete (b_sure b) (b_ms b)) bl.
  Record store_ok (dh : N) (bl : list blk) (st : store) : Prop := {
    so_segs : d_segs st = map file_of bl;
    so_chain : chain dh bl;
    so_first : bl = [] -> dh = 1 /\ d_ctx st = None;
    so_ctx : forall c, d_ctx st = Some c -> exists i n ms s, bl = i ++ [mkB n ms s] /\ c_active c = n /\ c_size c = lenN (enc ms) /\
               (c_high c = 0 \/ c_high c + 1 = dh + lenN (msgs_of bl));
    so_noctx : d_ctx st = None -> Forall (fun b => b_sure b = lenN (enc (b_ms b))) bl;
    so_pos : 1 <= dh;
    so_pers : d_pers st < dh + lenN (sure_msgs bl)
  }.

  Lemma names_lt i b n : chain n (i ++ [b]) -> forall k w, In (k, w) (map file_of i) -> k < b_name b.
  Proof.
    intros H k w HI. apply in_map_iff in HI. destruct HI as (x & E & HX). inversion E; subst. apply (chain_before i [b] n x b H HX). left; auto.
  Qed.
  Lemma names_lt_all bl n m : chain n bl -> n + lenN (msgs_of bl) <= m -> forall k w, In (k, w) (map file_of bl) -> k < m.
  Proof.
    revert n. induction bl as [|x bl IH]; intros n H L k w HI; [contradiction|]. destruct H as (A & B & C & D & E & F & G).
    simpl in L. rewrite lenN_app in L. destruct HI as [E1|HI].
    - inversion E1; subst. destruct (b_ms x); [congruence|]. rewrite lenN_cons in L. lia.
    - apply (IH (n + lenN (b_ms x)) G) with (w := w); auto. lia.
  Qed.
  Lemma sure_app a b : sure_msgs (a ++ b) = sure_msgs a ++ sure_msgs b.
  Proof. apply flat_map_app. Qed.
  Lemma sure_full bl : Forall (fun b => b_sure b = lenN (enc (b_ms b))) bl -> sure_msgs bl = msgs_of bl.
  Proof.
    induction 1 as [|b bl H _ IH]; simpl; auto. rewrite (complete_all crc) by lia. f_equal. exact IH.
  Qed.
  Lemma complete_len : forall ms k, lenN (complete k ms) <= lenN ms.
  Proof. intros ms k. destruct (complete_prefix ms k) as (p & E). rewrite E at 2. rewrite lenN_app. lia. Qed.
  Lemma complete_mono : forall ms k k', k <= k' -> lenN (complete k ms) <= lenN (complete k' ms).
  Proof.
    induction ms as [|m ms IH]; intros k k' L; simpl; [lia|].
    destruct (N.leb_spec (24 + lenN (m_pay m)) k); [|rewrite lenN_nil; lia].
    destruct (N.leb_spec (24 + lenN (m_pay m)) k'); [|lia]. rewrite !lenN_cons.
    specialize (IH (k - (24 + lenN (m_pay m))) (k' - (24 + lenN (m_pay m))) ltac:(lia)). lia.
  Qed.
  (** Completed records of a longer file contain those of the shorter one. *)
  Lemma complete_more a b k : lenN (complete k a) <= lenN (complete k (a ++ b)).
  Proof.
    revert k. induction a as [|m a IH]; intros k; simpl; [rewrite lenN_nil; lia|].
    destruct (24 + lenN (m_pay m) <=? k); [|rewrite lenN_nil; lia]. rewrite !lenN_cons. specialize (IH (k - (24 + lenN (m_pay m)))). lia.
  Qed.
  Lemma enc_pos ms : ms <> [] -> 0 < lenN (enc ms).
  Proof. destruct ms as [|m ms]; [congruence|]. intros _. rewrite enc_msgs_cons, lenN_app, enc_len. lia. Qed.

  Lemma last_msg_seq ms n m : log_ok ms n -> last_msg ms = Some m -> m_seq m + 1 = n + lenN ms.
  Proof.
    intros L E. destruct (exists_last (l := ms)) as (l & x & ->); [intro; subst; discriminate|].
    rewrite last_msg_app in E. inversion E; subst. apply log_ok_app in L. destruct L as (_ & L). apply log_ok_cons in L.
    rewrite lenN_app, lenN_cons, lenN_nil. lia.
  Qed.
  Lemma last_msg_some ms : ms <> [] -> exists m, last_msg ms = Some m.
  Proof. intro H. destruct (exists_last H) as (l & x & ->). exists x. apply last_msg_app. Qed.

  Lemma append_store max ms dh bl st : store_ok dh bl st -> ms <> [] -> log_ok ms (dh + lenN (msgs_of bl)) -> Forall msg_ok ms ->
    exists bl', store_ok dh bl' (handle_append crc max ms st) /\ msgs_of bl' = msgs_of bl ++ ms /\
      d_pers (handle_append crc max ms st) = d_pers st /\ d_groups (handle_append crc max ms st) = d_groups st /\
      lenN (sure_msgs bl) <= lenN (sure_msgs bl').
  Proof.
    intros [SS SC SF SX SN SP SR] NE LO MO.
    destruct (last_msg_some ms NE) as (ml & EL). pose proof (last_msg_seq _ _ _ LO EL) as HL.
    assert (EM : exists m0 mr, ms = m0 :: mr) by (destruct ms as [|x y]; [congruence|exists x, y; reflexivity]). destruct EM as (m0 & mr & EM).
    assert (M0 : m_seq m0 = dh + lenN (msgs_of bl)) by (rewrite EM in LO; apply log_ok_cons in LO; tauto).
    assert (EH : handle_append crc max ms st = write_batch max (m_seq m0) (m_seq ml) (enc ms) (open_ctx st) st).
    { unfold handle_append. rewrite EL. rewrite EM at 1. reflexivity. }
    rewrite EH. clear EH. remember (open_ctx st) as c eqn:HC. unfold open_ctx in HC. unfold write_batch.
    destruct bl as [|b0 bl0] eqn:EB.
    - (* first append: a new file 1.log *)
      destruct (SF eq_refl) as (D1 & CN). simpl in SS. rewrite CN, SS in HC. subst c. rewrite SS. cbn [last_seg map last c_size c_active N.ltb N.compare andb].
      rewrite Bool.andb_false_r. exists [mkB 1 ms 0]. cbn [msgs_of flat_map b_ms] in *. rewrite lenN_nil in *.
      split; [|split; [rewrite app_nil_r; reflexivity|split; [reflexivity|split; [reflexivity|simpl; lia]]]].
      constructor; cbn [d_segs d_ctx d_pers].
      + reflexivity.
      + subst dh. cbn [chain b_name b_ms b_sure]. split; [reflexivity|]. split; [exact NE|]. split; [replace 1 with (1 + 0) by lia; exact LO|]. split; [exact MO|]. split; [lia|]. split; [congruence|exact I].
      + discriminate.
      + intros c E. inversion E; subst c. exists [], 1, ms, 0. cbn [c_active c_size c_high msgs_of flat_map b_ms app]. rewrite app_nil_r. split; [reflexivity|]. split; [reflexivity|]. split; [lia|]. right. lia.
      + discriminate.
      + exact SP.
      + cbn [sure_msgs flat_map] in SR |- *. rewrite ?lenN_nil in SR. lia.
    - rewrite <- EB in *. assert (NB : bl <> []) by (rewrite EB; discriminate). clear EB b0 bl0.
      destruct (exists_last NB) as (i & lb & EB).
      assert (C0 : c_active c = b_name lb /\ c_size c = lenN (enc (b_ms lb)) /\ (d_ctx st = None -> Forall (fun b => b_sure b = lenN (enc (b_ms b))) bl)).
      { subst c. destruct (d_ctx st) as [c|] eqn:EC; cbn [c_active].
        - destruct (SX c eq_refl) as (i' & n & ms' & s & E' & A & B & _). rewrite EB in E'. apply app_inj_tail in E'. destruct E' as (-> & ->). simpl. auto.
        - rewrite SS, EB, map_app. simpl map. rewrite last_seg_snoc. simpl. split; [auto|split; [auto|]]. rewrite <- EB. exact SN. }
      destruct C0 as (CA & CS & CN). clear HC. rewrite CA, CS in *.
      pose proof SC as SC'. rewrite EB in SC'. pose proof (names_lt _ _ _ SC') as NL.
      apply chain_app in SC'. destruct SC' as (SC1 & SC2 & SC3). assert (Z : [lb] <> []) by discriminate. specialize (SC3 Z).
      destruct SC2 as (A & B & C & D & E & F & _).
      assert (LM : msgs_of bl = msgs_of i ++ b_ms lb) by (rewrite EB, msgs_of_app; simpl; rewrite app_nil_r; reflexivity).
      destruct ((max <? lenN (enc (b_ms lb)) + lenN (enc ms)) && (0 <? lenN (enc (b_ms lb)))) eqn:ROT.
      + (* rotation *)
        assert (SY : sync_file (b_name lb) (d_segs st) = map file_of (i ++ [mkB (b_name lb) (b_ms lb) (lenN (enc (b_ms lb)))])).
        { unfold sync_file. rewrite SS, EB, !map_app. simpl map. unfold file_of at 2 4. rewrite aget_last by exact NL. rewrite bput_last by exact NL. reflexivity. }
        rewrite SY. set (bl1 := i ++ [mkB (b_name lb) (b_ms lb) (lenN (enc (b_ms lb)))]).
        assert (M1 : msgs_of bl1 = msgs_of bl) by (unfold bl1; rewrite msgs_of_app, LM; simpl; rewrite app_nil_r; reflexivity).
        assert (CH1 : chain dh bl1).
        { unfold bl1. apply chain_app. split; auto. split; [|auto]. simpl. rewrite A. repeat split; auto; lia. }
        assert (FU : Forall (fun x => b_sure x = lenN (enc (b_ms x))) bl1) by (unfold bl1; apply Forall_app; split; auto; constructor; auto).
        assert (NL2 : forall k w, In (k, w) (map file_of bl1) -> k < m_seq m0).
        { apply (names_lt_all bl1 dh (m_seq m0) CH1). rewrite M1, M0. lia. }
        unfold append_file. rewrite aget_absent by exact NL2. rewrite bput_snoc by exact NL2.
        exists (bl1 ++ [mkB (m_seq m0) ms 0]).
        assert (MM : msgs_of (bl1 ++ [mkB (m_seq m0) ms 0]) = msgs_of bl ++ ms) by (rewrite msgs_of_app, M1; simpl; rewrite app_nil_r; reflexivity).
        assert (SU : lenN (sure_msgs bl) <= lenN (sure_msgs (bl1 ++ [mkB (m_seq m0) ms 0]))).
        { rewrite sure_app, (sure_full bl1 FU), lenN_app, M1. rewrite LM, EB, sure_app. rewrite !lenN_app. simpl. rewrite app_nil_r.
          rewrite (sure_full i SC3). pose proof (complete_len (b_ms lb) (b_sure lb)). lia. }
        split; [|split; [exact MM|split; [reflexivity|split; [reflexivity|exact SU]]]].
        constructor; cbn [d_segs d_ctx d_pers].
        * rewrite map_app. reflexivity.
        * apply chain_app. split; auto. split; [|auto]. rewrite M1. simpl. split; [exact M0|]. split; [exact NE|]. split; [exact LO|]. split; [exact MO|]. split; [lia|]. split; [congruence|exact I].
        * intro X. apply app_eq_nil in X. destruct X; discriminate.
        * intros c' EC. inversion EC; subst c'. exists bl1, (m_seq m0), ms, 0. cbn [c_active c_size c_high]. split; [reflexivity|]. split; [reflexivity|]. split; [lia|]. right. rewrite MM, lenN_app. lia.
        * discriminate.
        * exact SP.
        * lia.
      + unfold append_file. rewrite SS, EB, map_app. simpl map. unfold file_of at 2. rewrite aget_last by exact NL.
        unfold file_of at 2. rewrite bput_last by exact NL. cbn [f_bytes f_sure].
        exists (i ++ [mkB (b_name lb) (b_ms lb ++ ms) (b_sure lb)]).
        assert (MM : msgs_of (i ++ [mkB (b_name lb) (b_ms lb ++ ms) (b_sure lb)]) = msgs_of bl ++ ms).
        { rewrite msgs_of_app, LM. simpl. rewrite app_nil_r, app_assoc. reflexivity. }
        assert (SU : lenN (sure_msgs bl) <= lenN (sure_msgs (i ++ [mkB (b_name lb) (b_ms lb ++ ms) (b_sure lb)]))).
        { rewrite EB, !sure_app, !lenN_app. simpl. rewrite !app_nil_r. pose proof (complete_more (b_ms lb) ms (b_sure lb)). lia. }
        split; [|split; [rewrite EB in MM; exact MM|split; [reflexivity|split; [reflexivity|rewrite <- EB; exact SU]]]].
        constructor; cbn [d_segs d_ctx d_pers].
        * rewrite map_app. simpl. rewrite <- enc_msgs_app. reflexivity.
        * apply chain_app. split; auto. split; [|auto]. simpl. split; [exact A|]. split; [intro X; apply app_eq_nil in X; tauto|].
          split; [apply log_ok_app; split; [exact C|]; rewrite LM, lenN_app in LO; replace (dh + lenN (msgs_of i) + lenN (b_ms lb)) with (dh + (lenN (msgs_of i) + lenN (b_ms lb))) by lia; exact LO|].
          split; [apply Forall_app; auto|]. split; [rewrite enc_msgs_app, lenN_app; lia|]. split; [congruence|exact I].
        * intro X. apply app_eq_nil in X. destruct X; discriminate.
        * intros c' EC. inversion EC; subst c'. exists i, (b_name lb), (b_ms lb ++ ms), (b_sure lb). cbn [c_active c_size c_high]. split; [reflexivity|]. split; [reflexivity|]. split; [rewrite enc_msgs_app, lenN_app; lia|]. right. rewrite MM, lenN_app. lia.
        * discriminate.
        * exact SP.
        * lia.
  Qed.
End Store.
