(** Flushes, cold reads, retention and recovery on a well-formed topic directory. *)
From Verif Require Import LibBase LibMap StreamTopicModel StreamStoreModel StreamStoreCodec StreamStoreProofs StreamGroupSpec StreamGroupFetch StreamTopicProofs.

Section Store.
  Variable crc : bytes -> N.
  Hypothesis crc32 : forall b, crc b < 2 ^ 32.
  Notation enc := (enc_msgs crc).
  Notation chain := (chain crc).
  Notation store_ok := (store_ok crc).

  (** ** Flushing *)
  Definition full (b : blk) : blk := mkB (b_name b) (b_ms b) (lenN (enc (b_ms b))).
  Lemma full_msgs bl : msgs_of (map full bl) = msgs_of bl.
  Proof. induction bl; simpl; congruence. Qed.
  Lemma full_chain : forall bl n, chain n bl -> chain n (map full bl).
  Proof.
    induction bl as [|b bl IH]; intros n H; simpl; auto. destruct H as (A & B & C & D & E & F & G). repeat split; auto. lia.
  Qed.
  Lemma full_all bl : Forall (fun b => b_sure b = lenN (enc (b_ms b))) (map full bl).
  Proof. apply Forall_forall. intros b H. apply in_map_iff in H. destruct H as (x & <- & _). reflexivity. Qed.
  Lemma full_sure bl : sure_msgs (map full bl) = msgs_of bl.
  Proof. rewrite (sure_full crc) by apply full_all. apply full_msgs. Qed.
  Lemma sure_le bl : lenN (sure_msgs bl) <= lenN (msgs_of bl).
  Proof.
    induction bl as [|b bl IH]; simpl; [lia|]. rewrite !lenN_app. pose proof (complete_len (b_ms b) (b_sure b)). unfold sure_msgs, msgs_of in *. lia.
  Qed.
  Lemma flush_segs bl : map (fun nf => (fst nf, sync (snd nf))) (map (file_of crc) bl) = map (file_of crc) (map full bl).
  Proof. rewrite !map_map. apply map_ext. reflexivity. Qed.
  Lemma flush_store dh bl st : store_ok dh bl st -> store_ok dh (map full bl) (flush_all st) /\ d_pers st <= N.max (d_pers st) (d_pers (flush_all st)).
  Proof.
    intros [SS SC SF SX SN SP SR]. split; [|lia].
    assert (ES : d_segs (flush_all st) = map (file_of crc) (map full bl)).
    { rewrite <- flush_segs, <- SS. unfold flush_all. destruct (d_dirty st), (d_ctx st) as [c|]; try reflexivity. destruct (0 <? c_high c); reflexivity. }
    assert (EC : forall c, d_ctx (flush_all st) = Some c -> exists c0, d_ctx st = Some c0 /\ c_active c = c_active c0 /\ c_size c = c_size c0 /\ (c_high c = 0 \/ c_high c = c_high c0)).
    { intros c. unfold flush_all. destruct (d_dirty st), (d_ctx st) as [c0|]; simpl; try discriminate.
      - destruct (N.ltb_spec 0 (c_high c0)); simpl; intro E; exists c0; inversion E; subst; simpl; auto.
      - intro E; inversion E; subst; exists c; auto. }
    constructor.
    - exact ES.
    - apply full_chain; auto.
    - intro X. apply map_eq_nil in X. destruct (SF X) as (A & B). split; auto. unfold flush_all. rewrite B. destruct (d_dirty st); auto.
    - intros c E. destruct (EC c E) as (c0 & E0 & A & B & C). destruct (SX c0 E0) as (i & n & ms & s & EB & F & G & H).
      exists (map full i), n, ms, (lenN (enc ms)). rewrite full_msgs. rewrite EB at 1. rewrite map_app. split; [reflexivity|].
      split; [congruence|]. split; [congruence|]. destruct C as [C|C]; [left; auto|rewrite C; auto].
    - intros _. apply full_all.
    - exact SP.
    - rewrite full_sure. pose proof (sure_le bl). unfold flush_all. destruct (d_dirty st), (d_ctx st) as [c|]; simpl; try lia.
      destruct (N.ltb_spec 0 (c_high c)); simpl; [|lia]. destruct (SX c eq_refl) as (_ & _ & _ & _ & _ & _ & _ & [X|X]); lia.
  Qed.
  (** After a flush the mark is at the last message written, if anything was written since. *)
  Lemma flush_mark dh bl st c : store_ok dh bl st -> d_ctx st = Some c -> d_dirty st = true -> 0 < c_high c ->
    d_pers (flush_all st) + 1 = dh + lenN (msgs_of bl).
  Proof.
    intros [SS SC SF SX SN SP SR] EC ED EH. unfold flush_all. rewrite ED, EC. destruct (N.ltb_spec 0 (c_high c)); [|lia]. simpl.
    destruct (SX c EC) as (_ & _ & _ & _ & _ & _ & _ & [X|X]); lia.
  Qed.

  Definition part (upto : N -> N) (b : blk) : blk :=
    mkB (b_name b) (b_ms b) (N.max (b_sure b) (N.min (upto (b_name b)) (lenN (enc (b_ms b))))).
  Lemma part_msgs u bl : msgs_of (map (part u) bl) = msgs_of bl.
  Proof. induction bl; simpl; congruence. Qed.
  Lemma part_sure u bl : lenN (sure_msgs bl) <= lenN (sure_msgs (map (part u) bl)).
  Proof.
    induction bl as [|b bl IH]; simpl; [lia|]. rewrite !lenN_app.
    pose proof (complete_mono (b_ms b) (b_sure b) (N.max (b_sure b) (N.min (u (b_name b)) (lenN (enc (b_ms b))))) ltac:(lia)). unfold sure_msgs, part in *. lia.
  Qed.
  Lemma part_store u dh bl st : store_ok dh bl st -> store_ok dh (map (part u) bl) (partial_sync u st).
  Proof.
    intros [SS SC SF SX SN SP SR]. constructor; simpl.
    - rewrite SS, !map_map. apply map_ext. reflexivity.
    - clear SS SF SX SN SR. revert SC. generalize dh. clear SP. induction bl as [|b bl IH]; intros n H; simpl; auto. destruct H as (A & B & C & D & E & F & G). repeat split; auto; try lia.
      intro NE. rewrite F; [lia|]. intro X. subst. apply NE. reflexivity.
    - intro X. apply map_eq_nil in X. auto.
    - intros c E. destruct (SX c E) as (i & n & ms & s & EB & F & G & H). rewrite part_msgs.
      exists (map (part u) i), n, ms, (N.max s (N.min (u n) (lenN (enc ms)))). rewrite EB at 1. rewrite map_app. auto.
    - intro E. specialize (SN E). clear - SN. induction SN as [|b bl H _ IH]; simpl; constructor; auto. simpl. lia.
    - exact SP.
    - pose proof (part_sure u bl). lia.
  Qed.
  Lemma groups_store gs dh bl st : store_ok dh bl st -> store_ok dh bl (save_groups crc gs st).
  Proof. intros [SS SC SF SX SN SP SR]. constructor; auto. Qed.

  (** ** What is visible *)
  Definition vmsgs (vis : N -> N) (bl : list blk) : list msg := flat_map (fun b => complete (vis (b_name b)) (b_ms b)) bl.
  Definition visible (vis : N -> N) (bl : list blk) : Prop := Forall (fun b => b_sure b <= vis (b_name b)) bl.
  Lemma vis_visible vis dh bl st : store_ok dh bl st -> vis_ok vis st -> visible vis bl.
  Proof.
    intros [SS _ _ _ _ _ _] V. apply Forall_forall. intros b HB. apply (V (b_name b) (mkFile (enc (b_ms b)) (b_sure b))). rewrite SS. apply in_map_iff. exists b. auto.
  Qed.
  Lemma seen_blk vis bl st dh : store_ok dh bl st -> seen vis st = map (fun b => (b_name b, takeN (vis (b_name b)) (enc (b_ms b)))) bl.
  Proof. intros [SS _ _ _ _ _ _]. unfold seen. rewrite SS, map_map. apply map_ext. reflexivity. Qed.
  (** The visible messages are a beginning of what was written, at least what is
      surely there. *)
  Lemma vmsgs_prefix vis : forall bl n, chain n bl -> visible vis bl -> exists post, msgs_of bl = vmsgs vis bl ++ post.
  Proof.
    induction bl as [|b bl IH]; intros n H V; [exists []; auto|]. destruct H as (A & B & C & D & E & F & G). inversion V; subst.
    destruct bl as [|b2 bl].
    - simpl. rewrite !app_nil_r. apply complete_prefix.
    - destruct (IH _ G ltac:(auto)) as (post & EP). exists post. change (msgs_of (b :: b2 :: bl)) with (b_ms b ++ msgs_of (b2 :: bl)).
      change (vmsgs vis (b :: b2 :: bl)) with (complete (vis (b_name b)) (b_ms b) ++ vmsgs vis (b2 :: bl)). rewrite EP. rewrite (complete_all crc) by (rewrite <- F by discriminate; auto). rewrite <- app_assoc. reflexivity.
  Qed.
  Lemma vmsgs_sure vis : forall bl, visible vis bl -> lenN (sure_msgs bl) <= lenN (vmsgs vis bl).
  Proof.
    induction 1 as [|b bl H _ IH]; simpl; [lia|]. rewrite !lenN_app. pose proof (complete_mono (b_ms b) _ _ H). unfold sure_msgs, vmsgs in *. lia.
  Qed.
  Lemma vmsgs_full vis bl : visible vis bl -> Forall (fun b => b_sure b = lenN (enc (b_ms b))) bl -> vmsgs vis bl = msgs_of bl.
  Proof.
    intros V F. induction bl as [|b bl IH]; auto. inversion V; inversion F; subst. simpl. f_equal; auto. apply (complete_all crc). lia.
  Qed.
  Lemma vmsgs_log vis bl n : chain n bl -> visible vis bl -> log_ok (vmsgs vis bl) n.
  Proof.
    intros H V. destruct (vmsgs_prefix vis bl n H V) as (post & E). pose proof (chain_log _ _ _ H) as L. rewrite E in L. apply log_ok_app in L. tauto.
  Qed.

  (** ** Cold reads *)
  Lemma log_lt l n m : log_ok l n -> In m l -> n <= m_seq m < n + lenN l.
  Proof.
    intros H HI. apply In_nth_error in HI. destruct HI as (i & E). pose proof (H _ _ E) as X.
    assert (i < length l)%nat by (apply nth_error_Some; congruence). unfold lenN. lia.
  Qed.
  Lemma filter_none l n s : log_ok l n -> n + lenN l <= s -> filter (fun m => s <=? m_seq m) l = [].
  Proof.
    intros H L. rewrite (filter_ge_drop l n s H) by lia. apply dropN_all. lia.
  Qed.
  Lemma filter_all l n s : log_ok l n -> s <= n -> filter (fun m => s <=? m_seq m) l = l.
  Proof.
    intros H L. assert (F : forall m, In m l -> (s <=? m_seq m) = true) by (intros m HI; pose proof (log_lt _ _ _ H HI); lia).
    clear H. induction l as [|m l IH]; simpl; auto. rewrite F by (left; auto). f_equal. apply IH. intros; apply F; right; auto.
  Qed.

  Definition seg_view vis b : N * bytes := (b_name b, takeN (vis (b_name b)) (enc (b_ms b))).
  Lemma takeN_app_split A k (a b : list A) : takeN k (a ++ b) = takeN k a ++ takeN (k - lenN a) b.
  Proof. unfold takeN, lenN. rewrite firstn_app. f_equal. f_equal. lia. Qed.
  Lemma takeN_lt A k (a : list A) : lenN (takeN k a) < k -> takeN k a = a.
  Proof. intro L. rewrite lenN_takeN in L. apply takeN_all. lia. Qed.

  Lemma cold_segs_exact vis : forall bl n cur limit, chain n bl -> visible vis bl ->
    cold_segs crc cur limit (map (seg_view vis) bl) = takeN limit (filter (fun m => cur <=? m_seq m) (vmsgs vis bl)).
  Proof.
    induction bl as [|b bl IH]; intros n cur limit H V; [simpl; rewrite takeN_nil; reflexivity|].
    pose proof (vmsgs_log vis (b :: bl) n H V) as LV. cbn [vmsgs flat_map] in LV. change (flat_map _ bl) with (vmsgs vis bl) in LV.
    apply log_ok_app in LV. destruct LV as (L1 & L2).
    destruct H as (A & B & C & D & E & F & G). inversion V; subst.
    cbn [map cold_segs seg_view fst snd]. destruct (N.eqb_spec limit 0) as [->|NL]; [reflexivity|].
    rewrite (read_takes crc crc32) by (auto; lia).
    cbn [vmsgs flat_map]. change (flat_map _ bl) with (vmsgs vis bl). set (vm := complete (vis (b_name b)) (b_ms b)) in *.
    set (n := b_name b) in *. rewrite filter_app, takeN_app_split. set (fl := filter (fun m => cur <=? m_seq m) vm).
    destruct (last_msg (takeN limit fl)) as [m|] eqn:EL.
    - rewrite (IH (n + lenN (b_ms b))) by auto. f_equal.
      assert (LF : fl = dropN (N.max cur n - n) vm).
      { unfold fl. destruct (N.le_ge_cases n cur).
        - rewrite (filter_ge_drop vm n cur) by auto. f_equal. lia.
        - rewrite (filter_all vm n cur) by auto. replace (N.max cur n - n) with 0 by lia. reflexivity. }
      assert (LO : log_ok fl (N.max cur n)) by (rewrite LF; pose proof (log_ok_dropN vm n (N.max cur n - n) L1) as X; replace (n + (N.max cur n - n)) with (N.max cur n) in X by lia; exact X).
      assert (NE : fl <> []) by (intro X; rewrite X, takeN_nil in EL; discriminate).
      destruct (N.lt_ge_cases (lenN (takeN limit fl)) limit) as [SH|SH].
      + pose proof (takeN_lt _ _ _ SH) as X. rewrite X in *. pose proof (last_msg_seq _ _ _ LO EL) as HM.
        assert (HE : m_seq m + 1 = n + lenN vm).
        { rewrite HM, LF, lenN_dropN. assert (lenN fl <> 0) by (intro Z; apply lenN_0_nil in Z; congruence). rewrite LF, lenN_dropN in H. lia. }
        f_equal. destruct bl as [|b2 bl].
        * reflexivity.
        * assert (EV : vm = b_ms b) by (unfold vm; apply (complete_all crc); rewrite <- F by discriminate; assumption).
          rewrite !(filter_all (vmsgs vis (b2 :: bl)) (n + lenN vm)); auto; try lia.
      + rewrite lenN_takeN in SH. rewrite lenN_takeN. replace (limit - N.min limit (lenN fl)) with 0 by lia. replace (limit - lenN fl) with 0 by lia. reflexivity.
    - assert (fl = []) as ->.
      { destruct fl as [|x fl]; auto. rewrite takeN_cons in EL by lia. destruct (last_msg_some (x :: takeN (limit - 1) fl)) as (y & Y); [discriminate|congruence]. }
      rewrite (IH (n + lenN (b_ms b))) by auto. rewrite takeN_nil, lenN_nil, N.sub_0_r. reflexivity.
  Qed.

  Lemma skip_to_exact vis : forall bl n cur, chain n bl -> visible vis bl -> (bl <> [] -> n <= cur) ->
    exists bl' n', skip_to cur (map (seg_view vis) bl) = map (seg_view vis) bl' /\ chain n' bl' /\ visible vis bl' /\
      filter (fun m => cur <=? m_seq m) (vmsgs vis bl') = filter (fun m => cur <=? m_seq m) (vmsgs vis bl).
  Proof.
    induction bl as [|b bl IH]; intros n cur H V L; [exists [], n; auto|].
    pose proof H as H0. destruct H as (A & B & C & D & E & F & G). pose proof V as V0. inversion V; subst.
    cbn [map skip_to]. destruct (existsb (fun s' => fst s' <=? cur) (map (seg_view vis) bl)) eqn:EX.
    - apply existsb_exists in EX. destruct EX as (s & HS & LS). apply in_map_iff in HS. destruct HS as (x & <- & HX). simpl in LS.
      assert (LX : b_name b + lenN (b_ms b) <= b_name x) by (apply (chain_lt _ _ _ _ G HX)).
      destruct (IH _ cur G ltac:(auto)) as (bl' & n' & P & Q & R & S); [lia|].
      exists bl', n'. repeat split; auto. rewrite S. cbn [vmsgs flat_map]. rewrite filter_app.
      rewrite (filter_none (complete (vis (b_name b)) (b_ms b)) (b_name b)).
      + reflexivity.
      + pose proof (vmsgs_log vis (b :: bl) _ H0 V0) as LV. cbn [vmsgs flat_map] in LV. apply log_ok_app in LV. tauto.
      + pose proof (complete_len (b_ms b) (vis (b_name b))). lia.
    - simpl fst. destruct (N.leb_spec (b_name b) cur) as [LB|LB].
      + exists (b :: bl), (b_name b). auto.
      + specialize (L ltac:(discriminate)). lia.
  Qed.
  (** The answer of a cold read: the first [limit] visible messages from [from] on. *)
  Theorem cold_exact vis dh bl st from limit : store_ok dh bl st -> vis_ok vis st ->
    cold_read crc (seen vis st) from limit = takeN limit (filter (fun m => from <=? m_seq m) (vmsgs vis bl)).
  Proof.
    intros SO V. pose proof (vis_visible _ _ _ _ SO V) as VI. rewrite (seen_blk vis bl st dh SO).
    change (map (fun b => (b_name b, takeN (vis (b_name b)) (enc (b_ms b)))) bl) with (map (seg_view vis) bl).
    pose proof (so_chain _ _ _ _ SO) as CH. destruct bl as [|b bl]; [simpl; rewrite takeN_nil; reflexivity|].
    assert (HN : b_name b = dh) by (destruct CH; auto).
    unfold cold_read. remember (map (seg_view vis) (b :: bl)) as l eqn:EL. destruct l as [|s l]; [discriminate|].
    assert (ES : fst s = dh) by (inversion EL; subst; reflexivity). rewrite ES, EL.
    destruct (skip_to_exact vis (b :: bl) dh (N.max from dh) CH VI) as (bl' & n' & P & Q & R & S); [intros; lia|].
    rewrite P, (cold_segs_exact vis bl' n') by auto. rewrite S. f_equal.
    pose proof (vmsgs_log vis _ _ CH VI) as LV. destruct (N.le_ge_cases from dh) as [LE|LE].
    - replace (N.max from dh) with dh by lia. rewrite !(filter_all _ dh) by (auto; lia). reflexivity.
    - replace (N.max from dh) with from by lia. reflexivity.
  Qed.

  (** ** Retention *)
  (** Removing the shortest prefix that brings the total under the limit. *)
  Lemma total_fold l a : fold_left (fun a s => a + lenN (snd s)) l a = a + total_size l.
  Proof.
    unfold total_size. revert a. induction l as [|s l IH]; intros a; simpl; [intros; lia|]. rewrite IH. rewrite (IH (0 + lenN (snd s))). lia.
  Qed.
  Lemma total_cons s l : total_size (s :: l) = lenN (snd s) + total_size l.
  Proof. change (total_size (s :: l)) with (fold_left (fun a s => a + lenN (snd s)) l (0 + lenN (snd s))). rewrite total_fold. lia. Qed.
  Theorem retain_size_exact : forall max l, exists k, retain_size max (total_size l) l = skipn k l /\
    (k = 0 \/ k < length l)%nat /\
    (total_size (skipn k l) <= max \/ (length l <= S k)%nat) /\
    (forall j, (j < k)%nat -> max < total_size (skipn j l)).
  Proof.
    intros max. induction l as [|s l IH]; [exists 0%nat; simpl; repeat split; auto; lia|].
    destruct l as [|s2 l].
    - exists 0%nat. simpl. repeat split; auto. lia.
    - change (retain_size max (total_size (s :: s2 :: l)) (s :: s2 :: l)) with
        (if max <? total_size (s :: s2 :: l) then retain_size max (total_size (s :: s2 :: l) - lenN (snd s)) (s2 :: l) else s :: s2 :: l).
      destruct (N.ltb_spec max (total_size (s :: s2 :: l))) as [L|L].
      + rewrite total_cons. replace (lenN (snd s) + total_size (s2 :: l) - lenN (snd s)) with (total_size (s2 :: l)) by lia.
        destruct IH as (k & A & B & C & D). exists (S k). rewrite A. cbn [skipn length] in *. split; [reflexivity|]. split; [lia|].
        split; [destruct C as [C|C]; [left; auto|right; lia]|]. intros [|j] Hj; [exact L|apply D; lia].
      + exists 0%nat. cbn [skipn]. split; [reflexivity|]. split; [auto|]. split; [auto|]. intros; lia.
  Qed.
  Definition names_asc (l : list (N * bytes)) : Prop := StronglySorted N.lt (map fst l).
  (** Age retention, when files get no younger towards the front. *)
  Lemma retain_age_suffix old l : names_asc l -> (forall a b, In a (map fst l) -> In b (map fst l) -> a < b -> old b = true -> old a = true) ->
    exists k, retain_age old l = skipn k l /\ (l <> [] -> skipn k l <> []).
  Proof.
    intros SA MO. unfold retain_age. destruct l as [|s0 l0] eqn:EL; [exists 0%nat; auto|]. rewrite <- EL in *.
    destruct (exists_last (l := l)) as (i & x & EX); [rewrite EL; discriminate|]. clear EL s0 l0. subst l. rewrite last_seg_snoc. destruct x as [ln lb].
    assert (LT : forall y, In y i -> fst y < ln).
    { intros y HY. unfold names_asc in SA. rewrite map_app in SA. clear - SA HY. induction i as [|z i IH]; [contradiction|]. simpl in SA. inversion SA; subst.
      destruct HY as [->|HY]; [|auto]. rewrite Forall_forall in H2. apply H2. apply in_or_app. right. left. reflexivity. }
    assert (G : exists k, filter (fun s => (fst s =? ln) || negb (old (fst s))) i = skipn k i /\ (k <= length i)%nat).
    { clear LT. assert (SA' : StronglySorted N.lt (map fst i)) by (unfold names_asc in SA; rewrite map_app in SA; clear - SA; induction i; simpl in *; constructor; inversion SA; subst; auto; apply Forall_app in H2; tauto).
      assert (MO' : forall a b, In a (map fst i) -> In b (map fst i) -> a < b -> old b = true -> old a = true) by (intros a b Ha Hb; apply MO; rewrite map_app; apply in_or_app; auto).
      assert (NL : forall y, In y i -> fst y <> ln).
      { intros y HY. unfold names_asc in SA. rewrite map_app in SA. clear - SA HY. induction i as [|z i IH]; [contradiction|]. simpl in SA. inversion SA; subst.
        destruct HY as [->|HY]; [|auto]. rewrite Forall_forall in H2. specialize (H2 ln). assert (fst y < ln) by (apply H2; apply in_or_app; right; left; reflexivity). lia. }
      clear SA MO. induction i as [|z i IH]; [exists 0%nat; simpl; auto|]. inversion SA'; subst. simpl.
      destruct (N.eqb_spec (fst z) ln) as [X|_]; [exfalso; apply (NL z); [left; auto|auto]|]. simpl.
      destruct (old (fst z)) eqn:EO; simpl.
      - destruct IH as (k & A & B); auto.
        + intros a b Ha Hb. apply MO'; right; auto.
        + intros y HY. apply NL. right; auto.
        + exists (S k). simpl. split; auto. lia.
      - exists 0%nat. simpl. split; [|lia]. f_equal.
        assert (F : forall y, In y i -> (fst y =? ln) || negb (old (fst y)) = true).
        { intros y HY. destruct (old (fst y)) eqn:EY; [|apply Bool.orb_true_r]. rewrite (MO' (fst z) (fst y)) in EO; auto; try discriminate.
          - left; auto.
          - right. apply in_map; auto.
          - rewrite Forall_forall in H2. apply H2. apply in_map; auto. }
        clear - F. induction i as [|y i IH]; simpl; auto. rewrite F by (left; auto). f_equal. apply IH. intros; apply F; right; auto. }
    destruct G as (k & A & B). exists k. rewrite filter_app. simpl. rewrite N.eqb_refl. simpl. rewrite A, skipn_app.
    replace (k - length i)%nat with 0%nat by lia. simpl. split; auto. intros _ X. apply app_eq_nil in X. destruct X; discriminate.
  Qed.
  Lemma skipn_asc k l : names_asc l -> names_asc (skipn k l).
  Proof.
    unfold names_asc. revert k. induction l as [|s l IH]; intros [|k] H; simpl in *; auto. inversion H; subst. apply IH; auto.
  Qed.
  Lemma skipn_skipn' A : forall (i j : nat) (l : list A), skipn i (skipn j l) = skipn (j + i) l.
  Proof. intros i j. revert i. induction j as [|j IH]; intros i l; [reflexivity|]. destruct l; [rewrite !skipn_nil; reflexivity|]. simpl. apply IH. Qed.
  Lemma retain_suffix age maxb l : names_asc l ->
    (forall old, age = Some old -> forall a b, In a (map fst l) -> In b (map fst l) -> a < b -> old b = true -> old a = true) ->
    exists k, retain age maxb l = skipn k l /\ (l <> [] -> skipn k l <> []).
  Proof.
    intros SA MO. unfold retain. destruct l as [|s0 [|s1 l0]] eqn:EL; try (exists 0%nat; auto; fail). rewrite <- EL in *.
    assert (NE : l <> []) by (rewrite EL; discriminate). clear EL s0 s1 l0.
    assert (G : exists k, match age with Some old => retain_age old l | None => l end = skipn k l /\ (l <> [] -> skipn k l <> [])).
    { destruct age as [old|]; [|exists 0%nat; auto]. apply retain_age_suffix; [auto|apply (MO old eq_refl)]. }
    destruct G as (k & EK & NK). rewrite EK. destruct maxb as [m|]; [|exists k; auto].
    destruct (retain_size_exact m (skipn k l)) as (j & A & B & _). rewrite A, skipn_skipn'. exists (k + j)%nat. split; auto.
    intros _ X. destruct B as [->|B].
    - rewrite Nat.add_0_r in X. apply NK; auto.
    - rewrite <- skipn_skipn' in X. apply (f_equal (@length _)) in X. rewrite skipn_length in X. simpl in X. lia.
  Qed.
  Lemma chain_names : forall bl n, chain n bl -> StronglySorted N.lt (map b_name bl) /\ Forall (fun x => n <= x) (map b_name bl).
  Proof.
    induction bl as [|b bl IH]; intros n H; simpl; [split; constructor|]. destruct H as (A & B & C & D & E & F & G).
    destruct (IH _ G) as (P & Q). assert (0 < lenN (b_ms b)) by (destruct (b_ms b); [congruence|rewrite lenN_cons; lia]).
    split; constructor; auto; try lia.
    - eapply Forall_impl; [|exact Q]. simpl. intros; lia.
    - eapply Forall_impl; [|exact Q]. simpl. intros; lia.
  Qed.
  Lemma filter_skipn_names k bl : NoDup (map b_name bl) ->
    filter (fun nf => nmem (fst nf) (skipn k (map b_name bl))) (map (file_of crc) bl) = map (file_of crc) (skipn k bl).
  Proof.
    revert k. induction bl as [|b bl IH]; intros k ND; [destruct k; reflexivity|]. simpl in ND. inversion ND; subst. destruct k as [|k].
    - cbn [skipn].
      assert (F : forall ks (l : list (N * file)), (forall y, In y l -> In (fst y) ks) -> filter (fun nf => nmem (fst nf) ks) l = l).
      { intro ks. induction l as [|y l IHl]; intro F; simpl filter; auto. assert (nmem (fst y) ks = true) as -> by (apply nmem_In, F; left; auto). f_equal. apply IHl. intros; apply F; right; auto. }
      apply F. intros y HY. apply in_map_iff in HY. destruct HY as (x & <- & HX). simpl fst. apply in_map; auto.
    - simpl. destruct (nmem (b_name b) (skipn k (map b_name bl))) eqn:EM.
      + exfalso. apply nmem_In in EM. apply H1. rewrite <- (firstn_skipn k (map b_name bl)). apply in_or_app. auto.
      + apply IH; auto.
  Qed.
  Lemma StronglySorted_NoDup l : StronglySorted N.lt l -> NoDup l.
  Proof.
    induction 1 as [|x l _ IH F]; constructor; auto. intro HI. rewrite Forall_forall in F. apply F in HI. lia.
  Qed.
  Lemma retention_store vis age maxb dh bl st : store_ok dh bl st -> vis_ok vis st ->
    (forall old, age = Some old -> forall a b, In a (map b_name bl) -> In b (map b_name bl) -> a < b -> old b = true -> old a = true) ->
    exists k dh', let r := apply_retention vis age maxb st in store_ok dh' (skipn k bl) (fst r) /\ snd r = dh' /\ dh <= dh' /\
      retain age maxb (seen vis st) = skipn k (seen vis st) /\
      (bl <> [] -> skipn k bl <> []) /\ msgs_of (skipn k bl) = dropN (dh' - dh) (msgs_of bl) /\ d_pers (fst r) = d_pers st /\
      dh' + lenN (msgs_of (skipn k bl)) = dh + lenN (msgs_of bl).
  Proof.
    intros SO V MO. pose proof (seen_blk vis bl st dh SO) as ES.
    assert (NM : map fst (seen vis st) = map b_name bl) by (rewrite ES, map_map; reflexivity).
    destruct SO as [SS SC SF SX SN SP SR]. destruct (chain_names bl dh SC) as (SA & _).
    destruct (retain_suffix age maxb (seen vis st)) as (k & EK & NK).
    { unfold names_asc. rewrite NM. exact SA. }
    { intros old Eo a b Ha Hb. rewrite NM in Ha, Hb. apply (MO old Eo); auto. }
    assert (KE : bl <> [] -> skipn k bl <> []).
    { intros NE X. apply NK; [intro Y; rewrite ES in Y; apply map_eq_nil in Y; auto|]. rewrite ES, skipn_map. rewrite X. reflexivity. }
    set (dh' := match skipn k bl with b :: _ => b_name b | [] => dh end).
    exists k, dh'. cbv zeta. unfold apply_retention. rewrite EK. unfold akeys. rewrite <- skipn_map, NM. rewrite SS. rewrite filter_skipn_names by (apply StronglySorted_NoDup; auto).
    assert (SPL : bl = firstn k bl ++ skipn k bl) by (symmetry; apply firstn_skipn).
    assert (CH : chain dh' (skipn k bl) /\ dh' = (if match skipn k bl with [] => true | _ => false end then dh else dh + lenN (msgs_of (firstn k bl)))).
    { rewrite SPL in SC. apply chain_app in SC. destruct SC as (C1 & C2 & C3). unfold dh'. destruct (skipn k bl) as [|b r]; [simpl; auto|].
      assert (b_name b = dh + lenN (msgs_of (firstn k bl))) as EN by (destruct C2; auto). rewrite EN. split; auto. }
    destruct CH as (CH & DE).
    assert (ML : lenN (msgs_of bl) = lenN (msgs_of (firstn k bl)) + lenN (msgs_of (skipn k bl))) by (rewrite SPL at 1; rewrite msgs_of_app, lenN_app; reflexivity).
    assert (MD : msgs_of (skipn k bl) = dropN (dh' - dh) (msgs_of bl)).
    { destruct (skipn k bl) as [|b r] eqn:EB.
      - destruct bl as [|b0 r0]; [rewrite dropN_nil; reflexivity|]. exfalso. apply KE; [discriminate|auto].
      - rewrite SPL at 1. rewrite msgs_of_app. subst dh'. rewrite DE. replace (dh + lenN (msgs_of (firstn k bl)) - dh) with (lenN (msgs_of (firstn k bl))) by lia. rewrite dropN_app_exact. reflexivity. }
    assert (TOT : dh' + lenN (msgs_of (skipn k bl)) = dh + lenN (msgs_of bl)).
    { destruct (skipn k bl) as [|b r] eqn:EB; [|lia]. destruct bl as [|b0 r0]; [simpl in *; lia|]. exfalso. apply KE; [discriminate|auto]. }
    assert (DL : dh <= dh') by (destruct (skipn k bl); lia).
    assert (SU : dh + lenN (sure_msgs bl) <= dh' + lenN (sure_msgs (skipn k bl))).
    { destruct (skipn k bl) as [|b r] eqn:EB.
      - destruct bl as [|b0 r0]; [simpl in *; lia|]. exfalso. apply KE; [discriminate|auto].
      - rewrite SPL at 1. rewrite sure_app, lenN_app. rewrite DE. pose proof (sure_le (firstn k bl)). lia. }
    split; [|split; [|split; [exact DL|split; [reflexivity|split; [exact KE|split; [exact MD|split; [reflexivity|exact TOT]]]]]]].
    - constructor; cbn [d_segs d_ctx d_pers fst]; auto.
      + intro X. destruct bl as [|b0 r0]; [|exfalso; apply KE; [discriminate|auto]]. destruct (SF eq_refl). rewrite X in *. split; auto. lia.
      + intros c E. destruct (SX c E) as (i & n & ms & s & EB & F & G & H). exists (skipn k i), n, ms, s. rewrite EB at 1. split.
        * rewrite skipn_app. assert ((k - length i)%nat = 0%nat) as ->; [|reflexivity].
          assert (NE : bl <> []) by (rewrite EB; intro X; apply app_eq_nil in X; destruct X; discriminate). specialize (KE NE).
          destruct (Nat.le_gt_cases k (length i)); [lia|]. exfalso. apply KE. rewrite EB. apply skipn_all2. rewrite app_length. simpl. lia.
        * split; auto. split; auto. rewrite TOT. exact H.
      + intro E. specialize (SN E). rewrite SPL in SN. apply Forall_app in SN. tauto.
      + lia.
      + lia.
    - cbn [snd]. unfold head_of. destruct (skipn k bl) as [|b r] eqn:EB; [|reflexivity].
      simpl. destruct bl as [|b0 r0]; [|exfalso; apply KE; [discriminate|auto]]. destruct (SF eq_refl). unfold dh'. auto.
  Qed.
End Store.
