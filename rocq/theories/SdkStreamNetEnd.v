(** Stream consumers end to end: what the runs of the whole system satisfy. *)
From Verif Require Import LibBase LibMap SdkLoopModel SdkStreamModel SdkStreamSpec SdkStreamProofs SdkStreamFlow StreamTopicModel StreamGroupModel StreamStoreModel StreamStoreFacts StreamGroupSpec StreamSysModel StreamSysProofs StreamSysHist StreamSysFacts StreamSysLife SdkStreamSys SdkStreamNetModel SdkStreamNetSpec SdkStreamNetServer SdkStreamNetProofs SdkStreamNetOnce.

Section End_.
  Variable crc : bytes -> N.
  Hypothesis crc32 : forall b, crc b < 2 ^ 32.
  Variable cfg : gcfg.
  Variable smax : N.
  Hypothesis MD : 1 <= max_del cfg.
  Variable conc : nat -> N.
  Variable grp : nat -> bytes.
  Variable lim : nat -> N.
  Hypothesis SHORT : forall c, lenN (grp c) < 65536.
  Variable soft : N.
  Variable os : list nop.
  Hypothesis ENV : envs_ok crc cfg smax grp conc lim (net0 soft) os.
  Notation y := (nrun crc cfg smax conc grp lim soft os).
  Notation L := (n_log y).

  Lemma ni : NI crc cfg smax conc grp soft y. Proof. apply run_ni; auto. Qed.
  Lemma started_tally gid q l : started grp gid q l = tally (w_cl (in_grp grp gid (w_start q))) l.
  Proof.
    unfold started. induction l as [|e l IH]; [reflexivity|]. cbn [filter]. change (tally ?w (?a :: ?b)) with (w a + tally w b)%nat. rewrite <- IH. destruct e as [c x| |]; try reflexivity. cbn [w_cl]. unfold in_grp.
    destruct x; cbn [w_start]; try (destruct (beqb _ _); reflexivity).
    destruct e as [[i m]|? ?|?|?|?]; cbn [w_start]; try (destruct (beqb _ _); reflexivity). destruct (beqb (grp c) gid); [|reflexivity]. destruct (m_seq m =? q); reflexivity.
  Qed.
  Lemma sub_log c e : In (OClient c e) L -> exists k conn xs, clog c L = klog (conc c) conn xs /\ n_cl y c = Some (k, klog (conc c) conn xs).
  Proof.
    intro H. apply clog_in in H. pose proof (ni_cl _ _ _ _ _ _ _ ni c) as C. destruct (n_cl y c) as [[k l]|]; [|rewrite C in H; destruct H]. destruct C as (C1 & conn & xs & C2). exists k, conn, xs. unfold klog. rewrite C2. cbn. auto.
  Qed.
  Theorem genuine c i m : In (OClient c (VDo (EStart item (i, m)))) L -> In m (published L).
  Proof.
    intro H. destruct (sub_log _ _ H) as (k & conn & xs & E & _). pose proof H as H0. apply clog_in in H0. rewrite E in H0. destruct (start_got (conc c) conn xs i m H0) as (ms & G & M).
    rewrite <- E in G. apply clog_in in G. exact (ni_got _ _ _ _ _ _ _ ni c i ms G m M).
  Qed.
  Theorem starts_given gid q : N.of_nat (started grp gid q L) <= given_out crc cfg smax soft gid q L.
  Proof.
    rewrite started_tally. pose proof (ni_served _ _ _ _ _ _ _ ni gid q). pose proof (ni_flow _ _ _ _ _ _ _ ni gid q).
    assert (X : (tally (w_cl (in_grp grp gid (w_start q))) L <= tally (w_cl (in_grp grp gid (w_got q))) L)%nat); [|lia].
    apply clients_le. intro d. unfold in_grp. pose proof (ni_cl _ _ _ _ _ _ _ ni d) as C. destruct (beqb (grp d) gid) eqn:G.
    - destruct (n_cl y d) as [[k l]|]; [|rewrite C; cbn; lia]. destruct C as (-> & conn & xs & C2). pose proof (run_w (conc d) q conn xs) as R. unfold klog in R. rewrite C2 in R. cbn [snd] in R. change (tally (w_start q) l <= tally (w_got q) l)%nat. lia.
    - clear. induction (clog d L) as [|e l IH]; cbn; lia.
  Qed.
  Theorem no_loss gid c conn f gen m : snd (sstep crc cfg smax (n_s y) (SJoin gid c conn)) = RJoin f gen -> In m (published L) -> m_seq m <= f ->
    handled grp gid m L \/ acked_elsewhere gid (m_seq m) L \/ given_up crc cfg smax soft gid (m_seq m) L \/ skipped crc cfg smax soft gid (m_seq m) L \/ removed crc cfg smax soft (m_seq m) L.
  Proof.
    intros J M Q. pose proof (ni_log _ _ _ _ _ _ _ ni) as S. destruct (join_reason crc crc32 cfg smax MD soft L _ _ gid c conn f gen _ S J Q) as [(who & x & g & A)|R]; [|tauto].
    destruct who as [d|]; [|right; left; exists x, g; exact A]. left. destruct (ni_ack _ _ _ _ _ _ _ ni _ _ _ _ _ _ A) as (G & i & m' & E & K). exists d, i. split; auto.
    destruct (sub_log _ _ K) as (k & cn & xs & EL & _). apply clog_in in K. rewrite EL in K. apply in_split in K. destruct K as (a & b & K). destruct (ack_hand (conc d) cn xs a i m' b K) as ((a1 & ms & b1 & HA & HM & _ & HS) & HE & _).
    assert (PM : In m' (published L)).
    { apply (ni_got _ _ _ _ _ _ _ ni d i ms); auto. apply clog_in. rewrite EL, K, HA. apply in_or_app. left. apply in_or_app. right. left. reflexivity. }
    assert (m' = m) as -> by (eapply (pub_unique crc crc32 cfg smax MD); eauto). split; apply clog_in; rewrite EL, K; apply in_or_app; auto. left. rewrite HA. apply in_or_app. right. right. auto.
  Qed.
  Theorem still_owed gid m : In m (published L) -> ~ (handled grp gid m L \/ acked_elsewhere gid (m_seq m) L \/ given_up crc cfg smax soft gid (m_seq m) L \/ skipped crc cfg smax soft gid (m_seq m) L \/ removed crc cfg smax soft (m_seq m) L) ->
    owed (n_s y) gid (m_seq m).
  Proof.
    intros M N. pose proof (ni_log _ _ _ _ _ _ _ ni) as S. apply (kept crc crc32 cfg smax MD soft L _ _ gid _ S). intros [(who & x & g & A)|R]; [|tauto]. apply N.
    destruct who as [d|]; [|right; left; exists x, g; exact A]. left. destruct (ni_ack _ _ _ _ _ _ _ ni _ _ _ _ _ _ A) as (G & i & m' & E & K). exists d, i. split; auto.
    destruct (sub_log _ _ K) as (k & cn & xs & EL & _). apply clog_in in K. rewrite EL in K. apply in_split in K. destruct K as (a & b & K). destruct (ack_hand (conc d) cn xs a i m' b K) as ((a1 & ms & b1 & HA & HM & _ & HS) & HE & _).
    assert (PM : In m' (published L)).
    { apply (ni_got _ _ _ _ _ _ _ ni d i ms); auto. apply clog_in. rewrite EL, K, HA. apply in_or_app. left. apply in_or_app. right. left. reflexivity. }
    assert (m' = m) as -> by (eapply (pub_unique crc crc32 cfg smax MD); eauto). split; apply clog_in; rewrite EL, K; apply in_or_app; auto. left. rewrite HA. apply in_or_app. right. right. auto.
  Qed.
  Theorem at_most gid q : N.of_nat (started grp gid q L) <= max_del cfg * (1 + nresets gid L).
  Proof. pose proof (starts_given gid q). pose proof (given_max crc crc32 cfg smax MD soft L _ _ gid q (ni_log _ _ _ _ _ _ _ ni)). lia. Qed.
  Theorem again_only gid q : N.of_nat (started grp gid q L) <= 1 + taken_back crc cfg smax soft gid q L.
  Proof. pose proof (starts_given gid q). pose proof (once_back crc crc32 cfg smax MD soft L _ _ gid q (ni_log _ _ _ _ _ _ _ ni)). lia. Qed.
  Theorem acked_last gid q a e b : L = a ++ e :: b -> acked_by gid q e = true -> forallb (fun e => negb (resets gid e)) b = true -> N.of_nat (started grp gid q L) <= given_out crc cfg smax soft gid q a.
  Proof.
    intros E K R. pose proof (starts_given gid q) as SG. pose proof (ni_log _ _ _ _ _ _ _ ni) as S. rewrite E in S. pose proof (acked_final crc crc32 cfg smax MD soft a e b _ _ gid q S K R). rewrite E in *. lia.
  Qed.
End End_.
