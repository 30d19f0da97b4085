(** Stream consumers end to end (C96, C97).
    [nrun ... soft os]: any number of stream subscriptions of the SDK, of any groups of one
    topic, the server with its restarts, and a network that loses and reorders, from the
    beginning; [n_log]: everything observable of it. [envs_ok]: what the server's
    environment guarantees (see there). *)
From Verif Require Import LibBase LibMap Crc32 SdkLoopModel SdkStreamModel SdkStreamSpec StreamTopicModel StreamGroupModel StreamStoreModel StreamSysModel SdkStreamSys SdkStreamNetModel SdkStreamNetSpec SdkStreamNetServer SdkStreamNetProofs SdkStreamNetOnce SdkStreamNetEnd PropStreamGroup PropWakeStream.

(** C96: no record is passed over: when a group is told (by JOIN) that it has got as far
    as [f], then for every record up to [f] a callback of one of its subscriptions has
    ended well, or someone else acknowledged it, or it was given out as often as allowed,
    or a seek to the end skipped it, or retention removed it. *)
Theorem C96_no_loss : forall crc cfg smax conc grp lim soft os, (forall b, crc b < 2 ^ 32) -> 1 <= max_del cfg -> (forall c, lenN (grp c) < 65536) ->
  envs_ok crc cfg smax grp conc lim (net0 soft) os -> let y := nrun crc cfg smax conc grp lim soft os in let L := n_log y in
  forall gid c conn f gen m, snd (sstep crc cfg smax (n_s y) (SJoin gid c conn)) = RJoin f gen -> In m (published L) -> m_seq m <= f ->
  handled grp gid m L \/ acked_elsewhere gid (m_seq m) L \/ given_up crc cfg smax soft gid (m_seq m) L \/ skipped crc cfg smax soft gid (m_seq m) L \/ removed crc cfg smax soft (m_seq m) L.
Proof. intros crc cfg smax conc grp lim soft os C MD SH E y L. exact (no_loss crc C cfg smax MD conc grp lim SH soft os E). Qed.
(** C96: and as long as none of that has happened the server still has it to do: not given
    out yet, out to someone, or waiting to be given out again. *)
Theorem C96_kept : forall crc cfg smax conc grp lim soft os, (forall b, crc b < 2 ^ 32) -> 1 <= max_del cfg -> (forall c, lenN (grp c) < 65536) ->
  envs_ok crc cfg smax grp conc lim (net0 soft) os -> let y := nrun crc cfg smax conc grp lim soft os in let L := n_log y in
  forall gid m, In m (published L) ->
  ~ (handled grp gid m L \/ acked_elsewhere gid (m_seq m) L \/ given_up crc cfg smax soft gid (m_seq m) L \/ skipped crc cfg smax soft gid (m_seq m) L \/ removed crc cfg smax soft (m_seq m) L) ->
  match gget gid (n_s y) with Some g => g_next g <= m_seq m \/ pget (m_seq m) (g_pend g) <> None \/ In (m_seq m) (g_red g) | None => True end.
Proof. intros crc cfg smax conc grp lim soft os C MD SH E y L. exact (still_owed crc C cfg smax MD conc grp lim SH soft os E). Qed.
(** C96: every callback is started with a record that was published, as it was published. *)
Theorem C96_genuine : forall crc cfg smax conc grp lim soft os, (forall b, crc b < 2 ^ 32) -> 1 <= max_del cfg -> (forall c, lenN (grp c) < 65536) ->
  envs_ok crc cfg smax grp conc lim (net0 soft) os -> let L := n_log (nrun crc cfg smax conc grp lim soft os) in
  forall c i m, In (OClient c (VDo (EStart item (i, m)))) L -> In m (published L).
Proof. intros crc cfg smax conc grp lim soft os C MD SH E L. exact (genuine crc C cfg smax MD conc grp lim SH soft os E). Qed.

(** C97: for every record the callbacks of a group are started at most max_deliveries
    times, and as often again for each seek of the group and each restart. *)
Theorem C97_at_most : forall crc cfg smax conc grp lim soft os, (forall b, crc b < 2 ^ 32) -> 1 <= max_del cfg -> (forall c, lenN (grp c) < 65536) ->
  envs_ok crc cfg smax grp conc lim (net0 soft) os -> let L := n_log (nrun crc cfg smax conc grp lim soft os) in
  forall gid q, N.of_nat (started grp gid q L) <= max_del cfg * (1 + lenN (filter (resets gid) L)).
Proof. intros crc cfg smax conc grp lim soft os C MD SH E L. exact (at_most crc C cfg smax MD conc grp lim SH soft os E). Qed.
(** C97: and at most once more than it was taken back: the one who had it left or lost its
    connection, or did not acknowledge in time, or the group was moved by a seek, or the
    server restarted. In particular once, when nothing of that happens. *)
Theorem C97_again_only : forall crc cfg smax conc grp lim soft os, (forall b, crc b < 2 ^ 32) -> 1 <= max_del cfg -> (forall c, lenN (grp c) < 65536) ->
  envs_ok crc cfg smax grp conc lim (net0 soft) os -> let L := n_log (nrun crc cfg smax conc grp lim soft os) in
  forall gid q, N.of_nat (started grp gid q L) <= 1 + taken_back crc cfg smax soft gid q L.
Proof. intros crc cfg smax conc grp lim soft os C MD SH E L. exact (again_only crc C cfg smax MD conc grp lim SH soft os E). Qed.
(** C97: once an acknowledgement is accepted the record is not given out again (without a
    seek or a restart): no callback is started on it beyond what had been given out before. *)
Theorem C97_acked : forall crc cfg smax conc grp lim soft os, (forall b, crc b < 2 ^ 32) -> 1 <= max_del cfg -> (forall c, lenN (grp c) < 65536) ->
  envs_ok crc cfg smax grp conc lim (net0 soft) os -> let L := n_log (nrun crc cfg smax conc grp lim soft os) in
  forall gid q a e b, L = a ++ e :: b -> acked_by gid q e = true -> forallb (fun e => negb (resets gid e)) b = true -> N.of_nat (started grp gid q L) <= given_out crc cfg smax soft gid q a.
Proof. intros crc cfg smax conc grp lim soft os C MD SH E L. exact (acked_last crc C cfg smax MD conc grp lim SH soft os E). Qed.

(** Non-vacuity. Two subscriptions of a group, two records; the first record is taken back
    when its connection ends, and handled by the other. *)
Notation nx := (nrun crc32 xcfg 60 (fun _ => 1) (fun _ => g1) (fun _ => 10) 1).
Definition t1 : list nop :=
  [YOther (SPub 5 [1]); YSub 0 1; YSub 1 2; YServe 0 11 1 6 0 []; YTake 0 false; YServe 0 12 2 6 0 []; YTake 0 false; YServe 0 0 0 7 0 []; YTake 0 false; YClient 0 (CWork (WTake 0 false));
   YOther (SPub 8 [2]); YOther (SDisc (fun _ => []) 1); YServe 0 0 0 9 0 []; YTake 0 false; YClient 1 (CWork (WTake 0 false)); YClient 1 (CWork (WEnd 0 true false)); YServe 0 0 0 10 0 []; YClient 1 (CWork (WTake 0 false)); YClient 1 (CWork (WEnd 0 true false))].
Definition t2 : list nop := [YServe 0 0 0 11 0 []].
Lemma t2_env : envs_ok crc32 xcfg 60 (fun _ => g1) (fun _ => 1) (fun _ => 10) (net0 1) (t1 ++ t2).
Proof. vm_compute. repeat split; try discriminate. Qed.
Example C96_example : envs_ok crc32 xcfg 60 (fun _ => g1) (fun _ => 1) (fun _ => 10) (net0 1) (t1 ++ t2) /\ 1 <= max_del xcfg /\ lenN g1 < 65536 /\
  published (n_log (nx (t1 ++ t2))) = [mkMsg 1 5 [1]; mkMsg 2 8 [2]] /\ handled (fun _ => g1) g1 (mkMsg 2 8 [2]) (n_log (nx (t1 ++ t2))) /\
  snd (sstep crc32 xcfg 60 (n_s (nx (t1 ++ t2))) (SJoin g1 13 3)) = RJoin 2 1 /\ snd (sstep crc32 xcfg 60 (n_s (nx t1)) (SJoin g1 13 3)) = RJoin 1 1.
Proof.
  split; [exact t2_env|]. split; [vm_compute; discriminate|]. split; [vm_compute; reflexivity|]. split; [vm_compute; reflexivity|]. split; [|split; vm_compute; reflexivity].
  exists 1%nat, (12, 1). split; [reflexivity|]. split; vm_compute; auto 40.
Qed.
Example C97_example : started (fun _ => g1) g1 1 (n_log (nx (t1 ++ t2))) = 2%nat /\ taken_back crc32 xcfg 60 1 g1 1 (n_log (nx (t1 ++ t2))) = 1 /\ max_del xcfg = 2 /\ lenN (filter (resets g1) (n_log (nx (t1 ++ t2)))) = 0 /\
  started (fun _ => g1) g1 2 (n_log (nx (t1 ++ t2))) = 1%nat /\ taken_back crc32 xcfg 60 1 g1 2 (n_log (nx (t1 ++ t2))) = 0 /\
  exists a e b, n_log (nx (t1 ++ t2)) = a ++ e :: b /\ acked_by g1 1 e = true /\ forallb (fun e => negb (resets g1 e)) b = true /\ given_out crc32 xcfg 60 1 g1 1 a = 2.
Proof.
  do 6 (split; [vm_compute; reflexivity|]). exists (firstn 23 (n_log (nx (t1 ++ t2)))), (nth 23 (n_log (nx (t1 ++ t2))) (OClient 0 VJoin)), (skipn 24 (n_log (nx (t1 ++ t2)))). do 3 (split; [vm_compute; reflexivity|]). vm_compute; reflexivity.
Qed.

(** C96: "as often as allowed" does not mean that a callback ever saw the record: when
    another record of the batch cannot be decoded, the SDK drops the batch before any
    callback, each time, and the group moves past all of it. Nothing is lost on the way,
    nobody stops, and there is no dead letter queue for streams. *)
Definition t3 : list nop :=
  [YOther (SPub 5 [1]); YOther (SPub 6 [2]); YSub 0 1; YServe 0 11 1 6 0 []; YTake 0 false; YServe 0 0 0 7 0 []; YTake 0 true;
   YClient 0 CWake; YOther (STick (fun _ => []) 200); YServe 0 12 1 200 0 []; YTake 0 false; YServe 0 0 0 201 0 []; YTake 0 true; YOther (STick (fun _ => []) 400)].
Theorem C96_poison_refuted : exists os m, let y := nx os in let L := n_log y in
  envs_ok crc32 xcfg 60 (fun _ => g1) (fun _ => 1) (fun _ => 10) (net0 1) os /\ In m (published L) /\
  snd (sstep crc32 xcfg 60 (n_s y) (SJoin g1 13 3)) = RJoin 2 1 /\ m_seq m <= 2 /\ (forall c x, ~ In (OClient c (VDo x)) L) /\
  (forall i, ~ In (YLose i) os /\ ~ In (YLoseA i) os) /\ (forall c, ~ In (OClient c VStop) L /\ ~ In (OClient c VLost) L).
Proof.
  exists t3, (mkMsg 1 5 [1]). cbn zeta. split; [vm_compute; repeat split; discriminate|]. split; [vm_compute; auto|]. split; [vm_compute; reflexivity|]. split; [vm_compute; discriminate|].
  split; [intros c x; vm_compute; intuition discriminate|]. split; [intro i; unfold t3; cbn; intuition discriminate|]. intro c. vm_compute. intuition discriminate.
Qed.
(** C96: restarts, though, must come when everything is written. Floors are saved while
    the records they cover are still in a write buffer: after a crash the numbers start again below the
    floor, and a record published then is passed over. No callback has seen it, nobody acknowledged it,
    and it was not given out, skipped or removed. *)
Definition t5 : list nop :=
  [YOther (SPub 5 [1]); YSub 0 1; YServe 0 11 1 6 0 []; YTake 0 false; YServe 0 0 0 7 0 []; YTake 0 false; YClient 0 (CWork (WTake 0 false)); YClient 0 (CWork (WEnd 0 true false)); YServe 0 0 0 8 0 [];
   YOther (SSend 0); YOther SCollect; YOther SSave].
Definition t6 : list nop := [YOther (SPub 9 [7]); YServe 0 12 1 10 0 []; YTake 0 false; YServe 0 0 0 11 0 []].
Lemma prefixes {B} (f : list B -> bool) (L : list B) : forallb (fun n => f (firstn n L)) (seq 0 (S (length L))) = true -> forall a b, L = a ++ b -> f a = true.
Proof.
  intros H a b ->. rewrite forallb_forall in H. specialize (H (length a)). rewrite firstn_app, firstn_all, Nat.sub_diag in H. cbn [firstn] in H. rewrite app_nil_r in H. apply H. apply in_seq. rewrite app_length. lia.
Qed.
Theorem C96_crash_refuted : exists os1 os2 soft vis m, let y := nx (os1 ++ YBoot soft vis :: os2) in let L := n_log y in
  envs_ok crc32 xcfg 60 (fun _ => g1) (fun _ => 1) (fun _ => 10) (net0 1) os1 /\ vis_ok vis (s_store (n_s (nx os1))) /\
  envs_ok crc32 xcfg 60 (fun _ => g1) (fun _ => 1) (fun _ => 10) (nx (os1 ++ [YBoot soft vis])) os2 /\
  In m (published L) /\ (exists gen, snd (sstep crc32 xcfg 60 (n_s y) (SJoin g1 13 3)) = RJoin (m_seq m) gen) /\
  (forall c i, ~ In (OClient c (VDo (EStart item (i, m)))) L) /\ ~ acked_elsewhere g1 (m_seq m) L /\ ~ given_up crc32 xcfg 60 1 g1 (m_seq m) L /\ ~ skipped crc32 xcfg 60 1 g1 (m_seq m) L /\ ~ removed crc32 xcfg 60 1 (m_seq m) L.
Proof.
  exists t5, t6, 1, (fun _ => 0), (mkMsg 1 9 [7]). cbv zeta. split; [vm_compute; repeat split; discriminate|]. split; [intros n f H; revert H; vm_compute; intros [H|[]]; injection H as _ <-; discriminate|]. split; [vm_compute; repeat split; discriminate|].
  split; [vm_compute; auto|]. split; [eexists; vm_compute; reflexivity|]. split; [intros c i; vm_compute; intuition congruence|]. split; [intros (c & gen & H); revert H; vm_compute; intuition congruence|].
  split; [|split].
  - intros (a & b & E & G). assert (C : forallb (fun n => (fun a => lately crc32 xcfg 60 1 g1 1 a <? max_del xcfg) (firstn n (n_log (nx (t5 ++ YBoot 1 (fun _ => 0) :: t6))))) (seq 0 (S (length (n_log (nx (t5 ++ YBoot 1 (fun _ => 0) :: t6)))))) = true) by (vm_compute; reflexivity). pose proof (prefixes (fun a => lately crc32 xcfg 60 1 g1 1 a <? max_del xcfg) (n_log (nx (t5 ++ YBoot 1 (fun _ => 0) :: t6))) C a b E) as P. cbv beta in P. cbn [m_seq] in G. apply N.ltb_lt in P. lia.
  - intros (a & who & r & b & E & _). assert (I : In (OServer who (SSeek false g1) r) (n_log (nx (t5 ++ YBoot 1 (fun _ => 0) :: t6)))) by (rewrite E; apply in_elt). revert I. vm_compute. intuition congruence.
  - intros (a & b & E & G). assert (C : forallb (fun n => (fun a => t_head (s_top (srv crc32 xcfg 60 1 a)) <=? 1) (firstn n (n_log (nx (t5 ++ YBoot 1 (fun _ => 0) :: t6))))) (seq 0 (S (length (n_log (nx (t5 ++ YBoot 1 (fun _ => 0) :: t6)))))) = true) by (vm_compute; reflexivity). pose proof (prefixes (fun a => t_head (s_top (srv crc32 xcfg 60 1 a)) <=? 1) (n_log (nx (t5 ++ YBoot 1 (fun _ => 0) :: t6))) C a b E) as P. cbv beta in P. cbn [m_seq] in G. apply N.leb_le in P. lia.
Qed.
(** C97: stop() counts as leaving although the callback is still running: LEAVE is sent at
    once, the record goes to another subscription, and both callbacks run at the same time
    and end well. Nothing is lost, late or restarted. *)
Definition t4 : list nop :=
  [YOther (SPub 5 [1]); YSub 0 1; YSub 1 2; YServe 0 11 1 6 0 []; YTake 0 false; YServe 0 12 2 6 0 []; YTake 0 false; YServe 0 0 0 7 0 []; YTake 0 false; YClient 0 (CWork (WTake 0 false));
   YClient 0 CStop; YServe 1 0 0 8 0 []; YServe 0 0 0 9 0 []; YTake 1 false; YClient 1 (CWork (WTake 0 false)); YClient 0 (CWork (WEnd 0 true false)); YClient 1 (CWork (WEnd 0 true false)); YServe 0 0 0 10 0 []; YServe 0 0 0 10 0 []].
Theorem C97_stop_refuted : exists os, let L := n_log (nx os) in
  envs_ok crc32 xcfg 60 (fun _ => g1) (fun _ => 1) (fun _ => 10) (net0 1) os /\
  length (filter (fun e => match e with OClient _ (VDo (EEnd _ (_, m) true)) => m_seq m =? 1 | _ => false end) L) = 2%nat /\
  (forall i, ~ In (YLose i) os /\ ~ In (YLoseA i) os) /\ (forall c, ~ In (OClient c VLost) L /\ ~ In (OClient c VErr) L) /\
  (forall o, In (YOther o) os -> o = SPub 5 [1]) /\ (forall s v, ~ In (YBoot s v) os).
Proof.
  exists t4. cbn zeta. split; [vm_compute; repeat split; discriminate|]. split; [vm_compute; reflexivity|]. split; [intro i; unfold t4; cbn; intuition discriminate|].
  split; [intro c; vm_compute; intuition discriminate|]. split; [intros o; unfold t4; cbn; intuition congruence|]. intros s v. unfold t4; cbn; intuition discriminate.
Qed.

Print Assumptions C96_no_loss.
Print Assumptions C96_kept.
Print Assumptions C96_genuine.
Print Assumptions C97_at_most.
Print Assumptions C97_again_only.
Print Assumptions C97_acked.
Print Assumptions C96_poison_refuted.
Print Assumptions C96_crash_refuted.
Print Assumptions C97_stop_refuted.
