(** C94, C95: queue consumers end to end *)
From Verif Require Import LibBase LibMap QueueModel QueueObs SdkLoopModel SdkQueueModel SdkQueueSysModel SdkQueueSysSpec SdkQueueSysProofs SdkQueueSysFacts.
Notation ylog cfg conc size V dec os := (y_log (yrun cfg conc size V dec os)).

(** C94: at every moment each message that was pushed is in the queue (waiting, in flight or
    dead-lettered), or a callback was run with its data and ended well, or a request
    of someone else removed it (an ack, or the removal of dead letters). Whatever is lost, late or repeated. *)
Theorem C94_no_loss : forall cfg conc size V dec os b, let L := ylog cfg conc size V dec os in
  fresh (served L) -> In b (pushed (served L)) ->
  In b (listed_bodies (y_q (yrun cfg conc size V dec os))) \/ (exists v, dec (body_data b) = Some v /\ handled (body_id b) v true L) \/ removed_by_others cfg b L.
Proof. exact no_loss. Qed.
(** C94: a callback gets only what was pushed: a message's id with that message's data. *)
Theorem C94_genuine : forall cfg conc size V dec os c k id v, let L := ylog cfg conc size V dec os in
  fresh (served L) -> In (OClient c (VDo k (EStart (id, v)))) L ->
  exists b, In b (pushed (served L)) /\ body_id b = id /\ dec (body_data b) = Some v.
Proof. intros cfg conc size V dec os c k id v L F H. exact (genuine cfg conc size V dec os c k (EStart (id, v)) (id, v) F H (or_introl eq_refl)). Qed.
(** C94 (partial): a dead letter's callback failed, or it was passed over after stop(), or
    its delivery timed out, or someone else nacked it. Missing: that its callback was run. *)
Theorem C94_dead_cause_partial : forall cfg conc size V dec os d, let L := ylog cfg conc size V dec os in
  fresh (served L) -> In d (obs_dead (y_q (yrun cfg conc size V dec os))) ->
  (exists v, handled (d_id d) v false L \/ passed (d_id d) v L) \/ 
  (exists pre who n1 n2 post rq dd, L = pre ++ OServer who (QoExpire n1 n2) :: post /\ qouts cfg (qrun cfg inner0 (served pre)) (QoExpire n1 n2) = RExpired rq dd /\ In d dd) \/
  exists r now, In (OServer None (QoNack (d_id d) r now)) L.
Proof. exact dead_src. Qed.
Print Assumptions C94_no_loss.
Print Assumptions C94_genuine.
Print Assumptions C94_dead_cause_partial.

(** C95: as long as no delivery times out and nobody else nacks: at no time are two callbacks
    running for one message, in all clients together, and at most one ends well. *)
Theorem C95_at_most_once : forall cfg conc size V dec os id, let L := ylog cfg conc size V dec os in
  fresh (served L) -> in_time cfg L -> own_nacks L -> (succeeded id L <= 1 /\ started id L <= finished id L + 1)%nat.
Proof. exact at_most_once. Qed.
(** C95: and once a callback has ended well for a message, none is started for it again. *)
Theorem C95_done : forall cfg conc size V dec os ys id, let L := ylog cfg conc size V dec (os ++ ys) in
  fresh (served L) -> in_time cfg L -> own_nacks L ->
  (0 < succeeded id (ylog cfg conc size V dec os))%nat -> started id L = started id (ylog cfg conc size V dec os).
Proof. exact once_done. Qed.
Print Assumptions C95_at_most_once.
Print Assumptions C95_done.

(** a payload is one byte or more; the data is the first byte *)
Definition dec1 (p : bytes) : option N := match p with [] => None | b :: _ => Some b end.
Definition cf1 : qconfig := {| c_vt := 1000; c_max := 1 |}.
Definition cf3 : qconfig := {| c_vt := 1000; c_max := 3 |}.
Definition clk0 : nat -> N := fun _ => 5.
(** two clients, two messages; the first is nacked by one and handled by the other *)
Definition os2 : list (yop N) := [YClient 0 HSub; YClient 0 (HExists 0 (Some true)); YClient 1 HSub; YClient 1 (HExists 0 (Some true));
  YOther (QoPush 71 [11] 0 1); YOther (QoPush 72 [12] 0 2); YServe 0 3 clk0 []; YAnswer 0; YClient 0 (HWork 0 (WTake 0 false)); YServe 0 3 clk0 []; YAnswer 0; YClient 1 (HWork 0 (WTake 0 false));
  YClient 0 (HWork 0 (WEnd 0 false false)); YClient 1 (HWork 0 (WEnd 0 true false)); YServe 0 6 clk0 [1]; YServe 0 6 clk0 []; YOther (QoExpire 7 7);
  YClient 1 (HWork 0 (WTake 0 false)); YClient 1 (HNext 0); YServe 0 8 clk0 []; YAnswer 0; YClient 1 (HWork 0 (WTake 0 false)); YClient 1 (HWork 0 (WEnd 0 true false))].
Definition ys2 : list (yop N) := [YServe 0 9 clk0 []].
Definition L2 : list (yev N) := ylog cf3 1 1 N dec1 (os2 ++ ys2).
Example C94_example : fresh (served L2) /\ pushed (served L2) = [(71, [11], 0, 1); (72, [12], 0, 2)] /\
  In (OClient 0 (VDo 0 (EStart (71, 11)))) L2 /\ handled 71 11 false L2 /\ handled 71 11 true L2 /\ handled 72 12 true L2 /\ listed_bodies (y_q (yrun cf3 1 1 N dec1 (os2 ++ ys2))) = [] /\
  listed_bodies (y_q (yrun cf3 1 1 N dec1 os2)) = [(71, [11], 0, 1)].
Proof.
  split; [vm_compute; repeat constructor; cbn; intuition discriminate|]. split; [vm_compute; reflexivity|]. split; [vm_compute; auto 20|].
  split; [exists 0%nat, 0%nat; vm_compute; auto 20|]. split; [exists 1%nat, 0%nat; vm_compute; auto 30|]. split; [exists 1%nat, 0%nat; vm_compute; auto 30|]. split; vm_compute; reflexivity.
Qed.
Example C95_example : fresh (served L2) /\ in_time cf3 L2 /\ own_nacks L2 /\ started 71 L2 = 2%nat /\ succeeded 71 L2 = 1%nat /\ succeeded 71 (ylog cf3 1 1 N dec1 os2) = 1%nat.
Proof.
  split; [exact (proj1 C94_example)|]. split; [|split; [|vm_compute; auto]].
  - assert (H : forall pre post, L2 = pre ++ post -> match post with OServer _ (QoExpire n1 n2) :: _ => qouts cf3 (qrun cf3 inner0 (served pre)) (QoExpire n1 n2) = RExpired [] [] | _ => True end).
    { intros pre post E. assert (EP : pre = firstn (length pre) L2) by (rewrite E, firstn_app, Nat.sub_diag, firstn_all; cbn; rewrite app_nil_r; reflexivity).
      assert (EQ : post = skipn (length pre) L2) by (rewrite E, skipn_app, Nat.sub_diag, skipn_all; reflexivity).
      assert (LE : (length pre <= length L2)%nat) by (rewrite E, app_length; lia). remember (length pre) as n eqn:En. clear E En. subst pre post.
      replace (length L2) with 28%nat in LE by (vm_compute; reflexivity). do 29 (destruct n as [|n]; [vm_compute; exact I || reflexivity|]). lia. }
    intros pre who n1 n2 post E. exact (H pre _ E).
  - intros id r now. vm_compute. intuition discriminate.
Qed.

(** A message can be dead-lettered although no callback was ever run for it, nothing timed
    out and nobody else took part: it arrives after stop(), is handed back, and that counts
    as an attempt. *)
Definition os3 : list (yop N) := [YClient 0 HSub; YClient 0 (HExists 0 (Some true)); YClient 0 (HStop 0); YOther (QoPush 71 [11] 0 1); YServe 0 3 clk0 []; YAnswer 0; YClient 0 (HWork 0 (WTake 0 false)); YServe 0 4 clk0 [1]].
Theorem C94_dead_after_stop_refuted : exists os d, let L := ylog cf1 1 1 N dec1 os in
  fresh (served L) /\ In d (obs_dead (y_q (yrun cf1 1 1 N dec1 os))) /\ started (d_id d) L = O /\ dec1 (d_payload d) = Some 11 /\
  (forall who n1 n2, ~ In (OServer who (QoExpire n1 n2)) L) /\ (forall who q, In (OServer who q) L -> who = None -> q = QoPush 71 [11] 0 1).
Proof.
  exists os3. eexists. cbn zeta. split; [vm_compute; repeat constructor; intros []|]. split; [vm_compute; left; reflexivity|]. split; [vm_compute; reflexivity|]. split; [vm_compute; reflexivity|]. split.
  - intros who n1 n2. vm_compute. intuition discriminate.
  - intros who q H W. subst who. revert H. vm_compute. intuition congruence.
Qed.
(** ... or because a message in the same batch cannot be decoded: the SDK drops the whole
    batch before any callback. Nothing is lost, nobody stops, no callback is slow. *)
Definition os4 : list (yop N) := [YClient 0 HSub; YClient 0 (HExists 0 (Some true)); YOther (QoPush 71 [11] 0 1); YOther (QoPush 72 [] 0 1); YServe 0 3 clk0 []; YAnswer 0; YOther (QoExpire 2000 2000)].
Theorem C94_poison_refuted : exists os d, let L := ylog cf1 1 2 N dec1 os in
  fresh (served L) /\ In d (obs_dead (y_q (yrun cf1 1 2 N dec1 os))) /\ dec1 (d_payload d) = Some 11 /\ acts_of L = [] /\
  (forall i, ~ In (YLose i) os /\ ~ In (YLoseA i) os) /\ (forall c k, ~ In (OClient c (VStop k)) L).
Proof.
  exists os4. eexists. cbn zeta. split; [vm_compute; repeat constructor; cbn; intuition discriminate|]. split; [vm_compute; left; reflexivity|]. split; [vm_compute; reflexivity|]. split; [vm_compute; reflexivity|]. split.
  - intro i. split; unfold os4; cbn; intuition discriminate.
  - intros c k. vm_compute. intuition discriminate.
Qed.
(** The condition is needed: if a delivery does time out, two callbacks can run for one message at once, and both end well. *)
Definition os5 : list (yop N) := [YClient 0 HSub; YClient 0 (HExists 0 (Some true)); YClient 1 HSub; YClient 1 (HExists 0 (Some true)); YOther (QoPush 71 [11] 0 1); YServe 0 3 clk0 []; YAnswer 0; YClient 0 (HWork 0 (WTake 0 false));
  YOther (QoExpire 2000 2000); YServe 0 2001 clk0 []; YAnswer 0; YClient 1 (HWork 0 (WTake 0 false)); YClient 0 (HWork 0 (WEnd 0 true false)); YClient 1 (HWork 0 (WEnd 0 true false))].
Example C95_late_example : exists os, let L := ylog cf3 1 1 N dec1 os in fresh (served L) /\ own_nacks L /\ succeeded 71 L = 2%nat.
Proof. exists os5. cbn zeta. split; [vm_compute; repeat constructor; intros []|]. split; [|vm_compute; reflexivity]. intros id r now. vm_compute. intuition discriminate. Qed.
Print Assumptions C94_dead_after_stop_refuted.
Print Assumptions C94_poison_refuted.
