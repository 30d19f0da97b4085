(** Properties of the SDK's stream subscriptions: what identity they act under, whether
    they keep receiving, and what stop() guarantees (C90, C91).
    [klog conc c os]: everything observable of one subscription when its answers, losses of
    the connection, callbacks and calls of stop() come as in [os].
    [yrun ... c s xs]: the same together with the server, from server state [s]. *)
From Verif Require Import LibBase LibMap Crc32 StreamTopicModel StreamGroupModel StreamStoreModel StreamSysModel SdkLoopModel SdkStreamModel SdkStreamSpec SdkStreamProofs SdkStreamFlow SdkStreamSys SdkStreamSysSpec SdkStreamServer SdkStreamAlive PropStreamGroup PropWakeStream.
From Coq Require Import Permutation.

(** C90: every FETCH is written while there is a connection, under the identity of the
    last answered JOIN, after which nothing has failed. *)
Theorem C90_identity : forall conc c os a i b, klog conc c os = a ++ VFetch i :: b -> current a = Some i /\ online a = true.
Proof. exact fetch_current. Qed.
(** C90: a JOIN is written only when there is no identity in use. *)
Theorem C90_joins : forall conc c os a b, klog conc c os = a ++ VJoin :: b -> current a = None.
Proof. exact join_alone. Qed.
(** C90: an acknowledgement is written only for a message of the last answer, after its
    callback has returned without an exception, under the identity that fetched it, which
    is still the current one. *)
Theorem C90_ack : forall conc c os a i m b, klog conc c os = a ++ VDo (EAck item (i, m)) :: b ->
  in_hand a i m /\ In (VDo (EEnd item (i, m) true)) a /\ current a = Some i.
Proof. exact ack_hand. Qed.
(** C90: without a call of stop() the loop never returns, whatever fails, and can always
    get to another FETCH. *)
Theorem C90_goes_on : forall conc c os, ~ In CStop os -> In VReady (klog conc c os) ->
  ~ In VEnd (klog conc c os) /\ exists ys i es, ~ In CStop ys /\ klog conc c (os ++ ys) = klog conc c os ++ es /\ In (VFetch i) es.
Proof. exact goes_on. Qed.
(** C90 (partial): if the connection was never lost while callbacks ran, then, as long as
    the subscription is not stopped and on a connection the server has not seen end, the
    server accepts its identity, or a seek has moved the group on (which a FETCH is told,
    and re-joins). Missing: losses while callbacks run, refuted below. *)
Theorem C90_admitted_partial : forall crc cfg smax conc gid limit c s xs i, new_srv s = true -> calm_losses crc cfg smax conc gid limit c s xs ->
  let y := yrun crc cfg smax conc gid limit c s xs in
  ~ In VStop (y_log y) -> online (y_log y) = true -> current (y_log y) = Some i -> ~ In (y_conn y) (y_gone y) ->
  exists g, gget gid (y_s y) = Some g /\ (snd i < g_gen g \/ ensure_active (fst i) (snd i) g = None).
Proof. exact admitted. Qed.
(** C90: messages the server hands out for the FETCH the loop awaits reach the callback:
    the first of them is started on. *)
Theorem C90_handed : forall crc cfg smax conc gid limit c s xs i now tok m ms, new_srv s = true -> let y := yrun crc cfg smax conc gid limit c s xs in
  k_pc (y_k y) = PFetch i -> k_active (y_k y) = true -> aget N.eqb (y_cur y) (y_wire y) = Some (y_conn y, QFetch i false) -> ~ In (y_conn y) (y_gone y) ->
  snd (sstep crc cfg smax (y_s y) (STry gid (fst i) (snd i) limit now tok)) = RMsgs (m :: ms) ->
  y_log (ysteps crc cfg smax conc gid limit y [YServe (y_cur y) 0 now tok []; YTake (y_cur y) false; YWork (WTake 0 false)]) = y_log y ++ [VGot i (m :: ms); VDo (EStart item (i, m))].
Proof. exact handed. Qed.

(** ** The subscription that is shut out
    One message is published and fetched; while its callback runs the connection is lost,
    the server sees that, and a new connection is there before the callback returns. *)
Notation yx := (yrun crc32 xcfg 60 1 g1 10 1 (sys_new 1)).
Definition xs1 : list yop :=
  [YOther (SPub 5 [1]); YServe 0 11 6 0 []; YTake 0 false; YServe 1 0 7 0 []; YTake 1 false; YWork (WTake 0 false);
   YLost; YDisc (fun _ => []) 1; YUp 2; YWork (WEnd 0 true false); YWork (WTake 0 false); YNext].
Lemma xs1_shut : Shut g1 (11, 1) (yx xs1).
Proof.
  constructor.
  - apply run_inv. reflexivity.
  - vm_compute. reflexivity.
  - left. vm_compute. reflexivity.
  - vm_compute. auto.
  - eexists. split; [vm_compute; reflexivity|]. split; vm_compute; reflexivity.
  - replace (y_wire (yx xs1)) with [(2, (2, QAck (11, 1) 1)); (3, (2, QFetch (11, 1) false))] by (vm_compute; reflexivity).
    replace (y_n (yx xs1)) with 4 by (vm_compute; reflexivity). replace (y_cur (yx xs1)) with 3 by (vm_compute; reflexivity).
    intros n conn r [H|[H|[]]]; injection H as <- <- <-; split; try lia; auto.
  - replace (y_ans (yx xs1)) with (@nil (N * (N * yans))) by (vm_compute; reflexivity). intros n conn a [].
  - vm_compute. reflexivity.
Qed.
(** From here on, whatever anyone publishes and however often the subscription asks: no
    callback is ever started again (nor anything acknowledged), as long as the connection
    holds, the requests are answered in time, the server runs and nobody seeks the group. *)
Theorem C90_shut_out_refuted : exists crc cfg smax conc gid limit c s xs, new_srv s = true /\
  let y := yrun crc cfg smax conc gid limit c s xs in
  In VReady (y_log y) /\ ~ In VStop (y_log y) /\ online (y_log y) = true /\ ~ In (y_conn y) (y_gone y) /\
  forall os, usuals crc cfg smax conc gid limit y os -> does (y_log (ysteps crc cfg smax conc gid limit y os)) = does (y_log y).
Proof.
  exists crc32, xcfg, 60, 1, g1, 10, 1, (sys_new 1), xs1. split; [reflexivity|]. cbv zeta.
  replace (y_log (yx xs1)) with [VUp 1; VJoin; VJoined (11, 1); VReady; VFetch (11, 1); VGot (11, 1) [mkMsg 1 5 [1]]; VDo (EStart item ((11, 1), mkMsg 1 5 [1])); VLost; VUp 2;
    VDo (EEnd item ((11, 1), mkMsg 1 5 [1]) true); VDo (EAck item ((11, 1), mkMsg 1 5 [1])); VFetch (11, 1)] at 1 2 3 by (vm_compute; reflexivity).
  split; [simpl; auto|]. split; [simpl; intuition discriminate|]. split; [reflexivity|]. split.
  - replace (y_gone (yx xs1)) with [1] by (vm_compute; reflexivity). replace (y_conn (yx xs1)) with 2 by (vm_compute; reflexivity). intros [H|[]]. discriminate H.
  - intros os U. apply (shut_ever crc32 xcfg 60 1 g1 10 (11, 1) os (yx xs1) xs1_shut U).
Qed.
(** Such a continuation: another message is published and the subscription asks twice more;
    it is answered at once, with nothing, while a new member of the group is given both messages. *)
Definition os1 : list yop := [YOther (SPub 9 [2]); YServe 3 0 10 0 []; YTake 3 false; YServe 4 0 11 0 []; YTake 4 false].
Example C90_shut_out_example : usuals crc32 xcfg 60 1 g1 10 (yx xs1) os1 /\
  let y := yx (xs1 ++ os1) in
  skipn 12 (y_log y) = [VGot (11, 1) []; VFetch (11, 1); VGot (11, 1) []; VFetch (11, 1)] /\
  snd (sstep crc32 xcfg 60 (fst (sstep crc32 xcfg 60 (y_s y) (SJoin g1 12 9))) (STry g1 12 1 10 12 0)) = RMsgs [mkMsg 1 5 [1]; mkMsg 2 9 [2]].
Proof. split; [vm_compute; repeat split; discriminate|]. split; vm_compute; reflexivity. Qed.

(** Non-vacuity. A subscription joins, fetches, runs a callback, acknowledges, loses its
    connection while it waits, joins again and fetches under the new identity; a seek then
    makes it join once more. The server accepts it throughout. *)
Definition xs3 : list yop :=
  [YOther (SPub 5 [1]); YServe 0 11 6 0 []; YTake 0 false; YServe 1 0 7 0 []; YTake 1 false; YWork (WTake 0 false);
   YWork (WEnd 0 true false); YWork (WTake 0 false); YNext; YServe 2 0 7 0 []; YLost; YDisc (fun _ => []) 1; YUp 2; YWake; YServe 4 12 8 0 []; YTake 4 false].
Definition xs4 : list yop := xs3 ++ [YOther (SSeek true g1); YServe 5 0 9 0 []; YTake 5 false; YServe 6 13 9 0 []; YTake 6 false].
Ltac logof v := match goal with |- context [y_log ?y] => replace (y_log y) with v by (vm_compute; reflexivity) end.
Example C90_example :
  y_log (yx xs4) = [VUp 1; VJoin; VJoined (11, 1); VReady; VFetch (11, 1); VGot (11, 1) [mkMsg 1 5 [1]]; VDo (EStart item ((11, 1), mkMsg 1 5 [1]));
    VDo (EEnd item ((11, 1), mkMsg 1 5 [1]) true); VDo (EAck item ((11, 1), mkMsg 1 5 [1])); VFetch (11, 1); VLost; VErr; VUp 2; VJoin; VJoined (12, 1); VFetch (12, 1);
    VErr; VJoin; VJoined (13, 2); VFetch (13, 2)] /\
  calm_losses crc32 xcfg 60 1 g1 10 1 (sys_new 1) xs4 /\ online (y_log (yx xs4)) = true /\ current (y_log (yx xs4)) = Some (13, 2) /\ nmem (y_conn (yx xs4)) (y_gone (yx xs4)) = false /\
  k_pc (y_k (yx xs4)) = PFetch (13, 2) /\ k_active (y_k (yx xs4)) = true /\ aget N.eqb (y_cur (yx xs4)) (y_wire (yx xs4)) = Some (y_conn (yx xs4), QFetch (13, 2) false) /\
  snd (sstep crc32 xcfg 60 (y_s (yx xs4)) (STry g1 13 2 10 10 0)) = RMsgs [mkMsg 1 5 [1]].
Proof.
  split; [vm_compute; reflexivity|]. split; [|do 6 (split; [vm_compute; reflexivity|]); vm_compute; reflexivity].
  intros a b H. unfold xs4, xs3 in H. cbn [app] in H.
  do 10 (destruct a as [|? a]; [discriminate H|]; injection H as <- H). destruct a as [|? a]; [clear H; vm_compute; reflexivity|]. injection H as <- H. exfalso.
  do 10 (destruct a as [|? a]; [discriminate H|]; injection H as _ H). destruct a; discriminate H.
Qed.
(** the same without the server, for the theorems about [klog]: what stop() does to it *)
Definition os3 : list cop :=
  [CJoined (11, 1); CFetched [mkMsg 1 5 [1]; mkMsg 2 5 [2]] false; CWork (WTake 0 false); CStop; CWork (WEnd 0 true false); CWork (WTake 0 false); CWork (WTake 0 false); CNext; CLeft; CStopped].
Example C91_example : klog 1 1 os3 = [VUp 1; VJoin; VJoined (11, 1); VReady; VFetch (11, 1); VGot (11, 1) [mkMsg 1 5 [1]; mkMsg 2 5 [2]]; VDo (EStart item ((11, 1), mkMsg 1 5 [1]));
  VStop; VLeave (11, 1); VDo (EEnd item ((11, 1), mkMsg 1 5 [1]) true); VDo (EAck item ((11, 1), mkMsg 1 5 [1])); VDo (ESkip item ((11, 1), mkMsg 2 5 [2])); VEnd; VStopped] /\
  stopping (klog 1 1 (firstn 6 os3)) = true.
Proof. split; vm_compute; reflexivity. Qed.

Print Assumptions C90_identity.
Print Assumptions C90_joins.
Print Assumptions C90_ack.
Print Assumptions C90_goes_on.
Print Assumptions C90_admitted_partial.
Print Assumptions C90_handed.
Print Assumptions C90_shut_out_refuted.

(** C91: after stop() is called no callback is started. *)
Theorem C91_silent : forall conc c os a b, klog conc c os = a ++ VStop :: b -> forall i m, ~ In (VDo (EStart item (i, m))) b.
Proof. exact no_start. Qed.
(** C91: when stop() returns, every callback that was started has ended, and from then on
    the subscription writes nothing and runs no callback. *)
Theorem C91_returned : forall conc c os a b, klog conc c os = a ++ VStopped :: b ->
  In VStop a /\ Permutation (starts item (does a)) (ends item (does a)) /\ forall e, In e b -> ~ request e /\ forall x, e <> VDo x.
Proof. exact all_over. Qed.
(** C91: whatever has happened since it was called, stop() can still return. *)
Theorem C91_resolves : forall conc c os, stopping (klog conc c os) = true -> exists ys es, klog conc c (os ++ ys) = klog conc c os ++ es /\ In VStopped es.
Proof. exact stop_resolves. Qed.
(** C91 (partial): a stop() while the subscription has an identity and a connection writes
    LEAVE for that identity, and no JOIN is written afterwards. Missing: that no membership
    remains, refuted below for a stop() while a JOIN is under way. *)
Theorem C91_leaves_partial : forall conc c os a b, klog conc c os = a ++ VStop :: b ->
  ~ In VJoin b /\ forall i, online a = true -> current a = Some i -> exists b', b = VLeave i :: b'.
Proof. intros conc c os a b H. split; [apply (no_join conc c os a b H)|]. intros i. apply (leave_written conc c os a i b H). Qed.

(** The connection is lost while the loop waits, comes back, the loop re-joins; stop() is
    called while that JOIN is under way. *)
Definition xs2 : list yop :=
  [YServe 0 11 6 0 []; YTake 0 false; YLost; YDisc (fun _ => []) 1; YUp 2; YWake; YStop; YServe 2 12 7 0 []; YTake 2 false;
   YOther (SPub 8 [1]); YServe 3 0 9 0 []; YTake 3 false; YWork (WTake 0 false); YWork (WTake 0 false); YNext; YStopped].
(** stop() has returned, nothing that could still be executed is under way, no LEAVE was ever written, and the
    subscription is a member of the group and holds a message that it will never handle. *)
Theorem C91_leave_refuted : exists crc cfg smax conc gid limit c s xs i m, new_srv s = true /\
  let y := yrun crc cfg smax conc gid limit c s xs in
  In VStopped (y_log y) /\ (forall j, ~ In (VLeave j) (y_log y)) /\ (forall n cn r, In (n, (cn, r)) (y_wire y) -> In cn (y_gone y)) /\ y_ans y = [] /\ ~ In (y_conn y) (y_gone y) /\
  In (VGot i [m]) (y_log y) /\ ~ In (VDo (EStart item (i, m))) (y_log y) /\
  exists g p, gget gid (y_s y) = Some g /\ isSome (agetN (fst i) (g_mem g)) = true /\ pget (m_seq m) (g_pend g) = Some p /\ p_cons p = fst i.
Proof.
  exists crc32, xcfg, 60, 1, g1, 10, 1, (sys_new 1), xs2, (12, 1), (mkMsg 1 8 [1]). split; [reflexivity|]. cbv zeta.
  replace (y_log (yx xs2)) with [VUp 1; VJoin; VJoined (11, 1); VReady; VFetch (11, 1); VLost; VErr; VUp 2; VJoin; VStop; VJoined (12, 1); VFetch (12, 1); VGot (12, 1) [mkMsg 1 8 [1]];
    VDo (ESkip item ((12, 1), mkMsg 1 8 [1])); VEnd; VStopped] by (vm_compute; reflexivity).
  split; [simpl; intuition|]. split; [intros j; simpl; intuition discriminate|]. split.
  { replace (y_wire (yx xs2)) with [(1, (1, QFetch (11, 1) false))] by (vm_compute; reflexivity). replace (y_gone (yx xs2)) with [1] by (vm_compute; reflexivity). intros n cn r [H|[]]. injection H as <- <- <-. left. auto. }
  split; [vm_compute; reflexivity|]. split.
  { replace (y_gone (yx xs2)) with [1] by (vm_compute; reflexivity). replace (y_conn (yx xs2)) with 2 by (vm_compute; reflexivity). intros [H|[]]. discriminate H. }
  split; [simpl; intuition|]. split; [simpl; intuition discriminate|]. eexists. eexists. split; [vm_compute; reflexivity|]. split; [vm_compute; reflexivity|]. split; vm_compute; reflexivity.
Qed.
Print Assumptions C91_silent.
Print Assumptions C91_returned.
Print Assumptions C91_resolves.
Print Assumptions C91_leaves_partial.
Print Assumptions C91_leave_refuted.
