(** C71: a waiting fetch is never left asleep.
    [swrun (wake0 s) xs] is the topic after the schedule [xs] of single steps of any
    number of requests and background tasks: operations under the topic lock, the
    storage actor's commands, the notifications owed, and the separate steps of each
    waiting fetch (take a notification future, try, suspend, wake up). *)
From Verif Require Import LibBase LibMap Crc32 StreamTopicModel StreamGroupModel StreamStoreModel StreamStoreCodec StreamStoreProofs StreamStoreFacts StreamGroupSpec StreamGroupProofs StreamGroupFetch StreamGroupHist StreamGroupFacts StreamTopicProofs StreamSysModel StreamSysProofs StreamSysHist StreamSysFacts StreamSysBoot StreamSysLife StreamWild WakeModel WakeProofs StreamWake PropStreamGroup PropStreamStorage.

Notation W0 := (wake0 sys fpar sout).
Notation top_of := (w_st sys fpar sout).
Notation answers := (w_done sys fpar sout).

(** A fetch that is suspended while no notification is under way: its group has no
    message left to hand out. [status_of]: what the group's history says about a
    message (StreamGroupSpec). The start is any state reached without a crash; the
    schedule may be anything. *)
Theorem C71_no_lost_wakeup : forall crc cfg smax A s xs id p, (forall b, crc b < 2 ^ 32) -> 1 <= max_del cfg ->
  calm crc cfg smax A s -> s_sched crc cfg smax s xs ->
  let w := swrun crc cfg smax (W0 s) xs in
  asleep sys fpar sout id p w ->
  exists g, gget (f_gid p) (top_of w) = Some g /\ (exists st h, hist cfg st h g) /\
  forall st h, hist cfg st h g -> forall q, q < t_next (s_top (top_of w)) ->
    status_of cfg st h q <> Fresh /\ forall n, status_of cfg st h q <> Waiting n.
Proof. intros crc cfg smax A s xs id p C MD H. exact (stream_no_sleep crc C cfg smax MD s xs id p (wild_calm crc C cfg smax A s MD H)). Qed.
(** A publish while a fetch of an up-to-date group is suspended: once the publish has
    notified, the fetch's next turn returns exactly the published message, provided
    the consumer is still a member and the group has room. *)
Theorem C71_published_returned : forall crc cfg smax A s xs id p g ts pay now, (forall b, crc b < 2 ^ 32) -> 1 <= max_del cfg ->
  calm crc cfg smax A s -> s_sched crc cfg smax s xs ->
  let w := swrun crc cfg smax (W0 s) xs in
  asleep sys fpar sout id p w -> gget (f_gid p) (top_of w) = Some g ->
  ensure_active (f_c p) (f_gen p) g = None -> lenN (g_pend g) < max_pend cfg -> fits (top_of w) (SPub ts pay) ->
  let w1 := swstep crc cfg smax w (WOp _ _ _ (SPub ts pay)) in
  answers (swrun crc cfg smax w1 (s_turn w1 id now)) = (id, RMsgs [mkMsg (t_next (s_top (top_of w))) ts pay]) :: answers w.
Proof. intros crc cfg smax A s xs id p g ts pay now C MD H. exact (stream_published crc C cfg smax MD s xs id p g ts pay now (wild_calm crc C cfg smax A s MD H)). Qed.
(** Any suspended fetch whose group has something to hand out is given an answer by
    its next turn after the notifications due (no messages, if its consumer is no member
    any more), or the turn itself (by dropping what
    retention removed) leaves nothing to hand out. *)
Theorem C71_next_turn : forall crc cfg smax A s xs id p n now, (forall b, crc b < 2 ^ 32) -> 1 <= max_del cfg ->
  calm crc cfg smax A s -> s_sched crc cfg smax s xs ->
  let w := swrun crc cfg smax (W0 s) xs in
  waiting sys fpar sout id w = Some (mkWaiter fpar p (Blocked n)) -> ~ s_quiet p (top_of w) ->
  let w' := swrun crc cfg smax w (s_turn w id now) in
  (exists a, a <> RWait /\ snd (sstep crc cfg smax (top_of w) (s_attempt p now)) = a /\ answers w' = (id, s_said a) :: answers w) \/ s_quiet p (top_of w').
Proof.
  intros crc cfg smax A s xs id p n now C MD H OK w HW NQ w'.
  pose proof (stream_turn crc C cfg smax MD s xs id p n now (wild_calm crc C cfg smax A s MD H) OK HW NQ) as T. cbv zeta in T. fold w in T. fold w' in T.
  destruct (s_answer crc cfg smax (top_of w) (s_attempt p now)) as [a|] eqn:E; [left|right; exact T].
  unfold s_answer in E. destruct (snd (sstep crc cfg smax (top_of w) (s_attempt p now))) as [| | | | | |] eqn:ES; try discriminate E; injection E as <-;
    eexists; (split; [|split; [reflexivity|exact T]]); discriminate.
Qed.
Print Assumptions C71_no_lost_wakeup.
Print Assumptions C71_published_returned.
Print Assumptions C71_next_turn.

(** Two members wait in an empty topic; a message is published between the arming and
    the attempt of the first; the second sleeps; then another is published. *)
Definition g1 : bytes := [103].
Definition fp (c : N) : fpar := mkF g1 c 1 5 0.
Definition sx : list (wop sop fpar N) :=
  [WOp _ _ _ (SJoin g1 11 1); WOp _ _ _ (SJoin g1 12 2); WCall _ _ _ 7 (fp 11) 50; WCall _ _ _ 8 (fp 12) 50;
   WArm _ _ _ 7; WArm _ _ _ 8; WTry _ _ _ 8 51; WOp _ _ _ (SPub 60 [1]); WTry _ _ _ 7 61; WRing _ _ _; WWake _ _ _ 8; WArm _ _ _ 8; WTry _ _ _ 8 62].
Example C71_example : s_sched crc32 xcfg 60 (sys_new 1) sx /\
  (let w := swrun crc32 xcfg 60 (W0 (sys_new 1)) sx in
   asleep _ _ _ 8 (fp 12) w /\ map (fun a => (fst a, match snd a with RMsgs ms => map m_seq ms | _ => [] end)) (answers w) = [(7, [1])] /\
   exists g, gget g1 (top_of w) = Some g /\ ensure_active 12 1 g = None /\ lenN (g_pend g) < max_pend xcfg /\ fits (top_of w) (SPub 70 [2]) /\
   let w1 := swstep crc32 xcfg 60 w (WOp _ _ _ (SPub 70 [2])) in
   answers (swrun crc32 xcfg 60 w1 (s_turn w1 8 71)) = (8, RMsgs [mkMsg 2 70 [2]]) :: answers w).
Proof.
  split.
  - unfold s_sched, sx. cbn [xsok xok fits]. unfold s_okpar, fp. cbn [f_limit]. repeat (split; [lia || exact Logic.I || (vm_compute; auto)|]). exact Logic.I.
  - split; [vm_compute; auto|split; [vm_compute; auto|]]. eexists. split; [vm_compute; reflexivity|]. split; [vm_compute; reflexivity|]. split; [vm_compute; reflexivity|].
    split; [vm_compute; auto|vm_compute; auto].
Qed.
