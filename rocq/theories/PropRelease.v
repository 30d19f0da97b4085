(** C73: what the end of a connection releases. *)
From Verif Require Import LibBase LibMap WireModel WireProofs CmdModel PubSubModel PubSubConcModel PubSubTree StreamTopicModel StreamGroupModel StreamStoreModel StreamSysModel ConnModel ConnRelease ConnReleaseProofs.

(** The client closes between two frames and no request of it is being executed at that
    moment (waiting ones are fine): when the connection is gone it is member of no group
    and registered with pub/sub no more, and no publish finds it under the patterns it was
    registered with, whatever the others do then and later. *)
Theorem C73_clean_end_partial : forall json_ok crc cfg smax ticks inst_max default_ttl me uuid clock ord cap maxp e xs1 xs2,
  let run := crun reng rloc rx (r_start json_ok me uuid clock) (r_hstep ticks inst_max default_ttl me) (r_xstep crc cfg smax ticks inst_max default_ttl)
               (r_bye1 ticks inst_max default_ttl me) (r_bye2 cfg me ord) maxp cap in
  binds me (r_st e) -> let s1 := run (conn0 reng rloc e) xs1 in
  c_phase _ _ s1 = SockDone true -> (forall t, In t (c_run _ _ s1) -> k_poll _ t = false) -> others_only me xs2 ->
  let s2 := run s1 (KEnd rx :: xs2) in c_phase _ _ s2 = Gone true ->
  released me (c_eng _ _ s2) /\ forall pat, In pat (patterns me (c_eng _ _ s1)) -> ~ found_at me (c_eng _ _ s2) pat.
Proof. exact clean_end_releases. Qed.
Print Assumptions C73_clean_end_partial.

(** An example topic and connection 5; its consumer ids are the request ids. *)
Definition zcfg : gcfg := mkGc 10 100 5.
Definition zcrc (b : bytes) : N := lenN b.
Definition zeng : reng := mkR (mkSh node0 [(5, [])] [] []) (sys_new 10).
Notation zrun := (crun reng rloc rx (r_start (fun _ _ => true) 5 in_id (fun _ => 0)) (r_hstep 10 1000 1000 5) (r_xstep zcrc zcfg 1000 10 1000 1000)
               (r_bye1 10 1000 1000 5) (r_bye2 zcfg 5 (fun _ => [])) 100 4).
Notation zinit := (conn0 reng rloc zeng).
Definition zreqs : list req := [(1, sdk_opcode (TJoin [103] [116]), sdk_args (TJoin [103] [116])); (2, sdk_opcode (CmdModel.PSub [97]), sdk_args (CmdModel.PSub [97]))].
Definition ztask (i : nat) : list (cop rx) := [KPoll _ i; KTask _ i; KTask _ i; KTask _ i].
Definition zserve : list (cop rx) := [KRecv _ (concat (map req_wire zreqs)); KNext _; KPass _; KNext _; KPass _; KSpawn _; KSpawn _] ++ ztask 0 ++ [KWrite _] ++ ztask 0 ++ [KTask _ 0; KWrite _].
Example C73_example : let s := zrun zinit (zserve ++ [KEof _]) in
  binds 5 (r_st zeng) /\ member_of 5 (c_eng _ _ s) [103] 1 /\ registered 5 (c_eng _ _ s) /\ subs_at (split [97]) (h_tree (r_ps (c_eng _ _ s))) = [5] /\
  c_phase _ _ s = SockDone true /\ (forall t, In t (c_run _ _ s) -> k_poll _ t = false) /\
  let s2 := zrun s [KEnd _; KBye1 _; KExt _ (RXs (SJoin [103] 9 6)); KBye2 _] in c_phase _ _ s2 = Gone true /\ subs_at (split [97]) (h_tree (r_ps (c_eng _ _ s2))) = [] /\
  (exists g, gget [103] (r_st (c_eng _ _ s2)) = Some g /\ g_mem g = [(9, 6)]).
Proof.
  split; [intros gid c (g & G & _); cbn in G; discriminate|]. split; [eexists; split; vm_compute; reflexivity|]. split; [vm_compute; discriminate|]. split; [vm_compute; reflexivity|].
  split; [vm_compute; reflexivity|]. split; [vm_compute; tauto|]. split; [vm_compute; reflexivity|]. split; [vm_compute; reflexivity|]. eexists. split; vm_compute; reflexivity.
Qed.

(** Refuted for every other way to end: an oversized header, a close in the middle of a
    frame, a failed read or write (a killed client). The connection's function returns
    without the clean-up; the membership and the subscription stay, and no later step of
    the connection removes them. *)
Definition zbad (x : list (cop rx)) : Prop := let s := zrun zinit (zserve ++ x ++ [KEnd _]) in
  c_phase _ _ s = Gone false /\ forall ys, (forall y, In y ys -> own_step y) ->
  let s' := zrun s ys in member_of 5 (c_eng _ _ s') [103] 1 /\ registered 5 (c_eng _ _ s') /\ subs_at (split [97]) (h_tree (r_ps (c_eng _ _ s'))) = [5].
Theorem C73_error_end_refuted : zbad [KRecv _ [1; 0; 0; 0; 0; 3; 255; 0; 0; 0]; KProto _] /\ zbad [KRecv _ [1]; KEof _] /\ zbad [KIo _].
Proof.
  assert (G : forall x, dead (zrun zinit (zserve ++ x ++ [KEnd _])) -> member_of 5 (c_eng _ _ (zrun zinit (zserve ++ x ++ [KEnd _]))) [103] 1 ->
    registered 5 (c_eng _ _ (zrun zinit (zserve ++ x ++ [KEnd _]))) -> subs_at (split [97]) (h_tree (r_ps (c_eng _ _ (zrun zinit (zserve ++ x ++ [KEnd _]))))) = [5] -> zbad x).
  { intros x D M R S. split; [apply D|]. intros ys O s'. unfold s'. rewrite error_end_keeps by auto. auto. }
  split; [|split]; (apply G; [split; vm_compute; reflexivity|eexists; split; vm_compute; reflexivity|vm_compute; discriminate|vm_compute; reflexivity]).
Qed.
Print Assumptions C73_error_end_refuted.

(** Refuted for a clean end while a join is being executed: aborting it has no effect
    until its next await, of which it has none; it joins after the clean-up. *)
Theorem C73_join_race_refuted : exists xs1 xs2, let s1 := zrun zinit xs1 in let s2 := zrun s1 (KEnd _ :: xs2) in
  c_phase _ _ s1 = SockDone true /\ c_phase _ _ s2 = Gone true /\ c_run _ _ s2 = [] /\ others_only 5 (xs1 ++ xs2) /\ member_of 5 (c_eng _ _ s2) [103] 1.
Proof.
  exists [KRecv _ (concat (map req_wire zreqs)); KNext _; KPass _; KSpawn _; KPoll _ 0; KTask _ 0; KNext _; KPass _; KEof _], [KBye1 _; KBye2 _; KTask _ 0; KTask _ 0].
  split; [vm_compute; reflexivity|]. split; [vm_compute; reflexivity|]. split; [vm_compute; reflexivity|]. split; [|eexists; split; vm_compute; reflexivity].
  intros x H. cbn in H. repeat (destruct H as [H|H]; [discriminate|]). destruct H.
Qed.
Print Assumptions C73_join_race_refuted.
