(** C82: messages pushed to a connection. *)
From Verif Require Import LibBase LibMap WireModel WireProofs CmdModel StoreModel ConnModel ConnProofs ConnFacts ConnClient ConnPush ConnStore PropConn.

(** Whatever else happens on the connection and up to any point of it: the pushes
    written are the first ones handed to the connection, in the same order, each once. *)
Theorem C82_order : forall Eng Loc X start hstep xstep bye1 bye2 maxp cap e xs,
  let s := crun Eng Loc X start hstep xstep bye1 bye2 maxp cap (conn0 Eng Loc e) xs in
  exists rest, handed X xs = pushes (written Eng Loc s) ++ rest.
Proof. exact push_order. Qed.
Print Assumptions C82_order.
(** While the connection is open none is lost: from every state of it the connection's
    own tasks, without any help of the requests in flight, can write all that were
    handed over. *)
Theorem C82_none_lost : forall Eng Loc X start hstep xstep bye1 bye2 maxp cap, 1 <= cap -> forall e xs,
  let s := crun Eng Loc X start hstep xstep bye1 bye2 maxp cap (conn0 Eng Loc e) xs in
  c_phase Eng Loc s = Open -> exists ys, Forall (quiet X) ys /\
    let s' := crun Eng Loc X start hstep xstep bye1 bye2 maxp cap s ys in
    c_phase Eng Loc s' = Open /\ pushes (written Eng Loc s') = handed X xs.
Proof. exact push_progress. Qed.
Print Assumptions C82_none_lost.
(** ... and have done so when they have nothing left to do. *)
Theorem C82_all_written : forall Eng Loc X start hstep xstep bye1 bye2 maxp cap e xs,
  let s := crun Eng Loc X start hstep xstep bye1 bye2 maxp cap (conn0 Eng Loc e) xs in
  c_phase Eng Loc s = Open -> c_out Eng Loc s = [] -> c_bridge Eng Loc s = None -> c_push Eng Loc s = [] ->
  pushes (written Eng Loc s) = handed X xs.
Proof. exact push_all. Qed.
Print Assumptions C82_all_written.
(** The SDK at the other end, having received any part of the bytes in any chunks, has
    handed to the application the first messages, in order, each once. *)
Theorem C82_client : forall Eng Loc X start hstep xstep bye1 bye2 maxp cap e xs back later,
  let s := crun Eng Loc X start hstep xstep bye1 bye2 maxp cap (conn0 Eng Loc e) xs in
  Forall WireProofs.out_ok (written Eng Loc s) -> concat back ++ later = wire Eng Loc s ->
  exists rest, handed X xs = flat_map ev_push (map sdk_handle (r_frames (feed_all sdk_split back))) ++ rest.
Proof. exact push_client. Qed.
Print Assumptions C82_client.
Theorem C82_client_all : forall Eng Loc X start hstep xstep bye1 bye2 maxp cap e xs back,
  let s := crun Eng Loc X start hstep xstep bye1 bye2 maxp cap (conn0 Eng Loc e) xs in
  Forall WireProofs.out_ok (written Eng Loc s) -> concat back = wire Eng Loc s ->
  flat_map ev_push (map sdk_handle (r_frames (feed_all sdk_split back))) = pushes (written Eng Loc s).
Proof. exact push_client_all. Qed.
Print Assumptions C82_client_all.

(** Four messages handed over, two equal; an outgoing channel of two; a response in
    between; the client has received all but the last byte of the third push. *)
Definition wops : list (cop sx) :=
  [KPushIn _ [1]; KRecv _ (req_wire (7, 3, sdk_args (SGet [97]))); KPushIn _ [2; 2]; KBridge _; KBridgeOut _; KNext _; KPass _; KSpawn _; KPoll _ 0; KTask _ 0; KTask _ 0; KTask _ 0;
   KBridge _; KBridgeOut _; KWrite _; KBridgeOut _; KPushIn _ [1]; KWrite _; KWrite _; KBridge _; KPushIn _ [3]; KBridgeOut _; KWrite _; KBridge _].
Example C82_example : let s := xrun xinit wops in
  c_phase _ _ s = Open /\ written _ _ s = [OPush 0 [1]; OResponse 7 RNull; OPush 0 [2; 2]; OPush 0 [1]] /\ handed _ wops = [[1]; [2; 2]; [1]; [3]] /\
  Forall WireProofs.out_ok (written _ _ s) /\
  exists back later, concat back ++ later = wire _ _ s /\ length later = 1%nat /\
    flat_map ev_push (map sdk_handle (r_frames (feed_all sdk_split back))) = [[1]; [2; 2]].
Proof.
  assert (W : written _ _ (xrun xinit wops) = [OPush 0 [1]; OResponse 7 RNull; OPush 0 [2; 2]; OPush 0 [1]]) by (vm_compute; reflexivity).
  split; [vm_compute; reflexivity|]. split; [exact W|]. split; [reflexivity|]. split; [cbv zeta; rewrite W; repeat constructor; vm_compute; reflexivity|].
  set (w := wire _ _ (xrun xinit wops)). exists [firstn 5 w; firstn (length w - 6) (skipn 5 w)], (skipn (length w - 1) w). vm_compute. repeat split; reflexivity.
Qed.
