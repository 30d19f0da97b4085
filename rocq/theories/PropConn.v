(** C12: one connection with any number of requests in flight. *)
From Verif Require Import LibBase LibMap WireModel WireProofs CmdModel StoreModel ConnModel ConnProofs ConnFacts ConnClient ConnStore.
From Coq Require Import Permutation.

(** Whatever the interleaving of reader, writer, push bridge, request tasks, other
    connections and background work: the responses written so far belong to different
    requests, and each has the id of its request and a result of its handler. *)
Theorem C12_own_response_partial : forall Eng Loc X start hstep xstep bye1 bye2 maxp cap e xs,
  let s := crun Eng Loc X start hstep xstep bye1 bye2 maxp cap (conn0 Eng Loc e) xs in
  exists ns, NoDup ns /\
    Forall2 (fun n o => exists f r, nth_error (requests Eng Loc s) n = Some f /\ o = OResponse (in_id f) r /\ result_of Eng Loc start hstep f r) ns (responses Eng Loc s).
Proof. exact own_responses. Qed.
Print Assumptions C12_own_response_partial.
(** With different ids, an id is answered at most once, by a result of the request
    that carried it. *)
Theorem C12_one_per_id_partial : forall Eng Loc X start hstep xstep bye1 bye2 maxp cap e xs,
  let s := crun Eng Loc X start hstep xstep bye1 bye2 maxp cap (conn0 Eng Loc e) xs in
  NoDup (map in_id (requests Eng Loc s)) ->
  NoDup (map (fun o => match o with OResponse id _ => id | OPush id _ => id end) (responses Eng Loc s)) /\
  forall n f r, nth_error (requests Eng Loc s) n = Some f -> In (OResponse (in_id f) r) (responses Eng Loc s) -> result_of Eng Loc start hstep f r.
Proof. exact distinct_ids. Qed.
Print Assumptions C12_one_per_id_partial.
(** When nothing is left to do every request has been answered, but those whose handler
    panicked. *)
Theorem C12_all_answered_partial : forall Eng Loc X start hstep xstep bye1 bye2 maxp cap e xs,
  let s := crun Eng Loc X start hstep xstep bye1 bye2 maxp cap (conn0 Eng Loc e) xs in idle Eng Loc s ->
  exists ns lost, Permutation (ns ++ lost) (seq 0 (length (requests Eng Loc s))) /\
    Forall2 (fun n o => exists f r, nth_error (requests Eng Loc s) n = Some f /\ o = OResponse (in_id f) r /\ result_of Eng Loc start hstep f r) ns (responses Eng Loc s) /\
    (forall n, In n lost -> exists f, nth_error (requests Eng Loc s) n = Some f /\ panics Eng Loc start hstep f).
Proof. exact all_answered. Qed.
Print Assumptions C12_all_answered_partial.
(** That point can be reached from every state of an open connection: the bounded
    channels cannot block each other. *)
Theorem C12_never_stuck_partial : forall Eng Loc X start hstep xstep bye1 bye2 maxp cap, 1 <= cap ->
  (forall e l, exists k, halts Eng Loc hstep k e l) -> forall e xs,
  let s := crun Eng Loc X start hstep xstep bye1 bye2 maxp cap (conn0 Eng Loc e) xs in c_phase Eng Loc s = Open ->
  exists ys, let s' := crun Eng Loc X start hstep xstep bye1 bye2 maxp cap s ys in idle Eng Loc s' /\ requests Eng Loc s' = requests Eng Loc s.
Proof. exact can_finish. Qed.
Print Assumptions C12_never_stuck_partial.
(** From the client's side: the bytes of any requests with different ids go out in any
    chunks, the bytes that come back arrive in any chunks. The SDK sees for each request
    at most one response, a result of that request, and none for other ids. At the end
    only a request whose handler panics has none. *)
Theorem C12_client_view_partial : forall Eng Loc X start hstep xstep bye1 bye2 maxp cap e xs reqs back,
  let s := crun Eng Loc X start hstep xstep bye1 bye2 maxp cap (conn0 Eng Loc e) xs in
  c_phase Eng Loc s = Open -> Forall (req_ok maxp) reqs -> concat (arrived X xs) = concat (map req_wire reqs) ->
  NoDup (map (fun q => in_id (req_frame q)) reqs) -> Forall WireProofs.out_ok (written Eng Loc s) -> concat back = wire Eng Loc s ->
  let events := map sdk_handle (r_frames (feed_all sdk_split back)) in
  (forall q, In q reqs ->
    filter (for_id (in_id (req_frame q))) events = [] \/
    exists r, result_of Eng Loc start hstep (req_frame q) r /\ filter (for_id (in_id (req_frame q))) events = [out_event (OResponse (in_id (req_frame q)) r)]) /\
  (forall id, (forall q, In q reqs -> in_id (req_frame q) <> id) -> filter (for_id id) events = []) /\
  (idle Eng Loc s -> forall q, In q reqs -> filter (for_id (in_id (req_frame q))) events = [] -> panics Eng Loc start hstep (req_frame q)).
Proof. exact client_view. Qed.
Print Assumptions C12_client_view_partial.

(** The store behind it; a non-empty option text asks for a lifetime of a thousand
    times its length. *)
Definition xjson (_ : N) (_ : bytes) : bool := true.
Definition xttl (j : bytes) : option N := match j with [] => None | _ => Some (lenN j * 1000) end.
Definition xmsg (_ : dispatched) : bytes := [63].
Notation xrun := (crun seng dispatched sx (s_start xjson) (s_hstep xttl xmsg 10 100 5000) (s_xstep 10 100 5000) (fun e => e) (fun e => e) 1000 2).
Notation xinit := (conn0 seng dispatched ([], 0)).
(** SET a=7, GET a, an unknown opcode: all in flight, the last is answered first, a
    push comes in between, another client deletes the key before the GET runs *)
Definition xreqs : list req := [(11, 2, sdk_args (SSet [97] [] [7])); (12, 3, sdk_args (SGet [97])); (13, 9, [])].
Definition xops : list (cop sx) :=
  [KRecv _ (concat (map req_wire xreqs)); KNext _; KPass _; KNext _; KPass _; KSpawn _; KSpawn _; KNext _; KPass _; KSpawn _;
   KPoll _ 2; KTask _ 2; KTask _ 2; KTask _ 2; KPoll _ 0; KTask _ 0; KTask _ 0; KTask _ 0; KPushIn _ [9]; KBridge _; KWrite _; KBridgeOut _;
   KExt _ (SXOp (ODel [97])); KPoll _ 0; KTask _ 0; KTask _ 0; KWrite _; KTask _ 0; KWrite _; KWrite _].
Example C12_example : let s := xrun xinit xops in idle seng dispatched s /\ c_phase _ _ s = Open /\ Forall (req_ok 1000) xreqs /\
  concat (arrived sx xops) = concat (map req_wire xreqs) /\ NoDup (map (fun q => in_id (req_frame q)) xreqs) /\ Forall WireProofs.out_ok (written _ _ s) /\
  written _ _ s = [OResponse 13 (RError [63]); OResponse 11 ROk; OPush 0 [9]; OResponse 12 RNull] /\
  (forall e l, exists k, halts seng dispatched (s_hstep xttl xmsg 10 100 5000) k e l).
Proof.
  assert (W : written _ _ (xrun xinit xops) = [OResponse 13 (RError [63]); OResponse 11 ROk; OPush 0 [9]; OResponse 12 RNull]) by (vm_compute; reflexivity).
  split; [vm_compute; repeat split; reflexivity|]. split; [vm_compute; reflexivity|]. split; [repeat constructor; vm_compute; discriminate|]. split; [vm_compute; reflexivity|].
  split; [vm_compute; repeat constructor; cbn; intuition discriminate|]. split; [rewrite W; repeat constructor; vm_compute; reflexivity|]. split; [exact W|].
  intros e l. exists 1%nat. cbn [halts]. unfold s_hstep. destruct (op_of _ _ _); [destruct (sstep _ _ _ _ _) as [a b]; destruct b; exact I|]. destruct l as [c| |]; [destruct c; exact I|exact I|exact I].
Qed.
(** A SET whose lifetime does not fit the clock: the task panics and the client gets no
    response, not even an error, then or later, while the connection stays up and
    answers other requests. *)
Definition preqs : list req := [(1, 2, sdk_args (SSet [97] [123; 125] [7])); (2, 3, sdk_args (SGet [97]))].
Definition pops : list (cop sx) :=
  [KRecv _ (concat (map req_wire preqs)); KNext _; KPass _; KNext _; KPass _; KSpawn _; KSpawn _;
   KPoll _ 0; KTask _ 0; KTask _ 0; KPoll _ 0; KTask _ 0; KTask _ 0; KTask _ 0; KWrite _].
Theorem C12_panic_refuted : exists reqs xs, let s := xrun xinit xs in
  Forall (req_ok 1000) reqs /\ concat (arrived sx xs) = concat (map req_wire reqs) /\ idle seng dispatched s /\
  map in_id (requests _ _ s) = [1; 2] /\ responses _ _ s = [OResponse 2 RNull] /\
  forall ys, let s' := xrun s ys in NoDup (map in_id (requests _ _ s')) -> forall r, ~ In (OResponse 1 r) (responses _ _ s').
Proof.
  exists preqs, pops.
  split; [repeat constructor; vm_compute; discriminate|]. split; [vm_compute; reflexivity|]. split; [vm_compute; repeat split; reflexivity|]. split; [vm_compute; reflexivity|].
  split; [vm_compute; reflexivity|].
  assert (A : In 0%nat (c_lost _ _ (xrun xinit pops))) by (vm_compute; auto).
  assert (B : nth_error (requests _ _ (xrun xinit pops)) 0 = Some (mkIn 1 2 1 (sdk_args (SSet [97] [123; 125] [7])))) by (vm_compute; reflexivity).
  pose proof (lost_for_good seng dispatched sx (s_start xjson) (s_hstep xttl xmsg 10 100 5000) (s_xstep 10 100 5000) (fun e => e) (fun e => e) 1000 2 ([], 0) pops 0%nat _ A B) as P.
  cbn [in_id] in P. exact P.
Qed.
Print Assumptions C12_panic_refuted.
