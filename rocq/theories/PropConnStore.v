(** C83: store requests over a connection. *)
From Verif Require Import LibBase LibMap WireModel WireProofs CmdModel StoreModel ConnModel ConnClient ConnStore ConnStoreSpec ConnStoreProofs PropConn.

(** For every run of a connection, with any number of its requests in flight, other
    connections, the sweeper and the clock: the operations took effect one after another,
    each request's at one moment after it was received and before its response was
    written. [linearized] is spelled out in ConnStoreSpec.v; its last clause, that the
    history of a longer run only adds at the end, gives the order in time: a request
    received when another had its response comes behind that one. *)
Theorem C83_linearizable : forall json_ok ttl_of emsg ticks dttl imax maxp cap e0,
  exists H, linearized json_ok ttl_of emsg ticks dttl imax maxp cap e0 H.
Proof. exact linearizable. Qed.
Print Assumptions C83_linearizable.
(** A client that waits for the response of its SET before it sends a GET reads what it
    wrote, if nobody else writes the key and the value is not past its lifetime. *)
Theorem C83_own_write : forall json_ok ttl_of emsg ticks dttl imax maxp cap e xs ys zs n m f g k j v r,
  let rcv := received json_ok ttl_of emsg ticks dttl imax maxp cap e in
  let ans := answered json_ok ttl_of emsg ticks dttl imax maxp cap e in
  let clk := clock json_ok ttl_of emsg ticks dttl imax maxp cap e in
  NoDup (akeys (fst e)) -> NoDup (map in_id (rcv (xs ++ ys ++ zs))) ->
  (length (rcv xs) <= n)%nat -> nth_error (rcv (xs ++ ys)) n = Some f -> wants json_ok f (SSet k j v) -> In (OResponse (in_id f) ROk) (ans (xs ++ ys)) ->
  (length (rcv (xs ++ ys)) <= m)%nat -> nth_error (rcv (xs ++ ys ++ zs)) m = Some g -> wants json_ok g (SGet k) -> In (OResponse (in_id g) r) (ans (xs ++ ys ++ zs)) ->
  (forall i h c, i <> n -> nth_error (rcv (xs ++ ys ++ zs)) i = Some h -> wants json_ok h c -> ~ cmd_writes k c) ->
  Forall (fun o => ~ writes_key k o /\ sweep_by (clk (xs ++ ys ++ zs)) o) (others (xs ++ ys ++ zs)) ->
  clk (xs ++ ys ++ zs) < clk xs + life ttl_of ticks dttl j -> r = RData v.
Proof. exact own_write. Qed.
Print Assumptions C83_own_write.

(** A SET answered, then a GET, with a request for another key in flight, another client,
    a sweep and some time in between. *)
Definition ox : list (cop sx) := [KExt _ (SXClock 5); KRecv _ (req_wire (1, 3, sdk_args (SGet [98]))); KNext _; KPass _; KSpawn _].
Definition oy : list (cop sx) :=
  [KRecv _ (req_wire (2, 2, sdk_args (SSet [97] [] [7]))); KNext _; KPass _; KSpawn _; KExt _ (SXClock 10); KPoll _ 1; KTask _ 1; KTask _ 1; KTask _ 1; KWrite _].
Definition oz : list (cop sx) :=
  [KExt _ (SXOp (OSet 15 [98] [9] None)); KRecv _ (req_wire (3, 3, sdk_args (SGet [97]))); KExt _ (SXClock 900); KExt _ (SXOp (OSweep 915)); KNext _; KPass _; KSpawn _;
   KPoll _ 1; KTask _ 1; KTask _ 1; KTask _ 1; KPoll _ 0; KTask _ 0; KTask _ 0; KTask _ 0; KWrite _; KWrite _].
Example C83_example :
  let rcv := received xjson xttl xmsg 10 100 5000 1000 2 ([], 0) in let ans := answered xjson xttl xmsg 10 100 5000 1000 2 ([], 0) in
  let clk := clock xjson xttl xmsg 10 100 5000 1000 2 ([], 0) in
  NoDup (map in_id (rcv (ox ++ oy ++ oz))) /\ length (rcv ox) = 1%nat /\ length (rcv (ox ++ oy)) = 2%nat /\
  (exists f g, nth_error (rcv (ox ++ oy)) 1 = Some f /\ wants xjson f (SSet [97] [] [7]) /\ nth_error (rcv (ox ++ oy ++ oz)) 2 = Some g /\ wants xjson g (SGet [97])) /\
  ans (ox ++ oy) = [OResponse 2 ROk] /\ ans (ox ++ oy ++ oz) = [OResponse 2 ROk; OResponse 3 (RData [7]); OResponse 1 (RData [9])] /\
  (forall i h c, i <> 1%nat -> nth_error (rcv (ox ++ oy ++ oz)) i = Some h -> wants xjson h c -> ~ cmd_writes [97] c) /\
  Forall (fun o => ~ writes_key [97] o /\ sweep_by (clk (ox ++ oy ++ oz)) o) (others (ox ++ oy ++ oz)) /\
  clk (ox ++ oy ++ oz) < clk ox + life xttl 10 100 [].
Proof.
  cbv zeta.
  assert (R : received xjson xttl xmsg 10 100 5000 1000 2 ([], 0) (ox ++ oy ++ oz) = map req_frame [(1, 3, sdk_args (SGet [98])); (2, 2, sdk_args (SSet [97] [] [7])); (3, 3, sdk_args (SGet [97]))]) by (vm_compute; reflexivity).
  split; [rewrite R; vm_compute; repeat constructor; cbn; intuition discriminate|]. split; [vm_compute; reflexivity|]. split; [vm_compute; reflexivity|].
  split; [eexists; eexists; split; [vm_compute; reflexivity|split; [split; vm_compute; reflexivity|split; [vm_compute; reflexivity|split; vm_compute; reflexivity]]]|].
  split; [vm_compute; reflexivity|]. split; [vm_compute; reflexivity|]. split.
  { intros i h c N E (_ & W). rewrite R in E. destruct i as [|[|[|i]]]; [|congruence| |destruct i; discriminate];
      (inversion E; subst h; vm_compute in W; inversion W; subst c; cbn; auto). }
  split; [|vm_compute; reflexivity]. assert (C : clock xjson xttl xmsg 10 100 5000 1000 2 ([], 0) (ox ++ oy ++ oz) = 915) by (vm_compute; reflexivity). rewrite C.
  change (others (ox ++ oy ++ oz)) with [OSet 15 [98] [9] None; OSweep 915]. constructor; [split; [discriminate|exact I]|]. constructor; [|constructor]. split; [intros []|cbn; lia].
Qed.

(** Requests sent without waiting have no order: two SETs of one key are sent one after
    the other in one piece, both are answered with Ok, in the order sent, and the key
    keeps the value of the first. *)
Definition pw : list req := [(1, 2, sdk_args (SSet [97] [] [7])); (2, 2, sdk_args (SSet [97] [] [8]))].
Definition pwops : list (cop sx) :=
  [KRecv _ (concat (map req_wire pw)); KNext _; KPass _; KNext _; KPass _; KSpawn _; KSpawn _; KPoll _ 0; KPoll _ 1; KTask _ 0; KTask _ 1; KTask _ 1; KTask _ 0; KTask _ 0; KTask _ 0; KWrite _; KWrite _].
Theorem C83_pipelined_any_order : exists reqs xs, let s := xrun xinit xs in
  map (fun q => snd (fst q)) reqs = [2; 2] /\ concat (arrived sx xs) = concat (map req_wire reqs) /\
  map req_frame reqs = requests _ _ s /\ map (fun f => dispatch xjson (in_meta f) (in_payload f)) (requests _ _ s) = [DCmd (SSet [97] [] [7]); DCmd (SSet [97] [] [8])] /\
  responses _ _ s = [OResponse 1 ROk; OResponse 2 ROk] /\ idle seng dispatched s /\
  do_get (snd (c_eng _ _ s)) [97] (fst (c_eng _ _ s)) = Some [7].
Proof. exists pw, pwops. vm_compute. repeat split; reflexivity. Qed.
Print Assumptions C83_pipelined_any_order.
