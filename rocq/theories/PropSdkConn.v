(** C84-C86: the SDK's connection object. *)
From Verif Require Import LibBase LibMap WireModel WireProofs CmdModel RespModel PubSubModel SdkConnModel SdkConnSpec SdkConnProofs SdkConnHeard.

(** C84. No promise is settled twice, and only promises of calls that were made. *)
Theorem C84_at_most_once : forall json_ok xs, NoDup (settled (ulog json_ok xs)) /\
  forall n, In n (settled (ulog json_ok xs)) -> (n < length (filter is_send xs))%nat.
Proof. exact at_most_once. Qed.
Print Assumptions C84_at_most_once.
(** Every settlement tells the truth: a result or server error is the response that just
    arrived with the id written on this very request, on the same connection; a timeout
    comes after the due time with no response seen; a closed connection was lost while
    the request waited; the other two were never written. *)
Theorem C84_truthful : forall json_ok xs before n o after,
  ulog json_ok xs = before ++ ESettled n o :: after -> justified before n o.
Proof. exact all_justified. Qed.
Print Assumptions C84_truthful.
(** No two packets, of requests or of acks without a promise, carry the same id, for the
    first 2^32 - 2 packets. *)
Theorem C84_own_id : forall json_ok xs, (Z.of_nat (length (filter makes_packet xs)) < 2 ^ 32 - 1)%Z ->
  NoDup (wrote (ulog json_ok xs)).
Proof. exact ids_differ. Qed.
Print Assumptions C84_own_id.
(** A written request is settled as soon as its response is read, its time is over at a
    check, or the connection is lost; until disconnect(). *)
Theorem C84_settled_in_time_partial : forall json_ok xs before n id now tmo after,
  (Z.of_nat (length (filter makes_packet xs)) < 2 ^ 32 - 1)%Z -> readable_errors (ulog json_ok xs) ->
  ulog json_ok xs = before ++ EAsked n id now tmo :: after ->
  In n (settled after) \/ In EEnd after \/ waits n id (now + tmo) after.
Proof. exact unsettled_waits. Qed.
Print Assumptions C84_settled_in_time_partial.
(** Without disconnect(), one check after the last due time leaves no request open; so
    does the loss of the connection. *)
Theorem C84_all_settled_partial : forall json_ok xs t, ~ In UDisconnect xs ->
  (Z.of_nat (length (filter makes_packet xs)) < 2 ^ 32 - 1)%Z -> readable_errors (ulog json_ok xs) ->
  (forall now tmo bad, In (USend now tmo bad) xs -> now + tmo < t) ->
  forall n, (n < length (filter is_send xs))%nat -> In n (settled (ulog json_ok (xs ++ [USweep t]))).
Proof. exact swept_all. Qed.
Print Assumptions C84_all_settled_partial.
Theorem C84_loss_settles_partial : forall json_ok xs, ~ In UDisconnect xs ->
  (Z.of_nat (length (filter makes_packet xs)) < 2 ^ 32 - 1)%Z -> readable_errors (ulog json_ok xs) ->
  forall n, (n < length (filter is_send xs))%nat -> In n (settled (ulog json_ok (xs ++ [UClose]))).
Proof. exact closed_all. Qed.
Print Assumptions C84_loss_settles_partial.
(** disconnect() leaves every open request unsettled for ever. *)
Theorem C84_disconnect_hangs : forall json_ok xs n,
  (n < length (filter is_send xs))%nat -> ~ In n (settled (ulog json_ok xs)) ->
  forall ys, ~ In n (settled (ulog json_ok (xs ++ UDisconnect :: ys))).
Proof. exact cut_off. Qed.
Print Assumptions C84_disconnect_hangs.
Theorem C84_disconnect_refuted : exists xs n, (n < length (filter is_send xs))%nat /\
  forall json_ok ys, ~ In n (settled (ulog json_ok (xs ++ UDisconnect :: ys))).
Proof.
  exists [USend 0 15000 false], 0%nat. split; [cbn; auto|].
  intros json_ok ys. apply cut_off; [cbn; auto|]. cbn. tauto.
Qed.
Print Assumptions C84_disconnect_refuted.

(** A history with everything in it: requests 0..5 with ids 1, 2, 4, 5, 6, 7, an ack with id 3
    in between; the response to 1 comes before that to 0 and cut into chunks; an error
    response; a timeout; a late response to it, ignored; the loss; a reconnect. *)
Definition resp (id : N) (r : response) : bytes := encode (OResponse id r).
Definition sops : list cliop :=
  [USend 10 100 false; USend 10 100 false; UFire false; USend 20 50 false;
   UData (firstn 4 (resp 2 (RData [7])));
   UData (skipn 4 (resp 2 (RData [7])) ++ resp 3 ROk ++ firstn 2 (resp 1 (RError [33])));
   UData (skipn 2 (resp 1 (RError [33]))); USweep 70; USweep 71; UData (resp 4 ROk);
   USend 80 100 false; USend 80 100 true; UClose; USend 81 100 false; UWake; UDialFail; UWake; UDialOk;
   USend 90 100 false; UData (resp 8 RNull)].
Example C84_example : ulog (fun _ => true) sops =
  [EAsked 0 1 10 100; EAsked 1 2 10 100; EFired 3; EAsked 2 4 20 50;
   EGot 2 3 [7]; ESettled 1 (Resolved 3 [7]); EGot 3 0 []; EGot 1 1 [0; 0; 0; 1; 33]; ESettled 0 (Failed [33]);
   ESwept 70; ESwept 71; ESettled 2 (TimedOut 50); EGot 4 0 [];
   EAsked 3 5 80 100; ESettled 4 Threw; ELost; ESettled 3 Closed; ESettled 5 NotConnected; ELost; EUp;
   EAsked 6 8 90 100; EGot 8 2 []; ESettled 6 (Resolved 2 [])] /\
  readable_errors (ulog (fun _ => true) sops) /\ ~ In UDisconnect sops.
Proof.
  assert (E : ulog (fun _ => true) sops = [EAsked 0 1 10 100; EAsked 1 2 10 100; EFired 3; EAsked 2 4 20 50;
   EGot 2 3 [7]; ESettled 1 (Resolved 3 [7]); EGot 3 0 []; EGot 1 1 [0; 0; 0; 1; 33]; ESettled 0 (Failed [33]);
   ESwept 70; ESwept 71; ESettled 2 (TimedOut 50); EGot 4 0 [];
   EAsked 3 5 80 100; ESettled 4 Threw; ELost; ESettled 3 Closed; ESettled 5 NotConnected; ELost; EUp;
   EAsked 6 8 90 100; EGot 8 2 []; ESettled 6 (Resolved 2 [])]) by (vm_compute; reflexivity).
  split; [exact E|]. split.
  - rewrite E. clear E. intros id d H. cbn [In] in H.
    repeat (destruct H as [H|H]; [try discriminate|]); [|contradiction].
    injection H as <- <-. vm_compute. discriminate.
  - cbn. intuition discriminate.
Qed.

(** C85. disconnect() of a connected client is final: it never writes, hears or
    connects again. *)
Theorem C85_final_partial : forall json_ok xs ys, u_up (ustate json_ok xs) = true ->
  u_up (ustate json_ok (xs ++ UDisconnect :: ys)) = false /\
  exists l, ulog json_ok (xs ++ UDisconnect :: ys) = ulog json_ok xs ++ EEnd :: l /\ wrote l = [] /\ ~ In EUp l /\
    (forall t ty d, ~ In (EPushed t ty d) l).
Proof. exact stays_down. Qed.
Print Assumptions C85_final_partial.
(** Called while the client waits to reconnect it is not: the client connects again,
    writes requests, and these are never timed out. *)
Theorem C85_final_refuted : exists xs ys, In UDisconnect xs /\ forall json_ok,
  ulog json_ok (xs ++ ys) = [ELost; EEnd; EUp; EAsked 0 1 0 100] /\
  forall t, ~ In 0%nat (settled (ulog json_ok (xs ++ ys ++ [USweep t]))).
Proof.
  exists [UClose; UDisconnect], [UWake; UDialOk; USend 0 100 false]. split; [cbn; auto|].
  intro json_ok. split; [vm_compute; reflexivity|]. intros t H. vm_compute in H. exact H.
Qed.
Print Assumptions C85_final_refuted.
Example C85_example : u_up (ustate (fun _ => true) sops) = true /\ length (ulog (fun _ => true) sops) = 23%nat.
Proof. vm_compute. auto. Qed.

(** C86. While a connection is up the application hears exactly what the server wrote:
    each response with its id, status and data, each push with its topic and value, in
    order, whatever else the client does and however the bytes are cut; provided the
    messages published are values as the SDK writes them. *)
Theorem C86_hears_partial : forall json_ok xs ys outs hs tail,
  fresh json_ok xs -> Forall (fun o => steady o = true) ys ->
  Forall2 (sounds json_ok) outs hs -> Forall WireProofs.out_ok outs -> sdk_split tail = DNone ->
  concat (received ys) = concat (map encode outs) ++ tail ->
  exists l, ulog json_ok (xs ++ ys) = ulog json_ok xs ++ l /\ heard l = hs /\ ~ In EThrown l.
Proof. exact heard_written. Qed.
Print Assumptions C86_hears_partial.
(** A message without any byte, which the server accepts and passes on to the
    subscribers, makes the 'data' callback of every SDK subscriber throw. *)
Theorem C86_empty_message_refuted : exists topic json p,
  dispatch (fun _ _ => true) 33 p = DCmd (CmdModel.PPub topic json []) /\
  (forall ticks inst_max ttl now, snd (publish ticks inst_max ttl now topic [] false None
     (fst (subscribe now 1 topic (connect 1 ps0)))) = Some [(1, (topic, []))]) /\
  forall json_ok, ulog json_ok [UData (encode (OPush 0 (push_wire topic [])))] = [EThrown].
Proof.
  exists [116], [123; 125], (be 4 1 ++ [116] ++ be 4 2 ++ [123; 125]).
  split; [vm_compute; reflexivity|]. split; [intros; vm_compute; reflexivity|]. intro json_ok. vm_compute. reflexivity.
Qed.
Print Assumptions C86_empty_message_refuted.
(** the same connection as above, its last part, with a push and the start of another *)
Definition hops : list cliop := [USend 90 100 false; UData (firstn 7 (resp 8 RNull)); USweep 95;
  UData (skipn 7 (resp 8 RNull) ++ encode (OPush 0 (push_wire [116] [1; 104; 105]))); UFire false; UData [3; 0; 0]].
Example C86_example : let json_ok := fun _ : bytes => true in let xs := firstn 18 sops in
  fresh json_ok xs /\ Forall (fun o => steady o = true) hops /\
  Forall2 (sounds json_ok) [OResponse 8 RNull; OPush 0 (push_wire [116] [1; 104; 105])] [HResponse 8 2 []; HPush [116] 1 [104; 105]] /\
  concat (received hops) = concat (map encode [OResponse 8 RNull; OPush 0 (push_wire [116] [1; 104; 105])]) ++ [3; 0; 0].
Proof.
  cbv zeta. split; [|split; [|split]].
  - right. exists (firstn 17 sops). vm_compute. auto.
  - repeat constructor.
  - constructor; [constructor; reflexivity|]. constructor; [|constructor].
    constructor; [reflexivity|discriminate].
  - vm_compute. reflexivity.
Qed.

(** C87. Before disconnect(), whatever losses and failed attempts there were, the client
    is connected or will be at the end of the next delay if the server can be reached;
    the application's brokers are told ('reconnect'). *)
Theorem C87_comes_back : forall json_ok xs, ~ In UDisconnect xs ->
  u_up (ustate json_ok (xs ++ [UWake; UDialOk])) = true /\
  (u_up (ustate json_ok xs) = false ->
   exists l, ulog json_ok (xs ++ [UWake; UDialOk]) = ulog json_ok xs ++ l /\ In EUp l).
Proof. exact comes_back. Qed.
Print Assumptions C87_comes_back.
Example C87_example : u_up (ustate (fun _ => true) (sops ++ [UClose; UWake; UDialFail; UWake; UDialFail; USend 0 0 false])) = false /\
  ~ In UDisconnect (sops ++ [UClose; UWake; UDialFail; UWake; UDialFail; USend 0 0 false]).
Proof. split; [vm_compute; reflexivity|]. cbn. intuition discriminate. Qed.
