(** Properties of the SDK's pub/sub subscriptions over a connection that may be lost
    and re-established (C88, C89). *)
From Verif Require Import LibBase LibMap PubSubModel PubSubSpec PubSubProofs TopicSpec PubSubFacts SdkDispatch SdkSubModel SdkSubSpec SdkSubProofs SdkSubKept SdkSubGone SdkSubLive.

(** "a", "a/+" *)
Definition ta : bytes := [97].
Definition tp : bytes := [97; 47; 43].
Definition tab : bytes := [97; 47; 98].

(** the computed logs, in place of the runs *)
Ltac comp := repeat match goal with
  | |- context [slog ?l] => let v := eval vm_compute in (slog l) in replace (slog l) with v by (vm_compute; reflexivity)
  | |- context [b_srv (sst ?l)] => let v := eval vm_compute in (b_srv (sst l)) in replace (b_srv (sst l)) with v by (vm_compute; reflexivity) end.
Ltac inlog := cbn; repeat (first [left; reflexivity | right]).

(** C88 (partial): [xs] is any history in which every earlier call about the pattern
    has been resolved or rejected and the broker has executed every UNSUB of the
    pattern written on the present connection; then subscribe([t]) is called (call
    number [call_no xs]), anything follows except an unsubscribe of the pattern, and
    the call was resolved. Then, at any later time,
    - a push on a matching topic runs this call's handler exactly once;
    - on the present connection - the first one or any later one - a SUB for [t]
      has been written, and once the broker has executed it the broker holds the
      subscription as long as it has the connection open;
    - a second subscribe([t]) is rejected and changes nothing.
    Missing: overlapping calls about one topic, refuted below. *)
Theorem C88_stays_partial : forall xs t ys, let n := call_no xs in let zs := xs ++ XSub t :: ys in
  all_settled t (slog xs) -> all_served false t (slog xs) ->
  (forall t', In (XUnsub t') ys -> reads t' <> reads t) ->
  In (VDone n true) (slog zs) ->
  (forall c tau d, up_as (slog zs) = Some c -> matches_cut t tau ->
     exists ns, slog (zs ++ [XPush tau d]) = slog zs ++ [VHandled tau d ns] /\ exactly_once n ns) /\
  (forall c, up_as (slog zs) = Some c -> exists r, In (VSent r true t) (since_up (slog zs)) /\
     (In (VServed r) (slog zs) -> connected c (b_srv (sst zs)) -> holds c (reads t) (b_srv (sst zs)))) /\
  slog (zs ++ [XSub t]) = slog zs ++ [VCall (call_no zs) true t; VDone (call_no zs) false].
Proof.
  intros xs t ys n zs H1 H2 H3 H4. destruct (stays_subscribed xs t ys H1 H2 H3 H4) as (A & B & C).
  split; [|split; [exact B|exact C]]. intros c tau d Hu Hm. apply (A c tau d Hu). apply matches_cut_iff. exact Hm.
Qed.
Print Assumptions C88_stays_partial.

(** From publisher to handler: in the situation above, when the broker has executed
    the requests about the pattern and has the connection open, a publish to a
    matching topic queues exactly one copy to this client, and that copy runs the
    handler exactly once. *)
Theorem C88_delivered_partial : forall ticks inst_max default_ttl xs t ys c tau d rt ttl now, let n := call_no xs in let zs := xs ++ XSub t :: ys in
  all_settled t (slog xs) -> all_served false t (slog xs) ->
  (forall t', In (XUnsub t') ys -> reads t' <> reads t) ->
  In (VDone n true) (slog zs) ->
  up_as (slog zs) = Some c -> all_served true t (slog zs) -> connected c (b_srv (sst zs)) -> fresh_clients (b_srv (sst zs)) ->
  (rt = true -> d <> [] -> now + eff_ttl default_ttl ttl * ticks <= inst_max) -> matches_cut t tau ->
  exists cs ns, answer ticks inst_max default_ttl (b_srv (sst zs)) (PPub tau d rt ttl now) = Some (map (fun c => (c, (tau, d))) cs) /\
    NoDup cs /\ In c cs /\ slog (zs ++ [XPush tau d]) = slog zs ++ [VHandled tau d ns] /\ exactly_once n ns.
Proof.
  intros ticks im dt xs t ys c tau d rt ttl now n zs H1 H2 H3 H4 Hu Hs Hc Hf Hr Hm. apply matches_cut_iff in Hm.
  destruct (stays_subscribed xs t ys H1 H2 H3 H4) as (A & B & _). destruct (A c tau d Hu Hm) as (ns & A1 & A2).
  destruct (B c Hu) as (r & B1 & B2). destruct (pub_ans ticks im dt _ tau d rt ttl now Hf Hr) as (cs & C1 & C2 & C3).
  exists cs, ns. split; [exact C1|]. split; [exact C2|]. split; [|auto]. apply C3. exists (reads t). split; [|exact Hm]. apply B2; auto.
  apply (Hs r t); auto.
Qed.
Print Assumptions C88_delivered_partial.

(** the connection is lost twice; the restore runs each time *)
Definition kx : list subop := [XUp 1; XSub tp; XServe 0 5; XReply 0; XRun 0; XUnsub tp; XServe 1 6; XReply 1; XRun 1].
Definition ky : list subop := [XServe 2 7; XReply 2; XRun 2; XSub ta; XLost; XRun 3; XOther (PDisconnect 1); XUp 2; XLost; XRun 4; XUp 3; XServe 5 8; XReply 5; XRun 5].
Example C88_example :
  call_no kx = 2%nat /\ all_settled tp (slog kx) /\ all_served false tp (slog kx) /\
  (forall t', In (XUnsub t') ky -> reads t' <> reads tp) /\ In (VDone 2 true) (slog (kx ++ XSub tp :: ky)) /\
  up_as (slog (kx ++ XSub tp :: ky)) = Some 3 /\ all_served true tp (slog (kx ++ XSub tp :: ky)) /\
  connected 3 (b_srv (sst (kx ++ XSub tp :: ky))) /\ fresh_clients (b_srv (sst (kx ++ XSub tp :: ky))) /\ matches_cut tp tab /\
  slog (kx ++ XSub tp :: ky ++ [XPush tab [9]]) = slog (kx ++ XSub tp :: ky) ++ [VHandled tab [9] [2%nat]].
Proof.
  comp. split; [reflexivity|].
  split; [|split; [|split; [|split; [|split; [|split; [|split; [|split; [|split]]]]]]]].
  - intros m b t' H _. vm_compute in H. repeat (destruct H as [H|H]; [try discriminate H|]); try (exfalso; exact H);
      injection H as <- <- <-; exists true; inlog.
  - intros r t' H _. vm_compute in H. repeat (destruct H as [H|H]; [try discriminate H|]); try (exfalso; exact H); injection H as <- <-; inlog.
  - intros t' H. vm_compute in H. intuition discriminate.
  - inlog.
  - vm_compute. reflexivity.
  - intros r t' H _. vm_compute in H. repeat (destruct H as [H|H]; [try discriminate H|]); try (exfalso; exact H); injection H as <- <-; inlog.
  - eexists [_; _; _; _; _; _], _. split; [reflexivity|]. cbn. intuition discriminate.
  - unfold fresh_clients. vm_compute. repeat (apply NoDup_cons; [cbn; intuition discriminate|]). apply NoDup_nil.
  - apply matches_cut_iff. apply mq_lit; [discriminate|discriminate|]. apply mq_plus. constructor.
  - vm_compute. reflexivity.
Qed.

(** The calls end: none is settled twice, in any history; a call that wrote its request
    resolves once the broker has executed it and the response has come in, if the
    connection lasted and the time limit did not strike, whatever happens in between;
    and it is settled after a loss or the time limit. *)
Theorem C88_settled_once : forall xs n, (dones n (slog xs) <= 1)%nat.
Proof. exact settled_once. Qed.
Print Assumptions C88_settled_once.
Theorem C88_resolves : forall xs sub t r y1 now y2 y3 y4, let n := call_no xs in
  slog (xs ++ [the_call sub t]) = slog xs ++ [VCall n sub t; VSent r sub t] ->
  (forall o, In o (y1 ++ y2) -> o <> XLost /\ o <> XFail r) ->
  In (VDone n true) (slog (xs ++ the_call sub t :: y1 ++ XServe r now :: y2 ++ XReply r :: y3 ++ XRun r :: y4)).
Proof. exact call_resolves. Qed.
Print Assumptions C88_resolves.
Theorem C88_settles : forall xs sub t r y1 e y2 y3, let n := call_no xs in
  slog (xs ++ [the_call sub t]) = slog xs ++ [VCall n sub t; VSent r sub t] -> e = XLost \/ e = XFail r ->
  exists ok, In (VDone n ok) (slog (xs ++ the_call sub t :: y1 ++ e :: y2 ++ XRun r :: y3)).
Proof. exact call_settles. Qed.
Print Assumptions C88_settles.
Example C88_settled_example :
  slog (kx ++ [the_call true tp]) = slog kx ++ [VCall (call_no kx) true tp; VSent 2 true tp] /\
  dones 2 (slog (kx ++ the_call true tp :: [XSub ta] ++ XServe 2 7 :: [XUnsub ta] ++ XReply 2 :: [XLost] ++ XRun 2 :: [])) = 1%nat /\
  In (VDone 2 true) (slog (kx ++ the_call true tp :: [XSub ta] ++ XServe 2 7 :: [XUnsub ta] ++ XReply 2 :: [XLost] ++ XRun 2 :: [])) /\
  In (VDone 2 false) (slog (kx ++ the_call true tp :: [XSub ta] ++ XLost :: [XRun 3] ++ XRun 2 :: [])).
Proof. comp. split; [reflexivity|]. split; [reflexivity|]. split; inlog. Qed.

(** Two unsubscribes that overlap, and a subscribe after the first of them is
    confirmed: the second unsubscribe ends the new subscription, at the client and
    at the broker, although the subscribe was resolved and no unsubscribe was called
    after it. *)
Theorem C88_overlap_refuted : exists xs t ys,
  all_served true t (slog (xs ++ XSub t :: ys)) /\ all_served false t (slog (xs ++ XSub t :: ys)) /\
  (forall t', ~ In (XUnsub t') ys) /\ In (VDone (call_no xs) true) (slog (xs ++ XSub t :: ys)) /\
  up_as (slog (xs ++ XSub t :: ys)) = Some 1 /\ connected 1 (b_srv (sst (xs ++ XSub t :: ys))) /\
  ~ holds 1 (reads t) (b_srv (sst (xs ++ XSub t :: ys))) /\
  slog (xs ++ XSub t :: ys ++ [XPush t [9]]) = slog (xs ++ XSub t :: ys) ++ [VHandled t [9] []].
Proof.
  exists [XUp 1; XSub ta; XServe 0 5; XReply 0; XRun 0; XUnsub ta; XUnsub ta; XServe 1 6; XReply 1; XRun 1], ta,
    [XServe 3 7; XReply 3; XRun 3; XServe 2 8; XReply 2; XRun 2].
  comp. split; [|split; [|split; [|split; [|split; [|split; [|split]]]]]].
  - intros r t' H _. vm_compute in H. repeat (destruct H as [H|H]; [try discriminate H|]); try (exfalso; exact H); injection H as <- <-; inlog.
  - intros r t' H _. vm_compute in H. repeat (destruct H as [H|H]; [try discriminate H|]); try (exfalso; exact H); injection H as <- <-; inlog.
  - intros t' H. cbn in H. intuition discriminate.
  - inlog.
  - vm_compute. reflexivity.
  - eexists [], _. split; [reflexivity|]. cbn. intuition discriminate.
  - match goal with |- ~ holds 1 _ ?h => let a := eval cbn in (removelast h) in change h with (a ++ [PUnsub 1 [97]]) end.
    rewrite holds_snoc. cbn [hold_step]. intros [_ H]. apply H. split; reflexivity.
  - vm_compute. reflexivity.
Qed.
Print Assumptions C88_overlap_refuted.

(** C89: the step at which an unsubscribe([t]) call is resolved ends the handler: as
    long as subscribe([t]) is not called again, no push runs a handler given to a
    subscribe([t]) call - for every history, whatever overlaps, fails or is lost. *)
Theorem C89_silent : forall xs o ys n t, In (VCall n false t) (slog (xs ++ [o])) ->
  ~ In (VDone n true) (slog xs) -> In (VDone n true) (slog (xs ++ [o])) ->
  ~ In (XSub t) ys -> forall tau d, let zs := xs ++ o :: ys in
  up_as (slog zs) <> None -> exists ns, slog (zs ++ [XPush tau d]) = slog zs ++ [VHandled tau d ns] /\
    forall m, In m ns -> ~ In (VCall m true t) (slog zs).
Proof. exact silent. Qed.
Print Assumptions C89_silent.

(** ... and the broker has dropped the subscription (partial): the unsubscribe wrote
    its request, the broker had executed every SUB of the pattern written on the
    present connection, no other topic with the same reading was ever subscribed,
    and no subscribe of the pattern is called later. Then from the moment the call
    is resolved the broker holds no such subscription for the client, on this and on
    every later connection. *)
Theorem C89_dropped_partial : forall xs t ys r c, let n := call_no xs in let zs := xs ++ XUnsub t :: ys in
  fresh_clients (b_srv (sst zs)) -> all_served true t (slog xs) ->
  (forall m t', In (VCall m true t') (slog xs) -> reads t' = reads t -> t' = t) ->
  slog (xs ++ [XUnsub t]) = slog xs ++ [VCall n false t; VSent r false t] ->
  (forall t', In (XSub t') ys -> reads t' <> reads t) ->
  In (VDone n true) (slog zs) -> up_as (slog zs) = Some c -> ~ holds c (reads t) (b_srv (sst zs)).
Proof. exact drops. Qed.
Print Assumptions C89_dropped_partial.

Definition gx : list subop := [XUp 1; XSub tp; XServe 0 5; XReply 0; XRun 0; XSub ta; XServe 1 5; XReply 1; XRun 1].
Definition gy : list subop := [XServe 2 6; XReply 2].
Definition gz : list subop := [XLost; XUp 2; XServe 3 7; XReply 3; XRun 3].
Example C89_example :
  call_no gx = 2%nat /\ In (VCall 2 false tp) (slog (gx ++ XUnsub tp :: gy ++ [XRun 2])) /\ ~ In (VDone 2 true) (slog (gx ++ XUnsub tp :: gy)) /\
  In (VDone 2 true) (slog (gx ++ XUnsub tp :: gy ++ [XRun 2])) /\ ~ In (XSub tp) gz /\
  up_as (slog (gx ++ XUnsub tp :: gy ++ XRun 2 :: gz)) = Some 2 /\
  fresh_clients (b_srv (sst (gx ++ XUnsub tp :: gy ++ XRun 2 :: gz))) /\ all_served true tp (slog gx) /\
  (forall m t', In (VCall m true t') (slog gx) -> reads t' = reads tp -> t' = tp) /\
  slog (gx ++ [XUnsub tp]) = slog gx ++ [VCall 2 false tp; VSent 2 false tp] /\
  b_srv (sst (gx ++ XUnsub tp :: gy ++ XRun 2 :: gz)) = [PConnect 1; PSub 1 tp 5; PSub 1 ta 5; PUnsub 1 tp; PConnect 2; PSub 2 ta 7].
Proof.
  comp. split; [reflexivity|]. split; [inlog|]. split; [vm_compute; intros H; repeat (destruct H as [H|H]; [discriminate H|]); exact H|]. split; [inlog|].
  split; [vm_compute; intros H; repeat (destruct H as [H|H]; [discriminate H|]); exact H|]. split; [vm_compute; reflexivity|].
  split; [unfold fresh_clients; vm_compute; repeat (apply NoDup_cons; [cbn; intuition discriminate|]); apply NoDup_nil|].
  split; [intros r t' H _; vm_compute in H; repeat (destruct H as [H|H]; [try discriminate H|]); try (exfalso; exact H); injection H as <- <-; inlog|].
  split; [|split; vm_compute; reflexivity].
  intros m t' H E. vm_compute in H. repeat (destruct H as [H|H]; [try discriminate H|]); try (exfalso; exact H); injection H as <- <-; auto. vm_compute in E. discriminate.
Qed.

(** The restore of a reconnect and an unsubscribe may be executed in either order:
    the unsubscribe is confirmed, no subscribe follows, and the broker keeps the
    subscription. *)
Theorem C89_restore_refuted : exists xs t ys r,
  slog (xs ++ [XUnsub t]) = slog xs ++ [VCall (call_no xs) false t; VSent r false t] /\
  (forall t', ~ In (XSub t') ys) /\ In (VDone (call_no xs) true) (slog (xs ++ XUnsub t :: ys)) /\
  up_as (slog (xs ++ XUnsub t :: ys)) = Some 2 /\ holds 2 (reads t) (b_srv (sst (xs ++ XUnsub t :: ys))).
Proof.
  exists [XUp 1; XSub ta; XServe 0 5; XReply 0; XRun 0; XLost; XUp 2], ta, [XServe 2 6; XReply 2; XRun 2; XServe 1 7], 2%nat.
  comp. split; [vm_compute; reflexivity|]. split; [intros t' H; cbn in H; intuition discriminate|]. split; [inlog|]. split; [vm_compute; reflexivity|].
  eexists [_; _; _; _], _, _, []. split; [reflexivity|]. split; [reflexivity|]. split; [eexists [_; _], _; split; [reflexivity|cbn; intuition discriminate]|].
  cbn. tauto.
Qed.
Print Assumptions C89_restore_refuted.

(** A subscribe that runs into its time limit is rejected, yet the broker executes it;
    unsubscribe then sends nothing and reports success. *)
Theorem C89_timeout_refuted : exists xs t,
  slog (xs ++ [XUnsub t]) = slog xs ++ [VCall 1 false t; VDone 1 true] /\ all_settled t (slog xs) /\ all_served true t (slog xs) /\
  In (VDone 0 false) (slog xs) /\ up_as (slog (xs ++ [XUnsub t])) = Some 1 /\ holds 1 (reads t) (b_srv (sst (xs ++ [XUnsub t]))).
Proof.
  exists [XUp 1; XSub ta; XFail 0; XRun 0; XServe 0 5], ta.
  comp. split; [vm_compute; reflexivity|]. split; [|split; [|split; [inlog|split; [vm_compute; reflexivity|]]]].
  - intros m b t' H _. vm_compute in H. repeat (destruct H as [H|H]; [try discriminate H|]); try (exfalso; exact H); injection H as <- <- <-; exists false; inlog.
  - intros r t' H _. vm_compute in H. repeat (destruct H as [H|H]; [try discriminate H|]); try (exfalso; exact H); injection H as <- <-; inlog.
  - eexists [_], _, _, []. split; [reflexivity|]. split; [reflexivity|]. split; [eexists [], _; split; [reflexivity|cbn; intuition discriminate]|].
    cbn. tauto.
Qed.
Print Assumptions C89_timeout_refuted.
