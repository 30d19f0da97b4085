(** C92, C93: queue subscriptions of the SDK *)
From Verif Require Import LibBase SdkLoopModel SdkQueueModel SdkQueueSpec SdkQueueProofs SdkQueueFlow SdkQueueTurns.
From Coq Require Import Permutation.
Notation hlog conc os := (h_log (hrun conc os)).

(** C92: as long as there is a connection, the subscription's own steps (timers, workers,
    callbacks that return) bring it to its next CONSUME after a bounded number, and, once
    stop() has been called, bring the return of stop() instead; whatever failed before. *)
Theorem C92_goes_on : forall A conc os k ys, In (VOk k) (hlog conc os) -> online (hlog conc os) = true -> Forall (@own A k) ys -> all_real conc os ys ->
  (2 + 3 * length (received k (hlog conc os)) + 2 * N.to_nat (N.max 1 conc) < length ys)%nat ->
  exists es, hlog conc (os ++ ys) = hlog conc os ++ es /\
    (~ In (VStop k) (hlog conc os) -> In (VAsk k) es) /\ (In (VStop k) (hlog conc os) -> In (VStopped k) es).
Proof. exact goes_on. Qed.
(** C92: and unless it awaits the answer to a CONSUME, such a step can always be made. *)
Theorem C92_never_stuck : forall (A : Type) conc (os : list (hop A)) k, In (VOk k) (hlog conc os) -> ~ In (VStopped k) (hlog conc os) -> waiting k (hlog conc os) = false -> online (hlog conc os) = true ->
  exists o, own k o /\ fine o /\ hrun conc (os ++ [o]) <> hrun conc os.
Proof. exact never_stuck. Qed.
(** C92: once stop() has been called no callback is started and no CONSUME is sent. *)
Theorem C92_silent : forall A conc (os : list (hop A)) k pre post, hlog conc os = pre ++ VStop k :: post ->
  forall e, In e post -> e <> VAsk k /\ forall y, e <> VDo k (EStart y).
Proof. exact silent. Qed.
(** C92 (partial): when stop() returns, every callback that was started has ended, and
    nothing more happens for this subscription. Missing: a frame that cannot be written. *)
Theorem C92_returned_partial : forall A conc os k pre post, Forall (@fine A) os -> hlog conc os = pre ++ VStopped k :: post ->
  In (VStop k) pre /\ Permutation (starts (doings k pre)) (ends (doings k pre)) /\ forall e, In e post -> ~ acts k e.
Proof. exact returned. Qed.
(** C92 (partial): a message is passed over only after stop(), and with a connection it is
    handed back at once. Missing: a frame that cannot be written. *)
Theorem C92_handed_back_partial : forall A conc os k pre y post, Forall (@fine A) os -> hlog conc os = pre ++ VDo k (ESkip y) :: post -> online pre = true ->
  In (VStop k) pre /\ exists rest, post = VDo k (ENack y) :: rest.
Proof. exact handed_back. Qed.
(** C92: when stop() has returned for every subscription of the handle, subscribe() is
    accepted again (its EXISTS request is sent). *)
Theorem C92_free_again : forall A conc (os : list (hop A)), (forall k, In (VOk k) (hlog conc os) -> In (VStopped k) (hlog conc os)) ->
  exists n, hlog conc (os ++ [HSub]) = hlog conc os ++ [VCall n].
Proof. exact free_again. Qed.
Print Assumptions C92_goes_on.
Print Assumptions C92_never_stuck.
Print Assumptions C92_silent.
Print Assumptions C92_returned_partial.
Print Assumptions C92_handed_back_partial.
Print Assumptions C92_free_again.

(** three messages, two at a time; stop() while the first two are being handled *)
Definition os1 : list (hop N) := [HSub; HExists 0 (Some true); HAnswer 0 (Some []); HAnswer 0 None; HWake 0; HAnswer 0 (Some [11; 12; 13]);
  HWork 0 (WTake 0 false); HWork 0 (WTake 1 false); HWork 0 (WEnd 1 true false)].
Definition ys1 : list (hop N) := [HWork 0 (WTake 1 false); HWork 0 (WTake 1 false); HWork 0 (WEnd 0 false false); HWork 0 (WTake 0 false); HNext 0].
Example C92_example : Forall fine (os1 ++ [HStop 0] ++ ys1) /\ online (hlog 2 os1) = true /\ waiting 0 (hlog 2 os1) = false /\
  hlog 2 os1 = [VCall 0; VOk 0; VAsk 0; VGot 0 (Some []); VAsk 0; VGot 0 None; VAsk 0; VGot 0 (Some [11; 12; 13]); VDo 0 (EStart 11); VDo 0 (EStart 12); VDo 0 (EEnd 12 true); VDo 0 (EAck 12)] /\
  hlog 2 (os1 ++ [HStop 0] ++ ys1) = hlog 2 os1 ++ [VStop 0; VDo 0 (ESkip 13); VDo 0 (ENack 13); VDo 0 (EEnd 11 false); VDo 0 (ENack 11); VStopped 0] /\
  hlog 2 (os1 ++ [HSub]) = hlog 2 os1 ++ [VRefused 1] /\ hlog 2 (os1 ++ [HStop 0] ++ ys1 ++ [HSub]) = hlog 2 (os1 ++ [HStop 0] ++ ys1) ++ [VCall 1].
Proof. split; [repeat constructor|]. vm_compute. auto 10. Qed.
(** the hypotheses of C92_goes_on can be met: every step of [ys1] changes something *)
Example C92_real : Forall (own 0) ys1 /\ all_real 2 (os1 ++ [HStop 0]) ys1.
Proof.
  split; [repeat constructor|]. unfold ys1. intros a o b E. do 5 (destruct a as [|? a]; cbn [app] in E; [injection E as <- <-; vm_compute; discriminate|]; injection E as <- E). destruct a; discriminate.
Qed.

(** Writing an acknowledgement throws (C11) while another callback runs: the batch is
    abandoned, stop() returns, and the callback is still running. *)
Theorem C92_returned_refuted : exists os k pre post, hlog 2 os = pre ++ VStopped k :: post /\ (exists y : N, In (VDo k (EStart y)) pre /\ ~ In y (ends (doings k pre))) /\ exists e, In e post /\ acts k e.
Proof.
  exists [HSub; HExists 0 (Some true); HAnswer 0 (Some [11; 12]); HWork 0 (WTake 0 false); HWork 0 (WTake 1 false); HWork 0 (WEnd 0 true true); HStop 0; HNext 0; HOld 0 0 (WEnd 1 true false)], O,
    [VCall 0; VOk 0; VAsk 0; VGot 0 (Some [11; 12]); VDo 0 (EStart 11); VDo 0 (EStart 12); VDo 0 (EEnd 11 true); VStop 0], [VDo 0 (EEnd 12 true); VDo 0 (EAck 12)].
  split; [vm_compute; reflexivity|]. split; [exists 12; split; [cbn; auto 10|cbn; intuition discriminate]|]. exists (VDo 0 (EAck 12)). cbn. auto.
Qed.
Print Assumptions C92_returned_refuted.

(** C93 (partial): if subscribe() is not called while another call on the handle is under
    way, then when a call returns, stop() has returned for all earlier subscriptions. *)
Theorem C93_single_partial : forall A conc (os : list (hop A)) i j pre post, one_by_one conc os ->
  hlog conc os = pre ++ VOk j :: post -> In (VOk i) pre -> In (VStopped i) pre.
Proof. exact single. Qed.
Print Assumptions C93_single_partial.
Example C93_example : let os := os1 ++ [HStop 0] ++ ys1 ++ [HSub; HExists 1 (Some true)] in one_by_one 2 os /\ exists pre, hlog 2 os = pre ++ VOk 1 :: [VAsk 1] /\ In (VOk 0) pre.
Proof.
  split; [|eexists (hlog 2 (os1 ++ [HStop 0] ++ ys1 ++ [HSub])); vm_compute; auto].
  unfold os1, ys1. cbn [app]. intros a b E. do 15 (destruct a as [|? a]; [first [discriminate E|intros k H; exfalso; revert H; vm_compute; tauto]|]; cbn [app] in E; injection E as <- E).
  destruct a as [|? a].
  - intros k H. left. revert H. vm_compute. intros [H|H]; [injection H as <-; tauto|exfalso]. repeat (destruct H as [H|H]; [discriminate H|]). exact H.
  - cbn [app] in E. injection E as _ E. destruct a as [|? a]; [discriminate|]. destruct a; discriminate.
Qed.
(** Two calls at once are both accepted: two loops run on the handle; and after the stop()
    of one a third is accepted while the other still runs. *)
Theorem C93_two_loops_refuted : exists os : list (hop N), hlog 1 os = [VCall 0; VCall 1; VOk 0; VAsk 0; VOk 1; VAsk 1; VGot 0 (Some [11]); VDo 0 (EStart 11); VGot 1 (Some [12]); VDo 1 (EStart 12);
  VStop 0; VDo 0 (EEnd 11 true); VDo 0 (EAck 11); VStopped 0; VCall 2; VOk 2; VAsk 2].
Proof.
  exists [HSub; HSub; HExists 0 (Some true); HExists 1 (Some true); HAnswer 0 (Some [11]); HWork 0 (WTake 0 false); HAnswer 1 (Some [12]); HWork 1 (WTake 0 false);
    HStop 0; HWork 0 (WEnd 0 true false); HWork 0 (WTake 0 false); HNext 0; HSub; HExists 2 (Some true)].
  vm_compute. reflexivity.
Qed.
Print Assumptions C93_two_loops_refuted.
