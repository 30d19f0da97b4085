(** Properties of publish/subscribe (C18-C28, C78, C79). *)
From Verif Require Import LibBase LibMap PubSubModel PubSubSpec PubSubTree PubSubProofs TopicSpec PubSubFacts PubSubPersistModel PubSubPersistProofs PubSubConcModel PubSubConcProofs PubSubConcGone SdkDispatch.

Ltac nodup := unfold fresh_clients; vm_compute; repeat (apply NoDup_cons; [simpl; intuition discriminate|]); apply NoDup_nil.
(** one tick is a millisecond *)
Definition tk : N := 1000.
Definition im : N := 1000000000000000.
Definition dt : N := 3600.
(** topics: "a", "b", "a/b", "a/#", "a/+", "a/#/b", "/a", "#" *)
Definition tA : bytes := [97].
Definition tB : bytes := [98].
Definition tAB : bytes := [97; 47; 98].
Definition pAH : bytes := [97; 47; 35].
Definition pAP : bytes := [97; 47; 43].
Definition pAHB : bytes := [97; 47; 35; 47; 98].
Definition tSA : bytes := [47; 97].
Definition pH : bytes := [35].
(** clients 1 and 2; client 1 subscribes "a/+" and "a/#", client 2 "b" *)
Definition exh : list pop :=
  [PConnect 1; PConnect 2; PSub 1 pAP 0; PSub 1 pAH 0; PSub 2 tB 0; PSub 1 tB 0; PUnsub 1 tB; PPub tAB [7] true (Some 10) 1000; PPub tA [8] true None 2000].

Lemma valid_dec : forall p, (fix ok (l : list level) : bool := match l with [] => true | x :: r => if beqb x lhash then (match r with [] => true | _ => false end) else ok r end) (split p) = true -> valid_pattern p.
Proof.
  intros p. unfold valid_pattern. generalize (split p). induction l as [|x l IH]; intros H a b E; [destruct a; discriminate|]. destruct a as [|y a]; cbn in E; injection E as -> E.
  - subst l. cbn in H. destruct b; auto. discriminate.
  - destruct (beqb y lhash) eqn:Eb; [destruct l; [|discriminate]; destruct a; discriminate|]. eapply IH; eauto.
Qed.
Lemma exh_valid : all_valid exh.
Proof. intros p H. apply valid_dec. vm_compute in H. repeat (destruct H as [<-|H]; [reflexivity|]). destruct H. Qed.

(** C18: after any history, a message published to [t] reaches [c] exactly when [c]
    holds a subscription whose pattern matches [t] by the MQTT rules. *)
Theorem C18_mqtt_matching : forall ticks inst_max default_ttl h c t, fresh_clients h -> all_valid h ->
  gets ticks inst_max default_ttl h c t <-> exists p, subscribed c p h /\ matches p t.
Proof. intros. setoid_rewrite matches_iff. apply gets_iff; auto. Qed.
Print Assumptions C18_mqtt_matching.
(** any pattern, also one with '#' in the middle: it is read up to its first '#' *)
Theorem C18_any_pattern : forall ticks inst_max default_ttl h c p now t, fresh_clients h -> connected c h -> (forall q, ~ holds c q h) ->
  gets ticks inst_max default_ttl (h ++ [PSub c p now]) c t <-> matches_cut p t.
Proof. intros. rewrite matches_cut_iff. apply gets_one; auto. Qed.
Print Assumptions C18_any_pattern.
Example C18_example : fresh_clients exh /\ all_valid exh /\ subscribed 1 pAP exh /\ matches pAP tAB /\ ~ matches pAP tA /\ matches pAH tA /\
  snd (pstep1 tk im dt (PPub tAB [9] false None 5) (prun tk im dt exh ps0)) = Some [(1, (tAB, [9]))].
Proof.
  split; [nodup|]. split; [apply exh_valid|]. split; [|split; [|split; [|split]]].
  - exists [PConnect 1; PConnect 2], 0, (skipn 3 exh). split; [reflexivity|]. split; [exists [], [PConnect 2]; split; [reflexivity|]|]; cbn; intuition discriminate.
  - apply matches_iff, mq_lit; [discriminate|discriminate|]. apply mq_plus. constructor.
  - rewrite matches_iff. intro H. inversion H; subst. match goal with K : mqtt _ [] |- _ => inversion K end.
  - apply matches_iff, mq_lit; [discriminate|discriminate|]. constructor.
  - vm_compute. reflexivity.
Qed.

(** C19: a publish queues exactly one copy to every connected client with a matching
    subscription and nothing else ([cs] has no repetition; its length is the
    reported count). [data], retention, TTL and clock are arbitrary, except that a
    retained TTL must be representable by the clock (C79). *)
Theorem C19_exactly_once : forall ticks inst_max default_ttl h t data rt ttl now, fresh_clients h -> all_valid h ->
  (rt = true -> data <> [] -> now + eff_ttl default_ttl ttl * ticks <= inst_max) ->
  exists cs, answer ticks inst_max default_ttl h (PPub t data rt ttl now) = Some (map (fun c => (c, (t, data))) cs) /\ NoDup cs /\
    forall c, In c cs <-> exists p, subscribed c p h /\ matches p t.
Proof. intros. setoid_rewrite matches_iff. apply pub_exact; auto. Qed.
Print Assumptions C19_exactly_once.
(** with arbitrary patterns *)
Theorem C19_exactly_once_any_pattern : forall ticks inst_max default_ttl h t data rt ttl now, fresh_clients h ->
  (rt = true -> data <> [] -> now + eff_ttl default_ttl ttl * ticks <= inst_max) ->
  exists cs, answer ticks inst_max default_ttl h (PPub t data rt ttl now) = Some (map (fun c => (c, (t, data))) cs) /\ NoDup cs /\
    forall c, In c cs <-> exists q, holds c q h /\ mqtt q (split t).
Proof. exact pub_ans. Qed.
Print Assumptions C19_exactly_once_any_pattern.
(** whatever runs concurrently, a publish queues at most one copy to each client *)
Theorem C19_at_most_once_concurrent : forall ticks inst_max default_ttl e1 e2 t d rt ttl now, let i := length (x_th (xrun ticks inst_max default_ttl e1 x0)) in
  NoDup (sent_by i (h_log (x_sh (xrun ticks inst_max default_ttl (e1 ++ XSpawn (QPub0 t d rt ttl now) :: e2) x0)))).
Proof. exact pub_once. Qed.
Print Assumptions C19_at_most_once_concurrent.
Example C19_example : answer tk im dt exh (PPub tAB [9] true (Some 5) 3000) = Some [(1, (tAB, [9]))] /\ answer tk im dt exh (PPub tB [9] false None 3000) = Some [(2, (tB, [9]))] /\
  answer tk im dt (exh ++ [PSub 2 pH 9; PClose 1]) (PPub tAB [9] false None 3000) = Some [(2, (tAB, [9]))].
Proof. vm_compute. auto. Qed.

(** C20, for patterns in which '#' is last *)
Theorem C20_unsubscribe_partial : forall ticks inst_max default_ttl h c p c' t, fresh_clients h -> all_valid (h ++ [PUnsub c p]) ->
  gets ticks inst_max default_ttl (h ++ [PUnsub c p]) c' t <-> exists p', subscribed c' p' h /\ matches p' t /\ ~ (c' = c /\ p' = p).
Proof. intros. setoid_rewrite matches_iff. apply gets_unsub; auto. Qed.
Print Assumptions C20_unsubscribe_partial.
Theorem C20_disconnect : forall ticks inst_max default_ttl h c c' t o, fresh_clients h -> o = PDisconnect c \/ o = PClose c ->
  gets ticks inst_max default_ttl (h ++ [o]) c' t <-> gets ticks inst_max default_ttl h c' t /\ c' <> c.
Proof. exact gets_disconnect. Qed.
Print Assumptions C20_disconnect.
Example C20_example : all_valid (exh ++ [PUnsub 1 pAP]) /\ answer tk im dt (exh ++ [PUnsub 1 pAP]) (PPub tAB [9] false None 0) = Some [(1, (tAB, [9]))] /\
  answer tk im dt (exh ++ [PUnsub 1 pAP; PUnsub 1 pAH]) (PPub tAB [9] false None 0) = Some [].
Proof. split; [|vm_compute; auto]. intros p H. apply valid_dec. vm_compute in H. repeat (destruct H as [<-|H]; [reflexivity|]). destruct H. Qed.
(** unsubscribing "a/#/b" ends the subscription "a/#" *)
Theorem C20_inner_hash_refuted : exists h c p p' t, p <> p' /\ fresh_clients h /\ subscribed c p h /\ gets tk im dt h c t /\
  (forall o, In o h -> o <> PUnsub c p) /\ answer tk im dt (h ++ [PUnsub c p']) (PPub t [1] false None 0) = Some [].
Proof.
  exists [PConnect 1; PSub 1 pAH 0], 1, pAH, pAHB, tAB. split; [discriminate|]. split; [nodup|]. split; [|split; [|split]].
  - exists [PConnect 1], 0, []. split; [reflexivity|]. split; [exists [], []|]; cbn; intuition discriminate.
  - apply gets_iff; [nodup| |].
    + intros p H. apply valid_dec. vm_compute in H. destruct H as [<-|[]]. reflexivity.
    + exists pAH. split; [|apply mq_lit; [discriminate|discriminate|constructor]]. exists [PConnect 1], 0, []. split; [reflexivity|]. split; [exists [], []|]; cbn; intuition discriminate.
  - intros o [<-|[<-|[]]]; discriminate.
  - vm_compute. reflexivity.
Qed.
Print Assumptions C20_inner_hash_refuted.

(** C21: the messages queued to a new subscriber are exactly the unexpired retained
    messages of the matching topics, one per topic. [kept] folds the retained
    publishes and clean-ups of the history for one topic (C22). *)
Theorem C21_retained_on_subscribe : forall ticks inst_max default_ttl h c pat now, fresh_clients h -> connected c h ->
  exists l, NoDup (map fst l) /\ answer ticks inst_max default_ttl h (PSub c pat now) = Some (map (fun x => (c, (shown_as (fst x), rt_data (snd x)))) l) /\
    forall t v, In (t, v) l <-> kept ticks inst_max default_ttl t h = Some v /\ is_expired now v = false /\ matches_cut pat t.
Proof. intros. setoid_rewrite matches_cut_iff. apply sub_ans; auto. Qed.
Print Assumptions C21_retained_on_subscribe.
Example C21_example : fresh_clients exh /\ connected 2 exh /\ answer tk im dt exh (PSub 2 pAH 10999) = Some [(2, (tA, [8])); (2, (tAB, [7]))] /\
  answer tk im dt exh (PSub 2 pAH 11000) = Some [(2, (tA, [8]))].
Proof. split; [nodup|]. split; [exists [PConnect 1], (skipn 2 exh); split; [reflexivity|]; cbn; intuition discriminate|]. vm_compute. auto. Qed.

(** C22: after a retained publish of non-empty [d] to [t] and no other retained
    publish to [t], a subscriber is shown [d] for [t] exactly while its TTL lasts,
    whatever clean-ups ran up to that time *)
Theorem C22_last_value : forall ticks inst_max default_ttl h t d ttl now h2 c pat now' l x, let h' := h ++ PPub t d true ttl now :: h2 in
  d <> [] -> now + eff_ttl default_ttl ttl * ticks <= inst_max ->
  (forall d ttl now, ~ In (PPub t d true ttl now) h2) -> (forall n, In (PClean n) h2 -> n <= now') ->
  fresh_clients h' -> plain_topics h' -> connected c h' -> matches_cut pat t ->
  answer ticks inst_max default_ttl h' (PSub c pat now') = Some l ->
  (In (c, (t, x)) l <-> x = d /\ now' < now + eff_ttl default_ttl ttl * ticks).
Proof. intros *. rewrite matches_cut_iff. apply retained_last. Qed.
Print Assumptions C22_last_value.
(** an empty retained publish clears it *)
Theorem C22_cleared : forall ticks inst_max default_ttl h t ttl now h2 c pat now' l x, let h' := h ++ PPub t [] true ttl now :: h2 in
  (forall d ttl now, ~ In (PPub t d true ttl now) h2) ->
  fresh_clients h' -> plain_topics h' -> connected c h' -> answer ticks inst_max default_ttl h' (PSub c pat now') = Some l -> ~ In (c, (t, x)) l.
Proof. exact retained_cleared. Qed.
Print Assumptions C22_cleared.
(** no other request changes what subscribers are shown for [t] *)
Theorem C22_others_untouched : forall ticks inst_max default_ttl h o c pat now' l l' t x, fresh_clients (h ++ [o]) -> plain_topics (h ++ [o]) -> connected c h -> connected c (h ++ [o]) ->
  (forall d ttl now, o <> PPub t d true ttl now) -> (forall n, o = PClean n -> n <= now') ->
  answer ticks inst_max default_ttl h (PSub c pat now') = Some l -> answer ticks inst_max default_ttl (h ++ [o]) (PSub c pat now') = Some l' -> (In (c, (t, x)) l' <-> In (c, (t, x)) l).
Proof. exact retained_other. Qed.
Print Assumptions C22_others_untouched.
Example C22_example : plain_topics exh /\ answer tk im dt (exh ++ [PPub tA [5] true (Some 3) 4000; PClean 5000]) (PSub 2 pAH 6999) = Some [(2, (tA, [5])); (2, (tAB, [7]))] /\
  answer tk im dt (exh ++ [PPub tA [5] true (Some 3) 4000; PClean 5000]) (PSub 2 pAH 7000) = Some [(2, (tAB, [7]))] /\
  answer tk im dt (exh ++ [PPub tA [] true None 4000]) (PSub 2 pAH 5000) = Some [(2, (tAB, [7]))].
Proof. split; [|vm_compute; auto]. intros t d ttl now H t' ->. cbn in H. repeat (destruct H as [H|H]; [discriminate|]). destruct H. Qed.

(** C23: restart at [B] once everything is saved (flush task idle, nothing dirty).
    Retained topics without leading slash. Clients see after the restart, at any later time, what
    they would have seen without it, up to one second of TTL rounding, except that
    what had expired (within that second) by the restart may reappear (next theorem). *)
Theorem C23_restart_partial : forall ticks inst_max default_ttl, 0 < ticks -> forall B evs, Forall (times_le B) evs -> Forall ev_plain evs ->
  let s := frun ticks inst_max default_ttl evs f0 in
  f_pc s = FIdle -> ps_dirty (f_ps s) = false -> kept_by_restart ticks B s (fstep ticks inst_max default_ttl s (FCrash B)).
Proof. exact restart_keeps. Qed.
Print Assumptions C23_restart_partial.
Definition ex_f : list fev := [FReq (PConnect 1); FReq (PPub tAB [7] true (Some 10) 1000); FReq (PPub tA [8] true None 2000); FSwap; FCollect 2500; FWrite].
Example C23_example : Forall (times_le 5000) ex_f /\ Forall ev_plain ex_f /\ f_pc (frun tk im dt ex_f f0) = FIdle /\ ps_dirty (f_ps (frun tk im dt ex_f f0)) = false /\
  shown (frun tk im dt (ex_f ++ [FCrash 5000]) f0) pAH 10999 = [(tA, [8]); (tAB, [7])] /\ shown (frun tk im dt (ex_f ++ [FCrash 5000]) f0) pAH 11000 = [(tA, [8])].
Proof.
  split; [repeat constructor; vm_compute; discriminate|]. split; [|vm_compute; auto]. unfold ex_f. repeat apply Forall_cons; try apply Forall_nil; cbn [ev_plain]; auto; intros t'; discriminate.
Qed.
(** a message that expired while the server was down comes back and never expires *)
Theorem C23_expired_returns_refuted : exists evs t d, let s := frun tk im dt evs f0 in
  f_pc s = FIdle /\ ps_dirty (f_ps s) = false /\ (exists e, ret_at (split t) (ps_tree (f_ps s)) = Some e /\ is_expired 20000 e = true) /\
  forall now, 20000 <= now -> In (t, d) (shown (fstep tk im dt s (FCrash 20000)) pH now).
Proof.
  exists ex_f, tAB, [7]. cbv zeta. split; [vm_compute; reflexivity|]. split; [vm_compute; reflexivity|]. split.
  - eexists. split; vm_compute; reflexivity.
  - intros now H. assert (E : exists tr, ps_tree (f_ps (fstep tk im dt (frun tk im dt ex_f f0) (FCrash 20000))) = tr /\ wf tr /\ ret_at (split tAB) tr = Some (mkRet [7] None (Some 11))).
    { eexists. split; [reflexivity|]. split; [|vm_compute; reflexivity]. cbn [fstep f_ps ps_tree f_db]. unfold load_tree. 
      assert (G : forall l t0, wf t0 -> wf (fold_left (load_entry tk 20000) l t0)).
      { induction l as [|e l IH]; intros t0 W; auto. cbn [fold_left]. apply IH. unfold load_entry. destruct (is_expired 20000 (from_persisted tk 20000 (fst (snd e)) (snd (snd e)))); auto. apply wf_set; auto. }
      apply G. apply wf_node0. }
    destruct E as [tr [E [W R]]]. unfold shown, retained_pushes. rewrite E, collect_pat_eq. apply in_map_iff. exists (tAB, mkRet [7] None (Some 11)). split; [reflexivity|].
    apply in_map_iff. exists (split tAB, mkRet [7] None (Some 11)). split; [reflexivity|]. apply pick_in; auto. split; [split; auto|]. apply mq_hash.
Qed.
Print Assumptions C23_expired_returns_refuted.
(** "a" and "/a" retained together share a key: nothing is saved any more *)
Theorem C23_slash_conflict_refuted : exists evs t d, let s := frun tk im dt evs f0 in
  f_pc s = FIdle /\ ps_dirty (f_ps s) = false /\ In (t, d) (shown s pH 3000) /\ shown (fstep tk im dt s (FCrash 3000)) pH 3000 = [].
Proof.
  exists [FReq (PPub tA [1] true None 1000); FReq (PPub tSA [2] true None 1000); FReq (PPub tAB [3] true None 1000); FSwap; FCollect 2000; FWrite], tAB, [3].
  vm_compute. auto 20.
Qed.
Print Assumptions C23_slash_conflict_refuted.

(** C24: names are unchanged exactly for topics not beginning with '/' *)
Theorem C24_names_partial : forall ticks inst_max default_ttl h c pat now l, fresh_clients h -> connected c h -> answer ticks inst_max default_ttl h (PSub c pat now) = Some l ->
  plain_topics h -> forall t d, In (c, (t, d)) l <-> exists v, kept ticks inst_max default_ttl t h = Some v /\ rt_data v = d /\ is_expired now v = false /\ matches_cut pat t.
Proof. intros ticks inst_max default_ttl h c pat now l F C E P t d. setoid_rewrite matches_cut_iff. apply shown_sub; auto. Qed.
Print Assumptions C24_names_partial.
(** messages delivered live always carry the very topic: see C19 *)
Theorem C24_shown_iff : forall t, shown_as t = t <-> forall t', t <> slash :: t'.
Proof. exact shown_iff. Qed.
Print Assumptions C24_shown_iff.
Theorem C24_leading_slash_refuted : exists h c t d, fresh_clients h /\ connected c h /\ In (PPub t d true None 0) h /\
  answer tk im dt h (PSub c t 0) = Some [(c, (tl t, d))] /\ tl t <> t.
Proof.
  exists [PConnect 1; PPub tSA [5] true None 0], 1, tSA, [5]. split; [nodup|]. split; [exists [], [PPub tSA [5] true None 0]; split; [reflexivity|]; cbn; intuition discriminate|].
  split; [cbn; auto|]. split; [vm_compute; reflexivity|discriminate].
Qed.
Print Assumptions C24_leading_slash_refuted.
Example C24_example : connected 2 exh /\ plain_topics exh.
Proof. split; [apply C21_example|apply C22_example]. Qed.

(** C25: any interleaving of requests. If request [i] has completed before request [j]
    arrives, then in what is queued (to every client) everything by [i] comes before
    everything by [j]. *)
Theorem C25_order_partial : forall ticks inst_max default_ttl e1 e2 i j,
  nth_error (x_th (xrun ticks inst_max default_ttl e1 x0)) i = Some QDone -> (length (x_th (xrun ticks inst_max default_ttl e1 x0)) <= j)%nat ->
  exists l1 l2, h_log (x_sh (xrun ticks inst_max default_ttl (e1 ++ e2) x0)) = l1 ++ l2 /\ (forall x, In x l2 -> fst x <> i) /\ (forall x, In x l1 -> fst x <> j).
Proof. exact log_order. Qed.
Print Assumptions C25_order_partial.
Definition ex_sub : list xev := [XSpawn (QConn 1); XRun 0; XSpawn (QSub0 1 pAH 0); XRun 1; XRun 1].
Definition go (i : nat) (n : nat) : list xev := repeat (XRun i) n.
Example C25_example : let e1 := ex_sub ++ [XSpawn (QPub0 tA [1] true None 0)] ++ go 2 5 in let e2 := [XSpawn (QPub0 tAB [2] false None 0)] ++ go 3 5 in
  nth_error (x_th (xrun tk im dt e1 x0)) 2 = Some QDone /\ length (x_th (xrun tk im dt e1 x0)) = 3%nat /\
  h_log (x_sh (xrun tk im dt (e1 ++ e2) x0)) = [(2%nat, (1, (tA, [1]))); (3%nat, (1, (tAB, [2])))].
Proof. vm_compute. auto. Qed.
(** two publishes sent one after the other on a connection without waiting for the
    first answer are two tasks: the second may run first *)
Theorem C25_pipelined_refuted : exists evs c t, In (XSpawn (QPub0 t [1] false None 0)) evs /\
  evs = ex_sub ++ [XSpawn (QPub0 t [1] false None 0); XSpawn (QPub0 t [2] false None 0)] ++ go 3 5 ++ go 2 5 /\
  h_log (x_sh (xrun tk im dt evs x0)) = [(3%nat, (c, (t, [2]))); (2%nat, (c, (t, [1])))].
Proof. eexists. exists 1, tA. split; [|split; [reflexivity|vm_compute; reflexivity]]. cbn. auto 10. Qed.
Print Assumptions C25_pipelined_refuted.

(** C26: a retained publish to [t] and a subscribe by the connected client [c] run
    concurrently, with any other requests running and arriving, in any interleaving of
    their critical sections. When both are done the client has the message queued by
    one of them, at least. [harmless]: the others do not disconnect [c], unsubscribe this pattern, or
    retain or expire on [t]. *)
Theorem C26_racing_subscribe : forall ticks inst_max default_ttl c pat t d ttl now now' r, d <> [] ->
  ret_new ticks inst_max now d (eff_ttl default_ttl ttl) = Some r -> is_expired now' r = false -> matches_cut pat t ->
  forall evs sh th, wf (h_tree sh) -> (exists ps, regget c (h_cl sh) = Some ps) -> ~ In c (h_gone sh) ->
  (forall p, In p th -> harmless c pat t r p) -> (forall p, In (XSpawn p) evs -> harmless c pat t r p) ->
  let i := length th in let s := xrun ticks inst_max default_ttl evs (mkX sh (th ++ [QPub0 t d true ttl now; QSub0 c pat now'])) in
  nth_error (x_th s) i = Some QDone -> nth_error (x_th s) (S i) = Some QDone ->
  In (i, (c, (t, d))) (h_log (x_sh s)) \/ In (S i, (c, (shown_as t, d))) (h_log (x_sh s)).
Proof. intros *. rewrite matches_cut_iff. apply race_both. Qed.
Print Assumptions C26_racing_subscribe.
Definition race_sh : shared := x_sh (xrun tk im dt [XSpawn (QConn 1); XRun 0] x0).
(** publish retained first, matched before the insertion: delivered by the subscribe;
    or the other way round; or both *)
Example C26_example : wf (h_tree race_sh) /\ regget 1 (h_cl race_sh) = Some [] /\ h_gone race_sh = [] /\
  (let run l := h_log (x_sh (xrun tk im dt l (mkX race_sh ([] ++ [QPub0 tAB [7] true None 0; QSub0 1 pAH 5])))) in
   run (go 0 2 ++ go 1 2 ++ go 0 3) = [(1%nat, (1, (tAB, [7])))] /\ run (go 1 2 ++ go 0 5) = [(0%nat, (1, (tAB, [7])))] /\
   run (go 0 1 ++ go 1 2 ++ go 0 4) = [(1%nat, (1, (tAB, [7]))); (0%nat, (1, (tAB, [7])))]).
Proof. split; [apply wf_node0|]. vm_compute. auto. Qed.

(** C27. Once the connection is closed nothing more is queued to it, by whatever
    request. *)
Theorem C27_closed_gets_nothing : forall ticks inst_max default_ttl c evs s, In c (h_gone (x_sh s)) ->
  exists l, h_log (x_sh (xrun ticks inst_max default_ttl evs s)) = h_log (x_sh s) ++ l /\ forall x, In x l -> fst (snd x) <> c.
Proof. exact gone_quiet. Qed.
Print Assumptions C27_closed_gets_nothing.
(** Once unregistered, with no subscribe of its own half-way, likewise. *)
Theorem C27_unregistered_gets_nothing : forall ticks inst_max default_ttl c evs s, regget c (h_cl (x_sh s)) = None ->
  (forall p, In p (x_th s) -> away c p) -> (forall p, In (XSpawn p) evs -> away c p) ->
  exists l, h_log (x_sh (xrun ticks inst_max default_ttl evs s)) = h_log (x_sh s) ++ l /\ forall x, In x l -> fst (snd x) <> c.
Proof. exact away_quiet. Qed.
Print Assumptions C27_unregistered_gets_nothing.
(** Its subscriptions are all gone when it is unregistered and every request is done,
    provided no disconnect or unsubscribe ran between the two critical sections of one
    of its subscribes ([orderly]). *)
Theorem C27_no_leftover_partial : forall ticks inst_max default_ttl c evs s, ~ In (QConn c) (x_th s) -> orderly ticks inst_max default_ttl c evs s ->
  (forall p, ~ In c (subs_at p (h_tree (x_sh s)))) ->
  let s' := xrun ticks inst_max default_ttl evs s in
  regget c (h_cl (x_sh s')) = None -> (forall p, In p (x_th s') -> p = QDone) -> forall p, ~ In c (subs_at p (h_tree (x_sh s'))).
Proof. exact left_clean. Qed.
Print Assumptions C27_no_leftover_partial.
Definition race_x : xsys := xrun tk im dt [XSpawn (QConn 1); XRun 0] x0.
Example C27_example : let evs := [XSpawn (QSub0 1 pAH 0); XSpawn (QUnsub0 1 tA); XRun 1; XRun 2; XRun 1; XSpawn (QDisc0 1); XRun 3; XRun 2; XRun 3] in
  ~ In (QConn 1) (x_th race_x) /\ orderly tk im dt 1 evs race_x /\ h_tree (x_sh race_x) = node0 /\ regget 1 (h_cl (x_sh (xrun tk im dt evs race_x))) = None /\
  x_th (xrun tk im dt evs race_x) = [QDone; QDone; QDone; QDone] /\ h_tree (x_sh (xrun tk im dt evs race_x)) = node0.
Proof.
  split; [vm_compute; intuition discriminate|]. split; [|vm_compute; auto]. cbn [orderly in_order].
  repeat split; try discriminate; intros p n H; vm_compute in H; try discriminate. injection H as <- _. vm_compute. eexists. split; [reflexivity|]. left; auto.
Qed.
(** subscribe registers, the disconnect runs, the subscribe goes on: the client is gone
    and its subscription stays in the tree for ever (until some publish matches it) *)
Theorem C27_leftover_refuted : exists evs c p, starts evs /\ let s := xrun tk im dt evs x0 in
  regget c (h_cl (x_sh s)) = None /\ (forall q, In q (x_th s) -> q = QDone) /\ In c (subs_at p (h_tree (x_sh s))).
Proof.
  exists [XSpawn (QConn 1); XRun 0; XSpawn (QSub0 1 pAH 0); XSpawn (QDisc0 1); XRun 1; XRun 2; XRun 2; XRun 1], 1, (split pAH). split.
  - intros p H. cbn in H. repeat (destruct H as [H|H]; [try discriminate; injection H as <-; reflexivity|]). destruct H.
  - split; [vm_compute; reflexivity|]. split; [|vm_compute; auto]. intros q H. vm_compute in H. repeat (destruct H as [<-|H]; [reflexivity|]). destruct H.
Qed.
Print Assumptions C27_leftover_refuted.
(** ... and no later disconnect of that client removes it, whoever connects next *)
Theorem C27_leftover_stays_refuted : exists evs c p, starts evs /\ let s := xrun tk im dt (evs ++ [XSpawn (QDisc0 c); XRun 3]) x0 in
  nth_error (x_th s) 3 = Some QDone /\ In c (subs_at p (h_tree (x_sh s))).
Proof.
  exists [XSpawn (QConn 1); XRun 0; XSpawn (QSub0 1 pAH 0); XSpawn (QDisc0 1); XRun 1; XRun 2; XRun 2; XRun 1], 1, (split pAH). split.
  - intros p H. cbn in H. repeat (destruct H as [H|H]; [try discriminate; injection H as <-; reflexivity|]). destruct H.
  - vm_compute. auto.
Qed.
Print Assumptions C27_leftover_stays_refuted.

(** C28: the SDK calls, once each, exactly the handlers whose pattern matches the
    topic of the push *)
Theorem C28_dispatch : forall hs t, NoDup hs -> NoDup (sdk_dispatch hs t) /\ forall p, In p (sdk_dispatch hs t) <-> In p hs /\ matches_cut p t.
Proof. intros hs t H. split; [apply dispatch_NoDup; auto|]. intro p. rewrite matches_cut_iff. apply dispatch_in. Qed.
Print Assumptions C28_dispatch.
(** so the handlers called for a live message are those of the matching
    subscriptions, and there is at least one *)
Theorem C28_live_partial : forall ticks inst_max default_ttl h t data rt ttl now c hs l t' d', fresh_clients h -> all_valid h ->
  (forall p, In p hs <-> subscribed c p h) -> answer ticks inst_max default_ttl h (PPub t data rt ttl now) = Some l -> In (c, (t', d')) l ->
  t' = t /\ d' = data /\ sdk_dispatch hs t' <> [] /\ forall p, In p (sdk_dispatch hs t') <-> subscribed c p h /\ matches p t.
Proof.
  intros ticks inst_max default_ttl h t data rt ttl now c hs l t' d' F V Hs E Hi.
  destruct (pub_exact ticks inst_max default_ttl h t data rt ttl now F V) as [cs [E2 [_ K]]].
  { intros Hrt Hd. destruct (N.lt_ge_cases inst_max (now + eff_ttl default_ttl ttl * ticks)); auto. assert (X : answer ticks inst_max default_ttl h (PPub t data rt ttl now) = None) by (apply pub_panics; auto). congruence. }
  rewrite E in E2. injection E2 as ->. apply in_map_iff in Hi. destruct Hi as [c' [E3 Hi]]. injection E3 as -> <- <-. split; auto. split; auto.
  assert (A : forall p, In p (sdk_dispatch hs t) <-> subscribed c p h /\ mqtt (split p) (split t)).
  { intro p. rewrite dispatch_in, Hs. split; intros [H1 H2]; split; auto.
    - rewrite <- reads_valid; auto. apply V. destruct H1 as [h1 [n [h2 [-> _]]]]. unfold patterns. rewrite flat_map_app, in_app_iff. right. left. auto.
    - rewrite reads_valid; auto. apply V. destruct H1 as [h1 [n [h2 [-> _]]]]. unfold patterns. rewrite flat_map_app, in_app_iff. right. left. auto. }
  split; [|intro p; rewrite matches_iff; apply A]. apply K in Hi. destruct Hi as [p Hp]. apply A in Hp. intro X. rewrite X in Hp. destruct Hp.
Qed.
Print Assumptions C28_live_partial.
Example C28_example : NoDup [pAP; tB; pAH; tAB] /\ sdk_dispatch [pAP; tB; pAH; tAB] tAB = [tAB; pAP; pAH].
Proof. split; [repeat (apply NoDup_cons; [simpl; intuition discriminate|]); apply NoDup_nil|vm_compute; reflexivity]. Qed.
(** a retained message under a topic with leading slash reaches the SDK under another
    name and no handler is called *)
Theorem C28_slash_refuted : exists h c t d, subscribed c t (h ++ [PSub c t 0]) /\ exists t', answer tk im dt h (PSub c t 0) = Some [(c, (t', d))] /\ sdk_dispatch [t] t' = [].
Proof.
  exists [PConnect 1; PPub tSA [5] true None 0], 1, tSA, [5]. split.
  - exists [PConnect 1; PPub tSA [5] true None 0], 0, []. split; [reflexivity|]. split; [exists [], [PPub tSA [5] true None 0]; split; [reflexivity|]|]; cbn; intuition discriminate.
  - eexists. split; [vm_compute; reflexivity|vm_compute; reflexivity].
Qed.
Print Assumptions C28_slash_refuted.

(** C78: a crash at any moment, in the middle of a save or not. After the restart
    subscribers see the retained messages of an earlier moment ([a]: a prefix of what
    happened), and at most one save completed since then. *)
Theorem C78_crash_snapshot_partial : forall ticks inst_max default_ttl, 0 < ticks -> forall B evs, Forall (times_le B) evs -> Forall ev_plain evs ->
  exists a b, evs = a ++ b /\ saves ticks inst_max default_ttl (frun ticks inst_max default_ttl a f0) b <= 1 /\
    kept_by_restart ticks B (frun ticks inst_max default_ttl a f0) (frun ticks inst_max default_ttl (evs ++ [FCrash B]) f0).
Proof. exact crash_snapshot. Qed.
Print Assumptions C78_crash_snapshot_partial.
Example C78_example : let evs := ex_f ++ [FReq (PPub tB [9] true None 3000); FSwap; FReq (PPub tB [10] true None 3000); FCollect 3500] in
  Forall (times_le 5000) evs /\ Forall ev_plain evs /\
  shown (frun tk im dt (evs ++ [FCrash 5000]) f0) pH 5000 = [(tA, [8]); (tAB, [7])] /\ shown (frun tk im dt (evs ++ [FWrite; FCrash 5000]) f0) pH 5000 = [(tA, [8]); (tAB, [7]); (tB, [10])].
Proof.
  cbv zeta. split; [unfold ex_f; cbn [app]; repeat constructor; vm_compute; discriminate|].
  split; [|vm_compute; auto]. unfold ex_f. cbn [app]. repeat apply Forall_cons; try apply Forall_nil; cbn [ev_plain]; auto; intros t'; discriminate.
Qed.

(** "/a" is saved under the name "a": a subscriber of "/a" was shown the message ever since
    two saves ago, and after the crash is not; no moment with at most one save since fits *)
Theorem C78_slash_refuted : exists evs, Forall (times_le 5000) evs /\ forall a b, evs = a ++ b -> saves tk im dt (frun tk im dt a f0) b <= 1 ->
  ~ kept_by_restart tk 5000 (frun tk im dt a f0) (frun tk im dt (evs ++ [FCrash 5000]) f0).
Proof.
  exists [FReq (PPub tSA [1] true None 1000); FSwap; FCollect 2000; FWrite; FReq (PPub tB [2] true None 3000); FSwap; FCollect 3500; FWrite].
  split; [repeat constructor; vm_compute; discriminate|]. intros a b E S K. destruct (K tSA 5000 tA [1]) as [K1 _]; [lia|].
  assert (N : ~ In (tA, [1]) (shown (frun tk im dt ([FReq (PPub tSA [1] true None 1000); FSwap; FCollect 2000; FWrite; FReq (PPub tB [2] true None 3000); FSwap; FCollect 3500; FWrite] ++ [FCrash 5000]) f0) tSA 5000)) by (vm_compute; auto).
  apply N, K1. clear K K1 N.
  do 4 (destruct a as [|? a]; [simpl in E; subst b; exfalso; revert S; vm_compute; congruence|]; simpl in E; injection E as <- E).
  do 4 (destruct a as [|? a]; [vm_compute; auto|]; simpl in E; injection E as <- E). destruct a as [|? a]; [vm_compute; auto|discriminate E].
Qed.
Print Assumptions C78_slash_refuted.

(** C79: a publish goes unanswered exactly when it is retained, non-empty and its TTL
    exceeds the clock's range; then it changes nothing *)
Theorem C79_huge_ttl_unanswered : forall ticks inst_max default_ttl h t data rt ttl now,
  answer ticks inst_max default_ttl h (PPub t data rt ttl now) = None <-> rt = true /\ data <> [] /\ inst_max < now + eff_ttl default_ttl ttl * ticks.
Proof. exact pub_panics. Qed.
Print Assumptions C79_huge_ttl_unanswered.
Theorem C79_huge_ttl_changes_nothing : forall ticks inst_max default_ttl h t data rt ttl now,
  answer ticks inst_max default_ttl h (PPub t data rt ttl now) = None -> prun ticks inst_max default_ttl (h ++ [PPub t data rt ttl now]) ps0 = prun ticks inst_max default_ttl h ps0.
Proof. exact pub_panic_nop. Qed.
Print Assumptions C79_huge_ttl_changes_nothing.
Example C79_example : answer tk im dt exh (PPub tAB [1] true (Some 10000000000000) 0) = None /\ answer tk im dt exh (PPub tAB [1] true (Some 100000000000) 0) = Some [(1, (tAB, [1]))].
Proof. vm_compute. auto. Qed.
