(** C49, C51 (memory part), C52-C60: stream topics in memory and consumer groups. *)
From Verif Require Import LibBase LibMap StreamTopicModel StreamGroupModel StreamGroupSpec StreamGroupProofs StreamGroupSteps StreamGroupFetch StreamGroupHist StreamGroupFacts StreamTopicProofs.

(** * C49 *)
(** Whatever publishes, evictions and retention runs happen, the numbers handed out are
    consecutive, continuing where the topic stands (1 for a new topic). *)
Theorem C49_gapless : forall ops first all t, init_ok first all t -> heads_ok (t_next t) ops ->
  snd (trun t ops) = upto (t_next t) (length (published (t_next t) ops)).
Proof. intros ops first all t I H. exact (proj2 (trun_ok ops first all t I H)). Qed.
Theorem C49_new_topic : forall soft ops, heads_ok 1 ops ->
  snd (trun (topic_new soft) ops) = upto 1 (length (published 1 ops)).
Proof. intros soft ops H. exact (proj2 (trun_ok ops 1 [] (topic_new soft) (new_ok soft) H)). Qed.
Example C49_example : let ops := [TPub 5 [1]; TPub 6 [2]; TEvict 2; TPub 7 [3]; THead 3; TPub 8 [4]] in
  heads_ok 1 ops /\ snd (trun (topic_new 1) ops) = [1; 2; 3; 4].
Proof. vm_compute. intuition discriminate. Qed.

(** * C51 (what memory does) *)
Theorem C51_evicts_only_persisted : forall ops soft t p, heads_ok 1 ops -> t = fst (trun (topic_new soft) ops) ->
  exists pre, t_log t = pre ++ t_log (evict p t) /\ Forall (fun m => m_seq m <= p) pre /\
    (pre = [] \/ t_soft t <= lenN (t_log (evict p t))) /\
    (lenN (t_log (evict p t)) <= t_soft t \/ match t_log (evict p t) with m :: _ => p < m_seq m | [] => False end).
Proof.
  intros ops soft t p H ->. destruct (trun_ok ops 1 [] (topic_new soft) (new_ok soft) H) as (A & _). exact (evict_exact _ _ _ p A).
Qed.
(** Memory always holds an end of what was published. *)
Theorem C51_memory_is_suffix : forall ops soft, heads_ok 1 ops ->
  exists k, t_log (fst (trun (topic_new soft) ops)) = dropN k (published 1 ops).
Proof.
  intros ops soft H. destruct (trun_ok ops 1 [] (topic_new soft) (new_ok soft) H) as ((K & _) & _).
  destruct (k_log _ _ _ K) as (k & E & _). exists k. exact E.
Qed.
Example C51_example : let t := fst (trun (topic_new 1) [TPub 5 [1]; TPub 6 [2]; TPub 7 [3]]) in
  t_log (evict 2 t) = [mkMsg 3 7 [3]] /\ t_log (evict 1 t) = [mkMsg 2 6 [2]; mkMsg 3 7 [3]] /\ t_log (evict 0 t) = t_log t.
Proof. vm_compute. repeat split. Qed.

(** * C52 *)
Theorem C52_one_owner : forall cfg st h2 e h1 g s c t, 1 <= max_del cfg ->
  hist cfg st (h2 ++ e :: h1) g -> delivers_to e s c t -> Forall (fun e' => takes_back cfg e' c t = false) h2 ->
  Forall (fun e' => delivers_msg e' s = false) h2.
Proof. intros cfg st h2 e h1 g s c t MD. exact (one_owner cfg MD st h2 e h1 g s c t). Qed.
(** Within one answer no message appears twice either. *)
Theorem C52_no_repeat_in_answer : forall cfg st h g op ms, 1 <= max_del cfg ->
  hist cfg st ((op, OMsgs ms) :: h) g -> NoDup (map m_seq ms).
Proof. intros cfg st h g op ms MD H. exact (proj1 (out_status cfg MD st h g op ms H)). Qed.

(** * C53 *)
Theorem C53_pending_bound : forall cfg st h g l, 1 <= max_del cfg -> hist cfg st h g -> NoDup l ->
  (forall s, In s l -> exists c t n, status_of cfg st h s = Held c t n) -> lenN l <= max_pend cfg.
Proof. intros cfg st h g l MD. exact (pending_bound cfg MD st h g l). Qed.
Theorem C53_answer_bound : forall cfg st h g op ms, 1 <= max_del cfg -> hist cfg st ((op, OMsgs ms) :: h) g ->
  match op with GFetch _ _ limit _ _ _ _ => lenN ms <= limit | GCold _ _ _ ms' _ => lenN ms <= lenN ms' | _ => True end.
Proof. intros cfg st h g op ms MD. exact (answer_bound cfg MD st h g op ms). Qed.

(** * C54 *)
(** no deliveries allowed at all: everything is set aside unseen *)
Lemma zero_issue cfg c now m g : max_del cfg = 0 -> snd (issue_delivery cfg c now m g) = None.
Proof. intro Z. unfold issue_delivery. rewrite Z. destruct (N.ltb_spec 0 (match agetN (m_seq m) (g_att g) with Some k => k | None => 0 end + 1)); [reflexivity|lia]. Qed.
Lemma zero_red cfg c now log ram head b : max_del cfg = 0 -> forall red res g, snd (fetch_red cfg c now log ram head b red res g) = res.
Proof.
  intro Z. induction red as [|s red IH]; intros res g; [reflexivity|]. cbn [fetch_red]. destruct (b <=? lenN res); [reflexivity|]. destruct (s <? head); [apply IH|]. destruct (read_from_log log ram s) as [m|]; [|reflexivity].
  pose proof (zero_issue cfg c now m (set_red red g) Z) as E. destruct (issue_delivery cfg c now m (set_red red g)) as [g1 o]. cbn [snd] in E. subst o. apply IH.
Qed.
Lemma zero_new cfg c now log ram head b : max_del cfg = 0 -> forall fuel res g, snd (fetch_new cfg fuel c now log ram head b res g) = res.
Proof.
  intro Z. induction fuel as [|f IH]; intros res g; [reflexivity|]. cbn [fetch_new]. destruct (b <=? lenN res); [reflexivity|]. destruct (read_from_log log ram (N.max (g_next g) head)) as [m|]; [|reflexivity].
  match goal with |- context [issue_delivery cfg c now m ?x] => pose proof (zero_issue cfg c now m x Z) as E; destruct (issue_delivery cfg c now m x) as [g1 o] end. cbn [snd] in E. subst o. apply IH.
Qed.
Lemma zero_cold cfg c now head : max_del cfg = 0 -> forall ms g res, snd (cold_loop cfg c now head ms (g, res)) = res.
Proof.
  intro Z. induction ms as [|m ms IH]; intros g res; [reflexivity|]. cbn [cold_loop]. destruct (max_pend cfg <=? lenN (g_pend (fst (g, res)))); [reflexivity|].
  destruct (cold_one cfg c now head (g, res) m) as [g1 r1] eqn:E. rewrite IH. unfold cold_one in E. destruct (m_seq m <? head); [congruence|]. cbv zeta in E. match type of E with (if ?b then _ else _) = _ => destruct b end; [|congruence].
  match type of E with context [issue_delivery cfg c now m ?x] => pose proof (zero_issue cfg c now m x Z) as F; destruct (issue_delivery cfg c now m x) as [g2 o] end. cbn [snd] in F. subst o. congruence.
Qed.
Theorem C54_zero : forall cfg g op ms, max_del cfg = 0 -> snd (gstep cfg g op) = OMsgs ms -> ms = [].
Proof.
  intros cfg g op ms Z E. destruct op; cbn [gstep] in E; try discriminate E.
  - unfold fetch in E. destruct (ensure_active c gen g); [discriminate E|]. destruct (max_pend cfg <=? lenN (g_pend (fst (clamp_head head g)))); [cbn in E; congruence|].
    match type of E with context [fetch_red cfg ?a1 ?a2 ?a3 ?a4 ?a5 ?a6 ?a7 ?a8 ?a9] => pose proof (zero_red cfg a1 a2 a3 a4 a5 a6 Z a7 a8 a9) as R; destruct (fetch_red cfg a1 a2 a3 a4 a5 a6 a7 a8 a9) as [g1 r1] end. cbn [snd] in R. subst r1.
    match type of E with context [fetch_new cfg ?a1 ?a2 ?a3 ?a4 ?a5 ?a6 ?a7 ?a8 ?a9] => pose proof (zero_new cfg a2 a3 a4 a5 a6 a7 Z a1 a8 a9) as R; destruct (fetch_new cfg a1 a2 a3 a4 a5 a6 a7 a8 a9) as [g2 r2] end. cbn [snd] in R. subst r2. cbn in E. congruence.
  - unfold register_cold in E. destruct (ensure_active c gen g); [discriminate E|].
    match type of E with context [cold_loop cfg ?a1 ?a2 ?a3 ?a4 (?a5, ?a6)] => pose proof (zero_cold cfg a1 a2 a3 Z a4 a5 a6) as R; destruct (cold_loop cfg a1 a2 a3 a4 (a5, a6)) as [g1 r1] end. cbn [snd] in R. subst r1. cbn in E. congruence.
  - destruct (ack c gen s g) as [g1 [e|]]; discriminate E.
Qed.
(** No message is handed out more often than allowed, also if that is never. *)
Theorem C54_attempts_bounded : forall cfg st h g s, hist cfg st h g -> handed h s <= max_del cfg.
Proof.
  intros cfg st h g s H. destruct (N.eq_dec (max_del cfg) 0) as [Z|NZ]; [|apply (handed_max cfg ltac:(lia) st h g s H)].
  rewrite Z. induction H as [| |h g op g' o H IH OK E]; [reflexivity|reflexivity|]. cbn [handed]. destruct (is_seek (fst (op, o))); [lia|].
  assert (D : delivers_msg (op, o) s = false); [|rewrite D; lia]. unfold delivers_msg. cbn [snd]. destruct o as [|e|ms]; auto.
  assert (X : ms = []) by (apply (C54_zero cfg g op ms Z); rewrite E; reflexivity). subst ms. reflexivity.
Qed.
Theorem C54_parked_after_last : forall cfg st h g s, 1 <= max_del cfg -> hist cfg st h g ->
  (status_of cfg st h s = Parked -> handed h s = max_del cfg) /\
  (forall n, status_of cfg st h s = Waiting n -> handed h s < max_del cfg).
Proof.
  intros cfg st h g s MD H. pose proof (handed_count cfg MD st h g s H) as C. split.
  - intros E. rewrite E in C. exact C.
  - intros n E. rewrite E in C. lia.
Qed.
Theorem C54_parked_is_final : forall cfg st h2 h1 g s, 1 <= max_del cfg -> hist cfg st (h2 ++ h1) g -> status_of cfg st h1 s = Parked ->
  Forall (fun e => is_seek (fst e) = false) h2 -> Forall (fun e => delivers_msg e s = false) h2.
Proof. intros cfg st h2 h1 g s MD. exact (parked_final cfg MD st h2 h1 g s). Qed.

(** * C55 *)
Theorem C55_floor_settled : forall cfg st h g s, 1 <= max_del cfg -> hist cfg st h g -> s <= g_floor g ->
  status_of cfg st h s = Done \/ status_of cfg st h s = Parked.
Proof. intros cfg st h g s MD. exact (floor_settled cfg MD st h g s). Qed.
Theorem C55_done_reason : forall cfg st h g s, 1 <= max_del cfg -> hist cfg st h g -> status_of cfg st h s = Done ->
  settled_by h s = true \/ (sought h = false /\ s < st).
Proof. intros cfg st h g s MD. exact (done_reason cfg st h g s). Qed.
Theorem C55_floor_maximal : forall cfg st h g, 1 <= max_del cfg -> hist cfg st h g ->
  let x := status_of cfg st h (g_floor g + 1) in x = Fresh \/ (exists c t n, x = Held c t n) \/ (exists n, x = Waiting n).
Proof. intros cfg st h g MD. exact (floor_maximal cfg MD st h g). Qed.
Theorem C55_floor_monotone : forall cfg st h g op g' o, 1 <= max_del cfg -> hist cfg st h g -> gop_ok op ->
  gstep cfg g op = (g', o) -> is_seek op = false -> g_floor g <= g_floor g'.
Proof. intros cfg st h g op g' o MD. exact (floor_monotone cfg MD st h g op g' o). Qed.

(** * C56 *)
Theorem C56_never_lost : forall cfg st h g s, 1 <= max_del cfg -> hist cfg st h g -> (sought h = true \/ st <= s) ->
  settled_by h s = false -> handed h s < max_del cfg ->
  status_of cfg st h s = Fresh \/ (exists c t n, status_of cfg st h s = Held c t n) \/ (exists n, status_of cfg st h s = Waiting n).
Proof. intros cfg st h g s MD. exact (never_lost cfg MD st h g s). Qed.
(** The status says where the group keeps the message: exactly one place. *)
Theorem C56_where_it_is : forall cfg st h g s, 1 <= max_del cfg -> hist cfg st h g ->
  match status_of cfg st h s with
  | Fresh => g_next g <= s /\ pget s (g_pend g) = None /\ ~ In s (g_red g) /\ ~ In s (g_park g)
  | Held c t n => pget s (g_pend g) = Some (mkP c t n) /\ s < g_next g /\ ~ In s (g_red g) /\ ~ In s (g_park g)
  | Waiting n => In s (g_red g) /\ s < g_next g /\ pget s (g_pend g) = None /\ ~ In s (g_park g)
  | Parked => In s (g_park g) /\ s < g_next g /\ pget s (g_pend g) = None /\ ~ In s (g_red g)
  | Done => s < g_next g /\ pget s (g_pend g) = None /\ ~ In s (g_red g) /\ ~ In s (g_park g)
  end.
Proof. intros cfg st h g s MD. exact (where_it_is cfg MD st h g s). Qed.
(** A fetch answers exactly: the waiting messages in queue order as far as memory has
    them, then new ones in number order, as many as limit and capacity allow. *)
Theorem C56_fetch_exact : forall cfg st h g c limit now log ram head, 1 <= max_del cfg -> hist cfg st h g -> log_ok log ram ->
  member_of h c = true ->
  let g1 := fst (clamp_head head g) in
  let room := N.min limit (max_pend cfg - lenN (g_pend g1)) in
  let again := takeN room (red_part log ram (g_red g1)) in
  let new := takeN (room - lenN again) (new_part log ram (g_next g1)) in
  snd (gstep cfg g (GFetch c (gen_of h) limit now log ram head)) = OMsgs (again ++ new).
Proof.
  intros cfg st h g c limit now log ram head MD H LO M. cbv zeta.
  destruct (hist_agrees cfg MD _ _ _ H) as [I S G M1].
  assert (EA : ensure_active c (gen_of h) g = None) by (apply ensure_None; split; auto; apply isSome_neq; rewrite <- M1; exact M).
  destruct (fetch_exact cfg MD c (gen_of h) limit now log ram head g I LO EA) as (g2 & X & _). simpl. rewrite X. reflexivity.
Qed.

(** * C57 *)
Theorem C57_ack_iff_owner : forall cfg st h g c gen s, 1 <= max_del cfg -> hist cfg st h g ->
  (snd (gstep cfg g (GAck c gen s)) = OUnit <-> gen = gen_of h /\ member_of h c = true /\ exists t n, status_of cfg st h s = Held c t n)
  /\ (snd (gstep cfg g (GAck c gen s)) <> OUnit -> fst (gstep cfg g (GAck c gen s)) = g).
Proof. intros cfg st h g c gen s MD. exact (ack_iff cfg MD st h g c gen s). Qed.

(** * C58 *)
Theorem C58_leave_releases_partial : forall cfg st h g ord c conn g' r, 1 <= max_del cfg -> hist cfg st h g -> agetN c (g_mem g) = Some conn ->
  remove_member cfg ord c g = (g', r) ->
  r = Some conn /\ agetN c (g_mem g') = None /\ (forall c', c' <> c -> agetN c' (g_mem g') = agetN c' (g_mem g)) /\
  (forall s, pget s (g_pend g') = match pget s (g_pend g) with Some p => if p_cons p =? c then None else Some p | None => None end) /\
  (exists l, g_red g' = g_red g ++ l /\ forall s, In s l <-> exists p, pget s (g_pend g) = Some p /\ p_cons p = c /\ p_cnt p < max_del cfg) /\
  (forall s, In s (g_park g') <-> In s (g_park g) \/ exists p, pget s (g_pend g) = Some p /\ p_cons p = c /\ max_del cfg <= p_cnt p).
Proof. intros cfg st h g ord c conn g' r MD. exact (leave_exact cfg MD st h g ord c conn g' r). Qed.

(** * C59 *)
Theorem C59_exactly_overdue : forall cfg st h g ord now g' b, 1 <= max_del cfg -> hist cfg st h g -> check_redelivery cfg ord now g = (g', b) ->
  (b = true <-> exists s p, pget s (g_pend g) = Some p /\ ack_wait cfg < now - p_at p) /\ g_mem g' = g_mem g /\
  (forall s, pget s (g_pend g') = match pget s (g_pend g) with Some p => if ack_wait cfg <? now - p_at p then None else Some p | None => None end) /\
  (exists l, g_red g' = g_red g ++ l /\ forall s, In s l <-> exists p, pget s (g_pend g) = Some p /\ ack_wait cfg < now - p_at p /\ p_cnt p < max_del cfg) /\
  (forall s, In s (g_park g') <-> In s (g_park g) \/ exists p, pget s (g_pend g) = Some p /\ ack_wait cfg < now - p_at p /\ max_del cfg <= p_cnt p).
Proof. intros cfg st h g ord now g' b MD. exact (tick_exact cfg MD st h g ord now g' b). Qed.

(** * C60 *)
Theorem C60_seek_delivers : forall cfg st h g sk start c conn limit now log ram head g' o, 1 <= max_del cfg -> hist cfg st h g ->
  (sk = GSeekB head /\ start = N.max head 1 \/ exists last, sk = GSeekE last /\ start = last + 1 /\ head <= last + 1) ->
  log_ok log ram ->
  let g1 := fst (gstep cfg (fst (gstep cfg g sk)) (GJoin c conn)) in
  gstep cfg g1 (GFetch c (gen_of h + 1) limit now log ram head) = (g', o) ->
  o = OMsgs (takeN (N.min limit (max_pend cfg)) (new_part log ram start)).
Proof. intros cfg st h g sk start c conn limit now log ram head g' o MD. exact (seek_delivers cfg MD st h g sk start c conn limit now log ram head g' o). Qed.
Theorem C60_old_generation_refused : forall cfg st h2 op o h1 g c s, 1 <= max_del cfg -> hist cfg st (h2 ++ (op, o) :: h1) g -> is_seek op = true ->
  forall gen limit now log ram head, gen <= gen_of h1 ->
  gstep cfg g (GAck c gen s) = (g, OErr Fenced) /\ gstep cfg g (GFetch c gen limit now log ram head) = (g, OErr Fenced).
Proof. intros cfg st h2 op o h1 g c s MD. exact (old_generation_refused cfg MD st h2 op o h1 g c s). Qed.
Theorem C60_nonmember_refused : forall cfg st h g c s limit now log ram head, 1 <= max_del cfg -> hist cfg st h g -> member_of h c = false ->
  gstep cfg g (GAck c (gen_of h) s) = (g, OErr NotMember) /\ gstep cfg g (GFetch c (gen_of h) limit now log ram head) = (g, OErr NotMember).
Proof.
  intros cfg st h g c s limit now log ram head MD H M.
  split; apply (proj2 (seek_fences cfg MD st h g c (gen_of h) _ H) eq_refl M); eauto 10.
Qed.

(** * A history meeting the hypotheses: two consumers, acks, timeouts, a leave, a seek *)
Definition xcfg : gcfg := mkGc 3 100 2.
Definition xm (n : N) : msg := mkMsg n 7 [n].
Definition xlog : list msg := [xm 1; xm 2; xm 3; xm 4; xm 5].
Definition xops : list gop :=
  [GJoin 10 1; GJoin 20 2; GFetch 10 1 2 1000 xlog 1 1; GFetch 20 1 5 1050 xlog 1 1; GAck 20 1 3; GTick [2; 1] 1120;
   GFetch 20 1 5 1200 xlog 1 1; GLeave [1; 2; 4] 20].
Definition xrun := grun xcfg (group_new 1) [] xops.
Lemma xlog_ok : log_ok xlog 1.
Proof. intros i m H. do 5 (destruct i as [|i]; [inversion H; reflexivity|simpl in H]). destruct i; discriminate. Qed.
Lemma xrun_hist : hist xcfg 1 (fst xrun) (snd xrun).
Proof.
  apply grun_hist; [apply hist_new; reflexivity|]. unfold xops. repeat constructor; exact xlog_ok.
Qed.
Example C52_example : map snd (fst xrun) =
  [OUnit; OMsgs [xm 2; xm 1; xm 4]; OUnit; OUnit; OMsgs [xm 3]; OMsgs [xm 1; xm 2]; OUnit; OUnit].
Proof. vm_compute. reflexivity. Qed.
Example C54_example : map (status_of xcfg 1 (fst xrun)) [1; 2; 3; 4; 5] = [Parked; Parked; Done; Waiting 1; Fresh] /\
  map (handed (fst xrun)) [1; 2; 3; 4; 5] = [2; 2; 1; 1; 0] /\ g_floor (snd xrun) = 3.
Proof. vm_compute. auto. Qed.
(** with 0 allowed (STREAM_MAX_DELIVERIES=0) the five messages count as settled though nobody got one *)
Example C54_zero_example : let r := grun (mkGc 3 100 0) (group_new 1) [] [GJoin 10 1; GFetch 10 1 9 1000 xlog 1 1] in
  map snd (fst r) = [OMsgs []; OUnit] /\ g_floor (snd r) = 5.
Proof. vm_compute. auto. Qed.
Example C60_example : exists h g, hist xcfg 1 h g /\
  map snd (firstn 4 h) = [OErr NotMember; OMsgs [xm 3; xm 4; xm 5]; OErr Fenced; OUnit].
Proof.
  exists (fst (grun xcfg (snd xrun) (fst xrun) [GJoin 10 1; GSeekB 3; GJoin 30 1; GAck 10 1 1; GFetch 30 2 9 1300 xlog 1 3; GAck 10 2 3])),
    (snd (grun xcfg (snd xrun) (fst xrun) [GJoin 10 1; GSeekB 3; GJoin 30 1; GAck 10 1 1; GFetch 30 2 9 1300 xlog 1 3; GAck 10 2 3])).
  split; [apply grun_hist; [exact xrun_hist|repeat constructor; exact xlog_ok]|vm_compute; reflexivity].
Qed.
(** C58: "in order" does not hold: the released messages are queued in the iteration
    order of a hash map, so 2 may be redelivered before 1. *)
Theorem C58_release_order_refuted : exists h g ord c, hist xcfg 1 h g /\
  status_of xcfg 1 h 1 = Held c 1000 1 /\ status_of xcfg 1 h 2 = Held c 1000 1 /\
  g_red (fst (remove_member xcfg ord c g)) = [2; 1].
Proof.
  exists (fst (grun xcfg (group_new 1) [] (firstn 3 xops))), (snd (grun xcfg (group_new 1) [] (firstn 3 xops))), [2; 1], 10.
  split; [apply grun_hist; [apply hist_new; reflexivity|repeat constructor; exact xlog_ok]|].
  vm_compute. auto.
Qed.
Example C59_example : let g := snd (grun xcfg (group_new 1) [] (firstn 5 xops)) in
  snd (check_redelivery xcfg [] 1100 g) = false /\ snd (check_redelivery xcfg [] 1101 g) = true /\
  g_red (fst (check_redelivery xcfg [] 1101 g)) = [1; 2].
Proof. vm_compute. auto. Qed.
Example C57_example : let h := fst (grun xcfg (group_new 1) [] (firstn 4 xops)) in let g := snd (grun xcfg (group_new 1) [] (firstn 4 xops)) in
  snd (gstep xcfg g (GAck 10 1 1)) = OUnit /\ snd (gstep xcfg g (GAck 20 1 1)) = OErr NotOwner /\
  snd (gstep xcfg g (GAck 10 1 9)) = OErr (NotPending 9) /\ gen_of h = 1 /\ status_of xcfg 1 h 1 = Held 10 1000 1.
Proof. vm_compute. auto. Qed.

Print Assumptions C49_gapless.
Print Assumptions C49_new_topic.
Print Assumptions C51_evicts_only_persisted.
Print Assumptions C51_memory_is_suffix.
Print Assumptions C52_one_owner.
Print Assumptions C52_no_repeat_in_answer.
Print Assumptions C53_pending_bound.
Print Assumptions C53_answer_bound.
Print Assumptions C54_zero.
Print Assumptions C54_attempts_bounded.
Print Assumptions C54_parked_after_last.
Print Assumptions C54_parked_is_final.
Print Assumptions C55_floor_settled.
Print Assumptions C55_done_reason.
Print Assumptions C55_floor_maximal.
Print Assumptions C55_floor_monotone.
Print Assumptions C56_never_lost.
Print Assumptions C56_where_it_is.
Print Assumptions C56_fetch_exact.
Print Assumptions C57_ack_iff_owner.
Print Assumptions C58_leave_releases_partial.
Print Assumptions C58_release_order_refuted.
Print Assumptions C59_exactly_overdue.
Print Assumptions C60_seek_delivers.
Print Assumptions C60_old_generation_refused.
Print Assumptions C60_nonmember_refused.
