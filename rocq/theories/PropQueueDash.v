(** Property C109: the queue page of the dashboard. *)
From Verif Require Import LibBase LibMap Utf8 CmdModel ValueModel ValueProofs JsonModel JsonProofs PropValue QueueModel QueueSpec QueueObs QueueFacts QueueFacts2 QueueDashModel QueueDashProofs PropQueue.
Open Scope N_scope.

(** ** Specification *)
(** the three words, in any mix of cases *)
Definition reads_as (st w : list N) : Prop := Forall2 (fun c x => c = x \/ c + 32 = x) st w.
Definition pending : list N := [112; 101; 110; 100; 105; 110; 103].
Definition inflight : list N := [105; 110; 102; 108; 105; 103; 104; 116].
Definition dead : list N := [100; 108; 113].
(** a row shows the message, a dead row the dead letter *)
Definition shows V (show : bytes -> V) (fly : bool) (m : message) (r : row V) : Prop :=
  r_id V r = m_id m /\ r_payload V r = show (m_payload m) /\ r_prio V r = m_prio m /\ r_att V r = m_att m /\ r_fly V r = fly.
Definition shows_dead V (show : bytes -> V) (d : dlqmsg) (r : drow V) : Prop :=
  w_id V r = d_id d /\ w_payload V r = show (d_payload d) /\ w_att V r = d_att d /\ w_reason V r = d_reason d /\ w_created V r = d_created d.
(** the message is to be listed *)
Definition found (search : option (list N)) (p : bytes) : Prop := match search with Some s => occurs s (utf8_lossy p) | None => True end.
(** string [u] is part of the JSON value *)
Inductive part (u : list N) : jv -> Prop :=
| p_str : part u (JStr u)
| p_arr : forall l v, In v l -> part u v -> part u (JArr l)
| p_name : forall l v, In (u, v) l -> v <> JUndef -> part u (JObj l)
| p_obj : forall l k v, In (k, v) l -> part u v -> part u (JObj l).

Lemma lower_idem t : lower (lower t) = lower t.
Proof.
  unfold lower. rewrite map_map. apply map_ext. intro c. destruct ((65 <=? c) && (c <=? 90)) eqn:E; [|rewrite E; reflexivity]. apply andb_true_iff in E. destruct E as (E1 & E2). apply N.leb_le in E1, E2.
  destruct (65 <=? c + 32) eqn:F1, (c + 32 <=? 90) eqn:F2; cbn; try reflexivity. apply N.leb_le in F2. lia.
Qed.
Lemma lower_reads st w : Forall (fun x => 97 <= x /\ x <= 122) w -> reads_as st w -> lower st = w.
Proof.
  intros L R. induction R as [|c x st w H R IH]; [reflexivity|]. inversion L as [|? ? L1 L2]; subst. cbn [lower map]. fold (lower st). rewrite IH by auto. f_equal.
  destruct H as [->| <-]; [destruct (N.leb_spec x 90); [lia|rewrite andb_false_r; reflexivity]|]. destruct (N.leb_spec 65 c); [|lia]. destruct (N.leb_spec c 90); [reflexivity|lia].
Qed.
Lemma matches_found s p : matches_search s p = true <-> found s p.
Proof. destruct s as [s|]; cbn; [apply contains_spec|tauto]. Qed.
Ltac low := repeat constructor; lia.

(** * C109 *)
(** Rows: of the messages in the state asked for, in the order of the listing, those the search finds,
    each once, in that state; pages of the size asked for (50 if not said, at most 1000)
    laid end to end are all of them, and the total is their number. *)
Theorem C109_rows : forall V show cfg h st (fly : bool) search limit n, fresh h -> reads_as st (if fly then inflight else pending) ->
  let i := qrun cfg inner0 h in let size := N.min (match limit with Some k => k | None => 50 end) 1000 in
  exists l, (forall m, In m l <-> In m (if fly then obs_fly i else obs_wait i) /\ found search (m_payload m)) /\ NoDup (map m_id l) /\
    (exists f, l = filter f (if fly then obs_fly i else obs_wait i)) /\
    (forall off, exists rows, queue_page V show st (Some off) limit search i = PMsgs V (lenN l) rows) /\
    (0 < size -> lenN l <= size * N.of_nat n ->
     Forall2 (shows V show fly) l (pages (fun off => match queue_page V show st (Some off) limit search i with PMsgs _ _ rows => rows | _ => [] end) size 0 n)).
Proof.
  intros V show cfg h st fly search limit n F R i size. destruct (C40_listing cfg h fly (matches_search search) size n F) as (T & P & ND). fold i in T, P, ND. set (l := filter (fun m => matches_search search (m_payload m)) (if fly then obs_fly i else obs_wait i)) in *.
  assert (LW : lower st = if fly then inflight else pending) by (apply lower_reads; [destruct fly; low|exact R]).
  assert (Q : forall off, queue_page V show st (Some off) limit search i = PMsgs V (lenN l) (map (row_of V show) (snd (get_messages fly off size (matches_search search) (i_state i))))).
  { intro off. unfold queue_page. fold size. rewrite lower_idem, LW. pose proof (T off size) as T1. destruct fly; cbn; destruct (get_messages _ off size (matches_search search) (i_state i)) as [t r]; cbn in T1; subst t; reflexivity. }
  exists l. split; [intro m; unfold l; rewrite filter_In, matches_found; tauto|]. split; [exact ND|]. split; [eexists; reflexivity|].
  assert (W : Forall (fun m => shows V show fly m (row_of V show m)) l).
  { apply Forall_forall. intros m I. unfold l in I. apply filter_In in I. destruct I as (I & _). destruct (C40_stats cfg h F) as (_ & _ & _ & W & Y). fold i in W, Y.
    unfold shows, row_of. cbn [r_id r_payload r_prio r_att r_fly]. repeat split. destruct fly; [apply Y in I; destruct I as (_ & I)|apply W in I; destruct I as (_ & I)]; destruct (m_state m); congruence. }
  split; [intro off; eexists; apply Q|]. intros S1 S2. match goal with |- Forall2 _ _ ?x => replace x with (map (row_of V show) l) end; [clear - W; induction W; constructor; auto|]. rewrite <- (P S1 S2). clear - Q. generalize 0. induction n as [|n IH]; intro off; cbn [pages]; [reflexivity|]. rewrite map_app, IH, Q. reflexivity.
Qed.
Print Assumptions C109_rows.
(** Dead letters: newest first; the search is not looked at. *)
Theorem C109_dead : forall V show cfg h st search limit n, reads_as st dead ->
  let i := qrun cfg inner0 h in let size := N.min (match limit with Some k => k | None => 50 end) 1000 in
  (forall off, exists rows, queue_page V show st (Some off) limit search i = PDead V (lenN (obs_dead i)) rows) /\
  (0 < size -> lenN (obs_dead i) <= size * N.of_nat n ->
   Forall2 (shows_dead V show) (rev (obs_dead i)) (pages (fun off => match queue_page V show st (Some off) limit search i with PDead _ _ rows => rows | _ => [] end) size 0 n)).
Proof.
  intros V show cfg h st search limit n R i size. assert (LW : lower st = dead) by (apply lower_reads; [low|exact R]).
  assert (Q : forall off, queue_page V show st (Some off) limit search i = PDead V (lenN (obs_dead i)) (map (drow_of V show) (snd (dlq_peek off size (i_dlq i))))).
  { intro off. unfold queue_page. fold size. rewrite LW. cbn. unfold obs_dead, avals, lenN. rewrite map_length. reflexivity. }
  split; [intro off; eexists; apply Q|]. intros S1 S2. destruct (C38_dlq_pages cfg h size n S1 S2) as (P & _). fold i in P. match goal with |- Forall2 _ _ ?x => replace x with (map (drow_of V show) (rev (obs_dead i))) end; [clear; induction (rev (obs_dead i)); constructor; [unfold shows_dead, drow_of; cbn; auto|auto]|].
  rewrite <- P. clear - Q. generalize 0. induction n as [|n IH]; intro off; cbn [pages]; [reflexivity|]. rewrite map_app, IH, Q. reflexivity.
Qed.
Print Assumptions C109_dead.
(** A text pushed with the SDK is found by exactly the searches for a part of it. *)
Theorem C109_text : forall J (stringify : J -> option (list N)) u q p, text u -> text q -> ~ In 1 q -> any J stringify (VStr u) = Some p -> (found (Some (code_points q)) p <-> occurs q u).
Proof.
  intros J stringify u q p U (ns & F & ->) N E. cbn [any] in E. injection E as <-. unfold found, t_string. change (utf8_lossy (1 :: utf8_write u)) with (1 :: utf8_lossy (utf8_write u)). rewrite write_lossy by (apply text_units; exact U).
  rewrite code_points_text by auto. rewrite occurs_cons.
  - split; intro O; [apply occurs_points; [exists ns; auto|exact U|rewrite code_points_text by auto; exact O]|]. rewrite <- (code_points_text ns F). apply points_occurs; [exists ns; auto|exact O].
  - intro I. apply N. unfold text_of. apply in_flat_map. exists 1. split; [exact I|]. left. reflexivity.
Qed.
Print Assumptions C109_text.
(** A JSON value is found by exactly the searches for a part of its JSON text; in
    particular by every part, without quotes, backslashes and control characters, of a
    string or name in it. *)
Theorem C109_json : forall j q p, text (str j) -> text q -> ~ In 2 q -> any jv js_stringify (VJson j) = Some p -> (found (Some (code_points q)) p <-> occurs q (str j)).
Proof.
  intros j q p U (ns & F & ->) N E. cbn [any js_stringify] in E. injection E as <-. unfold found, t_json. change (utf8_lossy (2 :: utf8_write (str j))) with (2 :: utf8_lossy (utf8_write (str j))). rewrite write_lossy by (apply text_units; exact U).
  rewrite code_points_text by auto. rewrite occurs_cons.
  - split; intro O; [apply occurs_points; [exists ns; auto|exact U|rewrite code_points_text by auto; exact O]|]. rewrite <- (code_points_text ns F). apply points_occurs; [exists ns; auto|exact O].
  - intro I. apply N. unfold text_of. apply in_flat_map. exists 2. split; [exact I|]. left. reflexivity.
Qed.
Print Assumptions C109_json.
Lemma part_occurs ns u j : Forall scalar ns -> Forall plain ns -> occurs (text_of ns) u -> part u j -> occurs (text_of ns) (str j).
Proof.
  intros F P O H. induction H as [|l v I H IH|l v I NU|l k v I H IH].
  - cbn [str]. unfold quote. apply occurs_in. apply esc_occurs; auto.
  - cbn [str]. apply occurs_in. eapply occurs_join; [apply in_map; exact I|exact IH].
  - cbn [str]. apply occurs_in. eapply occurs_join.
    + apply in_flat_map. exists (u, v). split; [exact I|]. cbn [snd fst]. destruct v; try congruence; left; reflexivity.
    + cbn [fst snd]. replace (quote u ++ [58] ++ str v) with ([34] ++ esc u ++ ([34] ++ [58] ++ str v)) by (unfold quote; rewrite <- !app_assoc; reflexivity). apply occurs_in. apply esc_occurs; auto.
  - cbn [str]. apply occurs_in. eapply occurs_join.
    + apply in_flat_map. exists (k, v). split; [exact I|]. cbn [snd fst]. destruct v; try (left; reflexivity). inversion H.
    + cbn [fst snd]. rewrite app_assoc. rewrite <- (app_nil_r (str v)). apply occurs_in. exact IH.
Qed.
Theorem C109_json_part : forall j u q p, text (str j) -> text q -> Forall plain (code_points q) -> part u j -> occurs q u -> any jv js_stringify (VJson j) = Some p -> found (Some (code_points q)) p.
Proof.
  intros j u q p U (ns & F & ->) P H O E. rewrite code_points_text in P by auto. apply (C109_json j (text_of ns) p U); [exists ns; auto| |exact E|eapply part_occurs; eauto].
  unfold text_of. intro I. apply in_flat_map in I. destruct I as (n & I & I2). rewrite Forall_forall in P, F. specialize (P n I). specialize (F n I). unfold plain in P. unfold units in I2. destruct (n <? 65536); cbn in I2; intuition lia.
Qed.
Print Assumptions C109_json_part.

(** Searches for what the page shows do not find it in general: a Buffer is shown in
    hexadecimal but searched as text; quotes in a JSON string are searched as JSON writes
    them. And the dead letters are listed whatever is searched for. *)
Definition sh : bytes -> list N := payload_to_json (list N) [] (fun t => t) (fun _ => None).
Theorem C109_buffer_refuted : exists cfg h b, fresh h /\ h = [QoPush 7 (0 :: b) 0 1] /\ (exists r, queue_page (list N) sh pending None None None (qrun cfg inner0 h) = PMsgs (list N) 1 [r] /\ r_payload _ r = [48; 120; 99; 97; 102; 101]) /\ queue_page (list N) sh pending None None (Some [99; 97; 102; 101]) (qrun cfg inner0 h) = PMsgs (list N) 0 [].
Proof.
  exists (mkCfg 1000 3), [QoPush 7 [0; 202; 254] 0 1], [202; 254]. split; [repeat constructor; intros []|]. split; [reflexivity|]. split; [eexists; split; vm_compute; reflexivity|vm_compute; reflexivity].
Qed.
Theorem C109_quote_refuted : exists (j : jv) (u q : list N) (p : bytes), text (str j) /\ part u j /\ occurs q u /\ text q /\ any jv js_stringify (VJson j) = Some p /\ ~ found (Some (code_points q)) p.
Proof.
  exists (JObj [([97], JStr [120; 34; 121])]), [120; 34; 121], [120; 34; 121], [2; 123; 34; 97; 34; 58; 34; 120; 92; 34; 121; 34; 125].
  assert (L : forall l, Forall (fun x => x < 128) l -> text l).
  { intros l F. exists l. split; [eapply Forall_impl; [|exact F]; unfold scalar; cbn; intros; lia|]. unfold text_of. induction F as [|x l X F IH]; [reflexivity|]. cbn [flat_map]. rewrite <- IH. unfold units. destruct (N.ltb_spec x 65536); [reflexivity|lia]. }
  split; [apply L; vm_compute; repeat constructor|]. split; [eapply p_obj; [left; reflexivity|constructor]|]. split; [exists [], []; reflexivity|]. split; [apply L; repeat constructor|]. split; [vm_compute; reflexivity|].
  intro O. apply (proj2 (matches_found (Some (code_points [120; 34; 121])) _)) in O. vm_compute in O. discriminate O.
Qed.
Theorem C109_dead_search_refuted : exists cfg h s d, fresh h /\ In d (obs_dead (qrun cfg inner0 h)) /\ ~ occurs s (utf8_lossy (d_payload d)) /\ queue_page (list N) sh dead None None (Some s) (qrun cfg inner0 h) = PDead (list N) 1 [drow_of (list N) sh d].
Proof.
  exists (mkCfg 1000 1), [QoPush 7 [1; 104; 105] 0 1; QoConsume 1 (fun _ => 2); QoNack 7 [] 3], [120], (mkDlq 7 [1; 104; 105] 0 1 1 3 []). split; [repeat constructor; intros []|]. split; [vm_compute; left; reflexivity|].
  split; [|vm_compute; reflexivity]. intro O. apply contains_spec in O. vm_compute in O. discriminate O.
Qed.
Print Assumptions C109_buffer_refuted.
Print Assumptions C109_quote_refuted.
Print Assumptions C109_dead_search_refuted.
(** "hi" and {"a": "oh hi"} are pending; "Pending" with the search "hi" shows both, "oh" the second. *)
Example C109_example : let h := [QoPush 7 [1; 104; 105] 0 1; QoPush 8 [2; 123; 34; 97; 34; 58; 34; 111; 104; 32; 104; 105; 34; 125] 5 1; QoPush 9 [0; 1] 0 1] in let i := qrun (mkCfg 1000 3) inner0 h in
  let ids p := match p with PMsgs _ t l => (t, map (r_id (list N)) l) | PDead _ t l => (t, []) end in
  fresh h /\ reads_as (80 :: tl pending) pending /\ any jv js_stringify (VStr [104; 105]) = Some [1; 104; 105] /\ any jv js_stringify (VJson (JObj [([97], JStr [111; 104; 32; 104; 105])])) = Some [2; 123; 34; 97; 34; 58; 34; 111; 104; 32; 104; 105; 34; 125] /\ part [111; 104; 32; 104; 105] (JObj [([97], JStr [111; 104; 32; 104; 105])]) /\ occurs [104; 105] [111; 104; 32; 104; 105] /\ ids (queue_page (list N) sh (80 :: tl pending) (Some 0) None (Some [104; 105]) i) = (2, [7; 8]) /\ ids (queue_page (list N) sh (80 :: tl pending) (Some 0) None (Some [111; 104]) i) = (1, [8]) /\ ids (queue_page (list N) sh pending (Some 1) (Some 1) None i) = (3, [9]).
Proof.
  split; [repeat constructor; cbn; intuition discriminate|]. split; [constructor; [right; reflexivity|repeat constructor]|]. split; [vm_compute; reflexivity|]. split; [vm_compute; reflexivity|].
  split; [eapply p_obj; [left; reflexivity|constructor]|]. split; [exists [111; 104; 32], []; reflexivity|]. split; [vm_compute; reflexivity|]. split; vm_compute; reflexivity.
Qed.
