(** Properties C102 (options), C103 (kept settings), C104 (configuration of the server). *)
From Coq Require Import String.
From Verif Require Import LibBase WireModel CmdModel CmdProofs Utf8 ValueModel ValueProofs JsonModel JsonProofs OptionsModel OptionsProofs PropValue PropJson.
Open Scope N_scope.

(** ** What options mean. [member], [given], [wrong] and [decimal] are in OptionsProofs. *)
Definition uint (max : N) (k : txt) (l : list (txt * jv)) (o : option N) : Prop := exists v, member k l v /\ given max v o.
Inductive flag : jv -> option bool -> Prop := f_undef : flag JUndef None | f_null : flag JNull None | f_bool : forall b, flag (JBool b) (Some b).
(** the given value, or else the default *)
Inductive resolved {A} (d : A) : option A -> A -> Prop := r_none : resolved d None d | r_some : forall a, resolved d (Some a) a.
(** a limit of a stream: none means the default, 0 means no limit *)
Inductive bound (d : N) : option N -> option N -> Prop := b_none : bound d None (Some d) | b_zero : bound d (Some 0) None | b_some : forall n, n <> 0 -> bound d (Some n) (Some n).
Definition u8 : N := 2 ^ 8 - 1.
Definition u32 : N := 2 ^ 32 - 1.
Definition u64 : N := 2 ^ 64 - 1.
Inductive means (sys : sysconf) : N -> list (txt * jv) -> setting -> Prop :=
| m_set : forall l n, uint u64 (w "ttl") l (Some n) -> n <> 0 -> means sys 2 l (SSetTtl n)
| m_set_default : forall l o, uint u64 (w "ttl") l o -> o = None \/ o = Some 0 -> means sys 2 l (SSetTtl (c_ttl sys))
| m_queue : forall l a b v r, uint u64 (w "visibilityTimeoutMs") l a -> uint u32 (w "maxRetries") l b -> resolved (c_vis sys) a v -> resolved (c_retries sys) b r -> means sys 16 l (SQueue v r)
| m_push : forall l a p, uint u8 (w "priority") l a -> resolved 0 a p -> (forall k v, In (k, v) l -> v <> JUndef -> k = w "priority") -> means sys 17 l (SPriority p)
| m_consume : forall l a b n t, uint u64 (w "batchSize") l a -> uint u64 (w "waitMs") l b -> resolved (c_batch sys) a n -> resolved (c_wait sys) b t -> means sys 18 l (SConsume n t)
| m_publish : forall l x a b r t, member (w "retain") l x -> flag x a -> uint u64 (w "ttl") l b -> resolved false a r -> resolved (c_pub_ttl sys) b t -> means sys 33 l (SPublish r t)
| m_stream : forall l r a b x y, member (w "retention") l (JObj r) -> Forall text (names r) -> uint u64 (w "maxAgeMs") r a -> uint u64 (w "maxBytes") r b -> bound (c_age sys) a x -> bound (c_bytes sys) b y -> means sys 48 l (SRetention x y)
| m_stream_default : forall l v, member (w "retention") l v -> v = JUndef \/ v = JNull -> means sys 48 l (SRetention (Some (c_age sys)) (Some (c_bytes sys))).
(** the command of the SDK with options [j] *)
Inductive asks : N -> bytes -> bytes -> bytes -> command -> Prop :=
| a_set : forall n j p, asks 2 n j p (SSet n j p)
| a_queue : forall n j p, asks 16 n j p (QCreate n j)
| a_push : forall n j p, asks 17 n j p (QPush n j p)
| a_consume : forall n j p, asks 18 n j p (QConsume n j)
| a_publish : forall n j p, asks 33 n j p (PPub n j p)
| a_stream : forall n j p, asks 48 n j p (TCreate n j).
Inductive bad : N -> list (txt * jv) -> Prop :=
| x_set : forall l v, member (w "ttl") l v -> wrong u64 v -> bad 2 l
| x_vis : forall l v, member (w "visibilityTimeoutMs") l v -> wrong u64 v -> bad 16 l
| x_retries : forall l v, member (w "maxRetries") l v -> wrong u32 v -> bad 16 l
| x_priority : forall l v, member (w "priority") l v -> wrong u8 v -> bad 17 l
| x_unknown : forall l k v, In (k, v) l -> v <> JUndef -> k <> w "priority" -> bad 17 l
| x_batch : forall l v, member (w "batchSize") l v -> wrong u64 v -> bad 18 l
| x_wait : forall l v, member (w "waitMs") l v -> wrong u64 v -> bad 18 l
| x_retain : forall l v, member (w "retain") l v -> v <> JNaN -> (forall o, ~ flag v o) -> bad 33 l
| x_pttl : forall l v, member (w "ttl") l v -> wrong u64 v -> bad 33 l
| x_retention : forall l v, member (w "retention") l v -> (exists b, v = JBool b) \/ (exists t, v = JNum t) \/ (exists u, v = JStr u) -> bad 48 l
| x_age : forall l r v, member (w "retention") l (JObj r) -> member (w "maxAgeMs") r v -> wrong u64 v -> bad 48 l
| x_bytes : forall l r v, member (w "retention") l (JObj r) -> member (w "maxBytes") r v -> wrong u64 v -> bad 48 l.

Lemma w_low s : JsonProofs.low (w s).
Proof. unfold w. apply Forall_forall. intros x I. apply in_map_iff in I. destruct I as (c & <- & _). pose proof (Ascii.N_ascii_bounded c). lia. Qed.
Ltac low_name := apply w_low.
Lemma held_names l : held (JObj l) -> NoDup (names l).
Proof. intro H. inversion H; auto. Qed.
Lemma held_in l k v : held (JObj l) -> In (k, v) l -> held v.
Proof. intros H I. inversion H as [| | | | | | |l' F N E]; subst. rewrite Forall_forall in F. apply (F _ I). Qed.
Lemma held_member l k r : held (JObj l) -> member k l (JObj r) -> held (JObj r).
Proof. intros H [I|(_ & I)]; [eapply held_in; eauto|discriminate]. Qed.
Lemma take max k l o : JsonProofs.low k -> held (JObj l) -> uint max k l o -> field k (as_uint max) (sent l) = Some o.
Proof. intros K H (v & M & G). eapply field_given; eauto. apply held_names; auto. Qed.
Lemma refuse max k l v : JsonProofs.low k -> held (JObj l) -> member k l v -> wrong max v -> field k (as_uint max) (sent l) = None.
Proof. intros K H M W. eapply field_wrong; eauto; [apply held_names; auto|apply held_wf; auto]. Qed.
Lemma opts_str l : wf (JObj l) -> lenN (sdk_opts (JObj l)) < 2 ^ 32 -> str_ok (sdk_opts (JObj l)).
Proof. intros W L. split; auto. unfold sdk_opts. apply write_utf8. apply text_units. apply (str_text _ W). Qed.
Lemma ok_setting sys op j s : setting_of sys op j = Some s -> json_ok op j = true.
Proof.
  unfold setting_of, json_ok. destruct (server_json j) as [v|]; [|discriminate].
  destruct (op =? 2); [destruct (set_opts v); auto; discriminate|]. destruct (op =? 16); [destruct (queue_create v); auto; discriminate|]. destruct (op =? 17); [destruct (queue_push v); auto; discriminate|].
  destruct (op =? 18); [destruct (queue_consume v); auto; discriminate|]. destruct (op =? 33); [destruct (publish_opts v); auto; discriminate|]. destruct (op =? 48); [destruct (stream_create v); auto; discriminate|]. discriminate.
Qed.
Lemma refused_setting sys op j : setting_of sys op j = None -> json_ok op j = false.
Proof.
  unfold setting_of, json_ok. destruct (server_json j) as [v|]; [|auto].
  destruct (op =? 2); [destruct (set_opts v); auto; discriminate|]. destruct (op =? 16); [destruct (queue_create v); auto; discriminate|]. destruct (op =? 17); [destruct (queue_push v); auto; discriminate|].
  destruct (op =? 18); [destruct (queue_consume v); auto; discriminate|]. destruct (op =? 33); [destruct (publish_opts v); auto; discriminate|]. destruct (op =? 48); [destruct (stream_create v); auto; discriminate|]. auto.
Qed.
Lemma get_resolved {A} (d : A) o a : resolved d o a -> or_else o d = a.
Proof. destruct 1; reflexivity. Qed.
Lemma get_bound d o a : bound d o a -> limit o d = a.
Proof. destruct 1; try reflexivity. cbn [limit]. rewrite (proj2 (N.eqb_neq n 0)) by auto. reflexivity. Qed.
Lemma means_set sys op l s : held (JObj l) -> Forall text (names l) -> means sys op l s -> setting_of sys op (sdk_opts (JObj l)) = Some s.
Proof.
  intros H T M. unfold setting_of. rewrite server_obj by (apply held_wf; auto).
  destruct M as [l n U NZ|l o U D|l a b v r U1 U2 R1 R2|l a p U R K|l a b n t U1 U2 R1 R2|l x a b r t M F U R1 R2|l r a b x y M TR U1 U2 B1 B2|l v M D];
    repeat match goal with |- context [?a =? ?b] => change (a =? b) with false || change (a =? b) with true; cbv iota end.
  - unfold set_opts. rewrite struct_sent by (auto; discriminate). change u64_max with u64. rewrite (take _ _ _ _ (w_low _) H U). cbn [option_map set_ttl]. rewrite (proj2 (N.eqb_neq n 0)) by auto. reflexivity.
  - unfold set_opts. rewrite struct_sent by (auto; discriminate). change u64_max with u64. rewrite (take _ _ _ _ (w_low _) H U). destruct D as [-> | ->]; reflexivity.
  - unfold queue_create. rewrite struct_sent by (auto; discriminate). change u64_max with u64. change u32_max with u32. rewrite (take _ _ _ _ (w_low _) H U1), (take _ _ _ _ (w_low _) H U2). cbn [both option_map q_settings fst snd]. rewrite (get_resolved _ _ _ R1), (get_resolved _ _ _ R2). reflexivity.
  - unfold queue_push. rewrite struct_sent.
    + change u8_max with u8. rewrite (take _ _ _ _ (w_low _) H U). cbn [option_map]. unfold push_priority. rewrite (get_resolved _ _ _ R). reflexivity.
    + auto.
    + intros _ k v I N. rewrite (K k v I N). split; [left; auto|low_name].
  - unfold queue_consume. rewrite struct_sent by (auto; discriminate). change u64_max with u64. rewrite (take _ _ _ _ (w_low _) H U1), (take _ _ _ _ (w_low _) H U2). cbn [both option_map consume_settings fst snd]. rewrite (get_resolved _ _ _ R1), (get_resolved _ _ _ R2). reflexivity.
  - unfold publish_opts. rewrite struct_sent by (auto; discriminate). change u64_max with u64. rewrite (take _ _ _ _ (w_low _) H U). assert (X : field (w "retain") as_bool (sent l) = Some a).
    { unfold field. rewrite (named_get (w "retain") l x (w_low _) (held_names l H) M). destruct F; reflexivity. }
    rewrite X. cbn [both option_map publish_settings fst snd]. rewrite (get_resolved _ _ _ R1), (get_resolved _ _ _ R2). reflexivity.
  - unfold stream_create. rewrite struct_sent by (auto; discriminate). pose proof (held_member l _ r H M) as HR. assert (X : field (w "retention") retention (sent l) = Some (Some (a, b))).
    { unfold field. rewrite (named_get (w "retention") l (JObj r) (w_low _) (held_names l H) M). cbn [is_undef normE opt]. change (flat_map _ r) with (sent r). unfold retention. rewrite struct_sent by (auto; discriminate).
      change u64_max with u64. rewrite (take _ _ _ _ (w_low _) HR U1), (take _ _ _ _ (w_low _) HR U2). reflexivity. }
    rewrite X. cbn [option_map t_retention fst snd]. rewrite (get_bound _ _ _ B1), (get_bound _ _ _ B2). reflexivity.
  - unfold stream_create. rewrite struct_sent by (auto; discriminate). assert (X : field (w "retention") retention (sent l) = Some None).
    { unfold field. rewrite (named_get (w "retention") l v (w_low _) (held_names l H) M). destruct D as [-> | ->]; reflexivity. }
    rewrite X. reflexivity.
Qed.
Lemma both_none_r {A B} (a : option A) : @both A B a None = None.
Proof. destruct a; reflexivity. Qed.
Lemma bad_set sys op l : held (JObj l) -> bad op l -> setting_of sys op (sdk_opts (JObj l)) = None.
Proof.
  intros H B. unfold setting_of. rewrite server_obj by (apply held_wf; auto).
  assert (X : forall (A C : Type) (ks : list txt) (d : bool) (v : jv) (m : list (txt * jv)) (f : list (txt * jv) -> option A) (g : A -> C), v = JObj m -> f m = None -> option_map g (match struct ks d v with Some x => f x | None => None end) = None).
  { intros A C ks d v m f g -> E. destruct (struct ks d (JObj m)) as [x|] eqn:S; auto. apply struct_some in S. subst x. rewrite E. reflexivity. }
  destruct B as [l v M W|l v M W|l v M W|l v M W|l k v I U N|l v M W|l v M W|l v M N F|l v M W|l v M K|l r v M M2 W|l r v M M2 W];
    repeat match goal with |- context [?a =? ?b] => change (a =? b) with false || change (a =? b) with true; cbv iota end.
  - unfold set_opts. eapply X; [reflexivity|]. eapply refuse; eauto. low_name.
  - unfold queue_create. eapply X; [reflexivity|]. cbv beta. change u64_max with u64. erewrite (refuse u64) by (eauto; low_name). reflexivity.
  - unfold queue_create. eapply X; [reflexivity|]. cbv beta. change u32_max with u32. erewrite (refuse u32) by (eauto; low_name). apply both_none_r.
  - unfold queue_push. eapply X; [reflexivity|]. eapply refuse; eauto. low_name.
  - unfold queue_push. rewrite (struct_strict _ l k v); auto; [constructor; [low_name|constructor]|]. intros [E|[]]. congruence.
  - unfold queue_consume. eapply X; [reflexivity|]. cbv beta. change u64_max with u64. erewrite (refuse u64) by (eauto; low_name). reflexivity.
  - unfold queue_consume. eapply X; [reflexivity|]. cbv beta. change u64_max with u64. erewrite (refuse u64 (w "waitMs")) by (eauto; low_name). apply both_none_r.
  - unfold publish_opts. eapply X; [reflexivity|]. cbv beta. assert (E : field (w "retain") as_bool (sent l) = None); [|rewrite E; reflexivity].
    unfold field. rewrite (named_get (w "retain") l v (w_low _) (held_names l H) M). destruct v; cbn [is_undef normE opt as_bool]; try reflexivity; try congruence; exfalso; eapply F; constructor.
  - unfold publish_opts. eapply X; [reflexivity|]. cbv beta. change u64_max with u64. erewrite (refuse u64) by (eauto; low_name). apply both_none_r.
  - unfold stream_create. eapply X; [reflexivity|]. unfold field. rewrite (named_get (w "retention") l v (w_low _) (held_names l H) M). destruct K as [(b & ->)|[(t & ->)|(u & ->)]]; reflexivity.
  - unfold stream_create. eapply X; [reflexivity|]. pose proof (held_member l _ r H M) as HR. unfold field. rewrite (named_get (w "retention") l (JObj r) (w_low _) (held_names l H) M). cbn [is_undef normE opt]. change (flat_map _ r) with (sent r).
    assert (E : retention (JObj (sent r)) = None); [|rewrite E; reflexivity]. unfold retention. destruct (struct _ _ _) as [x|] eqn:S; auto. apply struct_some in S. subst x. change u64_max with u64. erewrite (refuse u64) by (eauto; low_name). reflexivity.
  - unfold stream_create. eapply X; [reflexivity|]. pose proof (held_member l _ r H M) as HR. unfold field. rewrite (named_get (w "retention") l (JObj r) (w_low _) (held_names l H) M). cbn [is_undef normE opt]. change (flat_map _ r) with (sent r).
    assert (E : retention (JObj (sent r)) = None); [|rewrite E; reflexivity]. unfold retention. destruct (struct _ _ _) as [x|] eqn:S; auto. apply struct_some in S. subst x. change u64_max with u64. erewrite (refuse u64 (w "maxBytes")) by (eauto; low_name). apply both_none_r.
Qed.

(** * C102: the options an application gives are the settings the server uses. *)
Theorem C102_taken : forall sys op l s name p c, held (JObj l) -> Forall text (names l) -> means sys op l s -> asks op name (sdk_opts (JObj l)) p c ->
  str_ok name -> lenN (sdk_opts (JObj l)) < 2 ^ 32 ->
  dispatch json_ok (sdk_opcode c) (sdk_args c) = DCmd c /\ setting_of sys op (sdk_opts (JObj l)) = Some s.
Proof.
  intros sys op l s name p c H T M A N L. pose proof (means_set sys op l s H T M) as S. split; auto. apply dispatch_sdk. pose proof (ok_setting _ _ _ _ S) as J. pose proof (opts_str l (held_wf _ H) L) as SJ.
  destruct A; cbn [cmd_ok]; split; auto; split; auto.
Qed.
Print Assumptions C102_taken.
(** Options that are wrong are refused; nothing is executed. *)
Theorem C102_refused : forall op l name p c, held (JObj l) -> bad op l -> asks op name (sdk_opts (JObj l)) p c -> str_ok name -> lenN (sdk_opts (JObj l)) < 2 ^ 32 ->
  exists b, dispatch json_ok (sdk_opcode c) (sdk_args c) = DParseError b.
Proof.
  intros op l name p c H B A N L. pose proof (refused_setting sys_default _ _ (bad_set sys_default op l H B)) as J. pose proof (opts_str l (held_wf _ H) L) as SJ.
  assert (R : forall r, read_json json_ok op (w_string (sdk_opts (JObj l)) ++ r) = None). { intro r. unfold read_json. erewrite bind_some; [|apply read_string_app; auto]. rewrite J. reflexivity. }
  pose proof (R []) as R0. rewrite app_nil_r in R0. destruct A; eexists; unfold sdk_args; cbn [sdk_head sdk_tail sdk_opcode]; rewrite <- ?app_assoc; unfold dispatch;
    repeat match goal with |- context [in_range ?b ?o] => change (in_range b o) with false || change (in_range b o) with true end; cbv iota; (match goal with |- context [?a =? 0] => change (a =? 0) with false end); cbv iota;
    unfold run_broker; cbn [parse_of]; unfold parse_store, parse_queue, parse_pubsub, parse_stream; repeat match goal with |- context [?a =? ?b] => change (a =? b) with false || change (a =? b) with true; cbv iota end;
    (erewrite bind_some; [|apply read_string_app; auto]); unfold bind; rewrite ?app_nil_r; (rewrite R0 || rewrite R); reflexivity.
Qed.
Print Assumptions C102_refused.
(** There is nothing between: each option, unless it is NaN or an infinity, is given or wrong. *)
Theorem C102_total : forall max v, held v -> v <> JNaN -> (exists o, given max v o) \/ wrong max v.
Proof.
  intros max v H N. assert (W : (forall t, v <> JNum t) -> v <> JUndef -> v <> JNull -> wrong max v) by (intros A B C; repeat split; auto; intros t n E; destruct (A t E)).
  destruct v as [| |b|t| |u|l|l]; try (right; apply W; congruence); try congruence.
  - left. eexists. constructor.
  - left. eexists. constructor.
  - destruct (as_uint max (JNum t)) as [n|] eqn:E.
    + left. inversion H; subst. apply as_uint_inv in E; [|intros ? X; injection X as <-; auto]. destruct E as (L & t' & E & D). injection E as <-. exists (Some n). constructor; auto.
    + right. repeat split; try discriminate. intros t' n X D. injection X as <-. rewrite (as_uint_dec max n t D) in E. destruct (N.leb_spec n max); [discriminate|auto].
Qed.
Print Assumptions C102_total.
(** Without options the defaults apply, and a subscription to a queue asks for what it was
    given, or else for 50 messages and 20 seconds. *)
Theorem C102_none : sdk_opts JUndef = sdk_opts (JObj []) /\ sdk_opts JNull = sdk_opts (JObj []) /\ forall sys,
  means sys 2 [] (SSetTtl (c_ttl sys)) /\ means sys 16 [] (SQueue (c_vis sys) (c_retries sys)) /\ means sys 17 [] (SPriority 0) /\ means sys 33 [] (SPublish false (c_pub_ttl sys)) /\ means sys 48 [] (SRetention (Some (c_age sys)) (Some (c_bytes sys))).
Proof.
  assert (M : forall k, member k [] JUndef) by (intro k; right; split; auto). assert (U : forall max k, uint max k [] None) by (intros max k; exists JUndef; split; auto; constructor).
  split; [reflexivity|]. split; [reflexivity|]. intro sys. split; [eapply m_set_default; eauto|]. split; [eapply m_queue; eauto; constructor|]. split; [eapply m_push; eauto; [constructor|intros k v []]|]. split; [eapply m_publish; eauto; constructor|]. eapply m_stream_default; eauto.
Qed.
Print Assumptions C102_none.
Theorem C102_subscribe : forall sys l a b n t, held (JObj l) -> uint u64 (w "batchSize") l a -> uint u64 (w "waitMs") l b -> resolved 50 a n -> resolved 20000 b t ->
  setting_of sys 18 (sdk_consume (JObj l)) = Some (SConsume n t).
Proof.
  intros sys l a b n t H UA UB RA RB.
  assert (P : forall k v, member k l v -> JsonProofs.low k -> prop k (JObj l) = v).
  { intros k v M K. cbn [prop]. assert (X : forall m, NoDup (names m) -> (In (k, v) m -> named k m = [v]) /\ (~ In k (names m) -> named k m = [])).
    { unfold names, named. induction m as [|(j, x) m IH]; intro ND; [split; [intros []|auto]|]. cbn [map fst] in ND. inversion ND as [|? ? N1 N2]; subst. destruct (IH N2) as (I1 & I2). cbn [filter fst map In]. destruct (beqb j k) eqn:E.
      - apply beqb_eq in E. subst j. cbn [map snd]. split; [|intro X; exfalso; apply X; auto]. intros [I|I]; [injection I as ->; rewrite I2 by auto; reflexivity|]. exfalso. apply N1. apply in_map_iff. exists (k, v). auto.
      - apply beqb_neq in E. split; [intros [I|I]; [congruence|auto]|]. intro X. apply I2. auto. }
    destruct (X l (held_names l H)) as (X1 & X2). destruct M as [I|(N & ->)]; [rewrite X1 by auto; reflexivity|rewrite X2 by auto; reflexivity]. }
  destruct UA as (va & MA & GA), UB as (vb & MB & GB).
  pose (m := [(w "batchSize", nullish va (JNum (w "50"))); (w "waitMs", nullish vb (JNum (w "20000")))]).
  assert (E : sdk_consume (JObj l) = sdk_opts (JObj m)). { unfold sdk_consume, sdk_opts. rewrite (P _ va MA), (P _ vb MB) by low_name. reflexivity. }
  rewrite E. assert (D50 : decimal 50 (w "50")) by apply (d_more 5 0 [53] (d_one 5 ltac:(lia)) ltac:(discriminate) ltac:(lia)).
  assert (D2 : decimal 20000 (w "20000")). { change 20000 with (10 * 2000 + 0). change (w "20000") with (w "2000" ++ [48 + 0]). apply d_more; try discriminate; try lia. change 2000 with (10 * 200 + 0). change (w "2000") with (w "200" ++ [48 + 0]). apply d_more; try discriminate; try lia.
    change 200 with (10 * 20 + 0). change (w "200") with (w "20" ++ [48 + 0]). apply d_more; try discriminate; try lia. apply (d_more 2 0 [50]); try lia. apply (d_one 2). lia. }
  assert (GA' : given u64 (nullish va (JNum (w "50"))) (Some n)). { destruct RA; inversion GA; subst; cbn [nullish]; constructor; auto; vm_compute; discriminate. }
  assert (GB' : given u64 (nullish vb (JNum (w "20000"))) (Some t)). { destruct RB; inversion GB; subst; cbn [nullish]; constructor; auto; vm_compute; discriminate. }
  assert (HG : forall v o, given u64 v o -> held v) by (intros v o G; destruct G; constructor; eapply decimal_number; eauto).
  assert (JS : forall s, js_string (w s)) by (intro s; unfold js_string; generalize (w_low s); apply Forall_impl; intros; lia).
  apply means_set.
  - constructor.
    + constructor; [|constructor; [|constructor]]; cbn [fst snd]; (split; [apply JS|eapply HG; eauto]).
    + cbn [map fst m]. constructor; [intros [X|[]]; vm_compute in X; discriminate|]. constructor; [intros []|constructor].
  - constructor; [apply text_low; low_name|]. constructor; [apply text_low; low_name|constructor].
  - eapply m_consume.
    + exists (nullish va (JNum (w "50"))). split; [left; left; reflexivity|eauto].
    + exists (nullish vb (JNum (w "20000"))). split; [left; right; left; reflexivity|eauto].
    + constructor.
    + constructor.
Qed.
Print Assumptions C102_subscribe.
(** An infinite time to live is not refused but is the default, as is one that is NaN. *)
Theorem C102_infinity_refuted : exists l, held (JObj l) /\ member (w "ttl") l JNaN /\ json_ok 2 (sdk_opts (JObj l)) = true /\ setting_of sys_default 2 (sdk_opts (JObj l)) = Some (SSetTtl 3600).
Proof.
  exists [(w "ttl", JNaN)]. split; [constructor; [constructor; [split; [|constructor]|constructor]|repeat constructor; intros []]; repeat constructor; lia|]. split; [left; left; reflexivity|]. split; vm_compute; reflexivity.
Qed.
Print Assumptions C102_infinity_refuted.
(** To wait without end for messages: the server does not wait at all. *)
Theorem C102_wait_refuted : exists l, held (JObj l) /\ member (w "waitMs") l JNaN /\ setting_of sys_default 18 (sdk_consume (JObj l)) = Some (SConsume 50 0).
Proof.
  exists [(w "waitMs", JNaN)]. split; [constructor; [constructor; [split; [|constructor]|constructor]|repeat constructor; intros []]; repeat constructor; lia|]. split; [left; left; reflexivity|]. vm_compute; reflexivity.
Qed.
Print Assumptions C102_wait_refuted.
(** A misspelt option is ignored, except those of a push: `{maxRetry: 1}`. *)
Theorem C102_misspelt_refuted : exists l, held (JObj l) /\ setting_of sys_default 16 (sdk_opts (JObj l)) = Some (SQueue 30000 5) /\ names l = [w "maxRetry"].
Proof.
  exists [(w "maxRetry", JNum [49])]. split; [constructor; [constructor; [split; [|constructor; apply (decimal_number 1), (d_one 1); lia]|constructor]|repeat constructor; intros []]; repeat constructor; lia|]. split; vm_compute; reflexivity.
Qed.
Print Assumptions C102_misspelt_refuted.
Example C102_example :
  setting_of sys_default 16 (sdk_opts (JObj [(w "maxRetries", JNum (w "3")); (w "visibilityTimeoutMs", JUndef)])) = Some (SQueue 30000 3) /\
  setting_of sys_default 48 (sdk_opts (JObj [(w "retention", JObj [(w "maxBytes", JNum (w "0"))])])) = Some (SRetention (Some 604800000) None) /\
  setting_of sys_default 33 (sdk_opts (JObj [(w "retain", JBool true); (w "ttl", JNum (w "60"))])) = Some (SPublish true 60) /\
  map (fun v => json_ok 17 (sdk_opts (JObj [(w "priority", v)]))) [JNum (w "255"); JNum (w "256"); JNum (w "-1"); JNum (w "1.5"); JStr (w "1"); JNull] = [true; false; false; false; false; true] /\
  json_ok 17 (sdk_opts (JObj [(w "prio", JNum (w "1"))])) = false /\
  uint u64 (w "ttl") [(w "ttl", JNum [55])] (Some 7) /\ bad 17 [(w "priority", JStr (w "1"))] /\ bad 2 [(w "ttl", JNum (w "1.5"))].
Proof.
  split; [vm_compute; reflexivity|]. split; [vm_compute; reflexivity|]. split; [vm_compute; reflexivity|]. split; [vm_compute; reflexivity|]. split; [vm_compute; reflexivity|]. split.
  - exists (JNum [55]). split; [left; left; reflexivity|]. constructor; [apply (d_one 7); lia|vm_compute; discriminate].
  - split.
    + eapply x_priority; [left; left; reflexivity|]. repeat split; discriminate.
    + eapply x_set; [left; left; reflexivity|]. repeat split; try discriminate. intros t n E D. injection E as <-. apply decimal_val in D. destruct D as (_ & F & _). inversion F as [|? ? _ F1]; subst. inversion F1 as [|? ? (A & B) _]; subst. vm_compute in A. destruct A. reflexivity.
Qed.
