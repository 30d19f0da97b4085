(** Property C105: what applications store is what applications read. *)
From Coq Require Import String.
From Verif Require Import LibBase LibMap Utf8 WireModel CmdModel StoreModel ConnModel ConnClient ConnStore ConnStoreSpec ConnStoreProofs ValueModel ValueProofs JsonModel JsonProofs OptionsModel OptionsProofs
  PropValue PropJson PropOptions SdkStoreModel SdkStoreProofs WireProofs PropConn.
Open Scope N_scope.

(** A value an application can give, and what is read of it: Buffers as they are, strings
    with lone surrogates replaced, all else as JSON keeps it. *)
Inductive gives : value jv -> Prop :=
| g_buf : forall b, gives (VBuf b)
| g_str : forall u, js_string u -> gives (VStr u)
| g_json : forall j, held j -> (forall u, j <> JStr u) -> gives (VJson j).
Inductive reads : value jv -> value jv -> Prop :=
| r_buf : forall b, reads (VBuf b) (VBuf b)
| r_str : forall u ns, repaired u ns -> reads (VStr u) (VStr (text_of ns))
| r_json : forall j x, view j x -> reads (VJson j) (VJson x).
(** [exact]: nothing in it is lost *)
Inductive exact : value jv -> Prop :=
| e_buf : forall b, exact (VBuf b)
| e_str : forall u, text u -> exact (VStr u)
| e_json : forall j, plain j -> exact (VJson j).

Lemma given_read v : gives v -> exists b x, any jv js_stringify v = Some b /\ decode_any jv js_parse JNull b = Some x /\ reads v x /\ (exact v -> x = v).
Proof.
  intros [b|u F|j H NS].
  - exists (0 :: b), (VBuf b). repeat split; constructor.
  - destruct (C100_strings jv js_stringify js_parse JNull u F) as (b & ns & A & B & C & D & E & T). exists (1 :: b), (VStr (text_of ns)). split; auto. split; auto. split; [constructor; auto|].
    intro X. inversion X as [|u' T' Eu|]; subst. rewrite <- (T T'). reflexivity.
  - destruct (C100_json_values j H NS) as (b & x & A & B & C & D). exists b, (VJson x). split; auto. split; auto. split; [constructor; auto|]. intro X. inversion X; subst. f_equal. auto.
Qed.
Lemma ttl_meant sys l ttl : held (JObj l) -> Forall text (names l) -> means sys 2 l (SSetTtl ttl) -> set_ttl sys (ttl_read (sdk_opts (JObj l))) = ttl.
Proof.
  intros H T M. pose proof (means_set sys 2 l _ H T M) as S. unfold setting_of in S. change (2 =? 2) with true in S. cbn iota in S. unfold ttl_read. destruct (server_json _) as [v|]; [|discriminate]. destruct (set_opts v) as [o|]; [|discriminate].
  cbn [option_map] in S. congruence.
Qed.
Lemma meant_expiry sys ticks imax t o ex ttl : set_ttl sys o = ttl -> expiry ticks (c_ttl sys) imax t o = Some ex -> ex = t + ttl * ticks.
Proof. unfold expiry, set_ttl. intros <- E. destruct (_ <=? imax); [|discriminate]. injection E as <-. destruct o as [n|]; auto. Qed.

Section Store.
  Variable emsg : dispatched -> bytes.
  Variable sys : sysconf.
  Variables ticks imax maxp cap : N.
  Variable e : seng.
  Notation rcv := (received json_ok ttl_read emsg ticks (c_ttl sys) imax maxp cap e).
  Notation ans := (answered json_ok ttl_read emsg ticks (c_ttl sys) imax maxp cap e).
  Notation clk := (clock json_ok ttl_read emsg ticks (c_ttl sys) imax maxp cap e).
  Notation lin := (linearizable json_ok ttl_read emsg ticks (c_ttl sys) imax maxp cap e).
  Notation ent := (entry_of json_ok ttl_read emsg ticks (c_ttl sys) imax maxp cap e).

  (** request [n] of the connection asks for [c] and has the response [r] *)
  Definition answer (xs : list (cop sx)) (n : nat) (c : command) (r : response) : Prop :=
    exists f, nth_error (rcv xs) n = Some f /\ wants json_ok f c /\ In (OResponse (in_id f) r) (ans xs).
  (** except for request [n] of this connection, no one writes the key *)
  Definition only (n : option nat) (k : bytes) (xs : list (cop sx)) : Prop :=
    (forall i f c, Some i <> n -> nth_error (rcv xs) i = Some f -> wants json_ok f c -> ~ cmd_writes k c) /\ Forall (fun o => ~ writes_key k o) (others xs).

  Lemma ids_pre xs ys : NoDup (map in_id (rcv (xs ++ ys))) -> NoDup (map in_id (rcv xs)).
  Proof. intro ND. destruct (linearizable json_ok ttl_read emsg ticks (c_ttl sys) imax maxp cap e) as (H & LH). destruct (all_after json_ok ttl_read emsg ticks (c_ttl sys) imax maxp cap e xs ys H LH) as (fs & E). rewrite E, map_app in ND. exact (NoDup_pre json_ok ticks _ _ ND). Qed.
  Lemma ids_later xs ys i f : nth_error (rcv xs) i = Some f -> nth_error (rcv (xs ++ ys)) i = Some f.
  Proof. intro E. destruct (linearizable json_ok ttl_read emsg ticks (c_ttl sys) imax maxp cap e) as (H & LH). destruct (all_after json_ok ttl_read emsg ticks (c_ttl sys) imax maxp cap e xs ys H LH) as (fs & ->). rewrite nth_error_app1; auto. apply nth_error_Some. congruence. Qed.

  Lemma own_set xs ys zs n m key v l ttl c r : NoDup (akeys (fst e)) -> NoDup (map in_id (rcv ((xs ++ ys) ++ zs))) ->
    gives v -> held (JObj l) -> Forall text (names l) -> means sys 2 l (SSetTtl ttl) -> sdk_set key v (JObj l) = Some c ->
    (length (rcv xs) <= n)%nat -> answer (xs ++ ys) n c ROk -> (length (rcv (xs ++ ys)) <= m)%nat -> answer ((xs ++ ys) ++ zs) m (sdk_get key) r -> only (Some n) (utf8_write key) ((xs ++ ys) ++ zs) ->
    exists t t2 x, clk xs <= t /\ t <= clk (xs ++ ys) /\ clk (xs ++ ys) <= t2 /\ t2 <= clk ((xs ++ ys) ++ zs) /\ (t + ttl * ticks < t2 -> r = RNull) /\
      (Forall (sweep_by (clk ((xs ++ ys) ++ zs))) (others ((xs ++ ys) ++ zs)) -> clk ((xs ++ ys) ++ zs) < t + ttl * ticks -> sdk_got r = Some x) /\ reads v x /\ (exact v -> x = v).
  Proof.
    intros NK ND G HL TL M SC Ln (f & NF & WF & IF) Lm (g & NG & WG & IG) (O1 & O2). destruct (given_read v G) as (b & x & B1 & B2 & B3 & B4). unfold sdk_set in SC. rewrite B1 in SC. injection SC as <-.
    destruct (linearizable json_ok ttl_read emsg ticks (c_ttl sys) imax maxp cap e) as (H & LH).
    destruct (ent H (xs ++ ys) n f ROk _ LH (ids_pre _ _ ND) NF WF Logic.I IF) as (h1 & e1 & h2 & A1 & A2 & A3 & A4).
    destruct (read_entry _ _ _ _ _ _ _ _ e H (xs ++ ys) zs m g _ r LH ND Lm NG WG IG) as (k & e2 & g2 & C1 & C2 & C3 & C4 & C5).
    cbn [ConnStoreSpec.asks] in A3. rewrite A3 in A4. unfold sstep in A4. destruct (expiry ticks (c_ttl sys) imax (time e1) (ttl_read (sdk_opts (JObj l)))) as [ex|] eqn:EX; [|destruct A4].
    pose proof (meant_expiry sys ticks imax _ _ _ _ (ttl_meant sys l ttl HL TL M) EX) as EE. subst ex.
    exists (time e1), (time e2), x. assert (I1 : In e1 (H (xs ++ ys))) by (rewrite A1; apply in_or_app; right; left; auto).
    split; [eapply late_entry; eauto|]. split; [eapply time_bound; eauto|]. split; auto. split; auto.
    rewrite A1 in C3. rewrite <- app_assoc in C3. cbn [app] in C3. rewrite C2 in C3.
    assert (F : Forall (fun e => ~ writes_key (utf8_write key) (act e)) (h2 ++ k)).
    { eapply (behind_own _ _ _ _ _ _ _ _ _ H ((xs ++ ys) ++ zs) n e1 h1); eauto; [exists (e2 :: g2); rewrite C1, A1; rewrite <- !app_assoc; cbn [app]; rewrite <- !app_assoc; reflexivity|]. intros i f0 c N. apply O1. congruence. }
    destruct (said_set ticks (c_ttl sys) imax (fst e) h1 (time e1) (utf8_write key) b _ _ (h2 ++ k) (time e2) r NK EX F e1 A3 C3) as (S1 & S2). split; [exact S1|]. split; auto.
    intros SW L. rewrite S2; [exact B2|lia|]. eapply (sweeps_by _ _ _ _ _ _ _ _ _ H ((xs ++ ys) ++ zs)); eauto.
    intros en I. rewrite C1, A1. apply in_app_or in I. rewrite !in_app_iff. cbn. tauto.
  Qed.
End Store.

(** * C105 *)
(** A client that has set a value and has the confirmation, then gets it: while it has not
    reached its lifetime, the value is read. *)
Theorem C105_set_get : forall emsg sys ticks imax maxp cap e xs ys zs n m key v l ttl c r,
  let rcv := received json_ok ttl_read emsg ticks (c_ttl sys) imax maxp cap e in
  let clk := clock json_ok ttl_read emsg ticks (c_ttl sys) imax maxp cap e in
  let answer := answer emsg sys ticks imax maxp cap e in
  NoDup (akeys (fst e)) -> NoDup (map in_id (rcv ((xs ++ ys) ++ zs))) ->
  gives v -> held (JObj l) -> Forall text (names l) -> means sys 2 l (SSetTtl ttl) -> sdk_set key v (JObj l) = Some c ->
  (length (rcv xs) <= n)%nat -> answer (xs ++ ys) n c ROk -> (length (rcv (xs ++ ys)) <= m)%nat -> answer ((xs ++ ys) ++ zs) m (sdk_get key) r ->
  only emsg sys ticks imax maxp cap e (Some n) (utf8_write key) ((xs ++ ys) ++ zs) -> Forall (sweep_by (clk ((xs ++ ys) ++ zs))) (others ((xs ++ ys) ++ zs)) ->
  clk ((xs ++ ys) ++ zs) < clk xs + ttl * ticks -> exists x, sdk_got r = Some x /\ reads v x /\ (exact v -> x = v).
Proof.
  cbv zeta. intros emsg sys ticks imax maxp cap e xs ys zs n m key v l ttl c r NK ND G HL TL M SC Ln A Lm B O SW L.
  destruct (own_set emsg sys ticks imax maxp cap e xs ys zs n m key v l ttl c r NK ND G HL TL M SC Ln A Lm B O) as (t & t2 & x & T1 & T2 & T3 & T4 & S1 & S2 & S3 & S4). exists x. split; auto. apply S2; auto. lia.
Qed.
Print Assumptions C105_set_get.
(** Past its lifetime null is read: the get is received when the lifetime is over. *)
Theorem C105_expires : forall emsg sys ticks imax maxp cap e xs ys us zs n m key v l ttl c r,
  let rcv := received json_ok ttl_read emsg ticks (c_ttl sys) imax maxp cap e in
  let clk := clock json_ok ttl_read emsg ticks (c_ttl sys) imax maxp cap e in
  let answer := answer emsg sys ticks imax maxp cap e in
  NoDup (akeys (fst e)) -> NoDup (map in_id (rcv ((xs ++ ys ++ us) ++ zs))) ->
  gives v -> held (JObj l) -> Forall text (names l) -> means sys 2 l (SSetTtl ttl) -> sdk_set key v (JObj l) = Some c ->
  (length (rcv xs) <= n)%nat -> answer (xs ++ ys) n c ROk -> (length (rcv (xs ++ ys ++ us)) <= m)%nat -> answer ((xs ++ ys ++ us) ++ zs) m (sdk_get key) r ->
  only emsg sys ticks imax maxp cap e (Some n) (utf8_write key) ((xs ++ ys ++ us) ++ zs) ->
  clk (xs ++ ys) + ttl * ticks < clk (xs ++ ys ++ us) -> sdk_got r = Some (VJson JNull).
Proof.
  cbv zeta. intros emsg sys ticks imax maxp cap e xs ys us zs n m key v l ttl c r NK ND G HL TL M SC Ln (f & NF & WF & IF) Lm (g & NG & WG & IG) (O1 & O2) L.
  destruct (given_read v G) as (b & x & B1 & B2 & B3 & B4). unfold sdk_set in SC. rewrite B1 in SC. injection SC as <-.
  destruct (linearizable json_ok ttl_read emsg ticks (c_ttl sys) imax maxp cap e) as (H & LH).
  assert (ND1 : NoDup (map in_id (received json_ok ttl_read emsg ticks (c_ttl sys) imax maxp cap e (xs ++ ys)))) by (rewrite app_assoc, <- app_assoc in ND; eapply ids_pre; eauto).
  destruct (entry_of _ _ _ _ _ _ _ _ _ H (xs ++ ys) n f ROk _ LH ND1 NF WF Logic.I IF) as (h1 & e1 & h2 & A1 & A2 & A3 & A4).
  destruct (read_entry _ _ _ _ _ _ _ _ e H (xs ++ ys ++ us) zs m g _ r LH ND Lm NG WG IG) as (k & e2 & g2 & C1 & C2 & C3 & C4 & C5).
  destruct (LH (xs ++ ys)) as (_ & _ & _ & _ & _ & EXT). destruct (EXT us) as (l0 & E0 & _). rewrite <- app_assoc in E0.
  cbn [ConnStoreSpec.asks] in A3. rewrite A3 in A4. unfold sstep in A4. destruct (expiry ticks (c_ttl sys) imax (time e1) (ttl_read (sdk_opts (JObj l)))) as [ex|] eqn:EX; [|destruct A4].
  pose proof (meant_expiry sys ticks imax _ _ _ _ (ttl_meant sys l ttl HL TL M) EX) as EE. subst ex.
  assert (I1 : In e1 (H (xs ++ ys))) by (rewrite A1; apply in_or_app; right; left; auto). pose proof (time_bound _ _ _ _ _ _ _ _ _ H (xs ++ ys) e1 LH I1) as T1.
  rewrite E0, A1 in C3. rewrite <- !app_assoc in C3. cbn [app] in C3. rewrite C2 in C3.
  assert (F : Forall (fun e => ~ writes_key (utf8_write key) (act e)) (h2 ++ l0 ++ k)).
  { eapply (behind_own _ _ _ _ _ _ _ _ _ H ((xs ++ ys ++ us) ++ zs) n e1 h1); eauto; [exists (e2 :: g2); rewrite C1, E0, A1; rewrite <- !app_assoc; cbn [app]; rewrite <- !app_assoc; reflexivity|]. intros i f0 c N. apply O1. congruence. }
  destruct (said_set ticks (c_ttl sys) imax (fst e) h1 (time e1) (utf8_write key) b _ _ (h2 ++ l0 ++ k) (time e2) r NK EX F e1 A3 C3) as (S1 & _). rewrite S1; [reflexivity|]. lia.
Qed.
Print Assumptions C105_expires.
(** After a confirmed del null is read. *)
Theorem C105_del_get : forall emsg sys ticks imax maxp cap e xs zs n m key r,
  let rcv := received json_ok ttl_read emsg ticks (c_ttl sys) imax maxp cap e in
  let answer := answer emsg sys ticks imax maxp cap e in
  NoDup (akeys (fst e)) -> NoDup (map in_id (rcv (xs ++ zs))) ->
  answer xs n (sdk_del key) ROk -> (length (rcv xs) <= m)%nat -> answer (xs ++ zs) m (sdk_get key) r ->
  only emsg sys ticks imax maxp cap e (Some n) (utf8_write key) (xs ++ zs) -> sdk_got r = Some (VJson JNull).
Proof.
  cbv zeta. intros emsg sys ticks imax maxp cap e xs zs n m key r NK ND (f & NF & WF & IF) Lm (g & NG & WG & IG) (O1 & O2).
  destruct (linearizable json_ok ttl_read emsg ticks (c_ttl sys) imax maxp cap e) as (H & LH).
  assert (ND1 : NoDup (map in_id (received json_ok ttl_read emsg ticks (c_ttl sys) imax maxp cap e xs))) by (eapply ids_pre; eauto).
  destruct (entry_of _ _ _ _ _ _ _ _ _ H xs n f ROk _ LH ND1 NF WF Logic.I IF) as (h1 & e1 & h2 & A1 & A2 & A3 & A4).
  destruct (read_entry _ _ _ _ _ _ _ _ e H xs zs m g _ r LH ND Lm NG WG IG) as (k & e2 & g2 & C1 & C2 & C3 & C4 & C5).
  cbn [ConnStoreSpec.asks] in A3. rewrite A1 in C3. rewrite <- !app_assoc in C3. cbn [app] in C3. rewrite C2 in C3.
  assert (F : Forall (fun e => ~ writes_key (utf8_write key) (act e)) (h2 ++ k)).
  { eapply (behind_own _ _ _ _ _ _ _ _ _ H (xs ++ zs) n e1 h1); eauto; [exists (e2 :: g2); rewrite C1, A1; rewrite <- !app_assoc; cbn [app]; rewrite <- !app_assoc; reflexivity|]. intros i f0 c N. apply O1. congruence. }
  rewrite (said_del ticks (c_ttl sys) imax (fst e) h1 (utf8_write key) (h2 ++ k) (time e2) r NK F e1 A3 C3). reflexivity.
Qed.
Print Assumptions C105_del_get.
(** A value that another client sets, at its clock [t], before this client asks for it, is
    read until its lifetime is over, and not after it. *)
Theorem C105_other_set : forall emsg sys ticks imax maxp cap e xs zs m key v l ttl t b r,
  let rcv := received json_ok ttl_read emsg ticks (c_ttl sys) imax maxp cap e in
  let clk := clock json_ok ttl_read emsg ticks (c_ttl sys) imax maxp cap e in
  let set := KExt sx (SXOp (OSet t (utf8_write key) b (ttl_read (sdk_opts (JObj l))))) in
  NoDup (akeys (fst e)) -> NoDup (map in_id (rcv ((xs ++ [set]) ++ zs))) ->
  gives v -> held (JObj l) -> Forall text (names l) -> means sys 2 l (SSetTtl ttl) -> any jv js_stringify v = Some b -> t + ttl * ticks <= imax ->
  (length (rcv (xs ++ [set])) <= m)%nat -> answer emsg sys ticks imax maxp cap e ((xs ++ [set]) ++ zs) m (sdk_get key) r ->
  (forall i f c, nth_error (rcv ((xs ++ [set]) ++ zs)) i = Some f -> wants json_ok f c -> ~ cmd_writes (utf8_write key) c) -> Forall (fun o => ~ writes_key (utf8_write key) o) (others zs) ->
  (Forall (sweep_by (clk ((xs ++ [set]) ++ zs))) (others zs) -> clk ((xs ++ [set]) ++ zs) < t + ttl * ticks -> exists x, sdk_got r = Some x /\ reads v x /\ (exact v -> x = v)) /\
  (t + ttl * ticks < clk (xs ++ [set]) -> sdk_got r = Some (VJson JNull)).
Proof.
  cbv zeta. intros emsg sys ticks imax maxp cap e xs zs m key v l ttl t b r NK ND G HL TL M B FIT Lm (g & NG & WG & IG) O1 O2.
  destruct (given_read v G) as (b' & x & B1 & B2 & B3 & B4). rewrite B in B1. injection B1 as <-.
  destruct (linearizable json_ok ttl_read emsg ticks (c_ttl sys) imax maxp cap e) as (H & LH).
  set (o := OSet t (utf8_write key) b (ttl_read (sdk_opts (JObj l)))) in *.
  destruct (other_entry _ _ _ _ _ _ _ _ e H xs o zs LH) as (h1 & e1 & h2 & A1 & A2 & A3 & l0 & E0 & A4).
  destruct (read_entry _ _ _ _ _ _ _ _ e H (xs ++ [KExt sx (SXOp o)]) zs m g _ r LH ND Lm NG WG IG) as (k & e2 & g2 & C1 & C2 & C3 & C4 & C5).
  assert (EX : exists ex, expiry ticks (c_ttl sys) imax t (ttl_read (sdk_opts (JObj l))) = Some ex).
  { unfold expiry. pose proof (ttl_meant sys l ttl HL TL M) as TM. unfold set_ttl in TM. destruct (ttl_read _) as [n|]; rewrite ?TM; (destruct (N.leb_spec (t + ttl * ticks) imax); [|lia]); eexists; reflexivity. }
  destruct EX as (ex & EX). pose proof (meant_expiry sys ticks imax _ _ _ _ (ttl_meant sys l ttl HL TL M) EX) as EE. subst ex.
  rewrite A1 in C1, C3. assert (L0 : l0 = k ++ e2 :: g2). { rewrite E0 in C1. rewrite <- (app_assoc (h1 ++ e1 :: h2) k) in C1. apply app_inv_head in C1. exact C1. }
  rewrite <- !app_assoc in C3. cbn [app] in C3. rewrite C2 in C3.
  assert (OTH : forall en, In en (h2 ++ k) -> who en = None -> In (act en) (others zs)).
  { intros en I W. rewrite <- A4. apply in_map. apply filter_In. split; [|unfold is_other; rewrite W; auto]. apply in_app_or in I. destruct I as [I|I]; [|rewrite L0; apply in_or_app; auto].
    rewrite Forall_forall in A3. specialize (A3 en I). unfold is_other in A3. rewrite W in A3. discriminate. }
  assert (IA : forall en, In en (h2 ++ k) -> In en (H ((xs ++ [KExt sx (SXOp o)]) ++ zs))).
  { intros en I. rewrite E0, L0. apply in_app_or in I. rewrite !in_app_iff. cbn. tauto. }
  assert (F : Forall (fun e => ~ writes_key (utf8_write key) (act e)) (h2 ++ k)).
  { apply Forall_forall. intros en I. destruct (who en) as [q|] eqn:W; [eapply own_writes; eauto|]. rewrite Forall_forall in O2. apply O2. auto. }
  destruct (said_set ticks (c_ttl sys) imax (fst e) h1 t (utf8_write key) b _ _ (h2 ++ k) (time e2) r NK EX F e1 A2 C3) as (S1 & S2). split.
  - intros SW L. exists x. split; auto. rewrite S2; [exact B2|lia|]. apply Forall_forall. intros en I. destruct (who en) as [q|] eqn:W.
    + destruct (LH ((xs ++ [KExt sx (SXOp o)]) ++ zs)) as (_ & _ & _ & OWN & _). destruct (OWN en q (IA en I) W) as (f0 & c0 & _ & _ & X). destruct c0; cbn in X; try contradiction; rewrite X; cbn; auto.
    + rewrite Forall_forall in SW. specialize (SW _ (OTH en I W)). destruct (act en); cbn in *; auto; lia.
  - intro L. rewrite S1; [reflexivity|]. lia.
Qed.
Print Assumptions C105_other_set.
(** Other keys do not matter. *)
Theorem C105_other_keys : forall key key' v o c, text key -> text key' -> key <> key' -> c = sdk_del key' \/ c = sdk_get key \/ sdk_set key' v o = Some c -> ~ cmd_writes (utf8_write key) c.
Proof.
  intros key key' v o c T T' N [-> |[-> |E]]; cbn [sdk_del sdk_get cmd_writes]; try tauto.
  - intro E. apply N. rewrite <- (text_back key T), <- (text_back key' T'). congruence.
  - unfold sdk_set in E. destruct (any _ _ _); [|discriminate]. injection E as <-. cbn [cmd_writes]. intro E. apply N. rewrite <- (text_back key T), <- (text_back key' T'). congruence.
Qed.
Print Assumptions C105_other_keys.

(** A set of {"a": [1, undefined], "b": undefined} for key "ké" with {ttl: 20}, answered, then a get, with
    another client, a sweep and some time in between. *)
Definition vx : jv := JObj [([97], JArr [JNum [49]; JUndef]); ([98], JUndef)].
Definition kx : txt := [107; 233].
Definition lx : list (txt * jv) := [(w "ttl", JNum [50; 48])].
Definition cx : command := match sdk_set kx (VJson vx) (JObj lx) with Some c => c | None => sdk_get kx end.
Definition x1 : list (cop sx) := [KExt _ (SXClock 5)].
Definition x2 : list (cop sx) := [KRecv _ (req_wire (2, 2, sdk_args cx)); KNext _; KPass _; KSpawn _; KExt _ (SXClock 10); KPoll _ 0; KTask _ 0; KTask _ 0; KTask _ 0; KWrite _].
Definition x3 : list (cop sx) :=
  [KExt _ (SXOp (OSet 15 [98] [9] None)); KRecv _ (req_wire (3, 3, sdk_args (sdk_get kx))); KExt _ (SXClock 150); KExt _ (SXOp (OSweep 165)); KNext _; KPass _; KSpawn _; KPoll _ 0; KTask _ 0; KTask _ 0; KTask _ 0; KWrite _].
Definition sysx : sysconf := sys_default.
Notation rx := (received json_ok ttl_read xmsg 10 (c_ttl sysx) 500000 1000 2 ([], 0)).
Notation ax := (answered json_ok ttl_read xmsg 10 (c_ttl sysx) 500000 1000 2 ([], 0)).
Example C105_example :
  gives (VJson vx) /\ held (JObj lx) /\ Forall text (names lx) /\ means sysx 2 lx (SSetTtl 20) /\ sdk_set kx (VJson vx) (JObj lx) = Some cx /\
  NoDup (map in_id (rx ((x1 ++ x2) ++ x3))) /\ length (rx x1) = 0%nat /\ length (rx (x1 ++ x2)) = 1%nat /\
  answer xmsg sysx 10 500000 1000 2 ([], 0) (x1 ++ x2) 0 cx ROk /\
  (exists r, answer xmsg sysx 10 500000 1000 2 ([], 0) ((x1 ++ x2) ++ x3) 1 (sdk_get kx) r /\ sdk_got r = Some (VJson (JObj [([97], JArr [JNum [49]; JNull])]))) /\
  only xmsg sysx 10 500000 1000 2 ([], 0) (Some 0%nat) (utf8_write kx) ((x1 ++ x2) ++ x3) /\
  Forall (sweep_by 165) (others ((x1 ++ x2) ++ x3)) /\ clock json_ok ttl_read xmsg 10 (c_ttl sysx) 500000 1000 2 ([], 0) ((x1 ++ x2) ++ x3) = 165 /\ 165 < 5 + 20 * 10.
Proof.
  assert (NUM : json_number [49] /\ json_number [50; 48]).
  { split; [apply (decimal_number 1); apply (d_one 1); lia|]. apply (decimal_number 20). apply (d_more 2 0 [50]); [apply (d_one 2)| |]; lia. }
  split. { constructor; [|discriminate]. constructor; [constructor; [split; [repeat constructor|]|constructor; [split; [repeat constructor|constructor]|constructor]]|].
    - cbn [snd]. constructor. constructor; [constructor; apply NUM|]. constructor; [constructor|constructor].
    - repeat constructor; cbn; intuition discriminate. }
  split. { constructor; [constructor; [split; [repeat constructor|constructor; apply NUM]|constructor]|repeat constructor; intros []]. }
  split. { constructor; [|constructor]. apply text_low. apply w_low. }
  split. { apply m_set with (n := 20); [|discriminate]. exists (JNum [50; 48]). split; [left; left; reflexivity|]. constructor; [apply (d_more 2 0 [50]); [apply (d_one 2)| |]; lia|vm_compute; discriminate]. }
  split. { vm_compute. reflexivity. }
  assert (R : rx ((x1 ++ x2) ++ x3) = map req_frame [(2, 2, sdk_args cx); (3, 3, sdk_args (sdk_get kx))]) by (vm_compute; reflexivity).
  split. { rewrite R; vm_compute; repeat constructor; cbn; intuition discriminate. }
  split; [vm_compute; reflexivity|]. split; [vm_compute; reflexivity|].
  split. { exists (req_frame (2, 2, sdk_args cx)). split; [vm_compute; reflexivity|]. split; [split; vm_compute; reflexivity|]. vm_compute. auto. }
  split. { exists (RData (match any jv js_stringify (VJson vx) with Some b => b | None => [] end)). split; [exists (req_frame (3, 3, sdk_args (sdk_get kx))); split; [vm_compute; reflexivity|]; split; [split; vm_compute; reflexivity|]; vm_compute; right; left; reflexivity|]. vm_compute. reflexivity. }
  split. { split.
    - intros i h c N E (_ & W). rewrite R in E. destruct i as [|[|i]]; [congruence| |destruct i; discriminate]. injection E as <-. vm_compute in W. injection W as <-. cbn; auto.
    - change (others ((x1 ++ x2) ++ x3)) with [OSet 15 [98] [9] None; OSweep 165]. constructor; [|constructor; [intros []|constructor]]. intro X. vm_compute in X. discriminate X. }
  split. { change (others ((x1 ++ x2) ++ x3)) with [OSet 15 [98] [9] None; OSweep 165]. constructor; [exact I|]. constructor; [cbn; lia|constructor]. }
  split; [vm_compute; reflexivity|reflexivity].
Qed.
