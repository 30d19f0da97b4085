(** Property C112: the settings of a queue or stream through its life. *)
From Verif Require Import LibBase CmdModel Utf8 ValueModel JsonModel OptionsModel OptionsProofs PropOptions PropConfig CfgLifeModel.
Open Scope N_scope.

(** ** Specification *)
(** the settings a creation asks for: what it says, otherwise what the server has *)
Definition asked (sys : sysconf) (o : option N * option N) : N * N :=
  (match fst o with Some v => v | None => c_vis sys end, match snd o with Some r => r | None => c_retries sys end).
(** A queue that is there or not, and has settings if it is. Creating and deleting it are
    done at once; in a crash they were done or not. *)
Inductive qspec : option sysconf * option (N * N) -> qev -> option sysconf * option (N * N) -> Prop :=
| qs_start : forall sys s, qspec (None, s) (QStart sys) (Some sys, s)
| qs_stop : forall sys s, qspec (Some sys, s) QStop (None, s)
| qs_create : forall sys o, qspec (Some sys, None) (QCreate o) (Some sys, Some (asked sys o))
| qs_again : forall sys c o, qspec (Some sys, Some c) (QCreate o) (Some sys, Some c)
| qs_delete : forall sys s, qspec (Some sys, s) QDelete (Some sys, None)
| qs_created : forall sys o p, qspec (Some sys, None) (QCreateCrash o p) (None, Some (asked sys o))
| qs_not_created : forall sys s o p, qspec (Some sys, s) (QCreateCrash o p) (None, s)
| qs_deleted : forall sys s k, qspec (Some sys, s) (QDeleteCrash k) (None, None)
| qs_not_deleted : forall sys s k, qspec (Some sys, s) (QDeleteCrash k) (None, s)
| qs_up : forall sys sys' s, qspec (Some sys, s) (QStart sys') (Some sys, s)
| qs_down : forall s e, (forall sys, e <> QStart sys) -> qspec (None, s) e (None, s).
(** [outcome R x h y]: the events [h], one after the other, lead from [x] to [y] *)
Inductive outcome {S E} (R : S -> E -> S -> Prop) (x : S) : list E -> S -> Prop :=
| oc_nil : outcome R x [] x
| oc_step : forall h e y z, outcome R x h y -> R y e z -> outcome R x (h ++ [e]) z.
(** numbers that fit their types *)
Definition u_sys (sys : sysconf) : Prop := c_vis sys <= u64 /\ c_retries sys <= u32.
Definition u_opts (o : option N * option N) : Prop := (forall v, fst o = Some v -> v <= u64) /\ (forall r, snd o = Some r -> r <= u32).
Definition u_qev (e : qev) : Prop := match e with QStart sys => u_sys sys | QCreate o | QCreateCrash o _ => u_opts o | _ => True end.

(** the disk and the memory against the specification *)
Definition qrel (x : qlife) (s : option sysconf * option (N * N)) : Prop :=
  ql_up x = fst s /\ ql_mem x = (match fst s with Some _ => snd s | None => None end) /\ (forall sys, fst s = Some sys -> u_sys sys) /\
  match snd s with Some c => qd_db (ql_disk x) = true /\ qd_cfg (ql_disk x) = Some (queue_file c) /\ fst c <= u64 /\ snd c <= u32 | None => qd_db (ql_disk x) = false end.
Lemma asked_fits sys o : u_sys sys -> u_opts o -> fst (asked sys o) <= u64 /\ snd (asked sys o) <= u32.
Proof. intros (A & B) (C & D). destruct o as [[v|] [r|]]; cbn in *; auto. Qed.
Lemma asked_settings sys o : q_settings sys o = asked sys o.
Proof. destruct o as [[v|] [r|]]; reflexivity. Qed.
Lemma qlife_sim x s e : u_qev e -> qrel x s -> exists s', qspec s e s' /\ qrel (qlife_step x e) s'.
Proof.
  intros U (A & B & C & D). destruct x as [up mem [db cfg]]. destruct s as [su sc]. cbn [ql_up ql_mem ql_disk fst snd qd_db qd_cfg] in *. subst up. unfold qlife_step. cbn [ql_up ql_mem ql_disk qd_db qd_cfg].
  destruct su as [sys|].
  - subst mem. pose proof (C _ eq_refl) as US. destruct e as [sys'| |o| |o p|k].
    + exists (Some sys, sc). split; [constructor|]. split; [reflexivity|]. split; [reflexivity|]. split; auto.
    + exists (None, sc). split; [constructor|]. split; [reflexivity|]. split; [reflexivity|]. split; [discriminate|exact D].
    + destruct sc as [c|].
      * exists (Some sys, Some c). split; [constructor|]. split; [reflexivity|]. split; [reflexivity|]. split; auto.
      * exists (Some sys, Some (asked sys o)). split; [constructor|]. split; [reflexivity|]. split; [cbn [fst snd ql_mem]; rewrite asked_settings; reflexivity|]. split; [auto|]. cbn [fst snd ql_disk]. unfold q_written. cbn [qd_db qd_cfg]. rewrite asked_settings. split; [reflexivity|]. split; [reflexivity|]. exact (asked_fits _ _ US U).
    + exists (Some sys, None). split; [constructor|]. split; [reflexivity|]. split; [reflexivity|]. split; auto. reflexivity.
    + destruct sc as [c|].
      * exists (None, Some c). split; [constructor|]. split; [reflexivity|]. split; [reflexivity|]. split; [discriminate|exact D].
      * destruct p as [n|].
        -- exists (None, None). split; [constructor|]. split; [reflexivity|]. split; [reflexivity|]. split; [discriminate|exact D].
        -- exists (None, Some (asked sys o)). split; [constructor|]. split; [reflexivity|]. split; [reflexivity|]. split; [discriminate|]. cbn [fst snd ql_disk]. unfold q_written. cbn [qd_db qd_cfg]. rewrite asked_settings. split; [reflexivity|]. split; [reflexivity|]. exact (asked_fits _ _ US U).
    + destruct k as [|[|k]].
      * exists (None, sc). split; [constructor|]. split; [reflexivity|]. split; [reflexivity|]. split; [discriminate|exact D].
      * exists (None, None). split; [constructor|]. split; [reflexivity|]. split; [reflexivity|]. split; [discriminate|]. reflexivity.
      * exists (None, None). split; [constructor|]. split; [reflexivity|]. split; [reflexivity|]. split; [discriminate|]. reflexivity.
  - subst mem. destruct e as [sys'| |o| |o p|k]; try (exists (None, sc); split; [constructor; congruence|]; split; [reflexivity|]; split; [reflexivity|]; split; [discriminate|exact D]).
    exists (Some sys', sc). split; [constructor|]. split; [reflexivity|]. cbn. split; [|split; [intros ? [= <-]; exact U|exact D]].
    destruct sc as [[v r]|]; [|rewrite D; reflexivity]. destruct D as (-> & -> & V & R). cbn in V, R. rewrite queue_back by auto. reflexivity.
Qed.

(** * C112 *)
(** Queues: whatever crashes, a creation or deletion has happened wholly or not at all, and as
    long as the queue is there it has the settings it was created with: after any number of starts
    with other defaults, and of creations with other options. *)
Theorem C112_queue : forall h, Forall u_qev h -> exists up s, outcome qspec (None, None) h (up, s) /\
  ql_up (qlife_run h) = up /\ forall sys, up = Some sys -> ql_mem (qlife_run h) = s.
Proof.
  intros h U. assert (X : exists s, outcome qspec (None, None) h s /\ qrel (qlife_run h) s).
  { induction h as [|e h IH] using rev_ind; [exists (None, None); split; [constructor|repeat split; discriminate]|]. apply Forall_app in U. destruct U as (U & Ue). destruct (IH U) as (s & O & R). destruct (qlife_sim _ _ e (Forall_inv Ue) R) as (s' & Q & R').
    exists s'. split; [econstructor; eauto|]. unfold qlife_run in *. rewrite fold_left_app. exact R'. }
  destruct X as ([up s] & O & A & B & _). exists up, s. split; [exact O|]. split; [exact A|]. intros sys ->. exact B.
Qed.
Print Assumptions C112_queue.

(** Streams, specification: [Gone]; [Has c]: there, with settings [c]; [Bare]: there, but without
    settings of its own, it has the defaults of the server, others after each start. *)
Inductive sstatus := Gone | Has (c : tconf) | Bare.
(** the settings a creation asks for: retention as said (0: none), the rest from the server *)
Definition limit_of (o : option N) (d : N) : option N := match o with None => Some d | Some 0 => None | Some v => Some v end.
Definition topic_asked (sys : sysconf) (env : tconf) (o : option (option N * option N)) : tconf :=
  let o := match o with Some r => r | None => (None, None) end in
  mkTC (tc_path env) (tc_seg env) (limit_of (fst o) (c_age sys), limit_of (snd o) (c_bytes sys)) (tc_check env) (tc_flush env) (tc_soft env) (tc_hard env) (tc_evict env) (tc_pending env) (tc_wait env) (tc_deliv env).
Definition settings_now (up : sysconf * tconf) (s : sstatus) : option tconf :=
  match s with Gone => None | Has c => Some c | Bare => Some (topic_asked (fst up) (snd up) None) end.
Inductive sspec : option (sysconf * tconf) * sstatus -> sev -> option (sysconf * tconf) * sstatus -> Prop :=
| ss_start : forall sys env s, sspec (None, s) (LStart sys env) (Some (sys, env), s)
| ss_stop : forall u s, sspec (Some u, s) LStop (None, s)
| ss_create : forall sys env o, sspec (Some (sys, env), Gone) (LCreate o) (Some (sys, env), Has (topic_asked sys env o))
| ss_again : forall u s o, s <> Gone -> sspec (Some u, s) (LCreate o) (Some u, s)
| ss_delete : forall u s, sspec (Some u, s) LDelete (Some u, Gone)
| ss_created : forall sys env o n, sspec (Some (sys, env), Gone) (LCreateCrash o (SPCfg n)) (None, Has (topic_asked sys env o))
| ss_not_created : forall u s o p, s <> Gone -> sspec (Some u, s) (LCreateCrash o p) (None, s)
| ss_bare : forall u o p, sspec (Some u, Gone) (LCreateCrash o p) (None, Bare)
| ss_deleted : forall u s, sspec (Some u, s) (LDeleteCrash SGAll) (None, Gone)
| ss_not_deleted : forall u s, sspec (Some u, s) (LDeleteCrash SGData) (None, s)
| ss_emptied : forall u s, s <> Gone -> sspec (Some u, s) (LDeleteCrash SGCfg) (None, Bare)
| ss_nothing : forall u, sspec (Some u, Gone) (LDeleteCrash SGCfg) (None, Gone)
| ss_up : forall u sys env s, sspec (Some u, s) (LStart sys env) (Some u, s)
| ss_down : forall s e, (forall sys env, e <> LStart sys env) -> sspec (None, s) e (None, s).
Definition u_topic (sys : sysconf) (env : tconf) : Prop := fits env /\ c_age sys <= u64 /\ c_bytes sys <= u64.
Definition u_ret (o : option (option N * option N)) : Prop := forall a b, o = Some (a, b) -> (forall n, a = Some n \/ b = Some n -> n <= u64).
Definition u_sev (e : sev) : Prop := match e with LStart sys env => u_topic sys env | LCreate o | LCreateCrash o _ => u_ret o | _ => True end.

Lemma limit_same o d : limit o d = limit_of o d.
Proof. destruct o as [v|]; [|reflexivity]. unfold limit, limit_of. destruct v; reflexivity. Qed.
Lemma topic_new_asked sys env o : topic_new sys env o = topic_asked sys env o.
Proof. unfold topic_new, topic_asked, t_retention. destruct o as [[a b]|]; cbn [fst snd]; rewrite ?limit_same; reflexivity. Qed.
Lemma limit_fits o d n : (forall m, o = Some m -> m <= u64) -> d <= u64 -> limit_of o d = Some n -> n <= u64.
Proof. intros A B E. unfold limit_of in E. destruct o as [[|p]|]; [discriminate|injection E as <-; apply A; reflexivity|congruence]. Qed.
Lemma topic_asked_fits sys env o : u_topic sys env -> u_ret o -> fits (topic_asked sys env o).
Proof.
  intros ((P & B1 & B2 & B3 & B4 & B5 & B6 & B7 & B8 & B9 & R) & A & B) U. unfold fits, topic_asked. cbn [tc_path tc_seg tc_ret tc_check tc_flush tc_soft tc_hard tc_evict tc_pending tc_wait tc_deliv fst snd]. repeat (split; [assumption|]). intros n [E|E].
  - eapply limit_fits in E; eauto. intros m H. destruct o as [[a b]|]; cbn in H; [|discriminate]. eapply U; eauto.
  - eapply limit_fits in E; eauto. intros m H. destruct o as [[a b]|]; cbn in H; [|discriminate]. eapply U; eauto.
Qed.
(** a file without settings in it *)
Definition no_settings (f : option bytes) : Prop := forall sys env o, topic_load sys env o f = topic_new sys env o.
Definition srel (x : slife) (s : option (sysconf * tconf) * sstatus) : Prop :=
  sl_up x = fst s /\ sl_mem x = (match fst s with Some u => settings_now u (snd s) | None => None end) /\ (forall sys env, fst s = Some (sys, env) -> u_topic sys env) /\
  match snd s with
  | Has c => sd_dir (sl_disk x) = true /\ sd_cfg (sl_disk x) = Some (topic_file c) /\ fits c
  | Bare => sd_dir (sl_disk x) = true /\ no_settings (sd_cfg (sl_disk x))
  | Gone => sd_dir (sl_disk x) = false /\ sd_cfg (sl_disk x) = None
  end.
Lemma slife_sim x s e : u_sev e -> srel x s -> exists s', sspec s e s' /\ srel (slife_step x e) s'.
Proof.
  intros U (A & B & C & D). destruct x as [up mem [dir cfg]]. destruct s as [su sc]. cbn [sl_up sl_mem sl_disk fst snd sd_dir sd_cfg] in *. subst up. unfold slife_step. cbn [sl_up sl_mem sl_disk sd_dir sd_cfg].
  assert (NS : no_settings None) by (intros ? ? ?; reflexivity).
  destruct su as [[sys env]|].
  - subst mem. pose proof (C _ _ eq_refl) as US. destruct e as [sys' env'| |o| |o p|g].
    + exists (Some (sys, env), sc). split; [constructor|]. repeat (split; [solve [auto]|]). exact D.
    + exists (None, sc). split; [constructor|]. split; [reflexivity|]. split; [reflexivity|]. split; [discriminate|exact D].
    + destruct sc as [|c|].
      * destruct D as (-> & ->). exists (Some (sys, env), Has (topic_asked sys env o)). split; [constructor|]. cbn [settings_now topic_load]. rewrite topic_new_asked. split; [reflexivity|]. split; [reflexivity|]. split; [auto|]. cbn [snd sl_disk]. unfold s_written. cbn [sd_dir sd_cfg]. rewrite firstn_all. split; [reflexivity|]. split; [reflexivity|]. apply topic_asked_fits; auto.
      * exists (Some (sys, env), Has c). split; [constructor; discriminate|]. repeat (split; [solve [auto]|]). exact D.
      * exists (Some (sys, env), Bare). split; [constructor; discriminate|]. repeat (split; [solve [auto]|]). exact D.
    + exists (Some (sys, env), Gone). split; [constructor|]. split; [reflexivity|]. split; [reflexivity|]. split; [auto|]. cbn [snd sl_disk]. destruct sc as [|c|]; cbn [settings_now]; [destruct D as (-> & ->); split; reflexivity|split; reflexivity|split; reflexivity].
    + destruct sc as [|c|].
      * destruct D as (-> & ->). cbn [settings_now topic_load]. rewrite topic_new_asked. unfold s_written. cbn [sd_dir sd_cfg]. pose proof (topic_asked_fits sys env o US U) as FT. destruct p as [|n].
        -- exists (None, Bare). split; [constructor|]. split; [reflexivity|]. split; [reflexivity|]. split; [discriminate|]. cbn. split; [reflexivity|exact NS].
        -- destruct (le_lt_dec (length (topic_file (topic_asked sys env o))) n) as [L|L].
           ++ exists (None, Has (topic_asked sys env o)). split; [constructor|]. split; [reflexivity|]. split; [reflexivity|]. split; [discriminate|]. cbn [snd sl_disk sd_dir sd_cfg]. rewrite firstn_all2 by exact L. split; [reflexivity|]. split; [reflexivity|exact FT].
           ++ exists (None, Bare). split; [constructor|]. split; [reflexivity|]. split; [reflexivity|]. split; [discriminate|]. cbn [snd sl_disk sd_dir sd_cfg]. split; [reflexivity|]. intros sys1 env1 o1.
              destruct (C103_stream_torn (topic_asked sys env o) sys1 env1 o1 (firstn n (topic_file (topic_asked sys env o))) (skipn n (topic_file (topic_asked sys env o))) FT (firstn_skipn _ _)) as (_ & T). rewrite T; [reflexivity|]. intro Z. apply (f_equal (@length _)) in Z. rewrite skipn_length in Z. cbn [length] in Z. lia.
      * exists (None, Has c). split; [constructor; discriminate|]. split; [reflexivity|]. split; [reflexivity|]. split; [discriminate|exact D].
      * exists (None, Bare). split; [constructor; discriminate|]. split; [reflexivity|]. split; [reflexivity|]. split; [discriminate|exact D].
    + destruct g.
      * exists (None, sc). split; [constructor|]. split; [reflexivity|]. split; [reflexivity|]. split; [discriminate|exact D].
      * destruct sc as [|c|].
        -- exists (None, Gone). split; [constructor|]. split; [reflexivity|]. split; [reflexivity|]. split; [discriminate|]. destruct D as (-> & ->). split; reflexivity.
        -- exists (None, Bare). split; [constructor; discriminate|]. split; [reflexivity|]. split; [reflexivity|]. split; [discriminate|]. destruct D as (-> & _). split; [reflexivity|exact NS].
        -- exists (None, Bare). split; [constructor; discriminate|]. split; [reflexivity|]. split; [reflexivity|]. split; [discriminate|]. destruct D as (-> & _). split; [reflexivity|exact NS].
      * exists (None, Gone). split; [constructor|]. split; [reflexivity|]. split; [reflexivity|]. split; [discriminate|]. split; reflexivity.
  - subst mem. destruct e as [sys' env'| |o| |o p|g]; try (exists (None, sc); split; [constructor; congruence|]; split; [reflexivity|]; split; [reflexivity|]; split; [discriminate|exact D]).
    exists (Some (sys', env'), sc). split; [constructor|]. split; [reflexivity|]. cbn [fst snd sl_mem sl_disk sd_dir sd_cfg settings_now]. split; [|split; [intros ? ? [= <- <-]; exact U|exact D]].
    destruct sc as [|c|]; [destruct D as (-> & _); reflexivity| |].
    + destruct D as (-> & -> & F). unfold topic_load. rewrite (topic_back _ F). reflexivity.
    + destruct D as (-> & N). rewrite N, topic_new_asked. reflexivity.
Qed.
Lemma slife_sound h : Forall u_sev h -> exists s, outcome sspec (None, Gone) h s /\ srel (slife_run h) s.
Proof.
  induction h as [|e h IH] using rev_ind; intro U; [exists (None, Gone); split; [constructor|repeat split; discriminate]|]. apply Forall_app in U. destruct U as (U & Ue). destruct (IH U) as (s & O & R). destruct (slife_sim _ _ e (Forall_inv Ue) R) as (s' & Q & R').
  exists s'. split; [econstructor; eauto|]. unfold slife_run in *. rewrite fold_left_app. exact R'.
Qed.
(** Streams: the same, except that a crash in the middle of a creation or deletion can leave the
    stream without settings of its own. *)
Theorem C112_stream_partial : forall h, Forall u_sev h -> exists up s, outcome sspec (None, Gone) h (up, s) /\
  sl_up (slife_run h) = up /\ forall u, up = Some u -> sl_mem (slife_run h) = settings_now u s.
Proof.
  intros h U. destruct (slife_sound h U) as ([up s] & O & A & B & _). exists up, s. split; [exact O|]. split; [exact A|]. intros u ->. exact B.
Qed.
Print Assumptions C112_stream_partial.
(** Without such a crash it always has the settings it was created with. *)
Definition whole (e : sev) : Prop := match e with LCreateCrash _ _ => False | LDeleteCrash g => g <> SGCfg | _ => True end.
Lemma never_bare h up s : Forall whole h -> outcome sspec (None, Gone) h (up, s) -> s <> Bare.
Proof.
  intros W O. remember (up, s) as y eqn:Y. revert up s Y. induction O as [|h e [up1 s1] z O IH R]; intros up s Y; [injection Y as _ <-; discriminate|]. subst z. apply Forall_app in W. destruct W as (W & We). apply Forall_inv in We. specialize (IH W _ _ eq_refl).
  inversion R; subst; auto; try discriminate; cbn in We; try contradiction; congruence.
Qed.
Theorem C112_stream_whole_partial : forall h, Forall u_sev h -> Forall whole h -> exists up s, outcome sspec (None, Gone) h (up, s) /\ s <> Bare /\
  sl_up (slife_run h) = up /\ forall u, up = Some u -> sl_mem (slife_run h) = match s with Has c => Some c | _ => None end.
Proof.
  intros h U W. destruct (slife_sound h U) as ([up s] & O & A & B & _). exists up, s. pose proof (never_bare h up s W O) as NB. split; [exact O|]. split; [exact NB|]. split; [exact A|]. intros u ->. cbn [fst snd] in B. rewrite B. destruct s; [reflexivity|reflexivity|congruence].
Qed.
Print Assumptions C112_stream_whole_partial.
(** Refuted: a crash while the stream is created (its directory is there, its settings are not)
    leaves a stream that the next server has, with the defaults; creating it again is
    answered but changes nothing, and the settings are others again after the next start. *)
Theorem C112_stream_refuted : exists sys env o sys' env' o' sys2, Forall u_sev [LStart sys env; LCreateCrash o SPDir; LStart sys' env'; LCreate o'; LStop; LStart sys2 env'] /\
  let one := sl_mem (slife_run [LStart sys env; LCreateCrash o SPDir; LStart sys' env'; LCreate o']) in
  let two := sl_mem (slife_run [LStart sys env; LCreateCrash o SPDir; LStart sys' env'; LCreate o'; LStop; LStart sys2 env']) in
  one <> Some (topic_asked sys env o) /\ one <> Some (topic_asked sys' env' o') /\ one <> None /\ two <> one /\ two <> None.
Proof.
  exists sys_default, (mkTC [100] 1 (None, None) 2 3 4 5 6 7 8 9), (Some (Some 5, Some 6)), sys_default, (mkTC [100] 1 (None, None) 2 3 4 5 6 7 8 9), (Some (Some 7, Some 8)), (mkC 1 1 1 1 1 1 1 1). split.
  - assert (T : forall sys, c_age sys <= u64 -> c_bytes sys <= u64 -> u_topic sys (mkTC [100] 1 (None, None) 2 3 4 5 6 7 8 9)).
    { intros sys X Y. split; [|split; assumption]. unfold fits. cbn [tc_path tc_seg tc_ret tc_check tc_flush tc_soft tc_hard tc_evict tc_pending tc_wait tc_deliv]. split; [repeat constructor; vm_compute; auto|]. repeat (split; [vm_compute; discriminate|]). intros n [E|E]; discriminate. }
    assert (R : forall a b, a <= u64 -> b <= u64 -> u_ret (Some (Some a, Some b))) by (intros a b X Y c d [= <- <-] n [[= <-]|[= <-]]; assumption).
    repeat (constructor; [cbn [u_sev]; first [exact Logic.I|apply T; vm_compute; discriminate|apply R; vm_compute; discriminate]|]). constructor.
  - cbv zeta. repeat split; vm_compute; discriminate.
Qed.
Print Assumptions C112_stream_refuted.
(** Not vacuous: a queue created with settings of its own, a crash in a second creation, one in a deletion that removed nothing, and a
    server with other defaults; the first creation crashed when half the settings were written and is not there. *)
Example C112_queue_example : let h := [QStart sys_default; QCreateCrash (Some 5, Some 6) (QPCfg 10); QStart sys_default; QCreate (Some 7, None); QCreateCrash (Some 1, None) (QPCfg 0); QStart (mkC 1 1 1 1 1 1 1 1); QDeleteCrash 0; QStart (mkC 2 2 2 2 2 2 2 2)] in
  Forall u_qev h /\ ql_mem (qlife_run h) = Some (7, 5) /\ ql_mem (qlife_run (firstn 3 h)) = None /\ qd_cfg (ql_disk (qlife_run (firstn 3 h))) <> None.
Proof.
  cbv zeta. split; [|split; [vm_compute; reflexivity|split; [vm_compute; reflexivity|vm_compute; discriminate]]].
  assert (S : forall sys, c_vis sys <= u64 -> c_retries sys <= u32 -> u_sys sys) by (intros; split; assumption).
  assert (O : forall a b, (forall v, a = Some v -> v <= u64) -> (forall r, b = Some r -> r <= u32) -> u_opts (a, b)) by (intros; split; assumption).
  repeat (constructor; [cbn [u_qev]; first [exact Logic.I|apply S; vm_compute; discriminate|apply O; intros ? E; first [discriminate E|injection E as <-; vm_compute; discriminate]]|]). constructor.
Qed.
Example C112_stream_example : let env := mkTC [100] 1 (None, None) 2 3 4 5 6 7 8 9 in let h := [LStart sys_default env; LCreate (Some (Some 5, Some 0)); LStop; LStart (mkC 1 1 1 1 1 1 1 1) env; LCreate None; LDeleteCrash SGData; LStart sys_default env] in
  Forall whole h /\ sl_mem (slife_run h) = Some (topic_asked sys_default env (Some (Some 5, Some 0))) /\ tc_ret (topic_asked sys_default env (Some (Some 5, Some 0))) = (Some 5, None).
Proof. cbv zeta. split; [repeat constructor; discriminate|]. split; vm_compute; reflexivity. Qed.
