(** Properties C107, C108: the values pushed to queues and published to streams with the SDK
    are what the callbacks of consumers get. *)
From Coq Require Import String.
From Verif Require Import LibBase LibMap Utf8 WireModel CmdModel ValueModel ValueProofs JsonModel JsonProofs OptionsModel OptionsProofs PropValue PropJson PropOptions SdkStoreModel PropSdkStore
  QueueModel QueueObs QueueFacts SdkLoopModel SdkQueueModel SdkMsgModel SdkQueueSysModel SdkQueueSysSpec SdkQueueSysProofs SdkQueueSysFacts PropSdkQueueSys PropQueue.
Open Scope N_scope.
Notation V := (value jv).
Notation dec := (decode_any jv js_parse JNull).
Notation yrunv cfg conc size os := (yrun cfg conc size V dec os).
Notation ylogv cfg conc size os := (y_log (yrun cfg conc size V dec os)).

(** ** Specification *)
(** [x] is what an application gets for the value [v] *)
Definition comes_as (v x : V) : Prop := PropSdkStore.reads v x /\ (exact v -> x = v).
(** an application has pushed [v] with options that mean priority [p], and the server has
    executed the request, as message [id] *)
Definition pushed_value (sys : sysconf) (L : list (yev V)) (id : N) (v : V) (p : N) : Prop :=
  exists name l c now q, gives v /\ held (JObj l) /\ Forall text (names l) /\ means sys 17 l (SPriority p) /\
    sdk_push name v (JObj l) = Some c /\ push_served sys id now c = Some q /\ In q (served L).
(** all pushes come from SDKs *)
Definition all_values (sys : sysconf) (L : list (yev V)) : Prop := forall id d p now, In (QoPush id d p now) (served L) -> exists v, pushed_value sys L id v p.

Lemma given_body sys L id v p : pushed_value sys L id v p -> exists d n x, In (id, d, p, n) (pushed (served L)) /\ dec d = Some x /\ comes_as v x.
Proof.
  intros (name & l & c & now & q & G & H & T & M & P & S & I). destruct (given_read v G) as (b & x & A & D & R & X). unfold sdk_push in P. rewrite A in P. injection P as <-.
  cbn [push_served] in S. rewrite (means_set sys 17 l _ H T M) in S. injection S as <-. exists b, now, x. split; [|split; [auto|split; auto]]. unfold pushed. apply in_flat_map. exists (QoPush id b p now). split; auto. left; reflexivity.
Qed.
Lemma same_body h b b' : fresh h -> In b (pushed h) -> In b' (pushed h) -> body_id b = body_id b' -> b = b'.
Proof.
  unfold fresh. generalize (pushed h). intro l. induction l as [|z l IH]; cbn; [contradiction|]. intros F H H' E. inversion F as [|? ? N F']; subst.
  assert (IN : forall w, In w l -> body_id w <> body_id z) by (intros w Hw Ew; apply N; rewrite <- Ew; apply in_map; auto).
  destruct H as [->|H], H' as [->|H']; auto; exfalso; [eapply IN in H'; apply H'; congruence|eapply IN in H; apply H; congruence].
Qed.
(** the data of a pushed message *)
Lemma body_given sys L b : fresh (served L) -> all_values sys L -> In b (pushed (served L)) -> exists v p x, pushed_value sys L (body_id b) v p /\ dec (body_data b) = Some x /\ comes_as v x.
Proof.
  intros F A I. assert (I0 := I). unfold pushed in I. apply in_flat_map in I. destruct I as (q & I1 & I2). destruct q; cbn [push_of] in I2; try contradiction. destruct I2 as [<-|[]].
  destruct (A _ _ _ _ I1) as (v & G). destruct (given_body _ _ _ _ _ G) as (d & n & x & I2 & D & C). exists v, prio, x. split; auto. split; auto.
  pose proof (same_body (served L) _ _ F I2 I0 eq_refl) as E. injection E as -> _. exact D.
Qed.

(** * C107 *)
(** Every value whose push was executed is still in the queue, with its priority, or a
    callback got the value and ended well, or a request of someone else removed it. *)
Theorem C107_no_loss : forall cfg conc size sys os id v p, let L := ylogv cfg conc size os in
  fresh (served L) -> pushed_value sys L id v p ->
  (exists d n x, In (id, d, p, n) (listed_bodies (y_q (yrunv cfg conc size os))) /\ dec d = Some x /\ comes_as v x) \/
  (exists x, handled id x true L /\ comes_as v x) \/
  (exists b, body_id b = id /\ removed_by_others cfg b L).
Proof.
  intros cfg conc size sys os id v p L F G. destruct (given_body _ _ _ _ _ G) as (d & n & x & I & D & C).
  destruct (C94_no_loss cfg conc size V dec os (id, d, p, n) F I) as [H|[(y & D' & H)|H]].
  - left. exists d, n, x. auto.
  - right. left. exists y. split; [exact H|]. unfold body_data in D'. cbn [fst snd] in D'. rewrite D in D'. injection D' as <-. exact C.
  - right. right. exists (id, d, p, n). auto.
Qed.
Print Assumptions C107_no_loss.
(** Every callback gets a value that was pushed. *)
Theorem C107_genuine : forall cfg conc size sys os c k id x, let L := ylogv cfg conc size os in
  fresh (served L) -> all_values sys L -> In (OClient c (VDo k (EStart (id, x)))) L -> exists v p, pushed_value sys L id v p /\ comes_as v x.
Proof.
  intros cfg conc size sys os c k id x L F A I. destruct (C94_genuine cfg conc size V dec os c k id x F I) as (b & I' & <- & D).
  destruct (body_given sys _ b F A I') as (v & p & y & G & D' & C). rewrite D in D'. injection D' as <-. eauto.
Qed.
Print Assumptions C107_genuine.
(** The answer to every CONSUME can be read, message by message, so that no batch is
    dropped because of one of its messages (as in C94_poison_refuted). *)
Theorem C107_no_poison : forall cfg conc size sys os a, let L := ylogv cfg conc size os in
  fresh (served L) -> all_values sys L -> In a (y_down _ (yrunv cfg conc size os)) ->
  exists is, decoded V dec (a_ms a) = Some is /\ Forall2 (fun m i => fst i = m_id m /\ exists v p, pushed_value sys L (m_id m) v p /\ comes_as v (snd i)) (a_ms a) is.
Proof.
  intros cfg conc size sys os a L F A I. assert (P : forall m, In m (a_ms a) -> In (body_of m) (pushed (served L))) by (intros m Hm; exact (d_down _ _ _ (DI_run cfg conc size V dec os F) a m I Hm)).
  clear I. induction (a_ms a) as [|m ms IH]; [exists []; split; [reflexivity|constructor]|].
  destruct IH as (is & D & R); [intros; apply P; right; auto|]. destruct (body_given sys _ (body_of m) F A) as (v & p & x & G & Dx & C); [apply P; left; reflexivity|].
  change (body_data (body_of m)) with (m_payload m) in Dx. change (body_id (body_of m)) with (m_id m) in G. exists ((m_id m, x) :: is). cbn [decoded]. rewrite Dx, D. split; [reflexivity|]. constructor; [split; [reflexivity|exists v, p; auto]|exact R].
Qed.
Print Assumptions C107_no_poison.
(** peekDLQ shows the values that were pushed. *)
Theorem C107_dead_letters : forall cfg conc size sys os ds, let L := ylogv cfg conc size os in
  fresh (served L) -> all_values sys L -> incl ds (obs_dead (y_q (yrunv cfg conc size os))) ->
  exists is, sdk_dead ds = Some is /\ Forall2 (fun d i => fst i = d_id d /\ exists v p, pushed_value sys L (d_id d) v p /\ comes_as v (snd i)) ds is.
Proof.
  intros cfg conc size sys os ds L F A I. assert (P : forall d, In d ds -> In (dbody_of d) (pushed (served L))).
  { intros d Hd. eapply Permutation_in; [symmetry; apply (C29_one_place cfg (served L) F)|]. replace (qrun cfg inner0 (served L)) with (y_q (yrunv cfg conc size os)) by (apply (g_q _ _ _ _ (GI_run cfg conc size V dec os))).
    apply in_or_app; right; apply in_or_app; right; apply in_or_app; left. apply in_map. auto. }
  clear I. induction ds as [|d ds IH]; [exists []; split; [reflexivity|constructor]|].
  destruct IH as (is & D & R); [intros; apply P; right; auto|]. destruct (body_given sys _ (dbody_of d) F A) as (v & p & x & G & Dx & C); [apply P; left; reflexivity|].
  change (body_data (dbody_of d)) with (d_payload d) in Dx. change (body_id (dbody_of d)) with (d_id d) in G. exists ((d_id d, x) :: is). cbn [sdk_dead]. rewrite Dx, D. split; [reflexivity|]. constructor; [split; [reflexivity|exists v, p; auto]|exact R].
Qed.
Print Assumptions C107_dead_letters.

(** {"n": 7} with priority 5 and the Buffer <01> without options are pushed; the first is
    handled, the second fails and is a dead letter. *)
Definition vq : V := VJson (JObj [([110], JNum [55])]).
Definition lq : list (txt * jv) := [(w "priority", JNum [53])].
Definition push (v : V) (l : list (txt * jv)) (id now : N) : qop :=
  match sdk_push [113] v (JObj l) with Some c => match push_served sys_default id now c with Some q => q | None => QoPurge end | None => QoPurge end.
Lemma lq_ok : held (JObj lq) /\ Forall text (names lq) /\ means sys_default 17 lq (SPriority 5).
Proof.
  assert (NUM : json_number [53]) by (apply (decimal_number 5); apply (d_one 5); lia).
  assert (LOW : Forall (fun x => x < 65536) (w "priority")) by (eapply Forall_impl; [|apply w_low]; cbn; intros; lia).
  split; [constructor; [constructor; [split; [exact LOW|constructor; exact NUM]|constructor]|repeat constructor; intros []]|]. split; [constructor; [apply text_low, w_low|constructor]|].
  eapply m_push with (a := Some 5).
  - exists (JNum [53]). split; [left; left; reflexivity|]. apply (g_num u8 5); [apply (d_one 5); lia|vm_compute; discriminate].
  - constructor.
  - intros k v [E|[]] _. congruence.
Qed.
Definition osv : list (yop V) := [YClient 0 HSub; YClient 0 (HExists 0 (Some true)); YOther (push vq lq 71 1); YOther (push (VBuf [1]) [] 72 1); YServe 0 3 clk0 []; YAnswer 0; YClient 0 (HWork 0 (WTake 0 false)); YClient 0 (HWork 0 (WEnd 0 true false));
  YServe 0 4 clk0 []; YClient 0 (HWork 0 (WTake 0 false)); YClient 0 (HWork 0 (WEnd 0 false false)); YServe 0 5 clk0 [1]].
Definition osw : list (yop V) := [YClient 0 HSub; YClient 0 (HExists 0 (Some true)); YOther (push vq lq 71 1); YOther (push (VBuf [1]) [] 72 1); YServe 0 3 clk0 []].
Lemma vq_gives : gives vq.
Proof.
  assert (NUM : json_number [55]) by (apply (decimal_number 7); apply (d_one 7); lia).
  constructor; [|discriminate]. constructor; [constructor; [split; [repeat constructor|constructor; exact NUM]|constructor]|repeat constructor; intros []].
Qed.
Lemma given_vq L : In (push vq lq 71 1) (served L) -> pushed_value sys_default L 71 vq 5.
Proof.
  intro I. destruct lq_ok as (H & T & M). exists [113], lq, (QPush [113] (sdk_opts (JObj lq)) [2; 123; 34; 110; 34; 58; 55; 125]), 1, (push vq lq 71 1).
  split; [exact vq_gives|]. split; [exact H|]. split; [exact T|]. split; [exact M|]. split; [vm_compute; reflexivity|]. split; [vm_compute; reflexivity|exact I].
Qed.
Lemma given_buf L : In (push (VBuf [1]) [] 72 1) (served L) -> pushed_value sys_default L 72 (VBuf [1]) 0.
Proof.
  intro I. exists [113], [], (QPush [113] (sdk_opts (JObj [])) [0; 1]), 1, (push (VBuf [1]) [] 72 1).
  split; [constructor|]. split; [constructor; constructor|]. split; [constructor|]. split; [eapply m_push with (a := None); [exists JUndef; split; [right; split; auto|constructor]|constructor|intros k v []]|]. split; [vm_compute; reflexivity|]. split; [vm_compute; reflexivity|exact I].
Qed.
Lemma given_all L : (forall q, In q (served L) -> match q with QoPush id d p now => QoPush id d p now = push vq lq 71 1 \/ QoPush id d p now = push (VBuf [1]) [] 72 1 | _ => True end) -> all_values sys_default L.
Proof.
  intros H id d p now I. destruct (H _ I) as [E|E].
  - exists vq. assert (id = 71 /\ p = 5) as (-> & ->) by (vm_compute in E; injection E; auto). apply given_vq. rewrite <- E. exact I.
  - exists (VBuf [1]). assert (id = 72 /\ p = 0) as (-> & ->) by (vm_compute in E; injection E; auto). apply given_buf. rewrite <- E. exact I.
Qed.
Notation Lv := (ylogv cf1 1 2 osv).
Example C107_example : fresh (served Lv) /\ all_values sys_default Lv /\ pushed_value sys_default Lv 71 vq 5 /\ pushed_value sys_default Lv 72 (VBuf [1]) 0 /\
  handled 71 vq true Lv /\ handled 72 (VBuf [1]) false Lv /\ map dbody_of (obs_dead (y_q (yrunv cf1 1 2 osv))) = [(72, [0; 1], 0, 1)] /\
  sdk_dead (obs_dead (y_q (yrunv cf1 1 2 osv))) = Some [(72, VBuf [1])] /\ exact vq /\
  map (fun a => decoded V dec (a_ms a)) (y_down _ (yrunv cf1 1 2 osw)) = [Some [(71, vq); (72, VBuf [1])]].
Proof.
  split; [vm_compute; repeat constructor; cbn; intuition discriminate|]. split; [apply given_all; intros q; vm_compute; intuition (subst; cbn; auto)|].
  split; [apply given_vq; vm_compute; auto|]. split; [apply given_buf; vm_compute; auto|]. split; [exists 0%nat, 0%nat; vm_compute; auto 30|]. split; [exists 0%nat, 0%nat; vm_compute; auto 30|].
  split; [vm_compute; reflexivity|]. split; [vm_compute; reflexivity|]. split; [constructor; repeat constructor|vm_compute; reflexivity].
Qed.
