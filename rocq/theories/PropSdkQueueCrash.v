(** Property C110: no stored message is lost between queue and callback, whatever crashes. *)
From Verif Require Import LibBase LibMap QueueModel QueueObs QueuePersistModel SdkLoopModel SdkQueueModel SdkQueueSysModel SdkQueueSysSpec SdkQueueSysProofs SdkQueueCrashModel SdkQueueCrashProofs SdkQueueTokens SdkQueueOnceProofs.
From Coq Require Import Permutation.
Arguments mkZ {V}. Arguments z_y {V}. Arguments z_chan {V}. Arguments z_batch {V}. Arguments z_db {V}. Arguments ZStep {V}. Arguments ZRecv {V}. Arguments ZFlush {V}. Arguments ZCrash {V}.

(** ** Specification *)
Section Spec.
  Context {V : Type}.
  Variable cfg : qconfig.
  Variables conc size : N.
  Variable dec : bytes -> option V.
  Notation runs := (zsteps cfg conc size V dec).
  Notation start := (zsys0 V).
  Implicit Types (z : zsys V) (b : body).
  (** the common log of clients and queue; what the queue lists *)
  Definition log z : list (yev V) := y_log (z_y z).
  Definition lists z b : Prop := In b (listed_bodies (y_q (z_y z))).
  (** the message is a row of the database: of the queue's table, or of the table of dead letters *)
  Definition on_disk (d : db) b : Prop :=
    In b (map (fun e => (fst e, w_payload (snd e), w_prio (snd e), w_created (snd e))) (db_main d)) \/ In b (map (fun e => dbody_of (snd e)) (db_dead d)).
  (** a callback was run with its data and ended well *)
  Definition handled_well b z : Prop := exists v, dec (body_data b) = Some v /\ handled (body_id b) v true (log z).
  (** in the run [es] to [z], a request of someone else removed it for good *)
  Definition taken_by_others b (es : list (zev V)) z : Prop := exists e1 z1 q e2,
    runs start e1 z1 /\ es = e1 ++ ZStep (YOther q) :: e2 /\ runs z1 (ZStep (YOther q) :: e2) z /\ In b (gone cfg (y_q (z_y z1)) q).
  (** in the run [es] to [z], the server crashed while the message was in memory only *)
  Definition crashed_unwritten b (es : list (zev V)) z : Prop := exists e1 z1 clk main dead e2,
    runs start e1 z1 /\ es = e1 ++ ZCrash clk main dead :: e2 /\ runs z1 (ZCrash clk main dead :: e2) z /\ lists z1 b /\ ~ on_disk (z_db z1) b.
  (** whenever the server crashed, everything was written *)
  Definition written_before_crashes (es : list (zev V)) z : Prop := forall e1 z1 clk main dead e2,
    runs start e1 z1 -> es = e1 ++ ZCrash clk main dead :: e2 -> runs z1 (ZCrash clk main dead :: e2) z -> z_batch z1 ++ z_chan z1 = [].
  (** how often message [id] arrived at client [c] in an answer; how many callbacks [c] started for it *)
  Definition arrived (c : nat) (id : N) (L : list (yev V)) : nat :=
    length (filter (fun x => fst x =? id) (flat_map (fun e => match e with OClient d (VGot _ (Some ms)) => if Nat.eqb d c then ms else [] | _ => [] end) L)).
  Definition started_by (c : nat) (id : N) (L : list (yev V)) : nat :=
    length (filter (fun e => match e with OClient d (VDo _ (EStart x)) => Nat.eqb d c && (fst x =? id) | _ => false end) L).
  (** an answer under way has message [id] *)
  Definition under_way (id : N) z : Prop := exists a m, In a (y_down V (z_y z)) /\ In m (a_ms a) /\ m_id m = id.
End Spec.
Notation runs := zsteps.

(** * C110 *)
(** Once a message is on disk, at every later moment, whatever is lost, late or repeated and
    however often the server crashes: it is listed, or a callback was run with its data and
    ended well, or someone else removed it. *)
Theorem C110_stored : forall cfg conc size V dec es1 z1 es2 z2 b,
  runs cfg conc size V dec (zsys0 V) es1 z1 -> on_disk (z_db z1) b -> runs cfg conc size V dec z1 es2 z2 -> fresh (served (log z2)) ->
  lists z2 b \/ handled_well dec b z2 \/ taken_by_others cfg conc size dec b (es1 ++ es2) z2.
Proof. intros cfg conc size V dec es1 z1 es2 z2 b H1 D H2 F. exact (stored_kept cfg conc size V dec es1 z1 es2 z2 b H1 D H2 F). Qed.
(** Of the pushed messages only those are missing that were in memory only at a crash. *)
Theorem C110_no_loss : forall cfg conc size V dec es z b,
  runs cfg conc size V dec (zsys0 V) es z -> fresh (served (log z)) -> In b (pushed (served (log z))) ->
  lists z b \/ handled_well dec b z \/ taken_by_others cfg conc size dec b es z \/ crashed_unwritten cfg conc size dec b es z.
Proof.
  intros cfg conc size V dec es z b H F P. destruct (Mono_run cfg conc size V dec es z b H F P) as [[O|O]|(_ & [K|K])]; auto.
Qed.
(** None, if everything was written before each crash (an orderly stop, C42). *)
Theorem C110_restarts : forall cfg conc size V dec es z b,
  runs cfg conc size V dec (zsys0 V) es z -> written_before_crashes cfg conc size dec es z -> fresh (served (log z)) -> In b (pushed (served (log z))) ->
  lists z b \/ handled_well dec b z \/ taken_by_others cfg conc size dec b es z.
Proof.
  intros cfg conc size V dec es z b H W F P. destruct (C110_no_loss _ _ _ _ _ _ _ _ H F P) as [K|[K|[K|K]]]; auto. destruct (not_lost cfg conc size V dec es z b F P W K).
Qed.
(** Callbacks get only what was pushed: a message's id with that message's data, also after crashes. *)
Theorem C110_genuine : forall cfg conc size V dec es z c k id v,
  runs cfg conc size V dec (zsys0 V) es z -> fresh (served (log z)) -> In (OClient c (VDo k (EStart (id, v)))) (log z) ->
  exists b, In b (pushed (served (log z))) /\ body_id b = id /\ dec (body_data b) = Some v.
Proof.
  intros cfg conc size V dec es z c k id v H F I. pose proof (ZI_run cfg conc size V dec es z H F) as Z. exact (got_good size V dec (z_y z) c k (EStart (id, v)) (id, v) (zi_w _ _ _ _ Z) (zi_d _ _ _ _ Z) I (or_introl eq_refl)).
Qed.
(** A message that the queue has let go (handled, removed), with everything written and
    no answer under way that has it, is never listed, sent or received again, however often the server
    crashes: callbacks are started for it only on what had arrived. *)
Theorem C110_no_return : forall cfg conc size V dec es1 z1 es2 z2 b,
  runs cfg conc size V dec (zsys0 V) es1 z1 -> In b (pushed (served (log z1))) -> ~ lists z1 b -> z_batch z1 ++ z_chan z1 = [] -> ~ under_way (body_id b) z1 ->
  runs cfg conc size V dec z1 es2 z2 -> fresh (served (log z2)) ->
  ~ lists z2 b /\ ~ under_way (body_id b) z2 /\
  forall c, arrived c (body_id b) (log z2) = arrived c (body_id b) (log z1) /\ (started_by c (body_id b) (log z2) <= arrived c (body_id b) (log z1))%nat.
Proof.
  intros cfg conc size V dec es1 z1 es2 z2 b H1 P L E N H2 F. destruct (zlog_run cfg conc size V dec _ _ _ H2) as (l & El). change (log z2 = log z1 ++ l) in El.
  assert (F1 : fresh (served (log z1))) by (rewrite El, served_app in F; eapply fresh_pre; eauto).
  assert (P2 : In b (pushed (served (log z2)))) by (rewrite El, served_app; unfold pushed; rewrite flat_map_app; apply in_or_app; auto).
  pose proof (ZI_run cfg conc size V dec _ _ H1 F1) as ZI1. assert (ZI2 : ZI size V dec z2) by (eapply ZI_run; [|exact F]; eapply zsteps_app; eauto).
  assert (L1 : ~ QueueFacts.listed (y_q (z_y z1)) (body_id b)) by (rewrite (listed_body size V dec z1 b ZI1 F1 P); exact L).
  assert (PI : In (body_id b) (map body_id (pushed (served (log z1))))) by (apply in_map; exact P).
  destruct (off_run cfg conc size V dec _ _ _ _ _ H1 E PI L1 H2 F) as (O & _). destruct (still_run cfg conc size V dec _ _ _ _ _ H1 E PI L1 N H2 F) as (N2 & A).
  assert (AR : forall c id L, arrived c id L = arr V id (clog V c L)).
  { intros c id L0. unfold arrived, arr, cnt. do 2 f_equal. unfold gots, clog. induction L0 as [|e L0 IH]; auto. cbn [flat_map]. rewrite flat_map_app, IH. f_equal. destruct e as [d x|]; auto. destruct (Nat.eqb d c); [destruct x as [| | | | |k [ms|]| | | |]; cbn; rewrite ?app_nil_r; auto|destruct x as [| | | | |k [ms|]| | | |]; auto]. }
  assert (ST : forall c id L, started_by c id L = cnt (fun x : item V => fst x =? id) (starts (item V) (dos (item V) (clog V c L)))).
  { intros c id L0. unfold started_by, cnt, clog. induction L0 as [|e L0 IH]; auto. cbn [flat_map filter]. rewrite dos_app. unfold starts in *. rewrite flat_map_app, filter_app, app_length, <- IH. destruct e as [d x|]; auto. destruct (Nat.eqb d c); [|destruct x as [| | | | | |k e| | |]; auto; destruct e; auto].
    destruct x as [| | | | | |k e| | |]; auto. destruct e as [x| | | |]; auto. cbn. destruct (fst x =? id); auto. }
  split; [intro K; apply O; apply (listed_body size V dec z2 b ZI2 F P2); exact K|]. split; [exact N2|]. intro c. rewrite !AR. split; [apply A|]. rewrite ST, <- A. apply (starts_arr size V _ _ _ (zi_w _ _ _ _ ZI2)).
Qed.
Print Assumptions C110_no_return.
Print Assumptions C110_stored.
Print Assumptions C110_no_loss.
Print Assumptions C110_restarts.
Print Assumptions C110_genuine.

(** ** Example *)
(** a run as a function *)
Definition zdo cfg conc size V dec (z : zsys V) (e : zev V) : zsys V :=
  match e with
  | ZStep o => mkZ (ystep cfg conc size V dec (z_y z) o) (z_chan z ++ match executed size V (z_y z) o with Some q => qstore cfg (y_q (z_y z)) q | None => [] end) (z_batch z) (z_db z)
  | ZRecv n => mkZ (z_y z) (skipn n (z_chan z)) (z_batch z ++ firstn n (z_chan z)) (z_db z)
  | ZFlush => mkZ (z_y z) (z_chan z) [] (exec_all (z_batch z) (z_db z))
  | ZCrash clk main dead => let y := z_y z in mkZ (mkY V (y_cl V y) (recover clk main dead) (y_up V y) (y_down V y) (y_log y)) [] [] (z_db z)
  end.
(** crashes load what the tables hold, in their order *)
Fixpoint sound cfg conc size V dec (z : zsys V) (es : list (zev V)) : Prop :=
  match es with
  | [] => True
  | e :: es' => match e with ZCrash _ main dead => main = db_main (z_db z) /\ dead = db_dead (z_db z) | _ => True end /\ sound cfg conc size V dec (zdo cfg conc size V dec z e) es'
  end.
Lemma zdo_one cfg conc size V dec z e z' : zstep cfg conc size V dec z e z' -> z' = zdo cfg conc size V dec z e.
Proof. intro H. destruct H; reflexivity. Qed.
Lemma zdo_all cfg conc size V dec z es z' : runs cfg conc size V dec z es z' -> z' = fold_left (zdo cfg conc size V dec) es z.
Proof. induction 1 as [|z es z1 e z2 H IH Hs]; [reflexivity|]. rewrite fold_left_app, <- IH. apply (zdo_one _ _ _ _ _ _ _ _ Hs). Qed.
Lemma zdo_ok cfg conc size V dec es z : sound cfg conc size V dec z es -> runs cfg conc size V dec z es (fold_left (zdo cfg conc size V dec) es z).
Proof.
  revert z. induction es as [|e es IH]; intros z S; [constructor|]. destruct S as (S1 & S2). cbn [fold_left]. change (e :: es) with ([e] ++ es). eapply zsteps_app; [|apply IH; exact S2].
  apply (zsteps_snoc _ _ _ _ _ z [] z e); [constructor|]. destruct z as [y c b d]. destruct e as [o|n| |clk main dead]; cbn [zdo z_y z_chan z_batch z_db] in *; [apply Z_step|apply Z_recv|apply Z_flush|]. destruct S1 as (-> & ->). apply Z_crash; apply Permutation_refl.
Qed.
(** a payload is one byte or more; the data is the first byte *)
Definition first (p : bytes) : option N := match p with [] => None | b :: _ => Some b end.
Notation cf := (mkCfg 1000 3).
Notation at5 := (fun _ : nat => 5).
Notation zrun es := (fold_left (zdo cf 1 1 N first) es (zsys0 N)).
(** 71 and 72 are pushed and 71 is delivered; this is written; 73 is pushed; the server crashes while the
    callback runs; 73 is gone. The ack of 71 is executed after the restart, 72 is delivered and handled. *)
Definition e1 : list (zev N) := map ZStep [YClient 0 HSub; YClient 0 (HExists 0 (Some true)); YOther (QoPush 71 [11] 0 1); YOther (QoPush 72 [12] 0 2); YServe 0 3 at5 []; YAnswer 0; YClient 0 (HWork 0 (WTake 0 false))] ++ [ZRecv 9; ZFlush].
Definition rows1 : list (N * row) := [(71, mkRow [11] 0 1005 1 1); (72, mkRow [12] 0 0 0 2)].
Definition e2 : list (zev N) := [ZStep (YOther (QoPush 73 [13] 0 1)); ZCrash (fun _ => 6) rows1 []] ++ map ZStep [YClient 0 (HWork 0 (WEnd 0 true false)); YServe 0 7 at5 []; YClient 0 (HWork 0 (WTake 0 false)); YClient 0 (HNext 0); YServe 0 8 at5 []; YAnswer 0; YClient 0 (HWork 0 (WTake 0 false)); YClient 0 (HWork 0 (WEnd 0 true false))].
Example C110_example : runs cf 1 1 N first (zsys0 N) e1 (zrun e1) /\ runs cf 1 1 N first (zrun e1) e2 (zrun (e1 ++ e2)) /\ fresh (served (log (zrun (e1 ++ e2)))) /\
  on_disk (z_db (zrun e1)) (71, [11], 0, 1) /\ on_disk (z_db (zrun e1)) (72, [12], 0, 2) /\
  lists (zrun (e1 ++ e2)) (72, [12], 0, 2) /\ ~ lists (zrun (e1 ++ e2)) (71, [11], 0, 1) /\ handled_well first (71, [11], 0, 1) (zrun (e1 ++ e2)) /\ handled_well first (72, [12], 0, 2) (zrun (e1 ++ e2)) /\
  In (73, [13], 0, 1) (pushed (served (log (zrun (e1 ++ e2))))) /\ ~ lists (zrun (e1 ++ e2)) (73, [13], 0, 1) /\ crashed_unwritten cf 1 1 first (73, [13], 0, 1) (e1 ++ e2) (zrun (e1 ++ e2)).
Proof.
  assert (X : forall b l, existsb (fun a => body_id a =? body_id b) l = false -> ~ In b l).
  { intros b l E I. assert (T : existsb (fun a => body_id a =? body_id b) l = true) by (apply existsb_exists; exists b; split; [exact I|apply N.eqb_refl]). congruence. }
  split; [apply zdo_ok; vm_compute; tauto|]. split; [rewrite fold_left_app; apply zdo_ok; vm_compute; tauto|]. split; [vm_compute; repeat constructor; cbn; intuition discriminate|].
  split; [left; vm_compute; auto|]. split; [left; vm_compute; auto|]. split; [vm_compute; auto|]. split; [apply X; vm_compute; reflexivity|].
  split; [exists 11; split; [reflexivity|exists 0%nat, 0%nat; vm_compute; auto 30]|]. split; [exists 12; split; [reflexivity|exists 0%nat, 0%nat; vm_compute; auto 30]|].
  split; [vm_compute; auto|]. split; [apply X; vm_compute; reflexivity|].
  exists (e1 ++ [ZStep (YOther (QoPush 73 [13] 0 1))]), (zrun (e1 ++ [ZStep (YOther (QoPush 73 [13] 0 1))])), (fun _ => 6), rows1, [], (skipn 2 e2). split; [apply zdo_ok; vm_compute; tauto|]. split; [reflexivity|].
  split; [change (e1 ++ e2) with ((e1 ++ [ZStep (YOther (QoPush 73 [13] 0 1))]) ++ ZCrash (fun _ => 6) rows1 [] :: skipn 2 e2); rewrite (fold_left_app _ (e1 ++ _) (_ :: _)); apply zdo_ok; vm_compute; tauto|]. split; [vm_compute; auto|].
  intros [D|D]; revert D; apply X; vm_compute; reflexivity.
Qed.
(** with everything written before the crash *)
Example C110_restarts_example : let es := e1 ++ [ZCrash (fun _ => 6) rows1 []] in written_before_crashes cf 1 1 first es (zrun es) /\ runs cf 1 1 N first (zsys0 N) es (zrun es) /\ lists (zrun es) (71, [11], 0, 1).
Proof.
  cbn zeta. split; [|split; [apply zdo_ok; vm_compute; tauto|vm_compute; auto]]. intros f1 z1 clk main dead f2 H1 E H2. apply zdo_all in H1. subst z1.
  assert (f1 = e1).
  { destruct (exists_last (l := ZCrash clk main dead :: f2) ltac:(discriminate)) as (f3 & x & E3). rewrite E3 in E. rewrite app_assoc in E. apply app_inj_tail in E. destruct E as (E & <-). destruct f3 as [|y f3]; [rewrite app_nil_r in E; auto|]. cbn in E3. injection E3 as <- E3.
    exfalso. assert (I : In (ZCrash clk main dead) e1) by (rewrite E; apply in_or_app; right; left; reflexivity). revert I. vm_compute. intuition discriminate. }
  subst f1. vm_compute. reflexivity.
Qed.
(** 71 is delivered and acknowledged, this is written, then the server crashes; 71 does not
    come back, 72 is delivered. *)
Definition e3 : list (zev N) := map ZStep [YClient 0 (HWork 0 (WEnd 0 true false)); YServe 0 7 at5 []] ++ [ZRecv 9; ZFlush].
Definition e4 : list (zev N) := ZCrash (fun _ => 9) [(72, mkRow [12] 0 0 0 2)] [] :: map ZStep [YClient 0 (HWork 0 (WTake 0 false)); YClient 0 (HNext 0); YServe 0 10 at5 []; YAnswer 0; YClient 0 (HWork 0 (WTake 0 false))].
Example C110_no_return_example : let es := e1 ++ e3 in runs cf 1 1 N first (zsys0 N) es (zrun es) /\ In (71, [11], 0, 1) (pushed (served (log (zrun es)))) /\ ~ lists (zrun es) (71, [11], 0, 1) /\ z_batch (zrun es) ++ z_chan (zrun es) = [] /\ ~ under_way 71 (zrun es) /\
  runs cf 1 1 N first (zrun es) e4 (zrun (es ++ e4)) /\ fresh (served (log (zrun (es ++ e4)))) /\ arrived 0 71 (log (zrun es)) = 1%nat /\ started_by 0 71 (log (zrun (es ++ e4))) = 1%nat /\ arrived 0 72 (log (zrun es)) = O /\ started_by 0 72 (log (zrun (es ++ e4))) = 1%nat.
Proof.
  assert (X : forall b l, existsb (fun a => body_id a =? body_id b) l = false -> ~ In b l).
  { intros b l E I. assert (T : existsb (fun a => body_id a =? body_id b) l = true) by (apply existsb_exists; exists b; split; [exact I|apply N.eqb_refl]). congruence. }
  cbn zeta. split; [apply zdo_ok; vm_compute; tauto|]. split; [vm_compute; auto|]. split; [apply X; vm_compute; reflexivity|]. split; [vm_compute; reflexivity|].
  split; [intros (a & m & H & _); revert H; vm_compute; tauto|]. split; [rewrite (fold_left_app _ (e1 ++ e3) e4); apply zdo_ok; vm_compute; tauto|]. split; [vm_compute; repeat constructor; cbn; intuition discriminate|].
  split; [vm_compute; reflexivity|]. split; [vm_compute; reflexivity|]. split; vm_compute; reflexivity.
Qed.
