(** A stored message survives crashes until it is handled or removed. *)
From Verif Require Import LibBase LibMap QueueModel QueueSpec QueueObs QueueProofs QueueRefine QueueTrace QueueFacts QueueFacts2 QueuePersistModel QueuePersistProofs QueuePersistInv QueuePersistSys QueuePersistCrash.
From Verif Require Import SdkLoopModel SdkQueueModel SdkQueueSysModel SdkQueueSysSpec SdkQueueSysProofs SdkQueueSysFacts SdkQueueCrashModel.
From Coq Require Import Permutation.

(** ** one message in the pending storage operations *)
Definition none : cell := (None, None).
(** once written, it stays written by what is pending *)
Definition mono (x : N) (c : cell) (ops : list storeop) : Prop := forall p q r, ops = p ++ q ++ r -> fold_left (loc x) p c <> none -> fold_left (loc x) (p ++ q) c <> none.
Lemma none_dec (c : cell) : c = none \/ c <> none.
Proof. destruct c as [[r|] [d|]]; auto; right; discriminate. Qed.
Lemma app_split {A} (a b c d : list A) : a ++ b = c ++ d -> (exists t, a = c ++ t /\ d = t ++ b) \/ (exists t, c = a ++ t /\ b = t ++ d).
Proof.
  revert c. induction a as [|x a IH]; intros c E; [right; exists c; auto|]. destruct c as [|y c]; [left; exists (x :: a); auto|]. cbn in E. injection E as -> E.
  destruct (IH c E) as [(t & -> & ->)|(t & -> & ->)]; [left|right]; exists t; auto.
Qed.
Lemma mono_app x c a b : mono x c a -> (forall p q r, b = p ++ q ++ r -> fold_left (loc x) p (fold_left (loc x) a c) <> none -> fold_left (loc x) (p ++ q) (fold_left (loc x) a c) <> none) -> mono x c (a ++ b).
Proof.
  intros M B p q r E N. destruct (app_split _ _ _ _ E) as [(t & -> & F)|(t & -> & F)].
  - destruct (app_split _ _ _ _ F) as [(u & -> & G)|(u & -> & G)].
    + rewrite app_assoc, fold_left_app. apply (B [] u r); [exact G|]. cbn. apply (M p t []); [rewrite app_nil_r; reflexivity|exact N].
    + apply (M p q u); auto.
  - rewrite fold_left_app in N. rewrite <- app_assoc, fold_left_app. apply (B t q r); auto.
Qed.
Lemma mono_suffix x c a b : mono x c (a ++ b) -> mono x (fold_left (loc x) a c) b.
Proof. intros M p q r -> N. rewrite <- fold_left_app in *. rewrite app_assoc. apply (M (a ++ p) q r); [rewrite <- app_assoc; reflexivity|exact N]. Qed.

(** ** one message in memory *)
Lemma mem_all_ids i S x : RI i S -> (mem_at x i <> none <-> In x (all_ids S)).
Proof.
  intro HR. rewrite <- (listed_all_ids _ _ _ HR), <- (seen_mem _ _ x HR). unfold seen, listed. split.
  - intro N. destruct (find_id x (obs_wait i ++ obs_fly i)) as [m|] eqn:E.
    + apply find_id_some in E. destruct E as [E <-]. apply in_app_or in E. destruct E; [left|right; left]; apply in_map; auto.
    + destruct (find _ (obs_dead i)) as [d|] eqn:F; [|destruct (N eq_refl)]. apply find_some in F. destruct F as [F G]. apply N.eqb_eq in G. right. right. rewrite <- G. apply in_map. exact F.
  - intros [H|[H|H]] E; apply in_map_iff in H; destruct H as (m & <- & H).
    + assert (I : In m (obs_wait i ++ obs_fly i)) by (apply in_or_app; auto). rewrite (find_id_nd _ _ (obs_nd _ _ HR) I) in E. discriminate.
    + assert (I : In m (obs_wait i ++ obs_fly i)) by (apply in_or_app; auto). rewrite (find_id_nd _ _ (obs_nd _ _ HR) I) in E. discriminate.
    + destruct (find (fun d => d_id d =? d_id m) (obs_dead i)) as [d|] eqn:F; [discriminate|]. apply (find_none _ _ F) in H. rewrite N.eqb_refl in H. discriminate.
Qed.
Lemma bodies_listed i S b : RI i S -> (In b (bodies S) <-> In b (listed_bodies i)).
Proof.
  intro HR. unfold bodies, listed_bodies. rewrite (obs_fly_eq _ _ HR), (obs_dead_eq _ _ HR), app_assoc, <- map_app, !in_app_iff. split; (intros [H|H]; [left|right; exact H]).
  - eapply Permutation_in; [apply Permutation_map, Permutation_app_tail; symmetry; apply (obs_wait_perm _ _ HR)|exact H].
  - eapply Permutation_in; [apply Permutation_map, Permutation_app_tail; apply (obs_wait_perm _ _ HR)|exact H].
Qed.
Lemma gone_keeps cfg i S o b : RI i S -> op_fresh S o -> In b (bodies S ++ push_of o) -> In b (bodies (a_next cfg S o)) \/ In b (gone cfg i o).
Proof.
  intros HR Ho H. apply (Permutation_in _ (a_step_perm cfg S o (RI_SInv _ _ HR))) in H. apply in_app_or in H. destruct H as [H|H]; auto. right. eapply Permutation_in; [symmetry; apply (gone_eq cfg i S o HR Ho)|exact H].
Qed.
Lemma body_eq (l : list body) a b : NoDup (map body_id l) -> In a l -> In b l -> body_id a = body_id b -> a = b.
Proof.
  intros F Ha Hb E. induction l as [|z l IH]; [destruct Ha|]. cbn in F. inversion F as [|? ? N F']; subst. destruct Ha as [->|Ha], Hb as [->|Hb]; auto; exfalso; apply N; [rewrite E|rewrite <- E]; apply in_map; auto.
Qed.
(** a message in memory is known by its id *)
Lemma mem_body B s S b : SysInv (fun b => In b B) s S -> NoDup (map body_id B) -> In b B -> (mem_at (body_id b) (p_mem s) <> none <-> In b (bodies S)).
Proof.
  intros HI N Hb. rewrite (mem_all_ids _ _ _ (si_ri _ _ _ HI)). split; intro H.
  - apply ids_body_mem in H. destruct H as (b' & H & E). replace b with b'; auto. apply (body_eq B); auto. apply (si_b _ _ _ HI). exact H.
  - rewrite all_ids_bodies. apply in_map. exact H.
Qed.
Lemma mem_none_next cfg i S o x : RI i S -> op_fresh S o -> ~ In x (map body_id (push_of o)) -> mem_at x i = none -> mem_at x (qnext cfg i o) = none.
Proof.
  intros HR Ho Hx E. destruct (step_refines cfg i S o HR Ho) as [HR' _]. destruct (none_dec (mem_at x (qnext cfg i o))) as [H|H]; auto. exfalso.
  apply (mem_all_ids _ _ x HR') in H. apply ids_body_mem in H. destruct H as (b & H & <-).
  refine (bodies_step cfg S o (fun b' => b' <> b) (RI_SInv _ _ HR) _ _ b H eq_refl); clear H.
  - intros b' H ->. assert (N : mem_at (body_id b) i <> none) by (apply (mem_all_ids _ _ _ HR); rewrite all_ids_bodies; apply in_map; exact H). auto.
  - intros b' H ->. apply Hx. apply in_map. exact H.
Qed.
Lemma mono_req cfg P i c bt d S o x : SysInv P (mkSys i c bt d) S -> op_fresh S o -> ~ In x (map body_id (push_of o)) -> (mem_at x i <> none -> mem_at x (qnext cfg i o) <> none) ->
  mono x (db_at x d) (bt ++ c) -> mono x (db_at x d) (bt ++ c ++ qstore cfg i o).
Proof.
  intros HI Ho Hx HK M. rewrite app_assoc. apply mono_app; auto. pose proof (si_ri _ _ _ HI) as HR. cbn [p_mem] in HR.
  assert (C : fold_left (loc x) (bt ++ c) (db_at x d) = mem_at x i) by (rewrite <- exec_all_at; exact (si_cells _ _ _ HI x)). rewrite C.
  pose proof (store_cases cfg _ _ o HR Ho) as Hsc. pose proof (step_store cfg i S o HR Ho x) as Hst.
  intros p q r E N. destruct (none_dec (mem_at x i)) as [H|H].
  - exfalso. pose proof (mem_none_next cfg i S o x HR Ho Hx H) as H'. destruct (distinct_prefix x _ p (q ++ r) (mem_at x i) Hsc (eq_sym E)) as [D|D]; rewrite D in N; [auto|]. rewrite Hst in N. auto.
  - specialize (HK H). destruct (distinct_prefix x _ (p ++ q) r (mem_at x i) Hsc) as [D|D]; [rewrite <- app_assoc; auto|rewrite D; auto|rewrite D, Hst; auto].
Qed.
(** a message not heard of before *)
Lemma mono_new P s S x : SysInv P s S -> (forall b, P b -> body_id b <> x) -> forall p q, pend s = p ++ q -> fold_left (loc x) p (db_at x (p_db s)) = none.
Proof.
  intros HI HP p q E. pose proof (si_ops _ _ _ HI) as HO. rewrite E in HO. apply opsok_app in HO. destruct HO as [HO _]. pose proof (opsok_wf _ _ _ (si_wf _ _ _ HI) HO) as W. rewrite <- exec_all_at. unfold db_at, none. f_equal.
  - destruct (aget N.eqb x (db_main (exec_all p (p_db s)))) as [r|] eqn:A; auto. apply (aget_In N.eqb Neqb_ok) in A. apply (wf_pm _ _ W) in A. destruct (HP _ A eq_refl).
  - destruct (aget N.eqb x (db_dead (exec_all p (p_db s)))) as [e|] eqn:A; auto. apply (aget_In N.eqb Neqb_ok) in A. pose proof (wf_k _ _ W _ _ A) as K. apply (wf_pd _ _ W) in A. destruct (HP _ A K).
Qed.
Lemma mono_push cfg P i c bt d S id payload prio now : SysInv P (mkSys i c bt d) S -> (forall b, P b -> body_id b <> id) -> op_fresh S (QoPush id payload prio now) ->
  mono id (db_at id d) (bt ++ c ++ qstore cfg i (QoPush id payload prio now)).
Proof.
  intros HI HP Ho. rewrite app_assoc. set (x := id). pose proof (mono_new P _ S x HI HP) as N0. unfold pend in N0. cbn [p_batch p_chan p_db] in N0. apply mono_app.
  - intros p q r E N. exfalso. apply N. apply (N0 p (q ++ r) E).
  - pose proof (si_ri _ _ _ HI) as HR. cbn [p_mem] in HR. assert (C : fold_left (loc x) (bt ++ c) (db_at x d) = none) by (apply (N0 (bt ++ c) []); rewrite app_nil_r; reflexivity). rewrite C.
    assert (M : mem_at x i = none) by (rewrite <- C, <- exec_all_at; symmetry; exact (si_cells _ _ _ HI x)).
    pose proof (store_cases cfg _ _ _ HR Ho) as Hsc. intros p q r E N. destruct (distinct_prefix x _ p (q ++ r) none Hsc (eq_sym E)) as [D|D]; rewrite D in N; [destruct (N eq_refl)|].
    assert (Ep : p = qstore cfg i (QoPush id payload prio now)).
    { cbn [qstore qstep snd] in E |- *. destruct p as [|a p]; [destruct (N ltac:(symmetry; exact D))|]. cbn in E. injection E as <- E. destruct p; [reflexivity|discriminate]. }
    assert (Eq : q = []) by (rewrite Ep in E; rewrite <- (app_nil_r (qstore cfg i _)) in E at 1; apply app_inv_head in E; symmetry in E; apply app_eq_nil in E; tauto). rewrite Eq, app_nil_r, D. exact N.
Qed.

(** ** the system *)
Section Z.
  Variable cfg : qconfig.
  Variables conc size : N.
  Variable V : Type.
  Variable dec : bytes -> option V.
  Notation ystep := (ystep cfg conc size V dec).
  Notation zstep := (zstep cfg conc size V dec).
  Notation zsteps := (zsteps cfg conc size V dec).
  Notation executed := (executed size V).
  Notation zsys := (zsys V).
  Notation zsys0 := (zsys0 V).
  Notation WI := (WI size V).
  Notation DI := (DI V dec).
  Arguments mkZ {V}. Arguments z_y {V}. Arguments z_chan {V}. Arguments z_batch {V}. Arguments z_db {V}. Arguments ZStep {V}. Arguments ZRecv {V}. Arguments ZFlush {V}. Arguments ZCrash {V}.
  Implicit Types (y : sys V) (z : zsys) (b : body).
  Definition zlog z := y_log (z_y z).
  Definition proj z : psys := mkSys (y_q (z_y z)) (z_chan z) (z_batch z) (z_db z).

  Lemma client_same c o y : y_q (client conc V c o y) = y_q y /\ served (y_log (client conc V c o y)) = served (y_log y).
  Proof. destruct (client_eq conc V c o y) as (es & M & E & ->). cbn [y_q y_log]. rewrite served_app, served_map, app_nil_r. auto. Qed.
  Lemma exec_eq y o : match executed y o with
    | Some q => y_q (ystep y o) = qnext cfg (y_q y) q /\ served (y_log (ystep y o)) = served (y_log y) ++ [q] /\ (o = YOther q \/ exists c, In (OServer (Some c) q) (y_log (ystep y o)))
    | None => y_q (ystep y o) = y_q y /\ served (y_log (ystep y o)) = served (y_log y) end.
  Proof.
    destruct o as [c o|i now clk reason|i|j|j|q]; cbn [SdkQueueSysModel.ystep SdkQueueCrashModel.executed]; auto.
    - pose proof (client_same c o y). destruct o as [| | |k [is|]| | | | |]; auto.
    - destruct (nth_error (y_up V y) i) as [[c [k n|id|id]]|]; auto; (cbn [SdkQueueSysModel.server y_q y_log y_up y_down y_cl]; split; [reflexivity|]; split; [apply served_app|]; right; exists c; apply in_or_app; right; left; reflexivity).
    - destruct (nth_error (y_down V y) j) as [a|]; auto. destruct (Nat.eqb _ _); auto. apply (client_same _ _ (mkY V (y_cl V y) (y_q y) (y_up V y) (drop j (y_down V y)) (y_log y))).
    - cbn [SdkQueueSysModel.server y_q y_log]. split; [reflexivity|]. split; [apply served_app|auto].
  Qed.
  Lemma zlog_mono z e z' : zstep z e z' -> exists es, zlog z' = zlog z ++ es.
  Proof.
    intro H. destruct H; unfold zlog; cbn [z_y y_log]; [|exists []; rewrite app_nil_r; reflexivity..]. apply step_log.
  Qed.
  (** ** invariant *)
  Record ZI z : Prop := {
    zi_w : WI (z_y z);
    zi_d : DI (z_y z);
    zi_s : exists S, SysInv (fun b => In b (pushed (served (zlog z)))) (proj z) S
  }.
  Lemma ZI0 : ZI zsys0.
  Proof.
    constructor.
    - apply (g_w _ _ _ _ (GI_run cfg conc size V dec [])).
    - constructor; cbn; contradiction.
    - exists spec0. exact SysInv0.
  Qed.
  Lemma fresh_snoc h q : fresh (h ++ [q]) -> fresh h /\ forall b, In b (push_of q) -> forall b', In b' (pushed h) -> body_id b' <> body_id b.
  Proof.
    intro F. apply fresh_split in F. destruct F as (F1 & _ & F3). split; auto. intros b Hb b' Hb' E. apply (F3 (body_id b')); [apply in_map; auto|]. rewrite E. apply in_map. unfold pushed. cbn. rewrite app_nil_r. exact Hb.
  Qed.
  Lemma ret_known i S (P : body -> Prop) clk m : RI i S -> (forall b, In b (bodies S) -> P b) -> In m (ret (qouts cfg i (QoConsume size clk))) -> P (body_of m).
  Proof.
    intros HR HB H. destruct (step_refines cfg i S (QoConsume size clk) HR I) as [_ Hout]. rewrite Hout in H. apply (ret_in_fly _ _ _ _ (RI_SInv _ _ HR)) in H. destruct H as (_ & now & x & -> & Hx & _).
    apply HB. unfold bodies. apply in_or_app. left. change (body_of (delivered (due_at now (c_vt cfg)) x)) with (body_of x). apply in_map. apply in_or_app. auto.
  Qed.
  Lemma ZI_step z e z' : ZI z -> zstep z e z' -> fresh (served (zlog z')) -> ZI z'.
  Proof.
    intros [W D (S & HS)] H F. pose proof H as H0. destruct H as [y c b d o|y c b d n|y c b d|y c b d clk main dead Pm Pd]; unfold zlog, proj in *; cbn [z_y z_chan z_batch z_db y_q y_log] in *.
    - assert (D' : DI (ystep y o)) by (apply DI_step; auto; intros clk m Hm; exact (ret_known _ S _ clk m (si_ri _ _ _ HS) (si_b _ _ _ HS) Hm)).
      constructor; cbn [z_y]; auto; [apply WI_step; auto|]. unfold zlog, proj. cbn [z_y z_chan z_batch z_db]. pose proof (exec_eq y o) as X. destruct (executed y o) as [q|].
      + destruct X as (X1 & X2 & _). rewrite X1, X2 in *. destruct (fresh_snoc _ _ F) as (_ & F2). destruct (sys_req cfg _ _ _ _ _ q S HS F2) as (_ & HS'). eexists. eapply SysInv_mono; [|exact HS']. cbn. intros b' Hb. rewrite pushed_app. apply in_or_app. unfold pushed at 2. cbn. rewrite app_nil_r. exact Hb.
      + destruct X as (X1 & X2). rewrite X1, X2. exists S. rewrite app_nil_r. exact HS.
    - constructor; auto. rewrite <- (firstn_skipn n c) in HS. destruct (sys_step cfg _ _ _ _ _ HS (PS_recv cfg (y_q y) (firstn n c) (skipn n c) b d)) as (S' & HS'); [intros ? []|]. exists S'. eapply SysInv_mono; [|exact HS']. cbn. intros b' [Hb|[]]. exact Hb.
    - constructor; auto. destruct (sys_step cfg _ _ _ _ _ HS (PS_flush cfg (y_q y) c b d)) as (S' & HS'); [intros ? []|]. exists S'. eapply SysInv_mono; [|exact HS']. cbn. intros b' [Hb|[]]. exact Hb.
    - constructor.
      + cbn [z_y]. destruct W as [W1 W2 W3 W4]. constructor; cbn [y_cl y_up y_log]; auto.
      + cbn [z_y]. destruct D as [D1 D2]. constructor; cbn [y_down y_log]; auto.
      + destruct (sys_step cfg _ _ _ _ _ HS (PS_crash cfg (y_q y) c b d clk main dead Pm Pd)) as (S' & HS'); [intros ? []|]. exists S'. eapply SysInv_mono; [|exact HS']. cbn. intros b' [Hb|[]]. exact Hb.
  Qed.
  Lemma fresh_back z e z' : zstep z e z' -> fresh (served (zlog z')) -> fresh (served (zlog z)).
  Proof. intros H F. destruct (zlog_mono _ _ _ H) as (es & E). rewrite E, served_app in F. eapply fresh_pre; eauto. Qed.
  Lemma ZI_run es z : zsteps zsys0 es z -> fresh (served (zlog z)) -> ZI z.
  Proof.
    intro H. remember zsys0 as z0 eqn:E. induction H as [z|z es z1 e z2 H IH Hs]; intro F; [subst; apply ZI0|]. eapply ZI_step; eauto. apply IH; auto. eapply fresh_back; eauto.
  Qed.

  (** ** what became of a message *)
  Definition done b z : Prop := exists v, dec (body_data b) = Some v /\ handled (body_id b) v true (zlog z).
  Definition by_others b (es : list (zev V)) z : Prop := exists e1 z1 q e2, zsteps zsys0 e1 z1 /\ es = e1 ++ ZStep (YOther q) :: e2 /\ zsteps z1 (ZStep (YOther q) :: e2) z /\ In b (gone cfg (y_q (z_y z1)) q).
  Definition over b es z : Prop := done b z \/ by_others b es z.
  Lemma over_mono b es z e z' : over b es z -> zstep z e z' -> over b (es ++ [e]) z'.
  Proof.
    intros [(v & D & c & k & H)|(e1 & z1 & q & e2 & H1 & -> & H2 & H3)] Hs.
    - left. exists v. split; auto. exists c, k. destruct (zlog_mono _ _ _ Hs) as (es' & E). rewrite E. apply in_or_app. auto.
    - right. exists e1, z1, q, (e2 ++ [e]). split; auto. split; [rewrite <- app_assoc; reflexivity|]. split; auto. change (ZStep (YOther q) :: e2 ++ [e]) with ((ZStep (YOther q) :: e2) ++ [e]). econstructor; eauto.
  Qed.
  Lemma pushed_in_step y o q b : executed y o = Some q -> In b (gone cfg (y_q y) q) -> WI (ystep y o) -> DI (ystep y o) -> fresh (served (y_log (ystep y o))) -> In b (pushed (served (y_log (ystep y o)))) ->
    o = YOther q \/ exists v, dec (body_data b) = Some v /\ handled (body_id b) v true (y_log (ystep y o)).
  Proof.
    intros E G W D F P. pose proof (exec_eq y o) as X. rewrite E in X. destruct X as (_ & _ & [X|(c & X)]); auto. right. apply gone_op in G. apply (w_srv _ _ _ W) in X. destruct X as [(clk & ->)|[(id & -> & (k & v & S))|(id & r & now & -> & _)]]; try (destruct G as [G|[G|G]]; discriminate).
    assert (EI : id = body_id b) by (destruct G as [G|[G|G]]; congruence). subst id. exists v. split.
    - change v with (snd (body_id b, v)). eapply good_data; eauto. eapply got_good; eauto.
    - exists c, k. exact S.
  Qed.
  Lemma over_step es z o q b : zsteps zsys0 es z -> executed (z_y z) o = Some q -> In b (gone cfg (y_q (z_y z)) q) -> fresh (served (y_log (ystep (z_y z) o))) -> In b (pushed (served (zlog z))) ->
    forall z', zstep z (ZStep o) z' -> over b (es ++ [ZStep o]) z'.
  Proof.
    intros Hz E G F P z' Hs. assert (F1 : fresh (served (zlog z))) by (eapply fresh_back; [exact Hs|]; inversion Hs; subst; exact F).
    pose proof (ZI_run _ _ Hz F1) as ZI1. assert (ZI2 : ZI z') by (eapply ZI_step; eauto; inversion Hs; subst; exact F).
    assert (Ey : z_y z' = ystep (z_y z) o) by (inversion Hs; subst; reflexivity).
    destruct (pushed_in_step (z_y z) o q b E G) as [->|H]; auto; try (rewrite <- Ey; first [exact (zi_w _ ZI2)|exact (zi_d _ ZI2)]).
    - destruct (zlog_mono _ _ _ Hs) as (es' & E'). unfold zlog in E' at 1. rewrite Ey in E'. rewrite E', served_app, pushed_app. apply in_or_app. auto.
    - right. exists es, z, q, []. split; auto. split; auto. split; auto. apply (zsteps_snoc _ _ _ _ _ z [] z _ z' (zsteps_nil _ _ _ _ _ z) Hs).
    - left. destruct H as (v & D & H). exists v. split; auto. unfold zlog. rewrite Ey. exact H.
  Qed.
  Definition zpend z := z_batch z ++ z_chan z.
  Definition Mono b z : Prop := mono (body_id b) (db_at (body_id b) (z_db z)) (zpend z).
  Definition kept b z : Prop := In b (listed_bodies (y_q (z_y z))).
  Lemma kept_mem b z : ZI z -> fresh (served (zlog z)) -> In b (pushed (served (zlog z))) -> (mem_at (body_id b) (y_q (z_y z)) <> none <-> kept b z).
  Proof. intros [_ _ (S & HS)] F P. rewrite (mem_body _ _ _ b HS F P). unfold kept. apply (bodies_listed _ _ b (si_ri _ _ _ HS)). Qed.
  (** one step of the system *)
  Lemma step_kept es z e z' b : zsteps zsys0 es z -> zstep z e z' -> fresh (served (zlog z')) -> In b (pushed (served (zlog z))) -> Mono b z ->
    over b (es ++ [e]) z' \/ (Mono b z' /\ (db_at (body_id b) (z_db z) <> none -> db_at (body_id b) (z_db z') <> none) /\ (kept b z -> kept b z' \/ (exists clk main dead, e = ZCrash clk main dead /\ db_at (body_id b) (z_db z) = none))).
  Proof.
    intros Hz Hs F P M. pose proof (fresh_back _ _ _ Hs F) as F1. pose proof (ZI_run _ _ Hz F1) as ZI1. pose proof (ZI_step _ _ _ ZI1 Hs F) as ZI2. destruct ZI1 as [W D (S & HS)] eqn:EZ. clear EZ.
    destruct Hs as [y c bt d o|y c bt d n|y c bt d|y c bt d clk main dead Pm Pd]; unfold Mono, zpend, zlog, proj in *; cbn [z_y z_chan z_batch z_db y_q y_log] in *.
    - pose proof (exec_eq y o) as X. destruct (executed y o) as [q|] eqn:E.
      + destruct X as (X1 & X2 & _). rewrite X2 in F. destruct (fresh_snoc _ _ F) as (_ & F2). destruct (sys_req cfg _ _ _ _ _ q S HS F2) as (Ho & _).
        assert (G : In b (gone cfg (y_q y) q) \/ ~ In b (gone cfg (y_q y) q)).
        { destruct (in_dec (fun a b' : body => ltac:(repeat decide equality)) b (gone cfg (y_q y) q)); auto. }
        destruct G as [G|G].
        * left. apply (over_step es (mkZ y c bt d) o q b Hz E G); [cbn [z_y]; rewrite X2; exact F|exact P|]. pose proof (Z_step cfg conc size V dec y c bt d o) as ZS. rewrite E in ZS. exact ZS.
        * right. pose proof (si_ri _ _ _ HS) as HR. cbn [p_mem] in HR. destruct (step_refines cfg _ _ q HR Ho) as [HR' _].
          assert (K : In b (bodies S) -> In b (bodies (a_next cfg S q))).
          { intro H. destruct (gone_keeps cfg _ S q b HR Ho) as [H'|H']; auto; [apply in_or_app; auto|contradiction]. }
          assert (Hx : ~ In (body_id b) (map body_id (push_of q))).
          { intro H. apply in_map_iff in H. destruct H as (b' & H1 & H2). apply (F2 b' H2 b P). congruence. }
          split; [|split; [auto|]].
          -- apply (mono_req cfg _ _ _ _ _ S q _ HS Ho Hx); auto. intro H. apply (mem_all_ids _ _ _ HR'). rewrite all_ids_bodies. apply in_map. apply K. apply (mem_body _ _ _ b HS F1 P). exact H.
          -- intro H. left. unfold kept in *. cbn [z_y] in *. rewrite X1. apply (bodies_listed _ _ b HR'). apply K. apply (bodies_listed _ _ b HR). exact H.
      + destruct X as (X1 & X2). right. rewrite app_nil_r. split; [exact M|]. split; [auto|]. intro H. left. unfold kept in *. cbn [z_y] in *. rewrite X1. exact H.
    - right. rewrite <- app_assoc, firstn_skipn. auto.
    - right. split; [|split; [|auto]].
      + cbn [app]. rewrite exec_all_at. apply mono_suffix. exact M.
      + intro H. rewrite exec_all_at. apply (M [] bt c); auto.
    - right. split; [intros p q r E; symmetry in E; apply app_eq_nil in E; destruct E as (-> & E); apply app_eq_nil in E; destruct E as (-> & ->); auto|]. split; [auto|]. intros _.
      destruct (none_dec (db_at (body_id b) d)) as [H|H]; [right; eauto 6|]. left. destruct (recover_ok _ d clk main dead (si_wf _ _ _ HS) Pm Pd) as (HR & HC & _).
      apply (kept_mem b _ ZI2 F P). cbn [z_y y_q]. rewrite HC. exact H.
  Qed.
  (** the database holds the message *)
  Definition stored (d : db) b : Prop := In b (map (fun e => (fst e, w_payload (snd e), w_prio (snd e), w_created (snd e))) (db_main d)) \/ In b (map (fun e => dbody_of (snd e)) (db_dead d)).
  Lemma stored_at z b : ZI z -> fresh (served (zlog z)) -> (stored (z_db z) b <-> In b (pushed (served (zlog z))) /\ db_at (body_id b) (z_db z) <> none).
  Proof.
    intros [_ _ (S & HS)] F. pose proof (si_wf _ _ _ HS) as [Wm Wd Wx Wk Wpm Wpd]. cbn [proj p_db] in *. split.
    - intros [H|H]; apply in_map_iff in H; destruct H as ([k r] & <- & H); cbn [fst snd].
      + split; [exact (Wpm _ _ H)|]. unfold db_at, body_id. cbn [fst]. rewrite (In_aget N.eqb Neqb_ok k r _ Wm H). discriminate.
      + split; [exact (Wpd _ _ H)|]. unfold db_at. rewrite (Wk _ _ H : body_id (dbody_of r) = k). rewrite (In_aget N.eqb Neqb_ok k r _ Wd H). unfold none. intros [= _ E]; discriminate E.
    - intros (P & N). unfold db_at in N. destruct (aget N.eqb (body_id b) (db_main (z_db z))) as [r|] eqn:A.
      + apply (aget_In N.eqb Neqb_ok) in A. left. apply in_map_iff. exists (body_id b, r). split; auto. cbn [fst snd]. apply (body_eq _ _ _ F (Wpm _ _ A) P). reflexivity.
      + destruct (aget N.eqb (body_id b) (db_dead (z_db z))) as [e|] eqn:B; [|destruct (N eq_refl)]. apply (aget_In N.eqb Neqb_ok) in B. right. apply in_map_iff. exists (body_id b, e). split; auto. cbn [snd]. apply (body_eq _ _ _ F (Wpd _ _ B) P). exact (Wk _ _ B).
  Qed.
  Definition lost b (es : list (zev V)) z : Prop := exists e1 z1 clk main dead e2, zsteps zsys0 e1 z1 /\ es = e1 ++ ZCrash clk main dead :: e2 /\ zsteps z1 (ZCrash clk main dead :: e2) z /\ kept b z1 /\ ~ stored (z_db z1) b.
  Lemma lost_mono b es z e z' : lost b es z -> zstep z e z' -> lost b (es ++ [e]) z'.
  Proof.
    intros (e1 & z1 & clk & main & dead & e2 & H1 & -> & H2 & H3) Hs. exists e1, z1, clk, main, dead, (e2 ++ [e]). split; auto. split; [rewrite <- app_assoc; reflexivity|]. split; auto. change (ZCrash clk main dead :: e2 ++ [e]) with ((ZCrash clk main dead :: e2) ++ [e]). econstructor; eauto.
  Qed.
  Lemma Mono_run es z b : zsteps zsys0 es z -> fresh (served (zlog z)) -> In b (pushed (served (zlog z))) -> over b es z \/ (Mono b z /\ (kept b z \/ lost b es z)).
  Proof.
    intro H. remember zsys0 as z0 eqn:E0. induction H as [z|z es z1 e z2 H IH Hs]; intros F P; [subst; destruct P|]. subst z. pose proof (fresh_back _ _ _ Hs F) as F1.
    destruct (in_dec (fun a b' : body => ltac:(repeat decide equality)) b (pushed (served (zlog z1)))) as [P1|P1].
    - destruct (IH eq_refl F1 P1) as [O|(M & K)]; [left; eapply over_mono; eauto|]. destruct (step_kept _ _ _ _ b H Hs F P1 M) as [O|(M' & _ & K')]; auto. right. split; auto.
      destruct K as [K|K]; [|right; eapply lost_mono; eauto]. destruct (K' K) as [K2|(clk & main & dead & -> & N)]; auto. right. exists es, z1, clk, main, dead, []. split; auto. split; auto. split; [apply (zsteps_snoc _ _ _ _ _ z1 [] z1 _ z2 (zsteps_nil _ _ _ _ _ z1) Hs)|]. split; auto.
      intro St. apply (stored_at z1 b (ZI_run _ _ H F1) F1) in St. tauto.
    - right. pose proof (ZI_run _ _ H F1) as ZI1. pose proof (ZI_step _ _ _ ZI1 Hs F) as ZI2. destruct ZI1 as [W D (S & HS)]. destruct Hs as [y c bt d o|y c bt d n|y c bt d|y c bt d clk main dead Pm Pd]; unfold Mono, zpend, zlog, proj in *; cbn [z_y z_chan z_batch z_db y_q y_log] in *; try (destruct (P1 P)).
      pose proof (exec_eq y o) as X. destruct (executed y o) as [q|] eqn:E; [|destruct X as (_ & X); rewrite X in P; destruct (P1 P)]. destruct X as (X1 & X2 & _). rewrite X2 in F, P. destruct (fresh_snoc _ _ F) as (_ & F2). destruct (sys_req cfg _ _ _ _ _ q S HS F2) as (Ho & _).
      rewrite pushed_app in P. apply in_app_or in P. destruct P as [P|P]; [destruct (P1 P)|]. unfold pushed in P. cbn in P. rewrite app_nil_r in P. pose proof (si_ri _ _ _ HS) as HR. cbn [p_mem] in HR. split.
      + destruct q as [id payload prio now| | | | | | | |]; cbn [push_of] in P; [|contradiction..]. destruct P as [<-|[]]. cbn [body_id fst] in *. apply (mono_push cfg _ _ _ _ _ S id payload prio now HS); auto. intros b' Hb'. exact (F2 _ (or_introl eq_refl) b' Hb').
      + left. unfold kept. cbn [z_y]. rewrite X1. destruct (step_refines cfg _ _ q HR Ho) as [HR' _]. apply (bodies_listed _ _ b HR'). destruct (gone_keeps cfg _ S q b HR Ho) as [H'|H']; auto; [apply in_or_app; auto|]. destruct q as [id payload prio now| | | | | | | |]; cbn [push_of] in P; [destruct H'|contradiction..].
  Qed.
  Lemma zlog_run z es z' : zsteps z es z' -> exists l, zlog z' = zlog z ++ l.
  Proof. induction 1 as [z|z es z1 e z2 H (l & IH) Hs]; [exists []; rewrite app_nil_r; reflexivity|]. destruct (zlog_mono _ _ _ Hs) as (l' & E). exists (l ++ l'). rewrite E, IH, app_assoc. reflexivity. Qed.
  Lemma zsteps_app l1 z l2 z1 z2 : zsteps z l1 z1 -> zsteps z1 l2 z2 -> zsteps z (l1 ++ l2) z2.
  Proof. intros H1 H2. induction H2 as [|z1 es z2 e z3 H2 IH Hs]; [rewrite app_nil_r; auto|]. rewrite app_assoc. econstructor; eauto. Qed.
  Lemma Mono_kept z b : ZI z -> fresh (served (zlog z)) -> In b (pushed (served (zlog z))) -> Mono b z -> db_at (body_id b) (z_db z) <> none -> kept b z.
  Proof.
    intros ZI1 F P M N. apply (kept_mem b z ZI1 F P). destruct (zi_s _ ZI1) as (S & HS). pose proof (si_cells _ _ _ HS (body_id b)) as C. unfold pend, proj in C. cbn [p_batch p_chan p_db p_mem] in C. rewrite <- C, exec_all_at.
    apply (M [] (zpend z) []); [rewrite app_nil_r; reflexivity|exact N].
  Qed.
  Lemma stored_kept e1 z1 e2 z2 b : zsteps zsys0 e1 z1 -> stored (z_db z1) b -> zsteps z1 e2 z2 -> fresh (served (zlog z2)) -> kept b z2 \/ over b (e1 ++ e2) z2.
  Proof.
    intros H1 St H2 F. assert (X : over b (e1 ++ e2) z2 \/ (In b (pushed (served (zlog z2))) /\ Mono b z2 /\ db_at (body_id b) (z_db z2) <> none)).
    { induction H2 as [z1|z1 es z2 e z3 H2 IH Hs].
      - apply (stored_at z1 b (ZI_run _ _ H1 F) F) in St. destruct St as (P & N). rewrite app_nil_r. destruct (Mono_run _ _ b H1 F P) as [O|(M & _)]; auto.
      - pose proof (fresh_back _ _ _ Hs F) as F1. rewrite app_assoc. destruct (IH H1 St F1) as [O|(P & M & N)]; [left; eapply over_mono; eauto|].
        destruct (step_kept _ _ _ _ b (zsteps_app _ _ _ _ _ H1 H2) Hs F P M) as [O|(M' & N' & _)]; auto. right. split; auto. destruct (zlog_mono _ _ _ Hs) as (l & E). rewrite E, served_app, pushed_app. apply in_or_app. auto. }
    destruct X as [O|(P & M & N)]; auto. left. apply Mono_kept; auto. eapply ZI_run; [|exact F]. eapply zsteps_app; eauto.
  Qed.
  Lemma not_lost es z b : fresh (served (zlog z)) -> In b (pushed (served (zlog z))) -> (forall e1 z1 clk main dead e2, zsteps zsys0 e1 z1 -> es = e1 ++ ZCrash clk main dead :: e2 -> zsteps z1 (ZCrash clk main dead :: e2) z -> zpend z1 = []) -> ~ lost b es z.
  Proof.
    intros F P H (e1 & z1 & clk & main & dead & e2 & H1 & E & H2 & K & St). pose proof (H _ _ _ _ _ _ H1 E H2) as Q. destruct (zlog_run _ _ _ H2) as (l & El). assert (F1 : fresh (served (zlog z1))) by (rewrite El, served_app in F; eapply fresh_pre; eauto).
    pose proof (ZI_run _ _ H1 F1) as ZI1. apply St. apply (stored_at z1 b ZI1 F1). destruct (zi_s _ ZI1) as (S & HS). pose proof (si_b _ _ _ HS b) as P1. rewrite (bodies_listed _ _ b (si_ri _ _ _ HS)) in P1. specialize (P1 K). split; auto.
    pose proof (si_cells _ _ _ HS (body_id b)) as C. unfold pend, proj in C. unfold zpend in Q. cbn [p_batch p_chan p_db p_mem] in C. rewrite Q in C. cbn in C. rewrite C. apply (kept_mem b z1 ZI1 F1 P1). exact K.
  Qed.
End Z.
