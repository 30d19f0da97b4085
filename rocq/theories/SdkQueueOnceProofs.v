(** A message that is gone and written as gone does not come back, whatever crashes. *)
From Verif Require Import LibBase LibMap QueueModel QueueSpec QueueObs QueueProofs QueueRefine QueueTrace QueueFacts QueueFacts2 QueuePersistModel QueuePersistProofs QueuePersistInv QueuePersistSys QueuePersistCrash.
From Verif Require Import SdkLoopModel SdkLoopProofs SdkQueueModel SdkQueueSpec SdkQueueProofs SdkQueueTokens SdkQueueSysModel SdkQueueSysSpec SdkQueueSysProofs SdkQueueCrashModel SdkQueueCrashProofs.
From Coq Require Import Permutation.

Section Z.
  Variable cfg : qconfig.
  Variables conc size : N.
  Variable V : Type.
  Variable dec : bytes -> option V.
  Notation ystep := (ystep cfg conc size V dec).
  Notation zstep := (zstep cfg conc size V dec).
  Notation zsteps := (zsteps cfg conc size V dec).
  Notation zsys := (zsys V).
  Notation zsys0 := (zsys0 V).
  Notation item := (item V).
  Notation zlog := (zlog V).
  Notation proj := (proj V).
  Arguments mkZ {V}. Arguments z_y {V}. Arguments z_chan {V}. Arguments z_batch {V}. Arguments z_db {V}. Arguments ZStep {V}. Arguments ZRecv {V}. Arguments ZFlush {V}. Arguments ZCrash {V}.
  Arguments y_down {V}. Arguments mkY {V}. Arguments y_cl {V}. Arguments y_up {V}.
  Implicit Types (y : sys V) (z : zsys).
  (** the queue with its storage, on its own *)
  Lemma proj_step z e z' : zstep z e z' -> exists evs, psteps cfg (proj z) evs (proj z') /\ served (zlog z') = served (zlog z) ++ reqs evs.
  Proof.
    intro H. destruct H as [y c b d o|y c b d n|y c b d|y c b d clk main dead Pm Pd]; unfold SdkQueueCrashProofs.zlog, SdkQueueCrashProofs.proj; cbn [z_y z_chan z_batch z_db y_q y_log].
    - pose proof (exec_eq cfg conc size V dec y o) as X. destruct (executed size V y o) as [q|].
      + destruct X as (X1 & X2 & _). exists ([] ++ [EReq q]). split; [|exact X2]. econstructor; [constructor|]. rewrite X1. constructor.
      + destruct X as (X1 & X2). exists []. rewrite X1, X2, !app_nil_r. split; [constructor|reflexivity].
    - exists ([] ++ [ERecv]). split; [|symmetry; apply app_nil_r]. econstructor; [constructor|]. rewrite <- (firstn_skipn n c) at 1. constructor.
    - exists ([] ++ [EFlush]). split; [|symmetry; apply app_nil_r]. econstructor; constructor.
    - exists ([] ++ [ECrash clk]). split; [|symmetry; apply app_nil_r]. econstructor; [constructor|]. constructor; auto.
  Qed.
  Lemma psteps_trans s e1 s1 e2 s2 : psteps cfg s e1 s1 -> psteps cfg s1 e2 s2 -> psteps cfg s (e1 ++ e2) s2.
  Proof. intros H1 H2. induction H2 as [|s1 es s2 e s3 H2 IH Hs]; [rewrite app_nil_r; auto|]. rewrite app_assoc. econstructor; eauto. Qed.
  Lemma proj_run z es z' : zsteps z es z' -> exists evs, psteps cfg (proj z) evs (proj z') /\ served (zlog z') = served (zlog z) ++ reqs evs.
  Proof.
    induction 1 as [z|z es z1 e z2 H (evs & IH & E) Hs]; [exists []; split; [constructor|symmetry; apply app_nil_r]|]. destruct (proj_step _ _ _ Hs) as (ev2 & H2 & E2). exists (evs ++ ev2). split; [eapply psteps_trans; eauto|].
    rewrite E2, E. unfold reqs. rewrite flat_map_app, app_assoc. reflexivity.
  Qed.
  (** what the queue does with [id] gone *)
  Definition off (id : N) z : Prop := ~ listed (y_q (z_y z)) id /\ forall clk, ~ In id (map m_id (ret (qouts cfg (y_q (z_y z)) (QoConsume size clk)))).
  Lemma off_run e1 z1 e2 z2 id : zsteps zsys0 e1 z1 -> z_batch z1 ++ z_chan z1 = [] -> In id (map body_id (pushed (served (zlog z1)))) -> ~ listed (y_q (z_y z1)) id -> zsteps z1 e2 z2 -> fresh (served (zlog z2)) -> off id z2.
  Proof.
    intros H1 E P L H2 F. apply app_eq_nil in E. destruct E as (E1 & E2). destruct (proj_run _ _ _ H1) as (v1 & R1 & S1). destruct (proj_run _ _ _ H2) as (v2 & R2 & S2). change (served (zlog zsys0)) with (@nil qop) in S1. cbn [app] in S1. rewrite S2, S1 in F.
    destruct (gone_for_good cfg v1 (proj z1) id v2 (proj z2)) as (G1 & G2); auto.
    - intro H. apply fresh_split in F. destruct F as (_ & _ & F). rewrite S1 in P. exact (F id P H).
    - split; [exact G1|]. intro clk. apply G2. reflexivity.
  Qed.
  Definition carries (id : N) y : Prop := exists a m, In a (y_down y) /\ In m (a_ms a) /\ m_id m = id.
  Lemma decoded_ids ms is : decoded V dec ms = Some is -> map fst is = map m_id ms.
  Proof.
    revert is. induction ms as [|m ms IH]; intros is; cbn [decoded]; [intros [= <-]; reflexivity|]. destruct (dec (m_payload m)); [|discriminate]. destruct (decoded V dec ms); [|discriminate]. intros [= <-]. cbn [map]. f_equal; auto.
  Qed.
  Definition arr (id : N) (l : list (hev item)) : nat := cnt (fun x : item => fst x =? id) (gots item l).
  Lemma arr_app id a b : arr id (a ++ b) = (arr id a + arr id b)%nat.
  Proof. unfold arr. rewrite gots_app, cnt_app. reflexivity. Qed.
  Lemma arr_client id c o y d : (forall k is, o = HAnswer k (Some is) -> ~ In id (map fst is)) -> arr id (clog V d (y_log (client conc V c o y))) = arr id (clog V d (y_log y)).
  Proof.
    intro H. destruct (client_eq conc V c o y) as (es & M & E & ->). cbn [y_log]. rewrite clog_app, clog_map, arr_app. assert (Z : arr id es = O).
    { unfold arr. destruct M as [es D|j is E'|j es W].
      - rewrite (proj2 (dull_none item _ D)). reflexivity.
      - cbn. rewrite app_nil_r. specialize (H _ _ E'). clear - H. induction is as [|x is IH]; auto. cbn in H. unfold cnt in *. cbn [filter]. destruct (N.eqb_spec (fst x) id) as [E|E]; [destruct H; auto|]. apply IH. tauto.
      - rewrite gots_map. reflexivity. }
    destruct (Nat.eqb c d); [rewrite Z|change (arr id []) with O]; lia.
  Qed.
  Lemma down_client c o y : y_down (client conc V c o y) = y_down y.
  Proof. destruct (client_eq conc V c o y) as (es & M & E & ->). reflexivity. Qed.
  Lemma carries_less id y down : incl down (y_down y) -> ~ carries id y -> forall cl q up L, ~ carries id (mkY cl q up down L).
  Proof. intros H N cl q up L (a & m & H1 & H2 & H3). apply N. exists a, m. cbn in H1. auto. Qed.
  Lemma still_step id y o : (forall clk, ~ In id (map m_id (ret (qouts cfg (y_q y) (QoConsume size clk))))) -> ~ carries id y ->
    ~ carries id (ystep y o) /\ forall d, arr id (clog V d (y_log (ystep y o))) = arr id (clog V d (y_log y)).
  Proof.
    intros G N.
    assert (SRV : forall who q y', ~ carries id y' -> ~ carries id (server cfg V who q y') /\ forall d, arr id (clog V d (y_log (server cfg V who q y'))) = arr id (clog V d (y_log y'))).
    { intros who q y' N'. split; [exact N'|]. intro d. cbn [server y_log]. rewrite clog_app. cbn. rewrite app_nil_r. reflexivity. }
    assert (CL : forall c o y', (forall k is, o = HAnswer k (Some is) -> ~ In id (map fst is)) -> ~ carries id y' -> ~ carries id (client conc V c o y') /\ forall d, arr id (clog V d (y_log (client conc V c o y'))) = arr id (clog V d (y_log y'))).
    { intros c o' y' A N'. split; [|intro d; apply arr_client; exact A]. intros (a & m & H1 & H2). rewrite down_client in H1. apply N'. exists a, m. auto. }
    destruct o as [c o|i now clk reason|i|j|j|q]; cbn [SdkQueueSysModel.ystep].
    - destruct o as [| | |k [is|]| | | | |]; try (apply CL; [discriminate|exact N]). auto.
    - destruct (nth_error (y_up y) i) as [[c [k n|id'|id']]|]; auto; [|apply (SRV _ _ (mkY (y_cl y) (y_q y) (drop i (y_up y)) (y_down y) (y_log y))); exact N..].
      destruct (SRV (Some c) (QoConsume size clk) (mkY (y_cl y) (y_q y) (drop i (y_up y)) (y_down y) (y_log y)) N) as (S1 & S2). split; [|exact S2].
      intros (a & m & H1 & H2 & H3). cbn [y_down server] in H1. apply in_app_or in H1. destruct H1 as [H1|[<-|[]]]; [apply N; exists a, m; auto|]. cbn [a_ms] in H2. apply (G clk). apply in_map_iff. exists m. auto.
    - split; [|reflexivity]. exact N.
    - destruct (nth_error (y_down y) j) as [a|] eqn:E; auto. assert (N' : ~ carries id (mkY (y_cl y) (y_q y) (y_up y) (drop j (y_down y)) (y_log y))) by (apply (carries_less id y); auto; apply drop_incl).
      destruct (Nat.eqb _ _); [|split; [exact N'|reflexivity]]. destruct (CL (a_c a) (HAnswer (a_k a) (decoded V dec (a_ms a))) _ ltac:(intros k is [= <- D]; rewrite (decoded_ids _ _ D); intro H; apply in_map_iff in H; destruct H as (m & H1 & H2); apply N; exists a, m; split; [eapply nth_error_In; eauto|auto]) N') as (C1 & C2). split; [exact C1|exact C2].
    - split; [|reflexivity]. apply (carries_less id y); auto. apply drop_incl.
    - apply SRV. exact N.
  Qed.
  Lemma still_run e1 z1 e2 z2 id : zsteps zsys0 e1 z1 -> z_batch z1 ++ z_chan z1 = [] -> In id (map body_id (pushed (served (zlog z1)))) -> ~ listed (y_q (z_y z1)) id -> ~ carries id (z_y z1) -> zsteps z1 e2 z2 -> fresh (served (zlog z2)) ->
    ~ carries id (z_y z2) /\ forall d, arr id (clog V d (zlog z2)) = arr id (clog V d (zlog z1)).
  Proof.
    intros H1 E P L N H2. induction H2 as [z1|z1 es z2 e z3 H2 IH Hs]; intro F; [auto|]. pose proof (fresh_back cfg conc size V dec _ _ _ Hs F) as F1. destruct (IH H1 E P L N F1) as (N2 & A2). destruct (off_run _ _ _ _ _ H1 E P L H2 F1) as (_ & G).
    destruct Hs as [y c b d o|y c b d n|y c b d|y c b d clk main dead Pm Pd]; unfold SdkQueueCrashProofs.zlog in *; cbn [z_y y_q y_log] in *; auto.
    destruct (still_step id y o G N2) as (N3 & A3). split; auto. intro d'. rewrite A3. apply A2.
  Qed.
  Lemma starts_arr y c id : WI size V y -> (cnt (fun x : item => (fst x =? id)%N) (starts item (dos item (clog V c (y_log y)))) <= arr id (clog V c (y_log y)))%nat.
  Proof.
    intro W. pose proof (ci_q _ _ (w_cl _ _ _ W c) (fun x : item => fst x =? id)) as C. rewrite (w_log _ _ _ W c) in C. unfold arr.
    assert (X : forall P (l : list (ev item)), (cnt P (starts item l) <= cnt P (taken item l))%nat).
    { intros Q l. induction l as [|e l IH]; [apply le_n|]. unfold starts, taken in *. cbn [flat_map]. rewrite !cnt_app. destruct e as [x|x ok|x|x|x]; cbn; lia. }
    specialize (X (fun x : item => fst x =? id) (dos item (clog V c (y_log y)))). lia.
  Qed.
  Lemma listed_body z b : ZI size V dec z -> fresh (served (zlog z)) -> In b (pushed (served (zlog z))) -> (listed (y_q (z_y z)) (body_id b) <-> In b (listed_bodies (y_q (z_y z)))).
  Proof.
    intros HZ F P. rewrite <- (kept_mem _ _ _ b z HZ F P). destruct (zi_s _ _ _ _ HZ) as (S & HS). pose proof (si_ri _ _ _ HS) as HR. rewrite (listed_all_ids _ _ _ HR). symmetry. apply (mem_all_ids _ _ _ HR).
  Qed.
End Z.
