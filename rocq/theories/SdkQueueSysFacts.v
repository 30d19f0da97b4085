(** No message is lost, dead letters have a cause, and nothing is handled twice in time. *)
From Verif Require Import LibBase LibMap QueueModel QueueSpec QueueObs QueueProofs QueueRefine QueueTrace QueueFacts QueueFacts2.
From Verif Require Import SdkLoopModel SdkLoopProofs SdkQueueModel SdkQueueSpec SdkQueueProofs SdkQueueTokens SdkQueueSysModel SdkQueueSysSpec SdkQueueSysProofs.
From Coq Require Import Permutation.

Section Y.
  Variable cfg : qconfig.
  Variables conc size : N.
  Variable V : Type.
  Variable dec : bytes -> option V.
  Notation yrun := (yrun cfg conc size V dec).
  Notation ystep := (ystep cfg conc size V dec).
  Notation client := (client conc V).
  Notation server := (server cfg V).
  Notation sys := (sys V).
  Notation item := (item V).
  Notation GI := (GI cfg size V).
  Notation all := (all V).
  Implicit Types (y : sys) (L : list (yev V)) (c d k : nat) (id : N).
  Arguments mkY {V}. Arguments y_cl {V}. Arguments y_up {V}. Arguments y_down {V}.

  (** ** no loss *)
  Lemma removed_at h i b : In b (removed cfg i h) -> exists h1 q h2, h = h1 ++ q :: h2 /\ In b (gone cfg (qrun cfg i h1) q).
  Proof.
    revert i. induction h as [|o h IH]; intros i H; cbn in H; [destruct H|]. apply in_app_or in H. destruct H as [H|H].
    - exists [], o, h. auto.
    - destruct (IH _ H) as (h1 & q & h2 & -> & G). exists (o :: h1), q, h2. auto.
  Qed.
  Lemma gone_op i q b : In b (gone cfg i q) -> q = QoAck (body_id b) \/ q = QoDelDlq (body_id b) \/ q = QoPurge.
  Proof.
    unfold gone. destruct q as [| | |id| | | |id|]; try (intros []).
    - destruct (qouts cfg i (QoAck id)) as [| | |[|]| | |]; try (intros []). intro H. apply in_map_iff in H. destruct H as (m & <- & H). apply filter_In in H. destruct H as [_ H]. apply N.eqb_eq in H. left. f_equal. symmetry. exact H.
    - destruct (qouts cfg i (QoDelDlq id)) as [| | |[|]| | |]; try (intros []). intro H. apply in_map_iff in H. destruct H as (m & <- & H). apply filter_In in H. destruct H as [_ H]. apply N.eqb_eq in H. right. left. f_equal. symmetry. exact H.
    - auto.
  Qed.
  Lemma served_in q L : In q (served L) -> exists who, In (OServer who q) L.
  Proof. intro H. unfold served in H. apply in_flat_map in H. destruct H as ([c e|who q'] & H1 & H2); [destruct H2|destruct H2 as [<-|[]]]. eauto. Qed.
  Lemma served_split h1 q h2 L : served L = h1 ++ q :: h2 -> exists pre who post, L = pre ++ OServer who q :: post /\ served pre = h1.
  Proof.
    revert h1. induction L as [|e L IH]; intros h1 E; [destruct h1; discriminate|]. destruct e as [d x|who q'].
    - destruct (IH h1 E) as (pre & w & post & -> & E2). exists (OClient d x :: pre), w, post. auto.
    - cbn in E. destruct h1 as [|q1 h1]; cbn in E.
      + injection E as -> E. exists [], who, L. auto.
      + injection E as -> E. destruct (IH h1 E) as (pre & w & post & -> & E2). exists (OServer who q1 :: pre), w, post. split; auto. cbn. f_equal. exact E2.
  Qed.
  Lemma no_loss os b : fresh (served (y_log (yrun os))) -> In b (pushed (served (y_log (yrun os)))) ->
    In b (listed_bodies (y_q (yrun os))) \/ (exists v, dec (body_data b) = Some v /\ handled (body_id b) v true (y_log (yrun os))) \/ removed_by_others cfg b (y_log (yrun os)).
  Proof.
    intros F H. pose proof (GI_run cfg conc size V dec os) as G. destruct (one_place cfg _ F) as [P _] || pose proof (one_place cfg _ F) as P. cbn zeta in P. rewrite <- (g_q _ _ _ _ G) in P.
    pose proof (Permutation_in _ P H) as H'. unfold listed_bodies. rewrite !in_app_iff in *.
    destruct H' as [H'|[H'|[H'|H']]]; auto 8.
    apply removed_at in H'. destruct H' as (h1 & q & h2 & E & K). destruct (served_split _ _ _ _ E) as (pre & who & post & E1 & E2).
    destruct who as [d|]; [|right; right; exists pre, q, post; rewrite E2; auto]. right. left. apply gone_op in K.
    assert (S : In (OServer (Some d) q) (y_log (yrun os))) by (rewrite E1; apply in_or_app; right; left; reflexivity).
    apply (g_srv _ _ _ _ G) in S. destruct S as [(clk & ->)|[(id & -> & (k & v & S))|(id & r & now & -> & _)]]; try (destruct K as [K|[K|K]]; discriminate).
    assert (EI : id = body_id b) by (destruct K as [K|[K|K]]; congruence). subst id. exists v. split.
    - change v with (snd (body_id b, v)). eapply good_data; eauto. eapply genuine; eauto.
    - exists d, k. exact S.
  Qed.

  (** ** dead letters *)
  Lemma dead_op S q (d : dlqmsg) : In d (s_dead (a_next cfg S q)) -> In d (s_dead S) \/ (exists r now, q = QoNack (d_id d) r now) \/ (exists n1 n2 rq dd, q = QoExpire n1 n2 /\ a_out cfg S q = RExpired rq dd /\ In d dd).
  Proof.
    intro H. assert (K : (exists n1 n2, q = QoExpire n1 n2) \/ (forall n1 n2, q <> QoExpire n1 n2)) by (destruct q; (left; eauto; fail) || (right; discriminate)). destruct K as [(n1 & n2 & ->)|K].
    - unfold a_next, a_out in *. cbn [a_step] in *. destruct (existsb _ _); auto. cbn [fst snd s_dead] in *. apply in_app_or in H. destruct H as [H|H]; auto. right. right. do 4 eexists. split; [reflexivity|]. split; [reflexivity|]. exact H.
    - apply dead_cause in H. destruct H as [H|(m & r & now & H1 & -> & H3 & [->|(n1 & -> & _)])]; auto; [right; left; exists r, now; reflexivity|]. destruct (K n1 now eq_refl).
  Qed.
  Lemma dead_src os (d : dlqmsg) : fresh (served (y_log (yrun os))) -> In d (obs_dead (y_q (yrun os))) ->
    (exists v, handled (d_id d) v false (y_log (yrun os)) \/ passed (d_id d) v (y_log (yrun os))) \/
    (exists pre who n1 n2 post rq dd, y_log (yrun os) = pre ++ OServer who (QoExpire n1 n2) :: post /\ qouts cfg (qrun cfg inner0 (served pre)) (QoExpire n1 n2) = RExpired rq dd /\ In d dd) \/
    (exists r now, In (OServer None (QoNack (d_id d) r now)) (y_log (yrun os))).
  Proof.
    intros F. pose proof (GI_run cfg conc size V dec os) as G. rewrite (g_q _ _ _ _ G). intro H.
    assert (K : (exists h1 n1 n2 h2 rq dd, served (y_log (yrun os)) = h1 ++ QoExpire n1 n2 :: h2 /\ qouts cfg (qrun cfg inner0 h1) (QoExpire n1 n2) = RExpired rq dd /\ In d dd) \/ exists r now, In (QoNack (d_id d) r now) (served (y_log (yrun os)))).
    { clear G. revert F H. generalize (served (y_log (yrun os))). intro h. induction h as [|q h IH] using rev_ind; intros F H; [destruct H|].
      pose proof (fresh_pre _ _ F) as F1. destruct (reach_app cfg h [q] F) as [HR HF]. destruct (fresh_from_cons cfg _ _ _ _ HR HF) as [Ho _]. destruct (step_refines cfg _ _ q HR Ho) as [_ Hout]. pose proof (reach cfg _ F) as HR'. rewrite (obs_dead_eq _ _ HR') in H. rewrite a_run_app in H. cbn [a_run fold_left] in H. apply dead_op in H. destruct H as [H|[(r & now & ->)|(n1 & n2 & rq & dd & -> & H1 & H2)]].
      - fold (a_run cfg spec0 h) in H. rewrite <- (obs_dead_eq _ _ HR) in H. destruct (IH F1 H) as [(h1 & n1 & n2 & h2 & rq & dd & -> & K)|(r & now & K)].
        + left. exists h1, n1, n2, (h2 ++ [q]), rq, dd. split; auto. rewrite <- app_assoc. reflexivity.
        + right. exists r, now. apply in_or_app. auto.
      - right. exists r, now. apply in_or_app. right. left. reflexivity.
      - left. exists h, n1, n2, [], rq, dd. split; auto. fold (a_run cfg spec0 h) in H1. rewrite Hout. auto. }
    destruct K as [(h1 & n1 & n2 & h2 & rq & dd & E & K1 & K2)|(r & now & K)].
    - right. left. destruct (served_split _ _ _ _ E) as (pre & who & post & E1 & <-). exists pre, who, n1, n2, post, rq, dd. auto.
    - apply served_in in K. destruct K as ([c|] & S); [left|right; right; eauto]. apply (g_srv _ _ _ _ G) in S. destruct S as [(clk & S)|[(id & S & _)|(id & r' & now' & S & (k & v & K))]]; try discriminate. injection S as <- <- <-. exists v. destruct K as [K|K]; [left|right]; exists c, k; exact K.
  Qed.

  (** ** tokens: where message [id] is *)
  Notation c id l := (cnt (N.eqb id) l).
  Definition wdids (S : qspec) : list N := ids (s_wait S) ++ dids (s_dead S).
  Definition downids (l : list answer) : list N := flat_map (fun a => ids (a_ms a)) l.
  Definition nackids (l : list (nat * req)) : list N := flat_map (fun e => match snd e with RNack id => [id] | _ => [] end) l.
  Definition pushids (h : list qop) : list N := map body_id (pushed h).
  Definition fsts (l : list item) : list N := map fst l.
  Definition harmless (S : qspec) (o : qop) : Prop := forall n1 n2, o = QoExpire n1 n2 -> a_out cfg S o = RExpired [] [].
  Lemma wd_step S o id : SInv S -> harmless S o -> In id (wdids (a_next cfg S o)) -> In id (wdids S) \/ In id (pushids [o]) \/ exists r now, o = QoNack id r now.
  Proof.
    intros HI HH. unfold wdids. rewrite !in_app_iff.
    assert (WO : forall id' l, In id (ids (without id' l)) -> In id (ids l)).
    { intros id' l H. unfold ids in *. apply in_map_iff in H. destruct H as (m & <- & H). apply without_In in H. apply in_map. tauto. }
    destruct o as [id' payload prio now|now|max clk|id'|id' reason now|now1 now2|id'|id'|].
    - unfold a_next. cbn [a_step fst s_wait s_dead]. rewrite ids_app, in_app_iff. cbn. intuition.
    - destruct (take_facts cfg S (QoPop now) HI eq_refl) as (_ & T & _ & D). rewrite D. intros [H|H]; auto. unfold ids in H. apply in_map_iff in H. destruct H as (m & <- & H). apply T in H. left. left. apply ids_In. tauto.
    - destruct (take_facts cfg S (QoConsume max clk) HI eq_refl) as (_ & T & _ & D). rewrite D. intros [H|H]; auto. unfold ids in H. apply in_map_iff in H. destruct H as (m & <- & H). apply T in H. left. left. apply ids_In. tauto.
    - unfold a_next. cbn [a_step]. destruct (find_id _ _); cbn [fst s_wait s_dead]; intros [H|H]; eauto.
    - unfold a_next. cbn [a_step]. destruct (find_id _ _) as [m|] eqn:E; cbn [fst s_wait s_dead]; auto. apply find_id_some in E. destruct E as [_ <-].
      destruct (exhausted cfg m); cbn [fst s_wait s_dead]; [|destruct (m_state m); cbn [fst s_wait s_dead]].
      + intros [H|H]; eauto. unfold dids in *. rewrite map_app, in_app_iff in H. destruct H as [H|[<-|[]]]; eauto.
      + intros [H|H]; auto. left. left. unfold ids in *. rewrite map_map in H. apply in_map_iff in H. destruct H as (z & <- & H). destruct (m_id z =? m_id m); apply in_map_iff; exists z; auto.
      + rewrite ids_app, in_app_iff. intros [[H|[<-|[]]]|H]; eauto.
    - specialize (HH _ _ eq_refl). unfold a_out, a_next in *. cbn [a_step] in *. destruct (existsb _ _); auto. cbn [fst snd s_wait s_dead] in *. injection HH as -> ->. rewrite !app_nil_r. auto.
    - unfold a_next. cbn [a_step]. destruct (find _ _) as [d|] eqn:E; cbn [fst s_wait s_dead]; auto. apply find_some in E. destruct E as [E1 E2]. apply N.eqb_eq in E2. rewrite ids_app, in_app_iff. intros [[H|[<-|[]]]|H]; auto.
      + left. right. change (In (d_id d) (map d_id (s_dead S))). apply in_map. exact E1.
      + left. right. unfold dids in *. apply in_map_iff in H. destruct H as (z & <- & H). apply filter_In in H. apply in_map. tauto.
    - unfold a_next. cbn [a_step]. destruct (find _ _) as [d|] eqn:E; cbn [fst s_wait s_dead]; auto. intros [H|H]; auto. left. right. unfold dids in *. apply in_map_iff in H. destruct H as (z & <- & H). apply filter_In in H. apply in_map. tauto.
    - unfold a_next. cbn [a_step fst s_wait s_dead]. intros [H|[]]; auto.
  Qed.
  Lemma c_in id l : In id l -> (1 <= c id l)%nat.
  Proof. intro H. apply in_split in H. destruct H as (a & b & ->). rewrite cnt_app. unfold cnt at 2. cbn [filter]. rewrite N.eqb_refl. cbn [length]. lia. Qed.
  Lemma c_nd id l : NoDup l -> (c id l <= 1)%nat.
  Proof. induction 1 as [|x l N D IH]; [cbn; lia|]. unfold cnt in *. cbn [filter]. destruct (N.eqb_spec id x); [|exact IH]. subst x. cbn [length]. assert (E : filter (N.eqb id) l = []); [|rewrite E; cbn; lia]. apply filter_false_nil. intros z Hz. apply N.eqb_neq. intros <-. auto. Qed.
  Lemma c_notin id l : ~ In id l -> c id l = O.
  Proof. intro H. unfold cnt. rewrite filter_false_nil; auto. intros z Hz. apply N.eqb_neq. intros <-. auto. Qed.
  Definition op_nack (o : qop) : list N := match o with QoNack id _ _ => [id] | _ => [] end.
  Lemma wd_nd S : SInv S -> NoDup (wdids S).
  Proof.
    intros [H _ _]. unfold all_ids in H. apply NoDup_app_inv in H. destruct H as (H1 & H2 & H3). rewrite ids_app in H1. pose proof (NoDup_app_inv _ _ _ H1) as (H4 & _). apply NoDup_app_intro; auto. intros z Hz. apply H3. rewrite ids_app, in_app_iff. auto.
  Qed.
  Lemma wd_cnt i S o id : RI i S -> op_fresh S o -> harmless S o ->
    (c id (wdids (a_next cfg S o)) + c id (ids (ret (a_out cfg S o))) <= c id (wdids S) + c id (pushids [o]) + c id (op_nack o))%nat.
  Proof.
    intros HR Ho HH. pose proof (RI_SInv _ _ HR) as HI. destruct (step_refines cfg i S o HR Ho) as [HR' _]. pose proof (RI_SInv _ _ HR') as HI'.
    assert (NR : NoDup (ids (ret (a_out cfg S o)))).
    { destruct (is_take o) eqn:T; [apply (take_facts cfg S o HI T)|rewrite (ret_notake cfg S o T); constructor]. }
    pose proof (c_nd id _ NR) as C1. pose proof (c_nd id _ (wd_nd _ HI')) as C2.
    destruct (in_dec N.eq_dec id (ids (ret (a_out cfg S o)))) as [R|R].
    - assert (W : In id (wdids S)) by (unfold wdids; apply in_or_app; left; eapply ret_ids; eauto). apply c_in in W.
      assert (NW : ~ In id (wdids (a_next cfg S o))).
      { unfold ids in R. apply in_map_iff in R. destruct R as (m & <- & R). destruct (ret_in_fly cfg S o m HI R) as [FL _]. destruct HI' as [ND _ _]. unfold all_ids in ND. apply NoDup_app_inv in ND. destruct ND as (N1 & N2 & N3). rewrite ids_app in N1. apply NoDup_app_inv in N1. destruct N1 as (_ & _ & N4).
        pose proof (ids_In _ _ FL) as FI. unfold wdids. rewrite in_app_iff. intros [H|H]; [apply (N4 _ H FI)|]. apply (N3 (m_id m)); auto. rewrite ids_app, in_app_iff. auto. }
      rewrite (c_notin _ _ NW). lia.
    - rewrite (c_notin _ _ R). destruct (in_dec N.eq_dec id (wdids (a_next cfg S o))) as [W|W]; [|rewrite (c_notin _ _ W); lia].
      destruct (wd_step S o id HI HH W) as [K|[K|(r & now & ->)]]; [apply c_in in K; lia|apply c_in in K; lia|]. cbn [op_nack]. pose proof (c_in id [id] (or_introl eq_refl)). lia.
  Qed.

  (** ** the sum over all clients *)
  Fixpoint sum (n : nat) (f : nat -> nat) : nat := match n with O => O | S m => (f m + sum m f)%nat end.
  Lemma sum_le n f g : (forall d, (f d <= g d)%nat) -> (sum n f <= sum n g)%nat.
  Proof. intro H. induction n as [|n IH]; cbn; [lia|]. specialize (H n). lia. Qed.
  Lemma sum_zero n : sum n (fun _ => O) = O. Proof. induction n; auto. Qed.
  Lemma sum_add n f g : sum n (fun d => (f d + g d)%nat) = (sum n f + sum n g)%nat.
  Proof. induction n as [|n IH]; cbn; [lia|]. rewrite IH. lia. Qed.
  Lemma sum_one n d a : (d < n)%nat -> sum n (fun e => if Nat.eqb d e then a else O) = a.
  Proof.
    induction n as [|n IH]; [lia|]. intro H. cbn [sum]. destruct (Nat.eqb_spec d n) as [->|N].
    - replace (sum n _) with O; [lia|]. symmetry. clear. assert (H : forall m, (m <= n)%nat -> sum m (fun e => if Nat.eqb n e then a else O) = O); [|apply H; lia]. induction m as [|m IH]; intro H; cbn; auto. destruct (Nat.eqb_spec n m); [lia|]. apply IH. lia.
    - rewrite IH; lia.
  Qed.
  Lemma sum_ext n f g : (forall d, f d = g d) -> sum n f = sum n g.
  Proof. intro H. induction n; cbn; auto. Qed.
  Lemma sum_clients (f : list (hev item) -> nat) : f [] = O -> (forall a b, f (a ++ b) = f a + f b)%nat ->
    forall L n, (forall d e, In (OClient d e) L -> (d < n)%nat) -> f (all L) = sum n (fun d => f (clog V d L)).
  Proof.
    intros F0 FA L n. induction L as [|e L IH]; intro B.
    - cbn. rewrite (sum_ext _ _ (fun _ => O)); [rewrite sum_zero; exact F0|auto].
    - assert (IH' := IH (fun d x H => B d x (or_intror H))). destruct e as [d x|who q].
      + change (all (OClient d x :: L)) with ([x] ++ all L). rewrite FA, IH'. rewrite (sum_ext n (fun d0 => f (clog V d0 (OClient d x :: L))) (fun d0 => (if Nat.eqb d d0 then f [x] else O) + f (clog V d0 L))%nat).
        * rewrite sum_add, sum_one; auto. apply (B d x). left. reflexivity.
        * intro d0. change (OClient d x :: L) with ([OClient d x] ++ L). rewrite clog_app, FA. f_equal. cbn. destruct (Nat.eqb d d0); [reflexivity|exact F0].
      + exact IH'.
  Qed.
  Lemma bound L : exists n, forall d (e : hev item), In (OClient d e) L -> (d < n)%nat.
  Proof.
    induction L as [|[d x|who q] L (n & IH)]; [exists O; intros ? ? []| |exists n; intros d e [H|H]; [discriminate|eauto]].
    exists (S (Nat.max d n)). intros d' e [H|H]; [injection H as -> ->; lia|]. specialize (IH _ _ H). lia.
  Qed.
  Lemma clients_le (f g : list (hev item) -> nat) L : f [] = O -> (forall a b, f (a ++ b) = f a + f b)%nat -> g [] = O -> (forall a b, g (a ++ b) = g a + g b)%nat ->
    (forall d, (f (clog V d L) <= g (clog V d L))%nat) -> (f (all L) <= g (all L))%nat.
  Proof. intros F0 FA G0 GA H. destruct (bound L) as (n & B). rewrite (sum_clients f F0 FA L n B), (sum_clients g G0 GA L n B). apply sum_le. exact H. Qed.

  (** ** the count *)
  Definition recvids L := fsts (gots item (all L)).
  Definition takenids L := fsts (taken item (acts_of L)).
  Definition startids L := fsts (starts item (acts_of L)).
  Definition endids L := fsts (ends item (acts_of L)).
  Definition okids L := fsts (ended item true (acts_of L)).
  Lemma fsts_app a b : fsts (a ++ b) = fsts a ++ fsts b. Proof. apply map_app. Qed.
  Lemma recvids_app a b : recvids (a ++ b) = recvids a ++ recvids b. Proof. unfold recvids. rewrite all_app, gots_app. apply fsts_app. Qed.
  Lemma takenids_app a b : takenids (a ++ b) = takenids a ++ takenids b. Proof. unfold takenids. rewrite acts_app. unfold taken. rewrite flat_map_app. apply fsts_app. Qed.
  Lemma startids_app a b : startids (a ++ b) = startids a ++ startids b. Proof. unfold startids. rewrite acts_app. unfold starts. rewrite flat_map_app. apply fsts_app. Qed.
  Lemma endids_app a b : endids (a ++ b) = endids a ++ endids b. Proof. unfold endids. rewrite acts_app. unfold ends. rewrite flat_map_app. apply fsts_app. Qed.
  Lemma okids_app a b : okids (a ++ b) = okids a ++ okids b. Proof. unfold okids. rewrite acts_app. unfold ended. rewrite flat_map_app. apply fsts_app. Qed.
  Lemma downids_app a b : downids (a ++ b) = downids a ++ downids b. Proof. apply flat_map_app. Qed.
  Lemma nackids_app a b : nackids (a ++ b) = nackids a ++ nackids b. Proof. apply flat_map_app. Qed.
  Definition TI y : Prop := forall id,
    (c id (wdids (a_run cfg spec0 (served (y_log y)))) + c id (downids (y_down y)) + c id (nackids (y_up y)) + c id (okids (y_log y)) + c id (recvids (y_log y)) + c id (startids (y_log y))
     <= c id (pushids (served (y_log y))) + c id (takenids (y_log y)) + c id (endids (y_log y)))%nat.
  Lemma cnt_map {B C} (P : C -> bool) (f : B -> C) l : cnt P (map f l) = cnt (fun x => P (f x)) l.
  Proof. unfold cnt. induction l as [|x l IH]; cbn; auto. destruct (P (f x)); cbn; auto. Qed.
  Lemma received_first os id : (c id (takenids (y_log (yrun os))) <= c id (recvids (y_log (yrun os))))%nat /\ (c id (endids (y_log (yrun os))) <= c id (startids (y_log (yrun os))))%nat.
  Proof.
    pose proof (GI_run cfg conc size V dec os) as G. set (L := y_log (yrun os)) in *. unfold takenids, recvids, endids, startids, fsts. rewrite !cnt_map, acts_all. split.
    - apply (clients_le (fun l => cnt (fun x : item => id =? fst x) (taken item (dos item l))) (fun l => cnt (fun x : item => id =? fst x) (gots item l))); auto.
      + intros a b. rewrite dos_app. unfold taken. rewrite flat_map_app, cnt_app. reflexivity.
      + intros a b. rewrite gots_app, cnt_app. reflexivity.
      + intro d. pose proof (ci_q _ _ (g_cl _ _ _ _ G d) (fun x : item => id =? fst x)) as C. rewrite (g_log _ _ _ _ G d) in C. fold L in C. lia.
    - apply (clients_le (fun l => cnt (fun x : item => id =? fst x) (ends item (dos item l))) (fun l => cnt (fun x : item => id =? fst x) (starts item (dos item l)))); auto.
      + intros a b. rewrite dos_app. unfold ends. rewrite flat_map_app, cnt_app. reflexivity.
      + intros a b. rewrite dos_app. unfold starts. rewrite flat_map_app, cnt_app. reflexivity.
      + intro d. pose proof (ci_r _ _ (g_cl _ _ _ _ G d) (fun x : item => id =? fst x)) as C. rewrite (g_log _ _ _ _ G d) in C. fold L in C. lia.
  Qed.
  Lemma nackids_frames d l es : nackids (map (pair d) (flat_map (frame V l) es)) = fsts (nacks item (dos item es)).
  Proof.
    unfold nackids. induction es as [|e es IH]; cbn; auto. rewrite map_app, flat_map_app, IH. unfold nacks, fsts. rewrite flat_map_app, map_app. f_equal. destruct e as [| | | | | |k [| |x|x|]| | |]; reflexivity.
  Qed.
  Lemma acts_map d (es : list (hev item)) : acts_of (map (OClient d) es) = dos item es.
  Proof. rewrite acts_all, all_map. reflexivity. Qed.
  Lemma shape_cnt es id : wshape item es -> (c id (fsts (nacks item es)) + c id (fsts (ended item true es)) + c id (fsts (starts item es)) <= c id (fsts (taken item es)) + c id (fsts (ends item es)))%nat.
  Proof. intros [|z|z|z|z []|z|z]; cbn; lia. Qed.
  (** a client step; [r] the messages it receives, taken off the network *)
  Lemma TI_client d o y (r : list N) : TI (mkY (y_cl y) (y_q y) (y_up y) (y_down y) (y_log y)) \/ True ->
    (forall id, c id (wdids (a_run cfg spec0 (served (y_log y)))) + c id (downids (y_down y)) + c id r + c id (nackids (y_up y)) + c id (okids (y_log y)) + c id (recvids (y_log y)) + c id (startids (y_log y))
     <= c id (pushids (served (y_log y))) + c id (takenids (y_log y)) + c id (endids (y_log y)))%nat ->
    (forall k is, o = HAnswer k (Some is) -> fsts is = r) -> TI (client d o y).
  Proof.
    intros _ T HO. destruct (client_eq conc V d o y) as (es & M & E & ->). intro id. specialize (T id). cbn [y_cl y_q y_up y_down y_log].
    rewrite served_app, served_map, app_nil_r, nackids_app, okids_app, recvids_app, startids_app, takenids_app, endids_app, !cnt_app, nackids_frames.
    unfold okids at 2, recvids at 2, startids at 2, takenids at 2, endids at 2. rewrite acts_map, all_map.
    destruct M as [es D|j is E'|j es W].
    - destruct (dull_none item _ D) as [-> ->]. cbn. lia.
    - rewrite <- (HO _ _ E') in T. cbn. rewrite app_nil_r. unfold fsts, cnt in *. lia.
    - rewrite dos_map, gots_map. pose proof (shape_cnt es id W). change (fsts []) with (@nil N). change (c id []) with O. lia.
  Qed.
  Lemma TI_client0 d o y : TI y -> (forall k is, o = HAnswer k (Some is) -> is = []) -> TI (client d o y).
  Proof. intros T HO. apply TI_client with (r := []); auto; [intro id; specialize (T id); cbn; lia|]. intros k is H. rewrite (HO k is H). reflexivity. Qed.
  Lemma c_drop {B} (f : B -> list N) i (l : list B) x id : nth_error l i = Some x -> (c id (flat_map f l) = c id (flat_map f (drop i l)) + c id (f x))%nat.
  Proof.
    intro H. assert (S : l = firstn i l ++ x :: skipn (S i) l).
    { rewrite <- (firstn_skipn i l) at 1. f_equal. revert l H. induction i as [|i IH]; intros [|z l] H; try discriminate; cbn in *; [injection H as ->; auto|]. apply IH; auto. }
    rewrite S at 1. unfold drop. rewrite !flat_map_app, !cnt_app. cbn [flat_map]. rewrite cnt_app. lia.
  Qed.
  Lemma c_drop_le {B} (f : B -> list N) i (l : list B) id : (c id (flat_map f (drop i l)) <= c id (flat_map f l))%nat.
  Proof. destruct (nth_error l i) as [x|] eqn:E; [rewrite (c_drop f i l x id E); lia|]. apply nth_error_None in E. unfold drop. rewrite firstn_all2, skipn_all2, app_nil_r; lia. Qed.
  Lemma decoded_ids ms is : decoded V dec ms = Some is -> fsts is = ids ms.
  Proof. revert is. induction ms as [|m ms IH]; intros is; cbn [decoded]; [intros [= <-]; reflexivity|]. destruct (dec (m_payload m)); [|discriminate]. destruct (decoded V dec ms) as [is'|]; [|discriminate]. intros [= <-]. cbn. f_equal. apply IH. reflexivity. Qed.
  Lemma TI_down y up down : TI y -> (forall id, c id (downids down) + c id (nackids up) <= c id (downids (y_down y)) + c id (nackids (y_up y)))%nat -> TI (mkY (y_cl y) (y_q y) up down (y_log y)).
  Proof. intros T H id. specialize (T id). specialize (H id). cbn [y_cl y_q y_up y_down y_log]. lia. Qed.
  (** the queue executes a request; [r] answered messages, [a] the nack taken off the network *)
  Lemma server_cnt y who q : GI y -> fresh (served (y_log y) ++ [q]) -> (forall n1 n2, q = QoExpire n1 n2 -> qouts cfg (y_q y) q = RExpired [] []) -> forall id,
    (c id (wdids (a_run cfg spec0 (served (y_log (server who q y))))) + c id (ids (ret (qouts cfg (y_q y) q))) + c id (pushids (served (y_log y))) <=
     c id (wdids (a_run cfg spec0 (served (y_log y)))) + c id (pushids (served (y_log (server who q y)))) + c id (op_nack q))%nat.
  Proof.
    intros G F X id. destruct (reach_app cfg _ [q] F) as [HR HF]. destruct (fresh_from_cons cfg _ _ _ _ HR HF) as [Ho _]. destruct (step_refines cfg _ _ q HR Ho) as [_ Hout]. rewrite <- (g_q _ _ _ _ G) in Hout.
    cbn [SdkQueueSysModel.server y_log]. rewrite served_app. cbn [served flat_map app]. rewrite a_run_app. cbn [a_run fold_left]. fold (a_run cfg spec0 (served (y_log y))).
    unfold pushids, pushed. rewrite flat_map_app, map_app, cnt_app. rewrite Hout.
    assert (HH : harmless (a_run cfg spec0 (served (y_log y))) q) by (intros n1 n2 E; rewrite <- Hout; eapply X; eauto).
    pose proof (wd_cnt _ _ q id HR Ho HH) as W. unfold pushids, pushed in W. lia.
  Qed.
  Lemma okids_server (who : option nat) q : okids [OServer who q] = [] /\ recvids [OServer who q] = [] /\ startids [OServer who q] = [] /\ takenids [OServer who q] = [] /\ endids [OServer who q] = [].
  Proof. auto 10. Qed.
  Lemma in_time_pre L L' : in_time cfg (L ++ L') -> in_time cfg L.
  Proof. intros H pre who n1 n2 post E. apply (H pre who n1 n2 (post ++ L')). rewrite E, <- app_assoc. reflexivity. Qed.
  Lemma TI_step y o : GI y -> fresh (served (y_log (ystep y o))) -> in_time cfg (y_log (ystep y o)) -> own_nacks (y_log (ystep y o)) -> TI y -> TI (ystep y o).
  Proof.
    intros G F X NN T.
    assert (SRV : forall who q up down, fresh (served (y_log y) ++ [q]) -> in_time cfg (y_log y ++ [OServer who q]) ->
      (forall id, c id (downids down) + c id (nackids up) + c id (op_nack q) <= c id (downids (y_down y)) + c id (nackids (y_up y)) + c id (ids (ret (qouts cfg (y_q y) q))))%nat ->
      TI (mkY (y_cl y) (qnext cfg (y_q y) q) up down (y_log y ++ [OServer who q]))).
    { intros who q up down FF XX N id. assert (XQ : forall n1 n2, q = QoExpire n1 n2 -> qouts cfg (y_q y) q = RExpired [] []).
      { intros n1 n2 ->. rewrite (g_q _ _ _ _ G). apply (XX (y_log y) who n1 n2 []). reflexivity. }
      pose proof (server_cnt y who q G FF XQ id) as C. cbn [SdkQueueSysModel.server y_log] in C. specialize (T id). specialize (N id). cbn [y_cl y_q y_up y_down y_log].
      rewrite okids_app, recvids_app, startids_app, takenids_app, endids_app. destruct (okids_server who q) as (-> & -> & -> & -> & ->). rewrite !app_nil_r. lia. }
    destruct o as [d o|i now clk reason|i|j|j|q]; cbn [SdkQueueSysModel.ystep] in *.
    - destruct o as [| | |k [is|]| | | | |]; try exact T; apply TI_client0; auto; discriminate.
    - destruct (nth_error (y_up y) i) as [[d r]|] eqn:E; auto.
      pose proof (fun id => c_drop (fun e : nat * req => match snd e with RNack id => [id] | _ => [] end) i (y_up y) _ id E) as CD. fold (nackids (y_up y)) in CD. fold (nackids (drop i (y_up y))) in CD.
      destruct r as [k n|id|id]; cbn [SdkQueueSysModel.server y_cl y_q y_up y_down y_log snd] in *; rewrite served_app in F; (apply SRV; [exact F|exact X|]); intro id'; specialize (CD id'); change (c id' []) with O in CD.
      + rewrite downids_app, cnt_app. cbn [y_down y_up downids flat_map a_ms op_nack]. rewrite app_nil_r. change (c id' []) with O. lia.
      + cbn [op_nack y_down y_up]. change (c id' []) with O. lia.
      + cbn [op_nack y_down y_up]. lia.
    - apply TI_down; auto. intro id. pose proof (c_drop_le (fun e : nat * req => match snd e with RNack id => [id] | _ => [] end) i (y_up y) id) as C. fold (nackids (y_up y)) in C. fold (nackids (drop i (y_up y))) in C. lia.
    - destruct (nth_error (y_down y) j) as [a|] eqn:E; auto. pose proof (fun id => c_drop (fun a => ids (a_ms a)) j (y_down y) _ id E) as CD. fold (downids (y_down y)) in CD. fold (downids (drop j (y_down y))) in CD.
      destruct (Nat.eqb _ _).
      + destruct (decoded V dec (a_ms a)) as [is|] eqn:D.
        * apply TI_client with (r := ids (a_ms a)); auto; [|intros k is' [= <- <-]; apply decoded_ids; auto]. intro id. specialize (CD id). specialize (T id). cbn [y_cl y_q y_up y_down y_log]. lia.
        * apply TI_client0; [|discriminate]. apply TI_down; auto. intro id. specialize (CD id). cbn beta in CD. lia.
      + apply TI_down; auto. intro id. specialize (CD id). cbn beta in CD. lia.
    - apply TI_down; auto. intro id. pose proof (c_drop_le (fun a => ids (a_ms a)) j (y_down y) id) as C. fold (downids (y_down y)) in C. fold (downids (drop j (y_down y))) in C. lia.
    - cbn [SdkQueueSysModel.server y_log] in *. rewrite served_app in F. apply SRV; auto. intro id. destruct q; cbn [op_nack]; change (c id []) with O; try lia. exfalso. eapply NN. apply in_or_app. right. left. reflexivity.
  Qed.
  Lemma own_nacks_pre L L' : own_nacks (L ++ L') -> own_nacks L.
  Proof. intros H id r now K. apply (H id r now). apply in_or_app. auto. Qed.
  Lemma TI_run os : fresh (served (y_log (yrun os))) -> in_time cfg (y_log (yrun os)) -> own_nacks (y_log (yrun os)) -> TI (yrun os).
  Proof.
    induction os as [|o os IH] using rev_ind; intros F X NN; [intro id; cbn; lia|]. rewrite yrun_snoc in *. destruct (step_log cfg conc size V dec (yrun os) o) as (es & E).
    assert (T : TI (yrun os)) by (rewrite E in F, X, NN; rewrite served_app in F; apply IH; [eapply fresh_pre; eauto|eapply in_time_pre; eauto|eapply own_nacks_pre; eauto]).
    apply TI_step; auto. apply GI_run.
  Qed.
  Lemma started_c id L : started id L = c id (startids L).
  Proof. unfold started, startids, starts, fsts, cnt. induction (acts_of L) as [|[x|x ok|x|x|x] l IH]; cbn; auto. rewrite N.eqb_sym. destruct (id =? fst x); cbn; auto. Qed.
  Lemma finished_c id L : finished id L = c id (endids L).
  Proof. unfold finished, endids, ends, fsts, cnt. induction (acts_of L) as [|[x|x ok|x|x|x] l IH]; cbn; auto. rewrite N.eqb_sym. destruct (id =? fst x); cbn; auto. Qed.
  Lemma succeeded_c id L : succeeded id L = c id (okids L).
  Proof. unfold succeeded, okids, ended, fsts, cnt. induction (acts_of L) as [|[x|x []|x|x|x] l IH]; cbn; auto. rewrite N.eqb_sym. destruct (id =? fst x); cbn; auto. Qed.
  Lemma counts os id : fresh (served (y_log (yrun os))) -> in_time cfg (y_log (yrun os)) -> own_nacks (y_log (yrun os)) ->
    (finished id (y_log (yrun os)) <= started id (y_log (yrun os)) /\ started id (y_log (yrun os)) + succeeded id (y_log (yrun os)) <= finished id (y_log (yrun os)) + 1)%nat.
  Proof.
    intros F X NN. pose proof (TI_run os F X NN id) as T. destruct (received_first os id) as [R1 R2]. rewrite started_c, finished_c, succeeded_c.
    pose proof (c_nd id _ F) as P. fold (pushids (served (y_log (yrun os)))) in P. lia.
  Qed.
  Lemma started_app id (a b : list (yev V)) : started id (a ++ b) = (started id a + started id b)%nat. Proof. unfold started. rewrite acts_app, filter_app, app_length. reflexivity. Qed.
  Lemma finished_app id (a b : list (yev V)) : finished id (a ++ b) = (finished id a + finished id b)%nat. Proof. unfold finished. rewrite acts_app, filter_app, app_length. reflexivity. Qed.
  Lemma succeeded_app id (a b : list (yev V)) : succeeded id (a ++ b) = (succeeded id a + succeeded id b)%nat. Proof. unfold succeeded. rewrite acts_app, filter_app, app_length. reflexivity. Qed.
  Lemma client_either d o y : exists es, y_log (client d o y) = y_log y ++ es /\ forall id, started id es = O \/ finished id es = O.
  Proof.
    destruct (client_eq conc V d o y) as (es & M & E & ->). eexists. split; [reflexivity|]. intro id. unfold started, finished. rewrite acts_map. destruct M as [es D|j is E'|j es W]; [rewrite (proj1 (dull_none item _ D)); auto|auto|]. rewrite dos_map. destruct W; cbn; auto.
  Qed.
  Lemma step_either y o : exists es, y_log (ystep y o) = y_log y ++ es /\ forall id, started id es = O \/ finished id es = O.
  Proof.
    assert (NO : exists es, y_log y = y_log y ++ es /\ forall id, started id es = O \/ finished id es = O) by (exists []; rewrite app_nil_r; auto).
    destruct o as [d o|i now clk reason|i|j|j|q]; cbn [SdkQueueSysModel.ystep]; auto.
    - pose proof (client_either d o y). destruct o as [| | |k [is|]| | | | |]; auto.
    - destruct (nth_error (y_up y) i) as [[d [k n|id|id]]|]; auto; eexists; (split; [reflexivity|auto]).
    - destruct (nth_error (y_down y) j) as [a|]; auto. destruct (Nat.eqb _ _); auto. exact (client_either _ _ (mkY (y_cl y) (y_q y) (y_up y) (drop j (y_down y)) (y_log y))).
    - eexists. split; [reflexivity|auto].
  Qed.
  Lemma once_done os ys id : fresh (served (y_log (yrun (os ++ ys)))) -> in_time cfg (y_log (yrun (os ++ ys))) -> own_nacks (y_log (yrun (os ++ ys))) ->
    (0 < succeeded id (y_log (yrun os)))%nat -> started id (y_log (yrun (os ++ ys))) = started id (y_log (yrun os)).
  Proof.
    induction ys as [|o ys IH] using rev_ind; intros F X NN S; [rewrite app_nil_r; reflexivity|]. rewrite app_assoc in *. pose proof (counts _ id F X NN) as C'. rewrite yrun_snoc in *.
    destruct (step_either (yrun (os ++ ys)) o) as (es & E & D). rewrite E in *. rewrite served_app in F.
    assert (F1 := fresh_pre _ _ F). assert (X1 := in_time_pre _ _ X). assert (N1 := own_nacks_pre _ _ NN). pose proof (counts _ id F1 X1 N1) as C. rewrite <- (IH F1 X1 N1 S).
    destruct (run_log cfg conc size V dec os ys) as (es2 & E2). rewrite started_app, finished_app, succeeded_app in *. destruct (D id) as [Z|Z]; [lia|]. assert (succeeded id (y_log (yrun (os ++ ys))) >= 1)%nat by (rewrite E2, succeeded_app; lia). lia.
  Qed.
  Lemma at_most_once os id : fresh (served (y_log (yrun os))) -> in_time cfg (y_log (yrun os)) -> own_nacks (y_log (yrun os)) ->
    (succeeded id (y_log (yrun os)) <= 1 /\ started id (y_log (yrun os)) <= finished id (y_log (yrun os)) + 1)%nat.
  Proof. intros F X NN. destruct (counts os id F X NN). lia. Qed.
End Y.
