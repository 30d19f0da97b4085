(** Invariants of the SDK's subscriptions. *)
From Coq Require Import Permutation.
From Verif Require Import LibBase LibMap PubSubModel PubSubSpec PubSubProofs SdkDispatch SdkSubModel SdkSubSpec.
Local Open Scope nat_scope.

(** ** log reading *)
Definition no_up (l : list subev) : Prop := forall c, ~ In (VUp c) l.
Lemma since_up_app : forall l l', no_up l' -> since_up (l ++ l') = since_up l ++ l'.
Proof.
  intros l l' H. unfold since_up. rewrite fold_left_app. generalize (fold_left (fun a e => match e with VUp _ => [] | _ => a ++ [e] end) l []).
  induction l' as [|e l' IH]; intros a; cbn; [rewrite app_nil_r; reflexivity|].
  rewrite IH by (intros c Hc; apply (H c); right; exact Hc).
  destruct e; try (rewrite <- app_assoc; reflexivity). exfalso. apply (H c). left. reflexivity.
Qed.
Lemma since_up_up : forall l c, since_up (l ++ [VUp c]) = [].
Proof. intros. unfold since_up. rewrite fold_left_app. reflexivity. Qed.
Lemma since_up_in : forall l e, In e (since_up l) -> In e l.
Proof.
  intros l. induction l as [|x l IH] using rev_ind; intros e H; [exact H|].
  destruct x; try (rewrite since_up_app in H by (intros c' [K|[]]; discriminate); apply in_app_or in H; apply in_or_app;
    destruct H as [H|H]; [left; auto|right; exact H]).
  rewrite since_up_up in H. destruct H.
Qed.
Lemma up_as_app : forall l l', (forall e, In e l' -> match e with VUp _ | VLost => False | _ => True end) -> up_as (l ++ l') = up_as l.
Proof.
  intros l l' H. unfold up_as. rewrite fold_left_app. generalize (fold_left (fun a e => match e with VUp c => Some c | VLost => None | _ => a end) l None).
  induction l' as [|e l' IH]; intros a; cbn; [reflexivity|]. rewrite IH by (intros x Hx; apply H; right; exact Hx).
  specialize (H e (or_introl eq_refl)). destruct e; try reflexivity; destruct H.
Qed.

(** ** requests waited for *)
Definition k_call (k : ukind) : list nat := match k with KSub n | KUnsub n => [n] | KRestore => [] end.
Definition fly (s : subst) : list ureq := b_pend s ++ map fst (b_ready s).
Definition fly_calls (l : list ureq) : list nat := flat_map (fun q => k_call (q_kind q)) l.
Definition k_sub (k : ukind) : bool := negb (is_unsub k).

Record ginv (s : subst) (log : list subev) : Prop := mkG {
  g_keys : NoDup (map fst (b_h s));
  g_nums : NoDup (map snd (b_h s));
  g_hn : forall t m, In (t, m) (b_h s) -> In (VCall m true t) log;
  g_calls : forall m b t, In (VCall m b t) log -> m < b_calls s;
  g_one : forall m b t b' t', In (VCall m b t) log -> In (VCall m b' t') log -> b = b' /\ t = t';
  g_dones : forall m ok, In (VDone m ok) log -> m < b_calls s;
  g_down : b_up s = None -> b_pend s = [] /\ b_wire s = [] /\ b_served s = [];
  g_ids : NoDup (map q_id (fly s));
  g_lt : forall q, In q (fly s) \/ In q (b_wire s) -> q_id q < b_next s;
  g_slt : forall r, In r (b_served s) -> r < b_next s;
  g_llt : forall r b t, In (VSent r b t) log -> r < b_next s;
  g_vlt : forall r, In (VServed r) log -> r < b_next s;
  g_fc : NoDup (fly_calls (fly s));
  g_fly : forall q m, In q (fly s) -> In m (k_call (q_kind q)) ->
    In (VCall m (k_sub (q_kind q)) (q_topic q)) log /\ forall ok, ~ In (VDone m ok) log;
  g_wire : forall q, In q (b_wire s) -> In (VSent (q_id q) (k_sub (q_kind q)) (q_topic q)) (since_up log) /\ ~ In (VServed (q_id q)) log;
  g_wid : NoDup (map q_id (b_wire s));
  g_sent : forall r b t, b_up s <> None -> In (VSent r b t) (since_up log) -> In r (map q_id (b_wire s)) \/ In r (b_served s);
  g_up : up_as log = b_up s;
  g_svl : forall r, In r (b_served s) -> In (VServed r) log
}.

Lemma nodup_map_filter : forall {A B} (f : A -> B) p l, NoDup (map f l) -> NoDup (map f (filter p l)).
Proof.
  intros A B f p l. induction l as [|x l IH]; cbn; intro H; [constructor|]. inversion H; subst.
  destruct (p x); cbn; auto. constructor; auto. intro K. apply H2. apply in_map_iff in K. destruct K as (y & <- & K).
  apply filter_In in K. apply in_map. apply K.
Qed.
Lemma NoDup_app_r : forall {A} (l1 l2 : list A), NoDup (l1 ++ l2) -> NoDup l2.
Proof. intros A l1. induction l1 as [|x l1 IH]; intros l2 H; [exact H|]. inversion H; subst. auto. Qed.
Lemma NoDup_app_iff : forall {A} (a b : list A), NoDup (a ++ b) <-> NoDup a /\ NoDup b /\ forall x, In x a -> ~ In x b.
Proof.
  intros A a. induction a as [|x a IH]; intros b; cbn.
  - split; [intro H; repeat split; auto; constructor|tauto].
  - split.
    + intro H. inversion H; subst. apply IH in H3. destruct H3 as (H4 & H5 & H6).
      split; [constructor; auto; intro K; apply H2; apply in_or_app; auto|]. split; [auto|].
      intros y [<-|Hy]; [intro K; apply H2; apply in_or_app; auto|auto].
    + intros (H1 & H2 & H3). inversion H1; subst. constructor.
      * intro K. apply in_app_or in K. destruct K; [auto|]. eapply H3; eauto.
      * apply IH. repeat split; auto.
Qed.

(** one more log entry that nobody keeps track of, and other small changes *)
Lemma ginv0 : ginv sub0 [].
Proof. constructor; cbn; try constructor; try tauto; try (intros; tauto). Qed.

(** sending a request for [k] (a fresh call number, if any) *)
Lemma ginv_send : forall s log k t, ginv s log ->
  (forall m, In m (k_call k) -> In (VCall m (k_sub k) t) log /\ (forall ok, ~ In (VDone m ok) log) /\ ~ In m (fly_calls (fly s))) ->
  ginv (fst (send1 k t s)) (log ++ snd (send1 k t s)).
Proof.
  intros s log k t G Hk. set (q := mkUreq (b_next s) k t).
  assert (Hfresh : ~ In (q_id q) (map q_id (fly s))).
  { intro H. apply in_map_iff in H. destruct H as (x & E & H). pose proof (g_lt _ _ G x (or_introl H)). cbn in E. lia. }
  assert (Hcalls : forall l, (forall m, In m (fly_calls l) <-> In m (fly_calls (fly s)) \/ In m (k_call k)) -> True) by auto.
  assert (Hnd : NoDup (k_call k)) by (destruct k; cbn; repeat constructor; auto).
  unfold send1. destruct (b_up s) as [c|] eqn:Eu; cbn [fst snd].
  - set (s' := mkSub (Some c) (b_h s) (b_pend s ++ [q]) (b_ready s) (b_wire s ++ [q]) (b_served s) (S (b_next s)) (b_calls s) (b_srv s)).
    set (l := [VSent (b_next s) (negb (is_unsub k)) t]).
    assert (Hin : forall e, (forall b r t', e <> VSent r b t') -> In e (log ++ l) <-> In e log).
    { intros e He. rewrite in_app_iff. cbn. split; [intros [H|[H|[]]]; auto; exfalso; symmetry in H; exact (He _ _ _ H)|auto]. }
    assert (Hsu : since_up (log ++ l) = since_up log ++ l) by (apply since_up_app; intros c' [H|[]]; discriminate).
    assert (Hfl : forall x, In x (fly s') <-> In x (fly s) \/ x = q).
    { intros x. unfold fly, s'. cbn. rewrite !in_app_iff. cbn. intuition. }
    assert (Hmid : fly s' = b_pend s ++ q :: map fst (b_ready s)) by (unfold fly, s'; cbn; rewrite <- app_assoc; reflexivity).
    change (ginv s' (log ++ l)). constructor; try (unfold s'; cbn; apply G).
    + intros t' m H. apply Hin; [discriminate|]. apply (g_hn _ _ G); auto.
    + intros m b t' H. apply Hin in H; [|discriminate]. apply (g_calls _ _ G) in H. exact H.
    + intros m b t' b' t'' H H'. apply Hin in H; [|discriminate]. apply Hin in H'; [|discriminate]. apply (g_one _ _ G m b t' b' t''); auto.
    + intros m ok H. apply Hin in H; [|discriminate]. apply (g_dones _ _ G) in H. exact H.
    + cbn. discriminate.
    + rewrite Hmid, map_app. cbn [map]. pose proof (g_ids _ _ G) as K. unfold fly in K, Hfresh. rewrite map_app in K, Hfresh.
      apply NoDup_Add with (a := q_id q) (l := map q_id (b_pend s) ++ map q_id (map fst (b_ready s))); [apply Add_app|]. auto.
    + cbn [b_wire s']. intros x H. rewrite Hfl in H. unfold s' in H. cbn in H. rewrite in_app_iff in H. cbn in H.
      cbn. assert (H' : x = q \/ In x (fly s) \/ In x (b_wire s)) by (intuition). destruct H' as [->|H']; [cbn; lia|].
      apply (g_lt _ _ G) in H'. lia.
    + cbn. intros r H. apply (g_slt _ _ G) in H. lia.
    + cbn. intros r b t' H. apply in_app_or in H. destruct H as [H|[H|[]]]; [apply (g_llt _ _ G) in H; lia|]. injection H as <- _ _. lia.
    + cbn. intros r H. apply Hin in H; [|discriminate]. apply (g_vlt _ _ G) in H. lia.
    + rewrite Hmid. unfold fly_calls. rewrite flat_map_app. cbn [flat_map]. cbn [q_kind q].
      pose proof (g_fc _ _ G) as K. unfold fly, fly_calls in K. rewrite flat_map_app in K.
      destruct k as [m|m|]; cbn [k_call app]; auto;
      (apply NoDup_Add with (a := m) (l := flat_map (fun q => k_call (q_kind q)) (b_pend s) ++ flat_map (fun q => k_call (q_kind q)) (map fst (b_ready s)));
       [apply Add_app|]; split; [exact K|]; destruct (Hk m (or_introl eq_refl)) as (_ & _ & K2);
       unfold fly, fly_calls in K2; rewrite flat_map_app in K2; exact K2).
    + intros x m H Hm. apply Hfl in H. rewrite Hin by discriminate.
      destruct H as [H| ->].
      * destruct (g_fly _ _ G x m H Hm) as [A B]. split; [exact A|]. intros ok K. apply Hin in K; [|discriminate]. exact (B ok K).
      * destruct (Hk m Hm) as (A & B & _). split; [exact A|]. intros ok K. apply Hin in K; [|discriminate]. exact (B ok K).
    + cbn [b_wire s']. intros x H. apply in_app_or in H. rewrite Hsu. destruct H as [H|[<-|[]]].
      * destruct (g_wire _ _ G x H) as [A B]. split; [apply in_or_app; left; exact A|]. rewrite Hin by discriminate. exact B.
      * split; [apply in_or_app; right; left; reflexivity|]. rewrite Hin by discriminate. intro K. apply (g_vlt _ _ G) in K. cbn in K. lia.
    + cbn [b_wire s']. rewrite map_app. cbn. apply NoDup_snoc; [apply G|]. intro K. apply in_map_iff in K. destruct K as (x & E & K).
      pose proof (g_lt _ _ G x (or_intror K)). cbn in E. lia.
    + intros r b t' _ H. rewrite Hsu in H. cbn [b_wire b_served s']. rewrite map_app, in_app_iff. apply in_app_or in H. destruct H as [H|[H|[]]].
      * assert (Hu : b_up s <> None) by congruence. destruct (g_sent _ _ G r b t' Hu H); auto.
      * injection H as <- _ _. left. right. left. reflexivity.
    + rewrite up_as_app; [rewrite (g_up _ _ G); exact Eu|]. intros e [<-|[]]. exact I.
    + cbn [b_served s']. intros r H. apply Hin; [discriminate|]. apply (g_svl _ _ G). exact H.
  - rewrite app_nil_r. set (s' := mkSub None (b_h s) (b_pend s) (b_ready s ++ [(q, false)]) (b_wire s) (b_served s) (S (b_next s)) (b_calls s) (b_srv s)).
    assert (Hfs : fly s' = fly s ++ [q]) by (unfold fly, s'; cbn; rewrite map_app, app_assoc; reflexivity).
    destruct (g_down _ _ G Eu) as (Hp & Hw & Hs).
    change (ginv s' log). constructor; try (unfold s'; cbn; apply G).
    + intros _. unfold s'. cbn. auto.
    + rewrite Hfs, map_app. apply NoDup_snoc; [apply G|exact Hfresh].
    + rewrite Hfs. unfold s'; cbn. intros x H. rewrite in_app_iff in H. cbn in H.
      assert (H' : x = q \/ In x (fly s) \/ In x (b_wire s)) by (intuition). destruct H' as [->|H']; [cbn; lia|].
      apply (g_lt _ _ G) in H'. lia.
    + cbn. intros r H. apply (g_slt _ _ G) in H. lia.
    + cbn. intros r b t' H. apply (g_llt _ _ G) in H. lia.
    + cbn. intros r H. apply (g_vlt _ _ G) in H. lia.
    + rewrite Hfs. unfold fly_calls. rewrite flat_map_app. cbn [flat_map]. rewrite app_nil_r. cbn [q_kind q].
      apply NoDup_app_iff. split; [apply G|]. split; [exact Hnd|]. intros x Hx Hx'. destruct (Hk x Hx') as (_ & _ & K). exact (K Hx).
    + intros x m H Hm. rewrite Hfs in H. apply in_app_or in H. destruct H as [H|[<-|[]]]; [apply (g_fly _ _ G); auto|].
      destruct (Hk m Hm) as (A & B & _). auto.
    + unfold s'. cbn. congruence.
    + unfold s'; cbn. rewrite (g_up _ _ G). exact Eu.
Qed.

(** fewer handlers, fewer requests waited for *)
Lemma ginv_shrink : forall s log s', ginv s log ->
  b_up s' = b_up s -> b_wire s' = b_wire s -> b_served s' = b_served s -> b_next s' = b_next s -> b_calls s' = b_calls s ->
  NoDup (map fst (b_h s')) -> NoDup (map snd (b_h s')) -> incl (b_h s') (b_h s) ->
  NoDup (map q_id (fly s')) -> NoDup (fly_calls (fly s')) -> incl (fly s') (fly s) ->
  (b_pend s = [] -> b_pend s' = []) ->
  ginv s' log.
Proof.
  intros s log s' G E1 E2 E3 E4 E5 N1 N2 I1 N3 N4 I2 Hp. constructor; auto; rewrite ?E1, ?E2, ?E3, ?E4, ?E5; try (apply G).
  - intros t m H. apply (g_hn _ _ G). apply I1; exact H.
  - intro Hu. destruct (g_down _ _ G Hu) as (H1 & H2 & H3). auto.
  - intros q [H|H]; apply (g_lt _ _ G); auto.
  - intros q m H Hm. apply (g_fly _ _ G); auto.
Qed.
(** more log that concerns no call in flight and no request *)
Definition plain_ev (s : subst) (e : subev) : Prop :=
  match e with VDone m _ => m < b_calls s /\ ~ In m (fly_calls (fly s)) | VHandled _ _ _ => True | _ => False end.
Lemma ginv_plain : forall s log e, ginv s log -> plain_ev s e -> ginv s (log ++ [e]).
Proof.
  intros s log e G Hp.
  assert (Hin : forall x, In x (log ++ [e]) <-> In x log \/ x = e) by (intro x; rewrite in_app_iff; cbn; intuition).
  assert (Hsu : since_up (log ++ [e]) = since_up log ++ [e]) by (apply since_up_app; intros c [H|[]]; subst e; exact Hp).
  constructor; try (apply G).
  - intros t m H. apply Hin. left. apply (g_hn _ _ G); auto.
  - intros m b t H. apply Hin in H. destruct H as [H|H]; [apply (g_calls _ _ G) in H; auto|subst e; destruct Hp].
  - intros m b t b' t' H H'. apply Hin in H. apply Hin in H'.
    destruct H as [H|H]; [|subst e; destruct Hp]. destruct H' as [H'|H']; [|subst e; destruct Hp]. apply (g_one _ _ G m b t b' t'); auto.
  - intros m ok H. apply Hin in H. destruct H as [H|H]; [apply (g_dones _ _ G) in H; auto|subst e; apply Hp].
  - intros r b t H. apply Hin in H. destruct H as [H|H]; [apply (g_llt _ _ G) in H; auto|subst e; destruct Hp].
  - intros r H. apply Hin in H. destruct H as [H|H]; [apply (g_vlt _ _ G) in H; auto|subst e; destruct Hp].
  - intros q m H Hm. destruct (g_fly _ _ G q m H Hm) as [A B]. split; [apply Hin; auto|]. intros ok K. apply Hin in K.
    destruct K as [K|K]; [exact (B ok K)|]. subst e. apply (proj2 Hp). unfold fly_calls. apply in_flat_map. eauto.
  - intros q H. destruct (g_wire _ _ G q H) as [A B]. rewrite Hsu. split; [apply in_or_app; auto|]. intro K. apply Hin in K.
    destruct K as [K|K]; [exact (B K)|]. subst e. destruct Hp.
  - intros r b t Hu H. rewrite Hsu in H. apply in_app_or in H. destruct H as [H|[H|[]]]; [apply (g_sent _ _ G r b t); auto|subst e; destruct Hp].
  - rewrite up_as_app; [apply G|]. intros x [<-|[]]. destruct e; auto.
  - intros r H. apply Hin. left. apply (g_svl _ _ G). exact H.
Qed.
(** a new call *)
Lemma ginv_call : forall s log b t, ginv s log -> ginv (next_call s) (log ++ [VCall (b_calls s) b t]).
Proof.
  intros s log b t G. set (e := VCall (b_calls s) b t).
  assert (Hin : forall x, In x (log ++ [e]) <-> In x log \/ x = e) by (intro x; rewrite in_app_iff; cbn; intuition).
  assert (Hsu : since_up (log ++ [e]) = since_up log ++ [e]) by (apply since_up_app; intros c [H|[]]; discriminate).
  change (fly (next_call s)) with (fly s).
  constructor; try (cbn; apply G).
  - intros t' m H. apply Hin. left. apply (g_hn _ _ G); auto.
  - intros m b' t' H. apply Hin in H. cbn. destruct H as [H|H]; [apply (g_calls _ _ G) in H; lia|injection H as -> _ _; lia].
  - intros m b1 t1 b2 t2 H H'. apply Hin in H. apply Hin in H'. destruct H as [H|H], H' as [H'|H'].
    + apply (g_one _ _ G m b1 t1 b2 t2); auto.
    + injection H' as -> _ _. apply (g_calls _ _ G) in H. lia.
    + injection H as -> _ _. apply (g_calls _ _ G) in H'. lia.
    + injection H as -> -> ->. injection H' as -> ->. auto.
  - intros m ok H. apply Hin in H. cbn. destruct H as [H|H]; [apply (g_dones _ _ G) in H; lia|discriminate].
  - intros r b' t' H. apply Hin in H. destruct H as [H|H]; [apply (g_llt _ _ G) in H; auto|discriminate].
  - intros r H. apply Hin in H. destruct H as [H|H]; [apply (g_vlt _ _ G) in H; auto|discriminate].
  - intros q m H Hm. destruct (g_fly _ _ G q m H Hm) as [A B]. split; [apply Hin; auto|]. intros ok K. apply Hin in K.
    destruct K as [K|K]; [exact (B ok K)|discriminate].
  - intros q H. destruct (g_wire _ _ G q H) as [A B]. rewrite Hsu. split; [apply in_or_app; auto|]. intro K. apply Hin in K.
    destruct K as [K|K]; [exact (B K)|discriminate].
  - intros r b' t' Hu H. rewrite Hsu in H. apply in_app_or in H. destruct H as [H|[H|[]]]; [apply (g_sent _ _ G r b' t'); auto|discriminate].
  - rewrite up_as_app; [apply G|]. intros x [<-|[]]. exact I.
  - intros r H. apply Hin. left. apply (g_svl _ _ G). exact H.
Qed.
Lemma fly_fresh : forall s log m, ginv s log -> In m (fly_calls (fly s)) -> m < b_calls s /\ forall ok, ~ In (VDone m ok) log.
Proof.
  intros s log m G H. unfold fly_calls in H. apply in_flat_map in H. destruct H as (q & H & Hm).
  destruct (g_fly _ _ G q m H Hm) as [A B]. split; [apply (g_calls _ _ G) in A; exact A|exact B].
Qed.
(** a handler is entered for the latest call *)
Lemma ginv_handler : forall s log t n, ginv s log -> aget beqb t (b_h s) = None -> In (VCall n true t) log ->
  (forall t', ~ In (t', n) (b_h s)) -> ginv (with_h (b_h s ++ [(t, n)]) s) log.
Proof.
  intros s log t n G Ha Hc Hn. constructor; try (cbn; apply G).
  - cbn. rewrite map_app. apply NoDup_snoc; [apply G|]. cbn. apply (aget_None_notin beqb beqb_eq) in Ha. exact Ha.
  - cbn. rewrite map_app. apply NoDup_snoc; [apply G|]. cbn. intro H. apply in_map_iff in H. destruct H as ((t', m) & E & H). cbn in E. subst m. exact (Hn t' H).
  - cbn. intros t' m H. apply in_app_or in H. destruct H as [H|[H|[]]]; [apply (g_hn _ _ G); auto|]. injection H as <- <-. exact Hc.
Qed.

Lemma filter_all : forall {A} (p : A -> bool) l, (forall x, In x l -> p x = true) -> filter p l = l.
Proof. intros A p l. induction l as [|x l IH]; cbn; intro H; [reflexivity|]. rewrite (H x (or_introl eq_refl)), IH; auto. Qed.
Lemma q_split : forall r l q, q_find r l = Some q -> NoDup (map q_id l) ->
  exists a b, l = a ++ q :: b /\ q_id q = r /\ q_del r l = a ++ b.
Proof.
  unfold q_find, q_del. induction l as [|x l IH]; intros q Hf Hn; [discriminate|]. cbn in *. inversion Hn; subst.
  destruct (Nat.eqb (q_id x) r) eqn:E.
  - injection Hf as ->. apply Nat.eqb_eq in E. exists [], l. cbn. split; [reflexivity|]. split; [exact E|].
    apply filter_all. intros y Hy. apply negb_true_iff. apply Nat.eqb_neq. intro K. apply H1. rewrite E, <- K. apply in_map. exact Hy.
  - destruct (IH q Hf H2) as (a & b & -> & E2 & E3). exists (x :: a), b. cbn. rewrite E3. auto.
Qed.
Lemma y_split : forall r (l : list (ureq * bool)) y, find (fun y => Nat.eqb (q_id (fst y)) r) l = Some y -> NoDup (map q_id (map fst l)) ->
  exists a b, l = a ++ y :: b /\ q_id (fst y) = r /\ filter (fun y => negb (Nat.eqb (q_id (fst y)) r)) l = a ++ b.
Proof.
  induction l as [|x l IH]; intros q Hf Hn; [discriminate|]. cbn in *. inversion Hn; subst.
  destruct (Nat.eqb (q_id (fst x)) r) eqn:E.
  - injection Hf as ->. apply Nat.eqb_eq in E. exists [], l. cbn. split; [reflexivity|]. split; [exact E|].
    apply filter_all. intros y Hy. apply negb_true_iff. apply Nat.eqb_neq. intro K. apply H1. rewrite E, <- K. apply in_map. apply in_map. exact Hy.
  - destruct (IH q Hf H2) as (a & b & -> & E2 & E3). exists (x :: a), b. cbn. rewrite E3. auto.
Qed.
Lemma g_pids : forall s log, ginv s log -> NoDup (map q_id (b_pend s)).
Proof. intros s log G. pose proof (g_ids _ _ G) as H. unfold fly in H. rewrite map_app in H. apply NoDup_app_iff in H. apply H. Qed.
Lemma g_rids : forall s log, ginv s log -> NoDup (map q_id (map fst (b_ready s))).
Proof. intros s log G. pose proof (g_ids _ _ G) as H. unfold fly in H. rewrite map_app in H. apply NoDup_app_iff in H. apply H. Qed.

Lemma ginv_perm : forall s log s', ginv s log ->
  b_up s' = b_up s -> b_wire s' = b_wire s -> b_served s' = b_served s -> b_next s' = b_next s -> b_calls s' = b_calls s ->
  b_h s' = b_h s -> Permutation (fly s) (fly s') -> (b_pend s = [] -> b_pend s' = []) -> ginv s' log.
Proof.
  intros s log s' G E1 E2 E3 E4 E5 E6 P Hp. apply (ginv_shrink s); auto; rewrite ?E6; try (apply G).
  - intros x H; exact H.
  - eapply Permutation_NoDup; [apply Permutation_map; exact P|apply G].
  - eapply Permutation_NoDup; [apply Permutation_flat_map; exact P|apply G].
  - intros x H. eapply Permutation_in; [apply Permutation_sym; exact P|exact H].
Qed.
(** a request gets its outcome *)
Definition settle1 (r : nat) (q : ureq) (ok : bool) (s : subst) : subst :=
  mkSub (b_up s) (b_h s) (q_del r (b_pend s)) (b_ready s ++ [(q, ok)]) (b_wire s) (b_served s) (b_next s) (b_calls s) (b_srv s).
Lemma settle_perm : forall s log r q ok, ginv s log -> q_find r (b_pend s) = Some q -> Permutation (fly s) (fly (settle1 r q ok s)).
Proof.
  intros s log r q ok G Hf. destruct (q_split r _ q Hf (g_pids _ _ G)) as (a & b & E1 & E2 & E3).
  unfold fly, settle1. cbn. rewrite E3, E1, map_app. cbn. rewrite <- app_assoc. cbn.
  etransitivity; [apply Permutation_sym, Permutation_middle|]. rewrite !app_assoc. apply Permutation_cons_append.
Qed.
Lemma ginv_settle : forall s log r q ok, ginv s log -> q_find r (b_pend s) = Some q -> ginv (settle1 r q ok s) log.
Proof.
  intros s log r q ok G Hf. apply (ginv_perm s); auto; [eapply settle_perm; eauto|]. intro E. rewrite E in Hf. discriminate.
Qed.
Lemma fly_calls_app : forall a b, fly_calls (a ++ b) = fly_calls a ++ fly_calls b.
Proof. intros. unfold fly_calls. apply flat_map_app. Qed.
Lemma adel_snd_nodup : forall t (h : list (bytes * nat)), NoDup (map snd h) -> NoDup (map snd (adel beqb t h)).
Proof.
  intros t h. induction h as [|[k v] h IH]; cbn; intro H; [exact H|]. inversion H; subst. destruct (beqb t k); auto. cbn. constructor; auto.
  intro K. apply H2. apply in_map_iff in K. destruct K as ((k', v') & E & K). cbn in E. subst v'. apply (adel_In beqb beqb_eq) in K.
  apply in_map_iff. exists (k', v). split; [reflexivity|apply K].
Qed.
(** the code after an await runs *)
Lemma ginv_run : forall s log r q ok, ginv s log -> find (fun y => Nat.eqb (q_id (fst y)) r) (b_ready s) = Some (q, ok) ->
  let s1 := with_ready (filter (fun y => negb (Nat.eqb (q_id (fst y)) r)) (b_ready s)) s in
  ginv (fst (run_cont q ok s1)) (log ++ snd (run_cont q ok s1)).
Proof.
  intros s log r q ok G Hf s1. destruct (y_split r _ _ Hf (g_rids _ _ G)) as (a & b & E1 & E2 & E3). cbn [fst] in E2.
  assert (Hfl : fly s = b_pend s ++ map fst a ++ q :: map fst b) by (unfold fly; rewrite E1, map_app; reflexivity).
  assert (Hf1 : fly s1 = b_pend s ++ map fst a ++ map fst b) by (unfold fly, s1; cbn; rewrite E3, map_app; reflexivity).
  assert (P : Permutation (fly s) (q :: fly s1)).
  { rewrite Hfl, Hf1, !app_assoc. apply Permutation_sym, Permutation_middle. }
  assert (Nid : NoDup (map q_id (q :: fly s1))) by (eapply Permutation_NoDup; [apply Permutation_map; exact P|apply G]).
  assert (Nfc : NoDup (fly_calls (q :: fly s1))) by (eapply Permutation_NoDup; [apply Permutation_flat_map; exact P|apply G]).
  assert (Inc : incl (fly s1) (fly s)) by (intros x Hx; eapply Permutation_in; [apply Permutation_sym; exact P|right; exact Hx]).
  assert (Hq : In q (fly s)) by (rewrite Hfl; apply in_or_app; right; apply in_or_app; right; left; reflexivity).
  assert (Nid1 : NoDup (map q_id (fly s1))) by (inversion Nid; auto).
  assert (Nfc1 : NoDup (fly_calls (fly s1)) /\ forall m, In m (k_call (q_kind q)) -> ~ In m (fly_calls (fly s1))).
  { change (q :: fly s1) with ([q] ++ fly s1) in Nfc. rewrite fly_calls_app in Nfc. apply NoDup_app_iff in Nfc. destruct Nfc as (_ & N & D).
    split; [exact N|]. intros m Hm. apply D. unfold fly_calls. cbn. rewrite app_nil_r. exact Hm. }
  destruct Nfc1 as [Nfc1 Dm].
  assert (G1 : ginv s1 log).
  { apply (ginv_shrink s); auto; try (apply G). intros x H; exact H. }
  assert (G2 : ginv (with_h (h_del (q_topic q) (b_h s1)) s1) log).
  { apply (ginv_shrink s1); auto; cbn.
    - apply (NoDup_adel beqb beqb_eq). apply G.
    - apply adel_snd_nodup. apply G.
    - intros [k v] H. apply (adel_In beqb beqb_eq) in H. apply H.
    - intros x H; exact H. }
  assert (Hd : forall s2 m, ginv s2 log -> fly s2 = fly s1 -> b_calls s2 = b_calls s -> In m (k_call (q_kind q)) -> ginv s2 (log ++ [VDone m ok])).
  { intros s2 m G3 Ef Ec Hm. apply ginv_plain; [exact G3|]. cbn. rewrite Ef, Ec. split; [|apply Dm; exact Hm].
    eapply (fly_fresh s log m G). unfold fly_calls. apply in_flat_map. eauto. }
  unfold run_cont. destruct (q_kind q) as [m|m|] eqn:Ek; destruct ok; cbn [fst snd];
    try (apply Hd; auto; left; reflexivity); rewrite app_nil_r; exact G1.
Qed.
Lemma ginv_other : forall s log o, ginv s log ->
  ginv (mkSub (b_up s) (b_h s) (b_pend s) (b_ready s) (b_wire s) (b_served s) (b_next s) (b_calls s) (b_srv s ++ [o])) log.
Proof. intros s log o G. apply (ginv_perm s); auto. Qed.
Lemma ginv_lost : forall s log, ginv s log ->
  ginv (mkSub None (b_h s) [] (b_ready s ++ map (fun q => (q, false)) (b_pend s)) [] [] (b_next s) (b_calls s) (b_srv s)) (log ++ [VLost]).
Proof.
  intros s log G. set (s' := mkSub _ _ _ _ _ _ _ _ _).
  assert (Hf : fly s' = map fst (b_ready s) ++ b_pend s).
  { unfold fly, s'. cbn. rewrite map_app, map_map. cbn. rewrite map_id. reflexivity. }
  assert (P : Permutation (fly s) (fly s')) by (rewrite Hf; unfold fly; apply Permutation_app_comm).
  assert (Hin : forall x, In x (log ++ [VLost]) <-> In x log \/ x = VLost) by (intro x; rewrite in_app_iff; cbn; intuition).
  constructor; try (unfold s'; cbn; apply G); try (unfold s'; cbn; apply NoDup_nil).
  - intros t m H. apply Hin. left. apply (g_hn _ _ G); auto.
  - intros m b t H. apply Hin in H. destruct H as [H|H]; [apply (g_calls _ _ G) in H; auto|discriminate].
  - intros m b t b' t' H H'. apply Hin in H. apply Hin in H'.
    destruct H as [H|H]; [|discriminate]. destruct H' as [H'|H']; [|discriminate]. apply (g_one _ _ G m b t b' t'); auto.
  - intros m ok H. apply Hin in H. destruct H as [H|H]; [apply (g_dones _ _ G) in H; auto|discriminate].
  - intros _. repeat split; reflexivity.
  - eapply Permutation_NoDup; [apply Permutation_map; exact P|apply G].
  - intros q [H|[]]. apply (g_lt _ _ G). left. eapply Permutation_in; [apply Permutation_sym; exact P|exact H].
  - intros r [].
  - intros r b t H. apply Hin in H. destruct H as [H|H]; [apply (g_llt _ _ G) in H; auto|discriminate].
  - intros r H. apply Hin in H. destruct H as [H|H]; [apply (g_vlt _ _ G) in H; auto|discriminate].
  - eapply Permutation_NoDup; [apply Permutation_flat_map; exact P|apply G].
  - intros q m H Hm. assert (H' : In q (fly s)) by (eapply Permutation_in; [apply Permutation_sym; exact P|exact H]).
    destruct (g_fly _ _ G q m H' Hm) as [A B]. split; [apply Hin; auto|]. intros ok K. apply Hin in K. destruct K as [K|K]; [exact (B ok K)|discriminate].
  - intros q [].
  - intros r b t H. exfalso. apply H. reflexivity.
  - unfold up_as. rewrite fold_left_app. reflexivity.
  - intros r [].
Qed.
Lemma ginv_serve : forall s log c r q o, ginv s log -> b_up s = Some c -> q_find r (b_wire s) = Some q ->
  ginv (mkSub (b_up s) (b_h s) (b_pend s) (b_ready s) (q_del r (b_wire s)) (r :: b_served s) (b_next s) (b_calls s) (b_srv s ++ [o])) (log ++ [VServed r]).
Proof.
  intros s log c r q o G Eu Hf. destruct (q_split r _ q Hf (g_wid _ _ G)) as (a & b & E1 & E2 & E3).
  set (s' := mkSub _ _ _ _ _ _ _ _ _).
  assert (Hq : In q (b_wire s)) by (rewrite E1; apply in_or_app; right; left; reflexivity).
  assert (Hr : r < b_next s) by (rewrite <- E2; apply (g_lt _ _ G); auto).
  assert (Hin : forall x, In x (log ++ [VServed r]) <-> In x log \/ x = VServed r) by (intro x; rewrite in_app_iff; cbn; intuition).
  assert (Hsu : since_up (log ++ [VServed r]) = since_up log ++ [VServed r]) by (apply since_up_app; intros c' [H|[]]; discriminate).
  assert (Hw : forall x, In x (q_del r (b_wire s)) -> In x (b_wire s) /\ q_id x <> r).
  { intros x H. unfold q_del in H. apply filter_In in H. destruct H as [H K]. split; [exact H|]. apply negb_true_iff in K. apply Nat.eqb_neq in K. exact K. }
  constructor; try (unfold s'; cbn; apply G).
  - intros t m H. apply Hin. left. apply (g_hn _ _ G); auto.
  - intros m b' t H. apply Hin in H. destruct H as [H|H]; [apply (g_calls _ _ G) in H; auto|discriminate].
  - intros m b1 t1 b2 t2 H H'. apply Hin in H. apply Hin in H'.
    destruct H as [H|H]; [|discriminate]. destruct H' as [H'|H']; [|discriminate]. apply (g_one _ _ G m b1 t1 b2 t2); auto.
  - intros m ok H. apply Hin in H. destruct H as [H|H]; [apply (g_dones _ _ G) in H; auto|discriminate].
  - unfold s'. cbn. congruence.
  - intros x [H|H]; apply (g_lt _ _ G); auto. right. unfold s' in H. cbn in H. apply Hw in H. apply H.
  - unfold s'. cbn. intros x [<-|H]; [exact Hr|apply (g_slt _ _ G); exact H].
  - intros x b' t H. apply Hin in H. destruct H as [H|H]; [apply (g_llt _ _ G) in H; auto|discriminate].
  - unfold s'. cbn. intros x H. apply Hin in H. destruct H as [H|H]; [apply (g_vlt _ _ G) in H; auto|]. injection H as ->. exact Hr.
  - intros x m H Hm. destruct (g_fly _ _ G x m H Hm) as [A B]. split; [apply Hin; auto|]. intros ok K. apply Hin in K. destruct K as [K|K]; [exact (B ok K)|discriminate].
  - unfold s'. cbn. intros x H. apply Hw in H. destruct H as [H Hne]. destruct (g_wire _ _ G x H) as [A B].
    rewrite Hsu. split; [apply in_or_app; left; exact A|]. intro K. apply Hin in K. destruct K as [K|K]; [exact (B K)|]. injection K as K. exact (Hne K).
  - unfold s'. cbn. apply nodup_map_filter. apply G.
  - unfold s'. cbn. intros x b' t Hu H. rewrite Hsu in H. apply in_app_or in H. destruct H as [H|[H|[]]]; [|discriminate].
    destruct (Nat.eq_dec x r) as [->|Hne]; [right; left; reflexivity|].
    destruct (g_sent _ _ G x b' t Hu H) as [K|K]; [left|right; right; exact K].
    apply in_map_iff in K. destruct K as (y & <- & K). apply in_map. unfold q_del. apply filter_In. split; [exact K|].
    apply negb_true_iff. apply Nat.eqb_neq. exact Hne.
  - rewrite up_as_app; [apply G|]. intros x [<-|[]]. exact I.
  - unfold s'. cbn. intros x [<-|H]; apply Hin; [auto|left; apply (g_svl _ _ G); exact H].
Qed.
(** the connection comes back, before the restore *)
Lemma ginv_up : forall s log c v, ginv s log -> b_up s = None -> b_ready s = [] ->
  ginv (mkSub (Some c) (b_h s) [] [] [] [] (b_next s) (b_calls s) v) (log ++ [VUp c]).
Proof.
  intros s log c v G Eu Er. set (s' := mkSub _ _ _ _ _ _ _ _ _).
  assert (Hin : forall x, In x (log ++ [VUp c]) <-> In x log \/ x = VUp c) by (intro x; rewrite in_app_iff; cbn; intuition).
  constructor; try (unfold s'; cbn; apply G); try (unfold s'; cbn; apply NoDup_nil); rewrite ?since_up_up.
  - intros t m H. apply Hin. left. apply (g_hn _ _ G); auto.
  - intros m b t H. apply Hin in H. destruct H as [H|H]; [apply (g_calls _ _ G) in H; auto|discriminate].
  - intros m b t b' t' H H'. apply Hin in H. apply Hin in H'.
    destruct H as [H|H]; [|discriminate]. destruct H' as [H'|H']; [|discriminate]. apply (g_one _ _ G m b t b' t'); auto.
  - intros m ok H. apply Hin in H. destruct H as [H|H]; [apply (g_dones _ _ G) in H; auto|discriminate].
  - discriminate.
  - intros q [[]|[]].
  - intros r [].
  - intros r b t H. apply Hin in H. destruct H as [H|H]; [apply (g_llt _ _ G) in H; auto|discriminate].
  - intros r H. apply Hin in H. destruct H as [H|H]; [apply (g_vlt _ _ G) in H; auto|discriminate].
  - intros q m [].
  - intros q [].
  - intros r b t _ [].
  - unfold up_as. rewrite fold_left_app. reflexivity.
  - intros r [].
Qed.
Lemma ginv_restore : forall ks s l0 log, ginv s (log ++ l0) ->
  ginv (fst (fold_left restore1 ks (s, l0))) (log ++ snd (fold_left restore1 ks (s, l0))).
Proof.
  induction ks as [|k ks IH]; intros s l0 log G; [exact G|]. cbn [fold_left].
  replace (restore1 (s, l0) k) with (fst (send1 KRestore k s), l0 ++ snd (send1 KRestore k s)).
  - apply IH. rewrite app_assoc. apply ginv_send; [exact G|]. intros m [].
  - unfold restore1. cbn [fst snd]. destruct (send1 KRestore k s); reflexivity.
Qed.
Lemma aget_calls : forall s log, ginv s log -> forall t', ~ In (t', b_calls s) (b_h s).
Proof. intros s log G t' H. apply (g_hn _ _ G) in H. apply (g_calls _ _ G) in H. lia. Qed.
Lemma ginv_step : forall s log o, ginv s log -> ginv (fst (sstep s o)) (log ++ snd (sstep s o)).
Proof.
  intros s log o G.
  assert (Hstay : ginv (fst (s, @nil subev)) (log ++ snd (s, @nil subev))) by (cbn; rewrite app_nil_r; exact G).
  assert (Hdone : forall b t ok, ginv (next_call s) (log ++ [VCall (b_calls s) b t; VDone (b_calls s) ok])).
  { intros b t ok. change [VCall (b_calls s) b t; VDone (b_calls s) ok] with ([VCall (b_calls s) b t] ++ [VDone (b_calls s) ok]).
    rewrite app_assoc. apply ginv_plain; [apply ginv_call; exact G|]. cbn. split; [lia|]. change (fly (next_call s)) with (fly s).
    intro H. apply (fly_fresh s log _ G) in H. lia. }
  assert (Hk : forall b t m, m = b_calls s -> In (VCall m b t) (log ++ [VCall (b_calls s) b t]) /\
    (forall ok, ~ In (VDone m ok) (log ++ [VCall (b_calls s) b t])) /\ ~ In m (fly_calls (fly s))).
  { intros b t m ->. split; [apply in_or_app; right; left; reflexivity|]. split.
    - intros ok H. apply in_app_or in H. destruct H as [H|[H|[]]]; [apply (g_dones _ _ G) in H; lia|discriminate].
    - intro H. apply (fly_fresh s log _ G) in H. lia. }
  destruct o as [t|t|r now|r|r|r| |c|t d|o]; cbn [sstep].
  - unfold do_sub. destruct (aget beqb t (b_h s)) eqn:Ea; [cbn [fst snd]; apply Hdone|].
    match goal with |- context [send1 ?k ?t ?x] => pose proof (ginv_send x (log ++ [VCall (b_calls s) true t]) k t) as H;
      destruct (send1 k t x) as [s' l] end. cbn [fst snd] in *.
    change (VCall (b_calls s) true t :: l) with ([VCall (b_calls s) true t] ++ l). rewrite app_assoc. apply H.
    + change (b_h s) with (b_h (next_call s)). apply ginv_handler; [apply ginv_call; exact G|exact Ea|apply in_or_app; right; left; reflexivity|].
      exact (aget_calls s log G).
    + intros m [<-|[]]. apply (Hk true t). reflexivity.
  - unfold do_unsub. destruct (aget beqb t (b_h s)) eqn:Ea; [|cbn [fst snd]; apply Hdone].
    match goal with |- context [send1 ?k ?t ?x] => pose proof (ginv_send x (log ++ [VCall (b_calls s) false t]) k t) as H;
      destruct (send1 k t x) as [s' l] end. cbn [fst snd] in *.
    change (VCall (b_calls s) false t :: l) with ([VCall (b_calls s) false t] ++ l). rewrite app_assoc. apply H.
    + apply ginv_call; exact G.
    + intros m [<-|[]]. apply (Hk false t). reflexivity.
  - destruct (b_up s) as [c|] eqn:Eu; [|exact Hstay]. destruct (q_find r (b_wire s)) as [q|] eqn:Ef; [|exact Hstay].
    cbn [fst snd]. rewrite <- Eu. eapply ginv_serve; eauto.
  - destruct (q_find r (b_pend s)) as [q|] eqn:Ef; [|exact Hstay]. destruct (existsb (Nat.eqb r) (b_served s)); [|exact Hstay].
    cbn [fst snd]. rewrite app_nil_r. apply (ginv_settle s log r q true G Ef).
  - destruct (q_find r (b_pend s)) as [q|] eqn:Ef; [|exact Hstay].
    cbn [fst snd]. rewrite app_nil_r. apply (ginv_settle s log r q false G Ef).
  - destruct (find (fun y => Nat.eqb (q_id (fst y)) r) (b_ready s)) as [[q ok]|] eqn:Ef; [|exact Hstay]. apply ginv_run; auto.
  - destruct (b_up s); [|exact Hstay]. cbn [fst snd]. apply ginv_lost. exact G.
  - destruct (b_up s) eqn:Eu; [exact Hstay|]. destruct (b_ready s) eqn:Er; [|exact Hstay].
    unfold restore. match goal with |- context [fold_left restore1 ?ks (?x, [])] =>
      pose proof (ginv_restore ks x [] (log ++ [VUp c])) as H; destruct (fold_left restore1 ks (x, [])) as [s' l] end. cbn [fst snd] in *.
    change (VUp c :: l) with ([VUp c] ++ l). rewrite app_assoc. apply H. rewrite app_nil_r. apply (ginv_up s); auto.
  - destruct (b_up s); [|exact Hstay]. cbn [fst snd]. apply ginv_plain; [exact G|exact I].
  - destruct (foreign (b_up s) o); [|exact Hstay]. cbn [fst snd]. rewrite app_nil_r. apply ginv_other. exact G.
Qed.
Lemma srun_snoc : forall xs o, srun (xs ++ [o]) = (fst (sstep (sst xs) o), slog xs ++ snd (sstep (sst xs) o)).
Proof.
  intros xs o. unfold sst, slog, srun. rewrite fold_left_app. cbn [fold_left].
  generalize (fold_left sexec xs (sub0, [])). intros [s l]. unfold sexec. cbn [fst snd]. destruct (sstep s o); reflexivity.
Qed.
Lemma sst_snoc : forall xs o, sst (xs ++ [o]) = fst (sstep (sst xs) o).
Proof. intros. unfold sst at 1. rewrite srun_snoc. reflexivity. Qed.
Lemma slog_snoc : forall xs o, slog (xs ++ [o]) = slog xs ++ snd (sstep (sst xs) o).
Proof. intros. unfold slog at 1. rewrite srun_snoc. reflexivity. Qed.
Lemma ginv_all : forall xs, ginv (sst xs) (slog xs).
Proof.
  induction xs as [|o xs IH] using rev_ind; [exact ginv0|]. rewrite sst_snoc, slog_snoc. apply ginv_step. exact IH.
Qed.
Lemma g_disj : forall s log, ginv s log -> forall q, In q (b_wire s) -> ~ In (q_id q) (b_served s).
Proof. intros s log G q Hq H. apply (g_svl _ _ G) in H. destruct (g_wire _ _ G q Hq) as [_ B]. exact (B H). Qed.
