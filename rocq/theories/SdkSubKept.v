(** A subscription that was confirmed stays, and comes back after every loss; an
    unsubscription that was confirmed stays. *)
From Coq Require Import Permutation.
From Verif Require Import LibBase LibMap PubSubModel PubSubSpec PubSubProofs SdkDispatch SdkSubModel SdkSubSpec SdkSubProofs.
Local Open Scope nat_scope.

(** ** effect of the pieces *)
Lemma send_up : forall k t s c, b_up s = Some c ->
  let q := mkUreq (b_next s) k t in
  send1 k t s = (mkSub (Some c) (b_h s) (b_pend s ++ [q]) (b_ready s) (b_wire s ++ [q]) (b_served s) (S (b_next s)) (b_calls s) (b_srv s),
                 [VSent (b_next s) (negb (is_unsub k)) t]).
Proof. intros. unfold send1. rewrite H. reflexivity. Qed.
Lemma send_down : forall k t s, b_up s = None ->
  send1 k t s = (mkSub None (b_h s) (b_pend s) (b_ready s ++ [(mkUreq (b_next s) k t, false)]) (b_wire s) (b_served s) (S (b_next s)) (b_calls s) (b_srv s), []).
Proof. intros. unfold send1. rewrite H. reflexivity. Qed.
Lemma restore_facts : forall ks s l0 c, b_up s = Some c ->
  let s' := fst (fold_left restore1 ks (s, l0)) in let l' := snd (fold_left restore1 ks (s, l0)) in
  b_up s' = Some c /\ b_h s' = b_h s /\ b_srv s' = b_srv s /\ b_served s' = b_served s /\ b_ready s' = b_ready s /\ b_calls s' = b_calls s /\
  exists add, b_wire s' = b_wire s ++ add /\ b_pend s' = b_pend s ++ add /\ map q_topic add = ks /\ (forall q, In q add -> q_kind q = KRestore) /\
    l' = l0 ++ map (fun q => VSent (q_id q) true (q_topic q)) add.
Proof.
  induction ks as [|k ks IH]; intros s l0 c Hu; cbn [fold_left].
  - cbn. repeat split; auto. exists []. rewrite !app_nil_r. repeat split; auto. intros q [].
  - assert (E : restore1 (s, l0) k = (fst (send1 KRestore k s), l0 ++ snd (send1 KRestore k s))).
    { unfold restore1. cbn [fst snd]. destruct (send1 KRestore k s); reflexivity. }
    rewrite E, (send_up KRestore k s c Hu). cbn [fst snd].
    match goal with |- context [fold_left restore1 ks (?a, ?b)] => specialize (IH a b c eq_refl) end.
    cbv zeta in IH. destruct IH as (H1 & H2 & H3 & H4 & H5 & H6 & add & H7 & H8 & H9 & H10 & H11).
    cbv zeta. rewrite H1, H2, H3, H4, H5, H6, H7, H8, H11. cbn. repeat split; auto.
    exists (mkUreq (b_next s) KRestore k :: add). cbn. rewrite <- !app_assoc, H9. repeat split; auto.
    intros q [<-|H]; [reflexivity|auto].
Qed.
Lemma restore_keys_in : forall h t, In t (restore_keys h) <-> In t (map fst h).
Proof.
  intros h t. unfold restore_keys. rewrite in_app_iff, !filter_In. destruct (sdk_wild t); cbn; intuition discriminate.
Qed.
Lemma up_facts : forall s c, b_up s = None -> b_ready s = [] ->
  let s' := fst (sstep s (XUp c)) in let l := snd (sstep s (XUp c)) in
  b_up s' = Some c /\ b_h s' = b_h s /\ b_srv s' = b_srv s ++ [PConnect c] /\ b_served s' = [] /\ b_ready s' = [] /\ b_calls s' = b_calls s /\
  b_wire s' = b_pend s' /\ (forall q, In q (b_wire s') -> q_kind q = KRestore /\ In (q_topic q) (map fst (b_h s))) /\
  exists l', l = VUp c :: l' /\ no_up l' /\ (forall m ok, ~ In (VDone m ok) l') /\
    forall t, In t (map fst (b_h s)) -> exists q, In q (b_wire s') /\ q_topic q = t /\ In (VSent (q_id q) true t) l'.
Proof.
  intros s c Hu Hr s' l. unfold s', l. cbn [sstep]. rewrite Hu, Hr. unfold restore.
  match goal with |- context [fold_left restore1 ?ks (?x, [])] => pose proof (restore_facts ks x [] c eq_refl) as H;
    destruct (fold_left restore1 ks (x, [])) as [s1 l1] end. cbn in H. cbn [fst snd].
  destruct H as (H1 & H2 & H3 & H4 & H5 & H6 & add & H7 & H8 & H9 & H10 & H11).
  rewrite H1, H2, H3, H4, H5, H6, H7, H8. repeat split; auto.
  - apply restore_keys_in. unfold restore_keys. rewrite <- H9. apply in_map. exact H.
  - exists l1. split; [reflexivity|]. rewrite H11. split; [|split].
    + intros c' H. apply in_map_iff in H. destruct H as (q & E & _). discriminate.
    + intros m ok H. apply in_map_iff in H. destruct H as (q & E & _). discriminate.
    + intros t Ht. apply restore_keys_in in Ht. unfold restore_keys in Ht. rewrite <- H9 in Ht. apply in_map_iff in Ht. destruct Ht as (q & <- & Hq).
      exists q. split; [exact Hq|]. split; [reflexivity|]. apply in_map_iff. exists q. auto.
Qed.
Lemma in_fly_settle : forall s log r q ok x, ginv s log -> q_find r (b_pend s) = Some q -> In x (fly (settle1 r q ok s)) <-> In x (fly s).
Proof.
  intros s log r q ok x G Hf. pose proof (settle_perm s log r q ok G Hf) as P.
  split; apply Permutation_in; [apply Permutation_sym|]; exact P.
Qed.
Lemma find_ready : forall r l (y : ureq * bool), find (fun y => Nat.eqb (q_id (fst y)) r) l = Some y -> In y l.
Proof. intros r l y H. apply find_some in H. apply H. Qed.
Lemma find_pend : forall r l q, q_find r l = Some q -> In q l /\ q_id q = r.
Proof. intros r l q H. apply find_some in H. destruct H as [H K]. apply Nat.eqb_eq in K. auto. Qed.

Lemma NoDup_map_inv' : forall {A B} (f : A -> B) l x y, NoDup (map f l) -> In x l -> In y l -> f x = f y -> x = y.
Proof.
  intros A B f l. induction l as [|z l IH]; intros x y H Hx Hy E; [destruct Hx|]. cbn in H. inversion H; subst.
  destruct Hx as [->|Hx], Hy as [->|Hy]; auto.
  - exfalso. apply H2. rewrite E. apply in_map. exact Hy.
  - exfalso. apply H2. rewrite <- E. apply in_map. exact Hx.
Qed.
Section Kept.
  Variables (n : nat) (t : bytes).

  Definition broker_ok (c : N) (s : subst) (log : list subev) : Prop :=
    exists r, In (VSent r true t) (since_up log) /\
      ((exists q, In q (b_wire s) /\ q_id q = r /\ is_unsub (q_kind q) = false /\ q_topic q = t) \/
       (In r (b_served s) /\ (connected c (b_srv s) -> holds c (reads t) (b_srv s)))).
  Definition harmless (q : ureq) : Prop :=
    match q_kind q with KUnsub _ => reads (q_topic q) <> reads t | KSub m => q_topic q = t -> m = n | KRestore => True end.
  Record kept (s : subst) (log : list subev) : Prop := mkKept {
    k_h : aget beqb t (b_h s) = Some n;
    k_fly : forall q, In q (fly s) -> harmless q;
    k_wire : forall q, In q (b_wire s) -> is_unsub (q_kind q) = true -> reads (q_topic q) <> reads t;
    k_srv : forall c, b_up s = Some c -> broker_ok c s log
  }.
  Definition phase (s : subst) (log : list subev) : Prop :=
    n < b_calls s /\
    ((In (VDone n false) log /\ ~ In (VDone n true) log) \/
     (kept s log /\ In (VDone n true) log) \/
     (kept s log /\ ~ In (VDone n true) log /\ exists q, In q (fly s) /\ q_kind q = KSub n /\ q_topic q = t)).

  Lemma broker_more : forall c s log s' l, broker_ok c s log -> no_up l ->
    incl (b_wire s) (b_wire s') -> b_served s' = b_served s -> b_srv s' = b_srv s -> broker_ok c s' (log ++ l).
  Proof.
    intros c s log s' l (r & H1 & H2) Hl E1 E2 E3. exists r. rewrite since_up_app by exact Hl. rewrite E2, E3.
    split; [apply in_or_app; left; exact H1|]. destruct H2 as [(q & Hq & H2)|H2]; [left; exists q; split; [apply E1; exact Hq|exact H2]|right; exact H2].
  Qed.
  Lemma kept_more : forall s log s' l, kept s log -> no_up l -> aget beqb t (b_h s') = Some n ->
    (forall q, In q (fly s') -> In q (fly s) \/ harmless q) ->
    (forall q, In q (b_wire s') -> In q (b_wire s) \/ (is_unsub (q_kind q) = true -> reads (q_topic q) <> reads t)) ->
    (forall c, b_up s' = Some c -> b_up s = Some c) ->
    incl (b_wire s) (b_wire s') -> b_served s' = b_served s -> b_srv s' = b_srv s -> kept s' (log ++ l).
  Proof.
    intros s log s' l K Hl Hh Hf Hw Hu E1 E2 E3. constructor; auto.
    - intros q Hq. destruct (Hf q Hq) as [H|H]; [apply (k_fly _ _ K); exact H|exact H].
    - intros q Hq Hk. destruct (Hw q Hq) as [H|H]; [apply (k_wire _ _ K); auto|auto].
    - intros c Hc. apply (broker_more c s); auto. apply (k_srv _ _ K). auto.
  Qed.
  Lemma kept_lost : forall s log s', kept s log -> b_up s' = None -> b_h s' = b_h s -> (forall q, In q (fly s') -> In q (fly s)) -> b_wire s' = [] ->
    kept s' (log ++ [VLost]).
  Proof.
    intros s log s' K E1 E2 E3 E4. constructor.
    - rewrite E2. apply K.
    - intros q Hq. apply (k_fly _ _ K). auto.
    - rewrite E4. intros q [].
    - intros c Hc. congruence.
  Qed.
  (** the phase is kept by a step that neither settles nor removes anything *)
  Lemma phase_more : forall s log s' l, phase s log -> b_calls s <= b_calls s' ->
    (forall m ok, In (VDone m ok) l -> m <> n) -> (kept s log -> kept s' (log ++ l)) ->
    (forall q, In q (fly s) -> In q (fly s')) -> phase s' (log ++ l).
  Proof.
    intros s log s' l [Hn P] Hc Hd Hk Hf. split; [lia|].
    assert (D : forall ok, In (VDone n ok) (log ++ l) -> In (VDone n ok) log).
    { intros ok H. apply in_app_or in H. destruct H as [H|H]; [exact H|]. apply Hd in H. congruence. }
    destruct P as [[P1 P2]|[[P1 P2]|(P1 & P2 & q & P3 & P4)]].
    - left. split; [apply in_or_app; left; exact P1|]. intro H. apply P2. auto.
    - right. left. split; [auto|apply in_or_app; left; exact P2].
    - right. right. split; [auto|]. split; [intro H; apply P2; auto|]. exists q. auto.
  Qed.
  Lemma aget_snoc_other : forall (h : list (bytes * nat)) t' m, aget beqb t h = Some n -> aget beqb t (h ++ [(t', m)]) = Some n.
  Proof. intros h t' m H. rewrite (aget_app beqb), H. reflexivity. Qed.

  (** a request is sent for another call *)
  Lemma phase_send : forall s log k t' s0 l0, ginv s0 log -> phase s0 log ->
    (forall q, In q (fly s) <-> In q (fly s0)) -> b_up s = b_up s0 -> b_wire s = b_wire s0 -> b_served s = b_served s0 -> b_srv s = b_srv s0 ->
    b_calls s0 <= b_calls s -> no_up l0 -> (forall m ok, ~ In (VDone m ok) l0) ->
    (aget beqb t (b_h s0) = Some n -> aget beqb t (b_h s) = Some n) ->
    (kept s0 log -> harmless (mkUreq 0 k t') /\ (is_unsub k = true -> reads t' <> reads t)) ->
    phase (fst (send1 k t' s)) (log ++ l0 ++ snd (send1 k t' s)).
  Proof.
    intros s log k t' s0 l0 G P E1 E2 E3 E4 E5 E6 N0 D0 Hh Hk.
    destruct (b_up s) as [c|] eqn:Eu.
    - rewrite (send_up k t' s c Eu). cbn [fst snd]. set (q := mkUreq (b_next s) k t'). set (s' := mkSub _ _ _ _ _ _ _ _ _).
      assert (Hf : forall x, In x (fly s') <-> In x (fly s0) \/ x = q).
      { intros x. rewrite <- E1. unfold fly, s'. cbn. rewrite !in_app_iff. cbn. intuition. }
      apply (phase_more s0); auto.
      + intros m ok H. apply in_app_or in H. destruct H as [H|[H|[]]]; [destruct (D0 _ _ H)|discriminate].
      + intro K. destruct (Hk K) as [K1 K2]. apply (kept_more s0); auto; unfold s'; cbn.
        * intros c' H. apply in_app_or in H. destruct H as [H|[H|[]]]; [exact (N0 _ H)|discriminate].
        * apply Hh. apply K.
        * intros x Hx. apply Hf in Hx. destruct Hx as [Hx| ->]; [left; exact Hx|right; exact K1].
        * rewrite E3. intros x Hx. apply in_app_or in Hx. destruct Hx as [Hx|[<-|[]]]; [left; exact Hx|right; exact K2].
        * rewrite <- E2. auto.
        * rewrite E3. intros x Hx. apply in_or_app. auto.
      + intros x Hx. apply Hf. auto.
    - rewrite (send_down k t' s Eu). cbn [fst snd]. rewrite app_nil_r. set (q := mkUreq (b_next s) k t'). set (s' := mkSub _ _ _ _ _ _ _ _ _).
      assert (Hf : forall x, In x (fly s') <-> In x (fly s0) \/ x = q).
      { intros x. rewrite <- E1. unfold fly, s'. cbn. rewrite map_app, !in_app_iff. cbn. intuition. }
      apply (phase_more s0); auto.
      + intros m ok H. destruct (D0 _ _ H).
      + intro K. destruct (Hk K) as [K1 K2]. apply (kept_more s0); auto; unfold s'; cbn.
        * apply Hh. apply K.
        * intros x Hx. apply Hf in Hx. destruct Hx as [Hx| ->]; [left; exact Hx|right; exact K1].
        * rewrite E3. auto.
        * discriminate.
        * rewrite E3. intros x Hx; exact Hx.
      + intros x Hx. apply Hf. auto.
  Qed.

  Lemma broker_srv : forall c s log s' l o, broker_ok c s log -> no_up l -> b_served s' = b_served s -> b_wire s' = b_wire s -> b_srv s' = b_srv s ++ [o] ->
    foreign (Some c) o = true -> broker_ok c s' (log ++ l).
  Proof.
    intros c s log s' l o (r & H1 & H2) Hl E1 E2 E3 Ho. exists r. rewrite since_up_app by exact Hl. rewrite E1, E2, E3.
    split; [apply in_or_app; left; exact H1|]. destruct H2 as [H2|[H2 H3]]; [left; exact H2|right]. split; [exact H2|].
    rewrite connected_snoc, holds_snoc. destruct o as [c'|c'|c'|c' p now|c' p|p d rt ttl now|now]; cbn in *; auto.
    - apply negb_true_iff in Ho. apply N.eqb_neq in Ho. intros [->|H]; [congruence|auto].
    - intros [H4 H5]. auto.
    - intros [H4 H5]. auto.
    - apply negb_true_iff in Ho. apply N.eqb_neq in Ho. intro H. split; [auto|]. intros [-> _]. congruence.
  Qed.

  Lemma phase_step : forall s log o, ginv s log -> phase s log -> (forall t', o = XUnsub t' -> reads t' <> reads t) ->
    phase (fst (sstep s o)) (log ++ snd (sstep s o)).
  Proof.
    intros s log o G P Ho.
    assert (Hstay : phase (fst (s, @nil subev)) (log ++ snd (s, @nil subev))) by (cbn; rewrite app_nil_r; exact P).
    assert (Hn : n < b_calls s) by apply P.
    assert (Hdone : forall b t' ok, phase (next_call s) (log ++ [VCall (b_calls s) b t'; VDone (b_calls s) ok])).
    { intros b t' ok. apply (phase_more s); auto.
      - cbn; lia.
      - intros m ok' [H|[H|[]]]; [discriminate|]. injection H as <- _. lia.
      - intro K. apply (kept_more s); auto; cbn; try (apply K); auto.
        + intros c' [H|[H|[]]]; discriminate.
        + intros x Hx; exact Hx. }
    destruct o as [t'|t'|r now|r|r|r| |c|t' d|o]; cbn [sstep].
    - unfold do_sub. destruct (aget beqb t' (b_h s)) eqn:Ea; [cbn [fst snd]; apply Hdone|].
      match goal with |- context [send1 ?k ?t ?x] => pose proof (phase_send x log k t s [VCall (b_calls s) true t'] G P) as H;
        destruct (send1 k t x) as [s' l] end. cbn [fst snd] in *.
      apply H; auto.
      + intro x. tauto.
      + cbn. lia.
      + intros c' [K|[]]; discriminate.
      + intros m ok [K|[]]; discriminate.
      + intro K. cbn. apply aget_snoc_other. exact K.
      + intro K. split; [|discriminate]. cbn. intros ->. rewrite (k_h _ _ K) in Ea. discriminate.
    - unfold do_unsub. destruct (aget beqb t' (b_h s)) eqn:Ea; [|cbn [fst snd]; apply Hdone].
      match goal with |- context [send1 ?k ?t ?x] => pose proof (phase_send x log k t s [VCall (b_calls s) false t'] G P) as H;
        destruct (send1 k t x) as [s' l] end. cbn [fst snd] in *.
      apply H; auto.
      + intro x. tauto.
      + cbn. lia.
      + intros c' [K|[]]; discriminate.
      + intros m ok [K|[]]; discriminate.
      + intro K. split; [cbn; apply Ho; reflexivity|]. intros _. apply Ho. reflexivity.
    - destruct (b_up s) as [c|] eqn:Eu; [|exact Hstay]. destruct (q_find r (b_wire s)) as [q|] eqn:Ef; [|exact Hstay].
      cbn [fst snd]. destruct (find_pend _ _ _ Ef) as [Hq Hr]. apply (phase_more s); auto.
      + intros m ok [H|[]]; discriminate.
      + intro K. constructor; cbn; try (apply K).
        * intros x Hx. apply (k_wire _ _ K). unfold q_del in Hx. apply filter_In in Hx. apply Hx.
        * intros c' Hc. injection Hc as <-. destruct (k_srv _ _ K c Eu) as (r' & H1 & H2). exists r'.
          rewrite since_up_app by (intros c' [H|[]]; discriminate). split; [apply in_or_app; left; exact H1|]. cbn.
          destruct H2 as [(q' & H3 & H4 & H5 & H6)|[H2 H3]].
          -- destruct (Nat.eq_dec r' r) as [->|Hne].
             ++ right. split; [left; reflexivity|]. assert (q' = q).
                { destruct (q_split r _ q Ef (g_wid _ _ G)) as (a & b & E1 & E2 & E3).
                  apply (NoDup_map_inv' q_id (b_wire s)); [apply G|exact H3|exact Hq|congruence]. }
                subst q'. rewrite H5, H6. rewrite connected_snoc, holds_snoc. cbn. auto.
             ++ left. exists q'. repeat split; auto. unfold q_del. apply filter_In. split; [exact H3|]. apply negb_true_iff, Nat.eqb_neq. congruence.
          -- right. split; [right; exact H2|]. rewrite connected_snoc, holds_snoc.
             pose proof (k_wire _ _ K q Hq) as Hu. destruct (is_unsub (q_kind q)); cbn; auto.
             intro Hcn. split; [auto|]. intros [_ E]. apply Hu; auto.
    - destruct (q_find r (b_pend s)) as [q|] eqn:Ef; [|exact Hstay]. destruct (existsb (Nat.eqb r) (b_served s)); [|exact Hstay].
      cbn [fst snd]. change (phase (settle1 r q true s) (log ++ [])). apply (phase_more s); auto.
      + intro K. apply (kept_more s); auto; try (apply K); try (intros x Hx; exact Hx).
        * intros x Hx. left. apply (in_fly_settle s log r q true x G Ef). exact Hx.
      + intros x Hx. apply (in_fly_settle s log r q true x G Ef). exact Hx.
    - destruct (q_find r (b_pend s)) as [q|] eqn:Ef; [|exact Hstay].
      cbn [fst snd]. change (phase (settle1 r q false s) (log ++ [])). apply (phase_more s); auto.
      + intro K. apply (kept_more s); auto; try (apply K); try (intros x Hx; exact Hx).
        * intros x Hx. left. apply (in_fly_settle s log r q false x G Ef). exact Hx.
      + intros x Hx. apply (in_fly_settle s log r q false x G Ef). exact Hx.
    - destruct (find (fun y => Nat.eqb (q_id (fst y)) r) (b_ready s)) as [[q ok]|] eqn:Ef; [|exact Hstay].
      set (s1 := with_ready _ s).
      destruct (y_split r _ _ Ef (g_rids _ _ G)) as (a & b & E1 & E2 & E3). cbn [fst] in E2.
      assert (Hf : forall x, In x (fly s) <-> In x (fly s1) \/ x = q).
      { intros x. unfold fly, s1. cbn. rewrite E3, E1, !map_app, !in_app_iff. cbn. intuition. }
      assert (Hq : In q (fly s)) by (apply Hf; auto).
      assert (Kh : kept s log -> forall h l, no_up l -> aget beqb t h = Some n -> kept (with_h h s1) (log ++ l)).
      { intros K h l Hl Hh. apply (kept_more s); auto; cbn; auto.
        - intros x Hx. left. apply Hf. left. exact Hx.
        - intros x Hx; exact Hx. }
      assert (Kn : kept s log -> forall l, no_up l -> kept s1 (log ++ l)).
      { intros K l Hl. apply (kept_more s); auto; cbn; auto; try (apply K).
        - intros x Hx. left. apply Hf. left. exact Hx.
        - intros x Hx; exact Hx. }
      assert (Dnu : forall m ok, no_up [VDone m ok]) by (intros m ok' c' [H|[]]; discriminate).
      (* the phase after the continuation of another call *)
      assert (Hoth : forall s2 l, b_calls s2 = b_calls s -> fly s2 = fly s1 -> (forall m ok, In (VDone m ok) l -> m <> n) ->
         q_kind q <> KSub n -> (kept s log -> kept s2 (log ++ l)) -> phase s2 (log ++ l)).
      { intros s2 l Ec Efl Hd Hk2 K2. destruct P as [_ P]. split; [lia|].
        assert (D : forall ok, In (VDone n ok) (log ++ l) -> In (VDone n ok) log).
        { intros ok' H. apply in_app_or in H. destruct H as [H|H]; [exact H|]. apply Hd in H. congruence. }
        destruct P as [[P1 P2]|[[P1 P2]|(P1 & P2 & q' & P3 & P4 & P5)]].
        - left. split; [apply in_or_app; left; exact P1|]. intro H. apply P2. auto.
        - right. left. split; [auto|apply in_or_app; left; exact P2].
        - right. right. split; [auto|]. split; [intro H; apply P2; auto|]. exists q'. rewrite Efl. split; [|auto].
          apply Hf in P3. destruct P3 as [P3| ->]; [exact P3|congruence]. }
      unfold run_cont. destruct (q_kind q) as [m|m|] eqn:Ek.
      + destruct (Nat.eq_dec m n) as [->|Hmn].
        * (* the call itself *)
          assert (Hnd : forall ok, ~ In (VDone n ok) log) by (apply (g_fly _ _ G q n Hq); rewrite Ek; left; reflexivity).
          destruct P as [_ P]. destruct P as [[P1 _]|[[_ P1]|(P1 & P2 & q' & P3 & P4 & P5)]]; [destruct (Hnd _ P1)|destruct (Hnd _ P1)|].
          destruct ok; cbn [fst snd].
          -- split; [exact Hn|]. right. left. split; [apply Kn; auto|apply in_or_app; right; left; reflexivity].
          -- split; [exact Hn|]. left. split; [apply in_or_app; right; left; reflexivity|]. intro H. apply in_app_or in H.
             destruct H as [H|[H|[]]]; [exact (P2 H)|discriminate].
        * assert (Hd : forall m' ok', In (VDone m' ok') [VDone m ok] -> m' <> n) by (intros m' ok' [H|[]]; injection H as <- _; exact Hmn).
          destruct ok; cbn [fst snd]; apply Hoth; auto; try congruence.
          intro K. apply Kh; auto. cbn. rewrite (aget_adel_other beqb beqb_eq); [apply K|]. pose proof (k_fly _ _ K q Hq) as Hh.
          unfold harmless in Hh. rewrite Ek in Hh. intro E. apply Hmn, Hh. symmetry. exact E.
      + assert (Hmn : In (VDone n true) log \/ In (VDone n false) log \/ m <> n).
        { destruct (Nat.eq_dec m n) as [->|]; [|auto]. exfalso.
          assert (Hm : In n (k_call (q_kind q))) by (rewrite Ek; left; reflexivity).
          destruct (g_fly _ _ G q n Hq Hm) as [A B].
          destruct P as [_ P]. destruct P as [[P1 _]|[[_ P1]|(P1 & P2 & q' & P3 & P4 & P5)]]; [destruct (B _ P1)|destruct (B _ P1)|].
          assert (Hm' : In n (k_call (q_kind q'))) by (rewrite P4; left; reflexivity).
          destruct (g_fly _ _ G q' n P3 Hm') as [A' _]. destruct (g_one _ _ G _ _ _ _ _ A A') as [E _]. rewrite Ek, P4 in E. discriminate. }
        assert (Hmn' : m <> n).
        { destruct Hmn as [H|[H|H]]; auto; intros ->; assert (Hm : In n (k_call (q_kind q))) by (rewrite Ek; left; reflexivity);
          destruct (g_fly _ _ G q n Hq Hm) as [A B]; exact (B _ H). }
        assert (Hd : forall m' ok', In (VDone m' ok') [VDone m ok] -> m' <> n) by (intros m' ok' [H|[]]; injection H as <- _; exact Hmn').
        destruct ok; cbn [fst snd]; apply Hoth; auto; try congruence.
        intro K. apply Kh; auto. cbn. rewrite (aget_adel_other beqb beqb_eq); [apply K|]. pose proof (k_fly _ _ K q Hq) as Hh.
        unfold harmless in Hh. rewrite Ek in Hh. intro E. apply Hh. rewrite E. reflexivity.
      + cbn [fst snd]. apply Hoth; auto; try congruence. intro K. apply Kn; auto. intros c' [].
    - destruct (b_up s) as [c|] eqn:Eu; [|exact Hstay]. cbn [fst snd]. set (s' := mkSub _ _ _ _ _ _ _ _ _).
      assert (Hf : forall x, In x (fly s') <-> In x (fly s)).
      { intro x. unfold fly, s'. cbn. rewrite map_app, map_map. cbn. rewrite map_id, !in_app_iff. tauto. }
      apply (phase_more s); auto.
      + intros m ok [H|[]]; discriminate.
      + intro K. apply (kept_lost s); auto. intros q Hq. apply Hf. exact Hq.
      + intros q Hq. apply Hf. exact Hq.
    - destruct (b_up s) eqn:Eu; [exact Hstay|]. destruct (b_ready s) as [|y ys] eqn:Er; [|exact Hstay].
      pose proof (up_facts s c Eu Er) as U. cbv zeta in U. cbn [sstep] in U. rewrite Eu, Er in U.
      match goal with |- phase (fst ?p) (log ++ snd ?p) => destruct p as [s' l] end. cbn [fst snd] in *.
      destruct U as (U1 & U2 & U3 & U4 & U5 & U6 & U7 & U8 & l' & U9 & U10 & U11 & U12).
      destruct (g_down _ _ G Eu) as (D1 & D2 & D3).
      assert (Hfs : fly s = []) by (unfold fly; rewrite D1, Er; reflexivity).
      apply (phase_more s); auto.
      + lia.
      + intros m ok H. rewrite U9 in H. destruct H as [H|H]; [discriminate|]. destruct (U11 _ _ H).
      + intro K. constructor.
        * rewrite U2. apply K.
        * intros q Hq. unfold fly in Hq. rewrite U5, <- U7 in Hq. cbn in Hq. rewrite app_nil_r in Hq. unfold harmless. rewrite (proj1 (U8 q Hq)). exact I.
        * intros q Hq Hk. rewrite (proj1 (U8 q Hq)) in Hk. discriminate.
        * intros c' Hc. assert (Ht : In t (map fst (b_h s))) by (apply (aget_Some_in beqb beqb_eq); exists n; apply K).
          destruct (U12 t Ht) as (q & Q1 & Q2 & Q3). exists (q_id q). rewrite U9. change (VUp c :: l') with ([VUp c] ++ l'). rewrite app_assoc, since_up_app by exact U10.
          rewrite since_up_up. cbn [app]. split; [exact Q3|]. left. exists q. repeat split; auto. rewrite (proj1 (U8 q Q1)). reflexivity.
      + rewrite Hfs. intros q [].
    - destruct (b_up s) as [c|] eqn:Eu; [|exact Hstay]. cbn [fst snd]. apply (phase_more s); auto.
      + intros m ok [H|[]]; discriminate.
      + intro K. apply (kept_more s); auto; try (apply K); try (intros x Hx; exact Hx). intros c' [H|[]]; discriminate.
    - destruct (foreign (b_up s) o) eqn:Efo; [|exact Hstay]. cbn [fst snd]. apply (phase_more s); auto.
      intro K. constructor; try (apply K). cbn. intros c Hc. rewrite Hc in Efo. apply (broker_srv c s _ _ _ o); auto; [apply (k_srv _ _ K); exact Hc|intros c' []].
  Qed.
End Kept.

Lemma calls_step : forall s o, b_calls (fst (sstep s o)) = b_calls s + (if is_call o then 1 else 0).
Proof.
  intros s o. destruct o as [t'|t'|r now|r|r|r| |c|t' d|o]; cbn [sstep is_call].
  - unfold do_sub. destruct (aget beqb t' (b_h s)); [cbn; lia|]. unfold send1. cbn. destruct (b_up s); cbn; lia.
  - unfold do_unsub. destruct (aget beqb t' (b_h s)); [|cbn; lia]. unfold send1. cbn. destruct (b_up s); cbn; lia.
  - destruct (b_up s); [|cbn; lia]. destruct (q_find r (b_wire s)); cbn; lia.
  - destruct (q_find r (b_pend s)); [|cbn; lia]. destruct (existsb (Nat.eqb r) (b_served s)); cbn; lia.
  - destruct (q_find r (b_pend s)); cbn; lia.
  - destruct (find (fun y => Nat.eqb (q_id (fst y)) r) (b_ready s)) as [[q ok]|]; [|cbn; lia]. unfold run_cont. destruct (q_kind q), ok; cbn; lia.
  - destruct (b_up s); cbn; lia.
  - destruct (b_up s) eqn:Eu; [cbn; lia|]. destruct (b_ready s) eqn:Er; [|cbn; lia].
    pose proof (up_facts s c Eu Er) as U. cbv zeta in U. cbn [sstep] in U. rewrite Eu, Er in U. destruct U as (_ & _ & _ & _ & _ & U & _). rewrite U. lia.
  - destruct (b_up s); cbn; lia.
  - destruct (foreign (b_up s) o); cbn; lia.
Qed.
Lemma calls_no : forall xs, b_calls (sst xs) = call_no xs.
Proof.
  induction xs as [|o xs IH] using rev_ind; [reflexivity|]. rewrite sst_snoc, calls_step, IH. unfold call_no.
  rewrite filter_app, app_length. cbn [filter]. destruct (is_call o); cbn; lia.
Qed.

Lemma phase_start : forall xs t, all_settled t (slog xs) -> all_served false t (slog xs) ->
  phase (call_no xs) t (sst (xs ++ [XSub t])) (slog (xs ++ [XSub t])).
Proof.
  intros xs t Hs Hv. pose proof (ginv_all xs) as G. rewrite sst_snoc, slog_snoc, <- calls_no. set (s := sst xs) in *. set (log := slog xs) in *. clearbody s log.
  split; [rewrite calls_step; cbn; lia|].
  assert (Hnd : forall ok, ~ In (VDone (b_calls s) ok) log) by (intros ok H; apply (g_dones _ _ G) in H; lia).
  cbn [sstep]. unfold do_sub. destruct (aget beqb t (b_h s)) as [m|] eqn:Ea.
  - left. cbn [fst snd]. split; [apply in_or_app; right; right; left; reflexivity|]. intro H. apply in_app_or in H.
    destruct H as [H|[H|[H|[]]]]; [exact (Hnd _ H)|discriminate|discriminate].
  - right. right. set (n := b_calls s) in *.
    assert (Hfly : forall q, In q (fly s) -> harmless n t q).
    { intros q Hq. unfold harmless. destruct (q_kind q) as [m|m|] eqn:Ek; [| |exact I].
      - intro Et. exfalso. destruct (g_fly _ _ G q m Hq) as [A B]; [rewrite Ek; left; reflexivity|]. rewrite Et in A.
        destruct (Hs _ _ _ A eq_refl) as [ok Hok]. exact (B ok Hok).
      - intro Et. destruct (g_fly _ _ G q m Hq) as [A B]; [rewrite Ek; left; reflexivity|].
        destruct (Hs _ _ _ A Et) as [ok Hok]. exact (B ok Hok). }
    assert (Hwire : forall q, In q (b_wire s) -> is_unsub (q_kind q) = true -> reads (q_topic q) <> reads t).
    { intros q Hq Hk Et. destruct (g_wire _ _ G q Hq) as [A B]. unfold k_sub in A. rewrite Hk in A. cbn in A. exact (B (Hv _ _ A Et)). }
    assert (Hh : aget beqb t (b_h s ++ [(t, n)]) = Some n) by (rewrite (aget_app beqb), Ea; cbn; rewrite beqb_refl; reflexivity).
    destruct (b_up s) as [c|] eqn:Eu.
    + rewrite (send_up (KSub n) t _ c) by exact Eu. cbn [fst snd with_h next_call b_h b_pend b_ready b_wire b_served b_next b_calls b_srv].
      set (q := mkUreq (b_next s) (KSub n) t). set (s' := mkSub _ _ _ _ _ _ _ _ _).
      assert (Hf : forall x, In x (fly s') <-> In x (fly s) \/ x = q).
      { intros x. unfold fly, s'. cbn. rewrite !in_app_iff. cbn. intuition. }
      split; [|split].
      * constructor; auto.
        -- intros x Hx. apply Hf in Hx. destruct Hx as [Hx| ->]; [auto|]. cbn. reflexivity.
        -- unfold s'. cbn. intros x Hx. apply in_app_or in Hx. destruct Hx as [Hx|[<-|[]]]; [auto|discriminate].
        -- unfold s'. cbn. intros c' Hc. exists (b_next s). rewrite since_up_app by (intros c0 [H|[H|[]]]; discriminate). split; [apply in_or_app; right; right; left; reflexivity|].
           left. exists q. cbn. split; [apply in_or_app; right; left; reflexivity|auto].
      * intro H. apply in_app_or in H. destruct H as [H|[H|[H|[]]]]; [exact (Hnd _ H)|discriminate|discriminate].
      * exists q. split; [apply Hf; auto|auto].
    + rewrite (send_down (KSub n) t) by exact Eu. cbn [fst snd with_h next_call b_h b_pend b_ready b_wire b_served b_next b_calls b_srv].
      set (q := mkUreq (b_next s) (KSub n) t). set (s' := mkSub _ _ _ _ _ _ _ _ _).
      assert (Hf : forall x, In x (fly s') <-> In x (fly s) \/ x = q).
      { intros x. unfold fly, s'. cbn. rewrite map_app, !in_app_iff. cbn. intuition. }
      split; [|split].
      * constructor; auto.
        -- intros x Hx. apply Hf in Hx. destruct Hx as [Hx| ->]; [auto|]. cbn. reflexivity.
        -- unfold s'. cbn. discriminate.
      * intro H. apply in_app_or in H. destruct H as [H|[H|[]]]; [exact (Hnd _ H)|discriminate].
      * exists q. split; [apply Hf; auto|auto].
Qed.
Lemma phase_run : forall xs t ys, all_settled t (slog xs) -> all_served false t (slog xs) ->
  (forall t', In (XUnsub t') ys -> reads t' <> reads t) ->
  phase (call_no xs) t (sst (xs ++ XSub t :: ys)) (slog (xs ++ XSub t :: ys)).
Proof.
  intros xs t ys Hs Hv Hy. change (XSub t :: ys) with ([XSub t] ++ ys). rewrite app_assoc.
  induction ys as [|o ys IH] using rev_ind.
  - rewrite app_nil_r. apply phase_start; auto.
  - rewrite app_assoc, sst_snoc, slog_snoc. apply phase_step; [apply ginv_all| |].
    + apply IH. intros t' Ht. apply Hy. apply in_or_app. auto.
    + intros t' ->. apply Hy. apply in_or_app. right. left. reflexivity.
Qed.
Lemma phase_kept : forall n t s log, phase n t s log -> In (VDone n true) log -> kept n t s log.
Proof. intros n t s log [_ P] H. destruct P as [[_ P]|[[P _]|(P & P' & _)]]; [contradiction|exact P|contradiction]. Qed.

(** the handlers run by a push *)
Definition ran (s : subst) (t : bytes) : list nat :=
  flat_map (fun p => match aget beqb p (b_h s) with Some n => [n] | None => [] end) (sdk_dispatch (map fst (b_h s)) t).
Lemma flat_once : forall (f : bytes -> list nat) l p n, NoDup l -> In p l -> f p = [n] -> (forall p', In p' l -> In n (f p') -> p' = p) ->
  exactly_once n (flat_map f l).
Proof.
  intros f l p n Hn Hp Hf Hu. apply in_split in Hp. destruct Hp as (a & b & ->). apply NoDup_remove_2 in Hn.
  exists (flat_map f a), (flat_map f b). rewrite flat_map_app. cbn. rewrite Hf. split; [reflexivity|].
  split; intro H; apply in_flat_map in H; destruct H as (p' & H1 & H2); (assert (p' = p) by (apply Hu; auto; apply in_or_app; cbn; auto)); subst p'; apply Hn; apply in_or_app; auto.
Qed.
Lemma ran_once : forall s log t n tau, ginv s log -> aget beqb t (b_h s) = Some n -> mqtt (reads t) (split tau) -> exactly_once n (ran s tau).
Proof.
  intros s log t n tau G Ha Hm. unfold ran. apply (flat_once _ _ t).
  - apply dispatch_NoDup. apply G.
  - apply dispatch_in. split; [|exact Hm]. apply (aget_Some_in beqb beqb_eq). eauto.
  - rewrite Ha. reflexivity.
  - intros p' _ H. destruct (aget beqb p' (b_h s)) as [m|] eqn:E; [|destruct H]. destruct H as [->|[]].
    apply (aget_In beqb beqb_eq) in E. apply (aget_In beqb beqb_eq) in Ha.
    pose proof (NoDup_map_inv' snd (b_h s) (p', n) (t, n) (g_nums _ _ G) E Ha eq_refl) as K. congruence.
Qed.
Lemma ran_in : forall s log n tau, ginv s log -> In n (ran s tau) -> exists t, aget beqb t (b_h s) = Some n /\ mqtt (reads t) (split tau) /\ In (VCall n true t) log.
Proof.
  intros s log n tau G H. unfold ran in H. apply in_flat_map in H. destruct H as (p & H1 & H2). apply dispatch_in in H1. destruct H1 as [H1 H3].
  destruct (aget beqb p (b_h s)) as [m|] eqn:E; [|destruct H2]. destruct H2 as [->|[]]. exists p. repeat split; auto.
  apply (g_hn _ _ G). apply (aget_In beqb beqb_eq). exact E.
Qed.

(** ** a confirmed subscription stays *)
Lemma stays_subscribed : forall xs t ys, let n := call_no xs in let zs := xs ++ XSub t :: ys in
  all_settled t (slog xs) -> all_served false t (slog xs) ->
  (forall t', In (XUnsub t') ys -> reads t' <> reads t) ->
  In (VDone n true) (slog zs) ->
  (forall c tau d, up_as (slog zs) = Some c -> mqtt (reads t) (split tau) ->
     exists ns, slog (zs ++ [XPush tau d]) = slog zs ++ [VHandled tau d ns] /\ exactly_once n ns) /\
  (forall c, up_as (slog zs) = Some c -> exists r, In (VSent r true t) (since_up (slog zs)) /\
     (In (VServed r) (slog zs) -> connected c (b_srv (sst zs)) -> holds c (reads t) (b_srv (sst zs)))) /\
  slog (zs ++ [XSub t]) = slog zs ++ [VCall (call_no zs) true t; VDone (call_no zs) false].
Proof.
  intros xs t ys n zs Hs Hv Hy Hd. pose proof (ginv_all zs) as G.
  pose proof (phase_kept _ _ _ _ (phase_run xs t ys Hs Hv Hy) Hd) as K. fold zs in K. fold n in K.
  split; [|split].
  - intros c tau d Hu Hm. rewrite (g_up _ _ G) in Hu. rewrite slog_snoc. cbn [sstep]. rewrite Hu. cbn [snd].
    exists (ran (sst zs) tau). split; [reflexivity|]. apply (ran_once _ (slog zs) t); auto. apply K.
  - intros c Hu. rewrite (g_up _ _ G) in Hu. destruct (k_srv _ _ _ _ K c Hu) as (r & H1 & H2). exists r. split; [exact H1|].
    intros Hsv Hc. destruct H2 as [(q & H3 & H4 & _)|[_ H2]]; [|auto]. destruct (g_wire _ _ G q H3) as [_ B]. rewrite H4 in B. contradiction.
  - rewrite slog_snoc. cbn [sstep]. unfold do_sub. rewrite (k_h _ _ _ _ K). cbn [snd]. rewrite calls_no. reflexivity.
Qed.
