(** The in-memory topic over whole histories. *)
From Verif Require Import LibBase LibMap StreamTopicModel StreamGroupModel StreamGroupSpec StreamGroupProofs StreamGroupSteps StreamGroupFetch.

(** What can happen to a topic: publishes (clock, payload), evictions (with the
    persisted mark of the moment), retention moving the head. *)
Inductive top := TPub (ts : N) (pay : bytes) | TEvict (persisted : N) | THead (head : N).
Definition tstep (t : topic) (o : top) : topic * option N :=
  match o with
  | TPub ts pay => let (t', s) := append ts pay t in (t', Some s)
  | TEvict p => (evict p t, None)
  | THead h => (apply_head h t, None)
  end.
Fixpoint trun (t : topic) (ops : list top) : topic * list N :=
  match ops with
  | [] => (t, [])
  | o :: r => let (t1, s) := tstep t o in let (t2, l) := trun t1 r in (t2, match s with Some x => x :: l | None => l end)
  end.

(** The messages published by [ops], numbered from [n] on. *)
Fixpoint published (n : N) (ops : list top) : list msg :=
  match ops with
  | [] => []
  | TPub ts pay :: r => mkMsg n ts pay :: published (n + 1) r
  | _ :: r => published n r
  end.
(** Retention never moves the head past the next number (the head is the name of a
    segment that holds a published message). *)
Fixpoint heads_ok (n : N) (ops : list top) : Prop :=
  match ops with
  | [] => True
  | TPub _ _ :: r => heads_ok (n + 1) r
  | THead h :: r => h <= n /\ heads_ok n r
  | TEvict _ :: r => heads_ok n r
  end.
Fixpoint upto (n : N) (k : nat) : list N := match k with O => [] | S k' => n :: upto (n + 1) k' end.

(** [all]: every message numbered from [first] on; memory holds its end. *)
Record topic_ok (first : N) (all : list msg) (t : topic) : Prop := {
  k_all : log_ok all first;
  k_next : t_next t = first + lenN all;
  k_log : exists k, t_log t = dropN k all /\ (t_log t <> [] -> t_ram t = first + k /\ k < lenN all);
  k_ram : t_log t = [] -> t_next t <= t_ram t;
  k_pos : 1 <= t_next t
}.

Lemma log_ok_snoc l n m : log_ok l n -> m_seq m = n + lenN l -> log_ok (l ++ [m]) n.
Proof.
  intros H E i x Hx. destruct (Nat.lt_ge_cases i (length l)) as [L|L].
  - rewrite nth_error_app1 in Hx by auto. auto.
  - rewrite nth_error_app2 in Hx by auto. destruct (i - length l)%nat as [|j] eqn:EI; simpl in Hx; [|destruct j; discriminate].
    inversion Hx; subst. unfold lenN in E. lia.
Qed.
Lemma log_ok_dropN l n k : log_ok l n -> log_ok (dropN k l) (n + k).
Proof. intros H i m Hx. unfold dropN in Hx. rewrite nth_skipn in Hx. apply H in Hx. lia. Qed.
Lemma log_ok_cons m l n : log_ok (m :: l) n -> m_seq m = n /\ log_ok l (n + 1).
Proof.
  intro H. split; [pose proof (H 0%nat m eq_refl); simpl in *; lia|]. intros i x Hx. specialize (H (S i) x Hx). lia.
Qed.
Lemma topic_log_ok first all t : topic_ok first all t -> log_ok (t_log t) (t_ram t).
Proof.
  intros [A B (k & E & F) C D]. destruct (t_log t) as [|m l] eqn:EL; [intros [|i] x Hx; discriminate|].
  destruct F as (-> & _); [discriminate|]. rewrite E. apply log_ok_dropN; auto.
Qed.

Lemma append_ok first all t ts pay : topic_ok first all t ->
  topic_ok first (all ++ [mkMsg (t_next t) ts pay]) (fst (append ts pay t)).
Proof.
  intros [A B (k & E & F) C D]. unfold append; simpl. constructor; simpl.
  - apply log_ok_snoc; auto.
  - rewrite lenN_app, lenN_cons, lenN_nil. lia.
  - destruct (t_log t) as [|m l] eqn:EL.
    + exists (lenN all). split; [rewrite dropN_app_exact; reflexivity|]. intros _. rewrite lenN_app, lenN_cons, lenN_nil. split; lia.
    + destruct F as (F & F2); [discriminate|]. exists k. split; [rewrite dropN_app_le by lia; rewrite <- E; reflexivity|].
      intros _. rewrite lenN_app, lenN_cons, lenN_nil. split; [auto|lia].
  - intro X. apply app_eq_nil in X. destruct X; discriminate.
  - lia.
Qed.

Lemma evict_loop_spec persisted head soft : forall log ram, log_ok log ram ->
  exists pre post, log = pre ++ post /\ fst (evict_loop persisted head soft log ram) = post /\
    (post <> [] -> snd (evict_loop persisted head soft log ram) = if (match pre with [] => true | _ => false end) then ram else N.max (ram + lenN pre) head) /\
    (post = [] -> (log = [] /\ snd (evict_loop persisted head soft log ram) = ram) \/ ram + lenN log <= snd (evict_loop persisted head soft log ram)) /\
    Forall (fun m => m_seq m <= persisted) pre /\
    (pre = [] \/ soft <= lenN post) /\
    (lenN post <= soft \/ match post with m :: _ => persisted < m_seq m | [] => False end).
Proof.
  induction log as [|m log IH]; intros ram LO; simpl.
  - exists [], []. repeat split; auto; try congruence. left; rewrite lenN_nil; lia.
  - apply log_ok_cons in LO. destruct LO as (E & LO).
    destruct (N.ltb_spec soft (lenN (m :: log))) as [L|L].
    + destruct (N.leb_spec (m_seq m) persisted) as [P|P].
      * assert (LO2 : log_ok log (m_seq m + 1)) by (rewrite E; exact LO).
        destruct (IH (m_seq m + 1) LO2) as (pre & post & A & B & C & D & F & G & K).
        (* the ram argument only matters when nothing more is removed *)
        assert (R : forall l r1 r2, fst (evict_loop persisted head soft l r1) = fst (evict_loop persisted head soft l r2)
          /\ (snd (evict_loop persisted head soft l r1) = snd (evict_loop persisted head soft l r2) \/
              (snd (evict_loop persisted head soft l r1) = r1 /\ snd (evict_loop persisted head soft l r2) = r2 /\ fst (evict_loop persisted head soft l r1) = l))).
        { clear. induction l as [|x l IH]; intros r1 r2; simpl; auto.
          destruct (soft <? lenN (x :: l)); [|simpl; auto]. destruct (m_seq x <=? persisted); simpl; auto. }
        destruct (R log (N.max (m_seq m + 1) head) (m_seq m + 1)) as (R1 & R2).
        exists (m :: pre), post. split; [rewrite A; reflexivity|]. split; [rewrite R1; exact B|]. split; [|split; [|split; [|split; [|exact K]]]].
        -- intro NE. specialize (C NE). destruct R2 as [R2|(R2 & R3 & R4)].
           ++ rewrite R2, C. destruct pre as [|x pre]; [|rewrite !lenN_cons; lia].
              (* same value although nothing was removed: the loop stopped *)
              assert (S : forall l r, fst (evict_loop persisted head soft l r) = l -> l <> [] -> snd (evict_loop persisted head soft l r) = r).
              { clear. intros [|x l] r H N; [congruence|]. simpl in *. destruct (soft <? lenN (x :: l)); auto. destruct (m_seq x <=? persisted); auto.
                exfalso. assert (forall l r, (length (fst (evict_loop persisted head soft l r)) <= length l)%nat) as Q.
                { clear. induction l as [|y l IH]; intro r; simpl; auto. destruct (soft <? lenN (y :: l)); simpl; auto. destruct (m_seq y <=? persisted); simpl; auto. }
                pose proof (Q l (N.max (m_seq x + 1) head)) as Q1. rewrite H in Q1. simpl in Q1. lia. }
              simpl in A. subst log. rewrite <- C, <- R2. rewrite S; auto; [|rewrite R1; exact B]. rewrite lenN_cons, lenN_nil. lia.
           ++ rewrite R2. assert (pre = []) as ->.
              { rewrite R1, B in R4. subst log. destruct pre as [|x pre]; auto. exfalso. apply (f_equal (@length msg)) in R4. simpl in R4. rewrite app_length in R4. lia. }
              rewrite lenN_cons, lenN_nil. lia.
        -- intro NE. right. rewrite lenN_cons. destruct (D NE) as [(D1 & D2)|D1].
           ++ rewrite D1. cbn [evict_loop snd]. rewrite lenN_nil. lia.
           ++ destruct R2 as [R2|(R2 & R3 & R4)]; [rewrite R2; lia|]. rewrite R3 in D1. rewrite R1, B, NE in R4. rewrite R2, <- R4, lenN_nil. lia.
        -- constructor; auto.
        -- right. destruct G as [G|G]; auto. subst pre. simpl in A. subst log. rewrite lenN_cons in L. lia.
      * exists [], (m :: log). repeat split; auto; congruence.
    + exists [], (m :: log). repeat split; auto; try congruence.
Qed.

Lemma evict_ok first all t p : topic_ok first all t -> t_head t <= t_ram t ->
  topic_ok first all (evict p t) /\ t_head (evict p t) <= t_ram (evict p t).
Proof.
  intros K HR. pose proof (topic_log_ok _ _ _ K) as LO. destruct K as [A B (k & E & F) C D].
  destruct (evict_loop_spec p (t_head t) (t_soft t) (t_log t) (t_ram t) LO) as (pre & post & E1 & E2 & E3 & E4 & _).
  unfold evict. destruct (evict_loop p (t_head t) (t_soft t) (t_log t) (t_ram t)) as [log ram]. simpl in *. subst log.
  assert (HM : t_log t <> [] -> t_head t <= t_ram t + lenN pre) by lia.
  split.
  - constructor; simpl; auto.
    + exists (k + lenN pre). split.
      * rewrite N.add_comm, <- dropN_dropN, <- E, E1. symmetry. apply dropN_app_exact.
      * intro NE. destruct F as (F & F2). { rewrite E1. intro X. apply app_eq_nil in X. tauto. }
        assert (k + lenN pre < lenN all).
        { pose proof (f_equal lenN E1) as X. rewrite E, lenN_app, lenN_dropN in X. destruct post; [congruence|]. rewrite lenN_cons in X. lia. }
        split; auto. rewrite E3 by auto. destruct pre; [rewrite lenN_nil; lia|]. lia.
    + intro X. destruct (E4 X) as [(Y & ->)|Y]; auto.
      destruct (t_log t) as [|m l] eqn:EL.
      * rewrite lenN_nil in Y. specialize (C eq_refl). lia.
      * destruct F as (F & F2); [discriminate|]. pose proof (f_equal lenN E) as Z. rewrite lenN_dropN in Z. lia.
  - destruct post as [|m post].
    + destruct (E4 eq_refl) as [(Y & ->)|Y]; auto. lia.
    + rewrite E3 by discriminate. destruct pre; lia.
Qed.

Lemma drop_below_spec h : forall l, exists pre, l = pre ++ drop_below h l /\ Forall (fun m => m_seq m < h) pre /\
  match drop_below h l with m :: _ => h <= m_seq m | [] => True end.
Proof.
  induction l as [|m l (pre & A & B & C)]; simpl; [exists []; auto|].
  destruct (N.ltb_spec (m_seq m) h) as [L|L].
  - exists (m :: pre). split; [simpl; f_equal; auto|]. split; auto.
  - exists []. auto.
Qed.
Lemma apply_head_ok first all t h : topic_ok first all t ->
  topic_ok first all (apply_head h t) /\ t_head (apply_head h t) <= t_ram (apply_head h t).
Proof.
  intros K. pose proof (topic_log_ok _ _ _ K) as LO. destruct K as [A B (k & E & F) C D].
  unfold apply_head. destruct (drop_below_spec (N.max h 1) (t_log t)) as (pre & E1 & _ & E3).
  destruct (drop_below (N.max h 1) (t_log t)) as [|m post] eqn:ED.
  - split; [constructor; simpl; auto|simpl; lia].
    + exists (lenN all). split; [rewrite dropN_all; [reflexivity|lia]|congruence].
    + lia.
  - assert (NL : t_log t <> []) by (rewrite E1; intro X; apply app_eq_nil in X; destruct X; discriminate).
    destruct (F NL) as (F1 & F2).
    assert (DP : m :: post = dropN (k + lenN pre) all).
    { rewrite N.add_comm, <- dropN_dropN, <- E, E1. symmetry. apply dropN_app_exact. }
    assert (LT : k + lenN pre < lenN all).
    { pose proof (f_equal lenN DP) as X. rewrite lenN_cons, lenN_dropN in X. lia. }
    assert (SM : m_seq m = first + (k + lenN pre)).
    { pose proof (log_ok_dropN _ _ (k + lenN pre) A) as LD. rewrite <- DP in LD. apply log_ok_cons in LD. tauto. }
    split; [constructor; simpl; auto|simpl; lia].
    + exists (k + lenN pre). split; auto.
    + congruence.
Qed.

Definition init_ok (first : N) (all : list msg) (t : topic) : Prop := topic_ok first all t /\ t_head t <= t_ram t /\ t_head t <= t_next t.
Lemma new_ok soft : init_ok 1 [] (topic_new soft).
Proof.
  split; [|split; simpl; lia]. constructor; simpl.
  - intros [|i] m H; discriminate.
  - reflexivity.
  - exists 0. split; [reflexivity|congruence].
  - lia.
  - lia.
Qed.
Lemma last_msg_app l m : last_msg (l ++ [m]) = Some m.
Proof. induction l as [|x [|y l] IH]; simpl in *; auto. Qed.
Lemma restore_ok soft head first ms : log_ok ms first -> 1 <= first -> ms <> [] -> head <= first ->
  init_ok first ms (topic_restore soft head ms).
Proof.
  intros LO P NE HH. destruct (exists_last NE) as (l & m & ->).
  unfold topic_restore. rewrite last_msg_app.
  assert (SM : m_seq m = first + lenN l).
  { assert (nth_error (l ++ [m]) (length l) = Some m) as X by (rewrite nth_error_app2, Nat.sub_diag by lia; reflexivity). apply LO in X. exact X. }
  assert (FR : match l ++ [m] with x :: _ => m_seq x | [] => N.max (m_seq m + 1) head end = first).
  { destruct (l ++ [m]) as [|x r] eqn:EL; [congruence|]. apply log_ok_cons in LO. tauto. }
  split; [|split; simpl; rewrite ?FR; lia]. constructor; simpl; auto.
  - rewrite lenN_app, lenN_cons, lenN_nil. lia.
  - exists 0. split; [reflexivity|]. intros _. rewrite FR, lenN_app, lenN_cons, lenN_nil. split; lia.
  - intro X. congruence.
  - lia.
Qed.

Theorem trun_ok : forall ops first all t, init_ok first all t -> heads_ok (t_next t) ops ->
  let r := trun t ops in
  init_ok first (all ++ published (t_next t) ops) (fst r) /\
  snd r = upto (t_next t) (length (published (t_next t) ops)).
Proof.
  induction ops as [|o ops IH]; intros first all t (K & HR & HN) HO; simpl.
  - rewrite app_nil_r. split; [split; [|split]; auto|auto].
  - destruct o as [ts pay|p|h]; simpl.
    + pose proof (append_ok first all t ts pay K) as K1. unfold append in K1; simpl in K1.
      simpl in HO.
      assert (I1 : init_ok first (all ++ [mkMsg (t_next t) ts pay]) (fst (append ts pay t))).
      { split; [exact K1|]. simpl. split; [destruct (t_log t); lia|lia]. }
      destruct (IH first _ _ I1 HO) as (A & B).
      simpl in A, B. destruct (trun _ ops) as [t2 l]. simpl in *. rewrite <- app_assoc in A. simpl in A. split; auto. rewrite B. reflexivity.
    + pose proof (evict_ok first all t p K HR) as (K1 & K2).
      assert (N1 : t_next (evict p t) = t_next t) by (unfold evict; destruct (evict_loop _ _ _ _ _); reflexivity).
      assert (N2 : t_head (evict p t) = t_head t) by (unfold evict; destruct (evict_loop _ _ _ _ _); reflexivity).
      assert (I1 : init_ok first all (evict p t)) by (split; [exact K1|split; [exact K2|rewrite N1, N2; exact HN]]).
      assert (HO1 : heads_ok (t_next (evict p t)) ops) by (rewrite N1; exact HO).
      destruct (IH _ _ _ I1 HO1) as (A & B).
      rewrite N1 in *. destruct (trun (evict p t) ops) as [t2 l]. simpl in *. auto.
    + pose proof (apply_head_ok first all t h K) as (K1 & K2). simpl in HO. destruct HO as (HO1 & HO2).
      assert (I1 : init_ok first all (apply_head h t)).
      { split; [exact K1|split; [exact K2|]]. simpl. pose proof (k_pos _ _ _ K). lia. }
      destruct (IH _ _ _ I1 HO2) as (A & B).
      change (t_next (apply_head h t)) with (t_next t) in *. destruct (trun (apply_head h t) ops) as [t2 l]. simpl in *. auto.
Qed.

(** ** Reading from memory *)
Lemma filter_ge_drop l n s : log_ok l n -> n <= s -> filter (fun m => s <=? m_seq m) l = dropN (s - n) l.
Proof.
  revert n. induction l as [|m l IH]; intros n LO L; simpl; [rewrite dropN_nil; reflexivity|].
  apply log_ok_cons in LO. destruct LO as (E & LO). rewrite E. destruct (N.leb_spec s n) as [L2|L2].
  - assert (s = n) as -> by lia. rewrite N.sub_diag, dropN_0. f_equal.
    clear - LO. assert (forall k, n <= k -> log_ok l k -> filter (fun m => n <=? m_seq m) l = l) as X.
    { clear. induction l as [|m l IH]; intros k Hk LO; simpl; auto. apply log_ok_cons in LO. destruct LO as (E & LO).
      destruct (N.leb_spec n (m_seq m)); [|lia]. f_equal. apply (IH (k + 1)); auto; lia. }
    apply (X (n + 1)); auto; lia.
  - rewrite dropN_cons by lia. rewrite (IH (n + 1)) by (auto; lia). f_equal. lia.
Qed.
Lemma filter_ge_dropN l n s k : log_ok l n -> n + k <= s -> filter (fun m => s <=? m_seq m) (dropN k l) = filter (fun m => s <=? m_seq m) l.
Proof.
  intros LO L. rewrite (filter_ge_drop l n s) by (auto; lia). rewrite (filter_ge_drop _ (n + k) s) by (auto using log_ok_dropN).
  rewrite dropN_dropN. f_equal. lia.
Qed.

(** The answer of a read that memory can serve. *)
Theorem read_exact first all t from limit : init_ok first all t -> first <= N.max (N.max from (t_head t)) 1 ->
  t_ram t <= N.max (N.max from (t_head t)) 1 ->
  read from limit t = takeN limit (filter (fun m => N.max (N.max from (t_head t)) 1 <=? m_seq m) all).
Proof.
  intros (K & HR & HN) HF L. destruct K as [A B (k & E & F) C D]. unfold read.
  set (s := N.max (N.max from (t_head t)) 1) in *. destruct (N.leb_spec (t_ram t) s); [|lia]. simpl.
  rewrite (filter_ge_drop all first s A) by auto.
  destruct (t_log t) as [|m l] eqn:EL; simpl.
  - specialize (C eq_refl). rewrite dropN_all, takeN_nil by lia. reflexivity.
  - destruct F as (F & F2); [discriminate|]. rewrite E.
    rewrite dropN_dropN. replace (s - t_ram t + k) with (s - first) by lia.
    destruct (N.ltb_spec (s - t_ram t) (lenN (dropN k all))) as [X|X]; auto. rewrite lenN_dropN in X.
    rewrite dropN_all, takeN_nil by lia. reflexivity.
Qed.
(** A read starting before memory gets nothing from memory (storage is asked). *)
Theorem read_below t from limit : N.max (N.max from (t_head t)) 1 < t_ram t -> read from limit t = [].
Proof. intro L. unfold read. destruct (N.leb_spec (t_ram t) (N.max (N.max from (t_head t)) 1)); [lia|reflexivity]. Qed.

(** Eviction. *)
Theorem evict_exact first all t p : init_ok first all t ->
  exists pre, t_log t = pre ++ t_log (evict p t) /\ Forall (fun m => m_seq m <= p) pre /\
    (pre = [] \/ t_soft t <= lenN (t_log (evict p t))) /\
    (lenN (t_log (evict p t)) <= t_soft t \/ match t_log (evict p t) with m :: _ => p < m_seq m | [] => False end).
Proof.
  intros (K & HR & HN). pose proof (topic_log_ok _ _ _ K) as LO.
  destruct (evict_loop_spec p (t_head t) (t_soft t) (t_log t) (t_ram t) LO) as (pre & post & E1 & E2 & _ & _ & F & G & H).
  unfold evict. destruct (evict_loop p (t_head t) (t_soft t) (t_log t) (t_ram t)) as [log ram]. simpl in *. subst log.
  exists pre. auto.
Qed.
