(** Proofs about the SDK connection object. *)
From Verif Require Import LibBase LibMap WireModel RespModel RespProofs SdkConnModel SdkConnSpec.
From Coq Require Import Lia.

Lemma split_app : forall {A} (l1 l2 a : list A) x b, l1 ++ l2 = a ++ x :: b ->
  (exists b', b = b' ++ l2 /\ l1 = a ++ x :: b') \/
  (exists l, l2 = l ++ x :: b /\ a = l1 ++ l).
Proof.
  intros A l1. induction l1 as [|y l1 IH]; intros l2 a x b H.
  - right. exists a. split; [exact H|reflexivity].
  - destruct a as [|z a]; cbn in H; injection H as -> H.
    + left. exists l1. split; [symmetry; exact H|reflexivity].
    + destruct (IH _ _ _ _ H) as [(b' & E1 & E2)|(l & E1 & E2)].
      * left. exists b'. subst. auto.
      * right. exists l. subst. auto.
Qed.
Lemma settled_app : forall a b, settled (a ++ b) = settled a ++ settled b.
Proof. intros; unfold settled; apply flat_map_app. Qed.
Lemma wrote_app : forall a b, wrote (a ++ b) = wrote a ++ wrote b.
Proof. intros; unfold wrote; apply flat_map_app. Qed.
Lemma in_settled : forall n l, In n (settled l) <-> exists o, In (ESettled n o) l.
Proof.
  intros n l. unfold settled. rewrite in_flat_map. split.
  - intros (e & He & Hn). destruct e; cbn in Hn; try tauto. destruct Hn as [<-|[]]. eauto.
  - intros (o & Ho). exists (ESettled n o). split; [exact Ho|cbn; auto].
Qed.

Definition pcalls (s : cli) : list nat := map (fun kp => p_call (snd kp)) (u_pend s).

Definition loop_ok (s : cli) : Prop :=
  match u_loop s with
  | LNone => u_sock s <> SDial
  | LSleep => u_sock s = SDead
  | LDial => u_sock s = SDial
  end.
Record uinv (s : cli) (log : list ev) : Prop := mkUinv {
  v_keys : NoDup (akeys (u_pend s));
  v_calls : NoDup (pcalls s);
  v_open : u_up s = true <-> u_sock s = SOpen;
  v_pendup : u_pend s <> [] -> u_up s = true;
  v_dial : loop_ok s;
  v_pend : forall id p, In (id, p) (u_pend s) ->
    ~ In (p_call p) (settled log) /\
    exists a b, log = a ++ EAsked (p_call p) id (p_at p) (p_tmo p) :: b /\
      waits (p_call p) id (p_deadline p) b;
  v_lt : forall n, In n (settled log) -> (n < u_calls s)%nat;
  v_asklt : forall n id t m, In (EAsked n id t m) log -> (n < u_calls s)%nat;
  v_once : NoDup (settled log);
  v_why : forall a n o b, log = a ++ ESettled n o :: b -> justified a n o;
  v_asks : forall a n id t m b, log = a ++ EAsked n id t m :: b ->
    In n (settled b) \/ In (id, mkPreq n t m) (u_pend s) \/ In EEnd b \/
    (exists d, In (EGot id STATUS_ERR d) b /\ sdk_string d = None) \/
    (exists n' t' m', In (EAsked n' id t' m') b)
}.

Lemma uinv0 : uinv cli0 [].
Proof.
  constructor.
  - constructor.
  - constructor.
  - cbn. split; congruence.
  - cbn. congruence.
  - unfold loop_ok; cbn. discriminate.
  - intros id p [].
  - intros n [].
  - intros n id t m [].
  - constructor.
  - intros a n o b H. destruct a; discriminate.
  - intros a n id t m b H. destruct a; discriminate.
Qed.

Lemma pend_lt : forall s log id p, uinv s log -> In (id, p) (u_pend s) -> (p_call p < u_calls s)%nat.
Proof.
  intros s log id p V H. destruct (v_pend s log V id p H) as (_ & a & b & E & _).
  eapply (v_asklt s log V). rewrite E. apply in_or_app. right. left. reflexivity.
Qed.

(** appending events *)
Lemma uinv_app : forall s log s' l, uinv s log ->
  NoDup (akeys (u_pend s')) -> NoDup (pcalls s') ->
  (u_up s' = true <-> u_sock s' = SOpen) -> (u_pend s' <> [] -> u_up s' = true) ->
  (loop_ok s') ->
  (u_calls s <= u_calls s')%nat ->
  (forall id p, In (id, p) (u_pend s') ->
     ~ In (p_call p) (settled l) /\
     ((In (id, p) (u_pend s) /\ waits (p_call p) id (p_deadline p) l) \/
      ((u_calls s <= p_call p)%nat /\
       exists a b, l = a ++ EAsked (p_call p) id (p_at p) (p_tmo p) :: b /\
         waits (p_call p) id (p_deadline p) b))) ->
  (forall n, In n (settled l) -> (n < u_calls s')%nat /\ ~ In n (settled log)) ->
  NoDup (settled l) ->
  (forall n id t m, In (EAsked n id t m) l -> (n < u_calls s')%nat) ->
  (forall a n o b, l = a ++ ESettled n o :: b -> justified (log ++ a) n o) ->
  (forall id p, In (id, p) (u_pend s) ->
    In (p_call p) (settled l) \/ In (id, p) (u_pend s') \/ In EEnd l \/
    (exists d, In (EGot id STATUS_ERR d) l /\ sdk_string d = None) \/
    (exists n' t' m', In (EAsked n' id t' m') l)) ->
  (forall a n id t m b, l = a ++ EAsked n id t m :: b ->
    In n (settled b) \/ In (id, mkPreq n t m) (u_pend s') \/ In EEnd b \/
    (exists d, In (EGot id STATUS_ERR d) b /\ sdk_string d = None) \/
    (exists n' t' m', In (EAsked n' id t' m') b)) ->
  uinv s' (log ++ l).
Proof.
  intros s log s' l V Hk Hc Ho Hpu Hd Hle Hp Hs Hn Ha Hw Hgone Hask.
  constructor; auto.
  - intros id p Hin. destruct (Hp id p Hin) as (Hns & [[Hin0 Hq]|(Hge & a & b & -> & Hq)]).
    + destruct (v_pend s log V id p Hin0) as (Hno & a & b & -> & Hq0). split.
      * rewrite settled_app, in_app_iff. tauto.
      * exists a, (b ++ l). split; [rewrite <- app_assoc; reflexivity|].
        apply Forall_app. split; assumption.
    + split.
      * rewrite settled_app, in_app_iff. intros [H|H]; [|tauto].
        apply (v_lt s log V) in H. lia.
      * exists (log ++ a), b. split; [rewrite <- app_assoc; reflexivity|exact Hq].
  - intros n H. rewrite settled_app, in_app_iff in H. destruct H as [H|H].
    + apply (v_lt s log V) in H. lia.
    + apply Hs in H. tauto.
  - intros n id t m H. rewrite in_app_iff in H. destruct H as [H|H].
    + apply (v_asklt s log V) in H. lia.
    + eapply Ha; eauto.
  - rewrite settled_app. pose proof (v_once s log V) as Hol.
    clear - Hol Hn Hs. induction (settled log) as [|x r IH]; [exact Hn|].
    cbn. inversion Hol; subst. constructor.
    + rewrite in_app_iff. intros [H|H]; [tauto|]. destruct (Hs x H) as [_ H']. apply H'. left; reflexivity.
    + apply IH; [|exact H2]. intros n H. destruct (Hs n H) as [Ha Hb]. split; [exact Ha|]. intro Hc. apply Hb. right; exact Hc.
  - intros a n o b H. destruct (split_app _ _ _ _ _ H) as [(b' & -> & E)|(l1 & E & ->)].
    + eapply (v_why s log V); exact E.
    + eapply Hw; exact E.
  - intros a n id t m b H. destruct (split_app _ _ _ _ _ H) as [(b' & -> & E)|(l1 & E & ->)].
    + destruct (v_asks s log V _ _ _ _ _ _ E) as [H1|[H1|[H1|[(d & H1 & H2)|(n' & t' & m' & H1)]]]].
      * left. rewrite settled_app, in_app_iff. tauto.
      * destruct (Hgone _ _ H1) as [H2|[H2|[H2|[(d & H2 & H3)|(n' & t' & m' & H2)]]]]; cbn in H2.
        -- left. rewrite settled_app, in_app_iff. tauto.
        -- tauto.
        -- right; right; left. apply in_or_app; tauto.
        -- right; right; right; left. exists d. split; [apply in_or_app; tauto|exact H3].
        -- right; right; right; right. exists n', t', m'. apply in_or_app; tauto.
      * right; right; left. apply in_or_app; tauto.
      * right; right; right; left. exists d. split; [apply in_or_app; tauto|exact H2].
      * right; right; right; right. exists n', t', m'. apply in_or_app; tauto.
    + eapply Hask; exact E.
Qed.

Lemma uinv_buf : forall s log b, uinv s log -> uinv (with_buf s b) log.
Proof. intros s log b [K1 K2 K3 K4 K5 K6 K7 K8 K9 K10 K11]. constructor; assumption. Qed.

(** events that leave the pending table alone *)
Definition plain_ev (s : cli) (e : ev) : Prop :=
  match e with
  | EFired _ | EPushed _ _ _ | EThrown | EUp => True
  | EGot id _ _ => ~ In id (akeys (u_pend s))
  | _ => False
  end.
Lemma single_split : forall {A} (x y : A) a b, [x] = a ++ y :: b -> a = [] /\ y = x /\ b = [].
Proof.
  intros A x y a b H. destruct a as [|z a]; cbn in H.
  - injection H as -> <-. auto.
  - injection H as -> H. destruct a; discriminate.
Qed.
Lemma uinv_plain : forall s log s' e, uinv s log -> plain_ev s e ->
  u_pend s' = u_pend s -> (u_calls s <= u_calls s')%nat ->
  (u_up s' = true <-> u_sock s' = SOpen) -> (u_up s = true -> u_up s' = true) ->
  (loop_ok s') ->
  uinv s' (log ++ [e]).
Proof.
  intros s log s' e V He Hp Hc Ho Hu Hd.
  assert (Hse : settled [e] = []) by (destruct e; cbn in He; try tauto; reflexivity).
  apply (uinv_app s log s' [e]); auto; unfold pcalls; rewrite ?Hp, ?Hse.
  - apply (v_keys s log V).
  - apply (v_calls s log V).
  - intro H. apply Hu. apply (v_pendup s log V). exact H.
  - intros id p H. split; [exact (fun x => x)|]. left. split; [exact H|].
    constructor; [|constructor]. destruct e; cbn in He |- *; try tauto.
    intros ->. apply He. apply (in_map fst) in H. exact H.
  - cbn. tauto.
  - constructor.
  - intros n id t m [H|[]]. subst e. cbn in He. tauto.
  - intros a n o b H. apply single_split in H. destruct H as (_ & H & _). subst e. cbn in He. tauto.
  - intros id p H. right; left. exact H.
  - intros a n id t m b H. apply single_split in H. destruct H as (_ & H & _). subst e. cbn in He. tauto.
Qed.
Lemma uinv_quiet_step : forall s log s', uinv s log ->
  u_pend s' = u_pend s -> (u_calls s <= u_calls s')%nat ->
  (u_up s' = true <-> u_sock s' = SOpen) -> (u_up s = true -> u_up s' = true) ->
  (loop_ok s') ->
  uinv s' log.
Proof.
  intros s log s' V Hp Hc Ho Hu Hd. destruct V as [K1 K2 K3 K4 K5 K6 K7 K8 K9 K10 K11].
  constructor; unfold pcalls; rewrite ?Hp; auto.
  - intros n H. specialize (K7 n H). lia.
  - intros n id t m H. specialize (K8 n id t m H). lia.
Qed.

Lemma pcalls_adel : forall k m, NoDup (map (fun kp : Z * preq => p_call (snd kp)) m) ->
  NoDup (map (fun kp : Z * preq => p_call (snd kp)) (adel Z.eqb k m)).
Proof.
  intros k m. induction m as [|[k' p] m IH]; cbn; intro H; [constructor|].
  inversion H; subst. destruct (Z.eqb k k'); cbn; [auto|]. constructor; auto.
  intro Hin. apply H2. rewrite in_map_iff in *. destruct Hin as (x & E & Hx).
  exists x. split; [exact E|]. destruct x as [kx px]. apply (adel_In Z.eqb Z.eqb_eq) in Hx. tauto.
Qed.
Lemma pcall_inj : forall s log id id' p p', uinv s log ->
  In (id, p) (u_pend s) -> In (id', p') (u_pend s) -> p_call p = p_call p' -> (id, p) = (id', p').
Proof.
  intros s log id id' p p' V H H' E. pose proof (v_calls s log V) as Hc. unfold pcalls in Hc.
  clear V. revert H H' Hc. induction (u_pend s) as [|x m IH]; cbn; [tauto|].
  intros [->|H] [E1|H'] Hc; inversion Hc as [|? ? Hx Hr]; subst; auto.
  - exfalso. apply Hx. cbn. rewrite in_map_iff. exists (id', p'). split; [symmetry; exact E|exact H'].
  - exfalso. apply Hx. cbn. rewrite in_map_iff. exists (id, p). split; [exact E|exact H].
Qed.

Section Json.
Variable json_ok : bytes -> bool.
Notation ustep := (ustep json_ok).
Notation urun := (urun json_ok).
Notation ulog := (ulog json_ok).
Notation ustate := (ustate json_ok).

Lemma uinv_frame : forall s log f s' l th, uinv s log ->
  handle_frame json_ok s f = (s', l, th) -> uinv s' (log ++ l).
Proof.
  intros s log f s' l th V H. unfold handle_frame in H.
  destruct (sdk_handle f) as [id st d|p|ty].
  - destruct (aget Z.eqb (Z.of_N id) (u_pend s)) as [p|] eqn:Eg.
    + pose proof (aget_In Z.eqb Z.eqb_eq _ _ _ Eg) as Hin.
      pose proof (v_pend s log V _ _ Hin) as (Hno & a0 & b0 & Elog & Hq0).
      set (k := Z.of_N id) in *.
      assert (Hkeep : forall id' p', In (id', p') (adel Z.eqb k (u_pend s)) ->
                In (id', p') (u_pend s) /\ id' <> k /\ p_call p' <> p_call p).
      { intros id' p' H'. apply (adel_In Z.eqb Z.eqb_eq) in H'. destruct H' as [H1 H2].
        split; [exact H1|]. split; [exact H2|]. intro E.
        pose proof (pcall_inj s log _ _ _ _ V H1 Hin E) as E'. congruence. }
      assert (Hgone : forall id' p', In (id', p') (u_pend s) ->
                 (id', p') = (k, p) \/ In (id', p') (adel Z.eqb k (u_pend s))).
      { intros id' p' H'. destruct (Z.eq_dec id' k) as [->|Hne].
        - left. pose proof (In_aget Z.eqb Z.eqb_eq _ _ _ (v_keys s log V) H') as E. congruence.
        - right. apply (adel_In Z.eqb Z.eqb_eq). auto. }
      destruct (settle_of st d) as [o|] eqn:Eo; injection H as <- <- <-.
      * apply (uinv_app s log); cbn [with_pend u_pend u_up u_sock u_loop u_calls]; auto.
        -- apply (NoDup_adel Z.eqb Z.eqb_eq). apply (v_keys s log V).
        -- apply pcalls_adel. apply (v_calls s log V).
        -- apply (v_open s log V).
        -- intros _. apply (v_pendup s log V). intro E. rewrite E in Hin. exact Hin.
        -- apply (v_dial s log V).
        -- intros id' p' H'. destruct (Hkeep id' p' H') as (H1 & H2 & H3). split.
           ++ cbn. intuition congruence.
           ++ left. split; [exact H1|]. constructor; [cbn; congruence|]. constructor; [cbn; congruence|constructor].
        -- cbn. intros n [<-|[]]. split; [eapply pend_lt; eauto|exact Hno].
        -- cbn. constructor; [cbn; tauto|constructor].
        -- intros n id0 t m [H|[H|[]]]; discriminate.
        -- intros a n o' b H. destruct a as [|x a]; cbn in H; [discriminate|]. injection H as <- H.
           apply single_split in H. destruct H as (-> & H & _). injection H as -> ->.
           unfold settle_of in Eo. destruct (st =? STATUS_ERR) eqn:Es.
           ++ destruct (sdk_string d) as [[m rest]|] eqn:Ed; [|discriminate]. injection Eo as <-.
              apply N.eqb_eq in Es. subst st. cbn [justified].
              exists a0, k, (p_at p), (p_tmo p), b0, d, rest. rewrite Elog.
              split; [rewrite <- app_assoc; reflexivity|]. split; [exact Hq0|exact Ed].
           ++ injection Eo as <-. apply N.eqb_neq in Es. cbn [justified]. split; [exact Es|].
              exists a0, k, (p_at p), (p_tmo p), b0. rewrite Elog.
              split; [rewrite <- app_assoc; reflexivity|exact Hq0].
        -- intros id' p' H'. destruct (Hgone id' p' H') as [E|H2]; [|tauto].
           injection E as -> ->. left. cbn. auto.
        -- intros a n id0 t m b H. destruct a as [|x a]; cbn in H; [discriminate|]. injection H as _ H.
           apply single_split in H. destruct H as (_ & H & _). discriminate.
      * apply (uinv_app s log); cbn [with_pend u_pend u_up u_sock u_loop u_calls]; auto.
        -- apply (NoDup_adel Z.eqb Z.eqb_eq). apply (v_keys s log V).
        -- apply pcalls_adel. apply (v_calls s log V).
        -- apply (v_open s log V).
        -- intros _. apply (v_pendup s log V). intro E. rewrite E in Hin. exact Hin.
        -- apply (v_dial s log V).
        -- intros id' p' H'. destruct (Hkeep id' p' H') as (H1 & H2 & H3). split; [cbn; tauto|].
           left. split; [exact H1|]. constructor; [cbn; congruence|constructor].
        -- cbn. tauto.
        -- cbn. constructor.
        -- intros n id0 t m [H|[]]; discriminate.
        -- intros a n o' b H. apply single_split in H. destruct H as (_ & H & _). discriminate.
        -- intros id' p' H'. destruct (Hgone id' p' H') as [E|H2]; [|tauto].
           injection E as -> ->. right; right; right; left. exists d.
           unfold settle_of in Eo. destruct (st =? STATUS_ERR) eqn:Es; [|discriminate].
           apply N.eqb_eq in Es. subst st. destruct (sdk_string d) as [[? ?]|]; [discriminate|].
           split; [left; reflexivity|reflexivity].
        -- intros a n id0 t m b H. apply single_split in H. destruct H as (_ & H & _). discriminate.
    + injection H as <- <- <-. apply (uinv_plain s log s); auto; try apply V.
      cbn. apply (aget_None_notin Z.eqb Z.eqb_eq). exact Eg.
  - destruct (push_value json_ok p) as [[t [ty d]]|].
    + injection H as <- <- <-. apply (uinv_plain s log s); auto; try apply V. exact I.
    + injection H as <- <- <-. rewrite app_nil_r. exact V.
  - injection H as <- <- <-. rewrite app_nil_r. exact V.
Qed.

Lemma uinv_process : forall fuel s log s' l, uinv s log ->
  process json_ok fuel s = (s', l) -> uinv s' (log ++ l).
Proof.
  induction fuel as [|fuel IH]; intros s log s' l V H; cbn [process] in H.
  - injection H as <- <-. rewrite app_nil_r. exact V.
  - destruct (sdk_split (u_buf s)) as [| |f rest] eqn:Es;
      try (injection H as <- <-; rewrite app_nil_r; exact V).
    destruct (handle_frame json_ok (with_buf s rest) f) as [[s1 l1] th] eqn:Ef.
    pose proof (uinv_frame _ log _ _ _ _ (uinv_buf s log rest V) Ef) as V1.
    destruct th.
    + injection H as <- <-. rewrite app_assoc. apply (uinv_plain s1 _ s1); auto; try apply V1. exact I.
    + destruct (process json_ok fuel s1) as [s2 l2] eqn:Ep. injection H as <- <-.
      rewrite app_assoc. eapply IH; eauto.
Qed.

Lemma settled_map : forall (o : preq -> outcome) (m : list (Z * preq)),
  settled (map (fun kp => ESettled (p_call (snd kp)) (o (snd kp))) m) =
  map (fun kp => p_call (snd kp)) m.
Proof. intros o m. induction m as [|x m IH]; [reflexivity|]. cbn. f_equal. exact IH. Qed.

Lemma NoDup_map_filter : forall {A B} (f : A -> B) g l, NoDup (map f l) -> NoDup (map f (filter g l)).
Proof.
  intros A B f g l. induction l as [|x l IH]; cbn; intro H; [constructor|].
  inversion H; subst. destruct (g x); cbn; [|auto]. constructor; auto.
  intro Hin. apply H2. apply in_map_iff in Hin. destruct Hin as (y & E & Hy). apply filter_In in Hy.
  apply in_map_iff. exists y. tauto.
Qed.

(** a whole batch of pending requests rejected after one event [e] *)
Lemma map_settled_split : forall (o : preq -> outcome) (m : list (Z * preq)) a n o' b,
  map (fun kp => ESettled (p_call (snd kp)) (o (snd kp))) m = a ++ ESettled n o' :: b ->
  exists id p m1, In (id, p) m /\ n = p_call p /\ o' = o p /\
    a = map (fun kp : Z * preq => ESettled (p_call (snd kp)) (o (snd kp))) m1.
Proof.
  intros o m. induction m as [|[id p] m IH]; intros a n o' b H; cbn in H; [destruct a; discriminate|].
  destruct a as [|x a]; cbn in H.
  - injection H as <- <- _. exists id, p, []. cbn. auto.
  - injection H as <- H. destruct (IH _ _ _ _ H) as (id1 & p1 & m1 & H1 & -> & -> & ->).
    exists id1, p1, ((id, p) :: m1). cbn. auto.
Qed.

(** the socket is lost: every pending request is rejected *)
Lemma uinv_lost : forall s log s', uinv s log -> u_pend s' = [] -> u_calls s' = u_calls s ->
  (u_up s' = true <-> u_sock s' = SOpen) -> (loop_ok s') ->
  uinv s' (log ++ ELost :: reject_all s).
Proof.
  intros s log s' V Ep Ec Ho Hd.
  assert (Hset : settled (ELost :: reject_all s) = pcalls s).
  { cbn. exact (settled_map (fun _ => Closed) _). }
  apply (uinv_app s log); auto; unfold pcalls in *; rewrite ?Hset, ?Ep.
  - constructor.
  - constructor.
  - lia.
  - intros id p [].
  - intros n H. apply in_map_iff in H. destruct H as ([id p] & <- & H). rewrite Ec.
    split; [eapply pend_lt; eauto|]. apply (v_pend s log V id p H).
  - apply (v_calls s log V).
  - intros n id t m [H|H]; [discriminate|]. apply in_map_iff in H. destruct H as (x & E & _). discriminate.
  - intros a n o b H. destruct a as [|x a]; cbn in H; [discriminate|]. injection H as <- H.
    destruct (map_settled_split (fun _ => Closed) _ _ _ _ _ H) as (id & p & m1 & Hin & -> & -> & ->).
    destruct (v_pend s log V id p Hin) as (_ & a0 & b0 & Elog & Hq).
    cbn [justified]. exists a0, id, (p_at p), (p_tmo p), b0, (map (fun kp => ESettled (p_call (snd kp)) Closed) m1).
    rewrite Elog. split; [rewrite <- app_assoc; reflexivity|]. split; [exact Hq|].
    apply Forall_forall. intros e He. apply in_map_iff in He. destruct He as (y & <- & _). eauto.
  - intros id p H. left. apply in_map_iff. exists (id, p). auto.
  - intros a n id t m b H. destruct a as [|x a]; cbn in H; [discriminate|]. injection H as <- H.
    exfalso. assert (Hin : In (EAsked n id t m) (reject_all s)) by (rewrite H; apply in_or_app; right; left; reflexivity).
    apply in_map_iff in Hin. destruct Hin as (y & E & _). discriminate.
Qed.
Lemma uinv_end : forall s log s', uinv s log -> u_pend s' = [] -> u_calls s' = u_calls s ->
  (u_up s' = true <-> u_sock s' = SOpen) -> (loop_ok s') ->
  uinv s' (log ++ [EEnd]).
Proof.
  intros s log s' V Ep Ec Ho Hd.
  apply (uinv_app s log); auto; unfold pcalls in *; rewrite ?Ep.
  - constructor.
  - constructor.
  - lia.
  - intros id p [].
  - cbn; tauto.
  - constructor.
  - intros n id t m [H|[]]; discriminate.
  - intros a n o b H. apply single_split in H. destruct H as (_ & H & _). discriminate.
  - intros id p H. right; right; left. left. reflexivity.
  - intros a n id t m b H. apply single_split in H. destruct H as (_ & H & _). discriminate.
Qed.

Lemma uinv_step : forall s log o, uinv s log ->
  uinv (fst (ustep s o)) (log ++ snd (ustep s o)).
Proof.
  intros s log o V. destruct o as [now tmo bad|bad|chunk|now| | | | | ]; cbn [SdkConnModel.ustep].
  - (* send *)
    destruct (bad || negb (writable_u32 (u_next s))).
    + cbn [fst snd]. apply (uinv_app s log); cbn; auto; try apply V; try lia.
      * intros id p H. split.
        -- pose proof (pend_lt _ _ _ _ V H). cbn. lia.
        -- left. split; [exact H|]. pose proof (pend_lt _ _ _ _ V H). constructor; [cbn; lia|constructor].
      * intros n [<-|[]]. split; [lia|]. intro H. apply (v_lt s log V) in H. lia.
      * constructor; [cbn; tauto|constructor].
      * intros n id t m [H|[]]; discriminate.
      * intros a n o b H. apply single_split in H. destruct H as (-> & H & _). injection H as -> ->.
        cbn. intros id t m Hin. rewrite app_nil_r in Hin. apply (v_asklt s log V) in Hin. lia.
      * intros a n id t m b H. apply single_split in H. destruct H as (_ & H & _). discriminate.
    + destruct (u_up s) eqn:Eu.
      * cbn [fst snd]. apply (uinv_app s log); cbn [with_pend take_id u_pend u_up u_sock u_loop u_calls]; auto; try lia.
        -- apply (NoDup_aput Z.eqb Z.eqb_eq). apply (v_keys s log V).
        -- unfold pcalls, with_pend, take_id, aput; cbn [u_pend]. rewrite map_app. cbn [map].
           apply NoDup_snoc; [apply pcalls_adel, (v_calls s log V)|].
           intro H. apply in_map_iff in H. destruct H as ([id p] & E & H). cbn in E.
           apply (adel_In Z.eqb Z.eqb_eq) in H. destruct H as [H _].
           pose proof (pend_lt _ _ _ _ V H). lia.
        -- apply (v_open s log V).
        -- apply (v_dial s log V).
        -- intros id p H. unfold aput in H. apply in_app_or in H. destruct H as [H|[H|[]]].
           ++ apply (adel_In Z.eqb Z.eqb_eq) in H. destruct H as [H Hne]. split; [cbn; tauto|].
              left. split; [exact H|]. constructor; [cbn; congruence|constructor].
           ++ injection H as <- <-. split; [cbn; tauto|]. right. split; [cbn; lia|].
              exists [], []. split; [reflexivity|constructor].
        -- cbn. tauto.
        -- constructor.
        -- intros n id t m [H|[]]. injection H as <- _ _ _. lia.
        -- intros a n o b H. apply single_split in H. destruct H as (_ & H & _). discriminate.
        -- intros id p H. destruct (Z.eq_dec id (u_next s)) as [->|Hne].
           ++ right; right; right; right. exists (u_calls s), now, tmo. left. reflexivity.
           ++ right; left. unfold aput. apply in_or_app. left. apply (adel_In Z.eqb Z.eqb_eq). auto.
        -- intros a n id t m b H. apply single_split in H. destruct H as (_ & H & ->). injection H as -> -> -> ->.
           right; left. unfold aput. apply in_or_app. right. left. reflexivity.
      * assert (Ep : u_pend s = []).
        { destruct (u_pend s) eqn:E; [reflexivity|]. exfalso.
          assert (u_up s = true) by (apply (v_pendup s log V); rewrite E; discriminate). congruence. }
        cbn [fst snd]. apply (uinv_app s log); unfold pcalls, take_id; cbn [u_pend u_up u_sock u_loop u_calls]; rewrite ?Ep; auto; try apply V; try lia.
        -- constructor.
        -- constructor.
        -- intros id p [].
        -- cbn. intros n [<-|[]]. split; [lia|]. intro H. apply (v_lt s log V) in H. lia.
        -- cbn. constructor; [cbn; tauto|constructor].
        -- intros n id t m [H|[]]; discriminate.
        -- intros a n o b H. apply single_split in H. destruct H as (-> & H & _). injection H as -> ->.
           cbn. intros id t m Hin. rewrite app_nil_r in Hin. apply (v_asklt s log V) in Hin. lia.
        -- intros a n id t m b H. apply single_split in H. destruct H as (_ & H & _). discriminate.
  - (* fire and forget *)
    destruct (u_up s) eqn:Eu; cbn [fst snd].
    + destruct (bad || negb (writable_u32 (u_next s))).
      * rewrite app_nil_r. apply (uinv_quiet_step s); auto; cbn; try apply V; lia.
      * apply (uinv_plain s); auto; cbn; auto; try apply V; lia.
    + rewrite app_nil_r. exact V.
  - (* data *)
    destruct (u_sock s) eqn:Es; try (cbn [fst snd]; rewrite app_nil_r; exact V).
    destruct (process json_ok (S (length (u_buf (with_buf s (u_buf s ++ chunk)))))
                (with_buf s (u_buf s ++ chunk))) as [s' l] eqn:Ep.
    cbn [fst snd]. eapply uinv_process; [|exact Ep]. apply uinv_buf. exact V.
  - (* sweep *)
    destruct (u_sweep s); cbn [fst snd]; [|rewrite app_nil_r; exact V].
    assert (Hset : settled (ESwept now :: map (fun kp => ESettled (p_call (snd kp)) (TimedOut (p_tmo (snd kp))))
                     (filter (expired now) (u_pend s))) =
                   map (fun kp => p_call (snd kp)) (filter (expired now) (u_pend s))).
    { cbn. exact (settled_map (fun p => TimedOut (p_tmo p)) _). }
    assert (Hout : forall id p, In (id, p) (u_pend s) -> expired now (id, p) = false ->
              ~ In (p_call p) (map (fun kp : Z * preq => p_call (snd kp)) (filter (expired now) (u_pend s)))).
    { intros id p H E Hin. apply in_map_iff in Hin. destruct Hin as ([id' p'] & Ec & Hin). cbn in Ec.
      apply filter_In in Hin. destruct Hin as [Hin Ex].
      pose proof (pcall_inj s log _ _ _ _ V Hin H Ec) as E'. rewrite E' in Ex. congruence. }
    apply (uinv_app s log); cbn [with_pend u_pend u_up u_sock u_loop u_calls]; rewrite ?Hset; auto.
    + unfold akeys. apply NoDup_map_filter. apply (v_keys s log V).
    + unfold pcalls; cbn [with_pend u_pend]. apply NoDup_map_filter. apply (v_calls s log V).
    + apply (v_open s log V).
    + intro H. apply (v_pendup s log V). intro E. rewrite E in H. apply H. reflexivity.
    + apply (v_dial s log V).
    + intros id p H. apply filter_In in H. destruct H as [H Ex]. apply negb_true_iff in Ex.
      split; [apply (Hout id p H Ex)|]. left. split; [exact H|].
      constructor.
      * cbn. unfold expired in Ex. cbn [snd] in Ex. apply N.ltb_ge in Ex. exact Ex.
      * apply Forall_forall. intros e He. apply in_map_iff in He. destruct He as ([id' p'] & <- & He).
        cbn. intro E. apply (Hout id p H Ex). apply in_map_iff. exists (id', p'). split; [exact E|exact He].
    + intros n H. apply in_map_iff in H. destruct H as ([id p] & <- & H). apply filter_In in H. destruct H as [H _].
      cbn. split; [eapply pend_lt; eauto|]. apply (v_pend s log V id p H).
    + apply NoDup_map_filter. apply (v_calls s log V).
    + intros n id t m [H|H]; [discriminate|]. apply in_map_iff in H. destruct H as (x & E & _). discriminate.
    + intros a n o b H. destruct a as [|x a]; cbn in H; [discriminate|]. injection H as <- H.
      destruct (map_settled_split (fun p => TimedOut (p_tmo p)) _ _ _ _ _ H) as (id & p & m1 & Hin & -> & -> & ->).
      apply filter_In in Hin. destruct Hin as [Hin Ex].
      destruct (v_pend s log V id p Hin) as (_ & a0 & b0 & Elog & Hq).
      unfold expired in Ex. cbn [snd] in Ex. apply N.ltb_lt in Ex.
      cbn [justified]. exists a0, id, (p_at p), b0, now, (map (fun kp => ESettled (p_call (snd kp)) (TimedOut (p_tmo (snd kp)))) m1).
      rewrite Elog. split; [rewrite <- app_assoc; reflexivity|]. split; [exact Hq|]. split; [exact Ex|].
      apply Forall_forall. intros e He. apply in_map_iff in He. destruct He as (y & <- & _). eauto.
    + intros id p H. destruct (expired now (id, p)) eqn:Ex.
      * left. apply in_map_iff. exists (id, p). split; [reflexivity|]. apply filter_In. auto.
      * right; left. apply filter_In. rewrite Ex. auto.
    + intros a n id t m b H. destruct a as [|x a]; cbn in H; [discriminate|]. injection H as <- H.
      exfalso. assert (Hin : In (EAsked n id t m) (map (fun kp => ESettled (p_call (snd kp)) (TimedOut (p_tmo (snd kp))))
                 (filter (expired now) (u_pend s)))) by (rewrite H; apply in_or_app; right; left; reflexivity).
      apply in_map_iff in Hin. destruct Hin as (y & E & _). discriminate.
  - (* close *)
    destruct (u_sock s) eqn:Es; try (cbn [fst snd]; rewrite app_nil_r; exact V);
    (cbn [fst snd]; apply uinv_lost; cbn; auto; try (split; congruence);
     pose proof (v_dial s log V) as Hl; unfold loop_ok in *; cbn; rewrite Es in Hl;
     destruct (u_should s && negb (u_recon s)); [reflexivity|]; destruct (u_loop s); congruence).
  - (* the sleep of the reconnect loop ends *)
    pose proof (v_dial s log V) as Hl. unfold loop_ok in Hl.
    destruct (u_loop s) eqn:El; try (cbn [fst snd]; rewrite app_nil_r; exact V).
    cbn [fst snd]. rewrite app_nil_r.
    assert (Hup : u_up s = false).
    { destruct (u_up s) eqn:E; [|reflexivity]. apply (v_open s log V) in E. congruence. }
    apply (uinv_quiet_step s); cbn; auto; try (split; congruence).
  - destruct (u_loop s) eqn:El; try (cbn [fst snd]; rewrite app_nil_r; exact V).
    destruct (u_sock s) eqn:Es; try (cbn [fst snd]; rewrite app_nil_r; exact V).
    cbn [fst snd]. apply (uinv_plain s); cbn; auto; try (split; congruence).
    unfold loop_ok. cbn. discriminate.
  - destruct (u_loop s) eqn:El; try (cbn [fst snd]; rewrite app_nil_r; exact V).
    destruct (u_sock s) eqn:Es; try (cbn [fst snd]; rewrite app_nil_r; exact V).
    cbn [fst snd]. apply uinv_lost; cbn; auto; try (split; congruence).
    unfold loop_ok. cbn. destruct (u_should s); [reflexivity|discriminate].
  - cbn [fst snd]. apply (uinv_end s); cbn; auto.
    + destruct (u_sock s); split; discriminate.
    + pose proof (v_dial s log V) as Hl. unfold loop_ok in *. cbn.
      destruct (u_loop s); [|rewrite Hl; reflexivity|]; destruct (u_sock s); discriminate.
Qed.

Lemma urun_snoc : forall xs o,
  urun (xs ++ [o]) = (fst (ustep (ustate xs) o), ulog xs ++ snd (ustep (ustate xs) o)).
Proof.
  intros xs o. unfold SdkConnModel.ustate, SdkConnModel.ulog, SdkConnModel.urun.
  rewrite fold_left_app. cbn [fold_left].
  generalize (fold_left (uexec json_ok) xs (cli0, [])). intro sl. unfold uexec.
  destruct (ustep (fst sl) o) as [s' l]. reflexivity.
Qed.
Lemma ustate_snoc : forall xs o, ustate (xs ++ [o]) = fst (ustep (ustate xs) o).
Proof. intros. unfold SdkConnModel.ustate at 1. rewrite urun_snoc. reflexivity. Qed.
Lemma ulog_snoc : forall xs o, ulog (xs ++ [o]) = ulog xs ++ snd (ustep (ustate xs) o).
Proof. intros. unfold SdkConnModel.ulog at 1. rewrite urun_snoc. reflexivity. Qed.
Lemma uinv_run : forall xs, uinv (ustate xs) (ulog xs).
Proof.
  induction xs as [|o xs IH] using rev_ind; [exact uinv0|].
  rewrite ustate_snoc, ulog_snoc. apply uinv_step. exact IH.
Qed.
Lemma ulog_prefix : forall xs ys, exists l, ulog (xs ++ ys) = ulog xs ++ l.
Proof.
  intros xs ys. induction ys as [|o ys IH] using rev_ind.
  - exists []. rewrite !app_nil_r. reflexivity.
  - destruct IH as (l & E). rewrite app_assoc, ulog_snoc, E.
    eexists. rewrite <- app_assoc. reflexivity.
Qed.

(** ids *)
Lemma frame_fixed : forall s f s' l th, handle_frame json_ok s f = (s', l, th) ->
  wrote l = [] /\ u_next s' = u_next s /\ u_calls s' = u_calls s /\ ~ In EEnd l /\ ~ In ELost l /\
  u_sweep s' = u_sweep s /\ u_up s' = u_up s /\ u_loop s' = u_loop s /\ u_should s' = u_should s /\
  u_recon s' = u_recon s /\ u_sock s' = u_sock s.
Proof.
  intros s f s' l th H. unfold handle_frame in H.
  destruct (sdk_handle f) as [id st d|p|ty].
  - destruct (aget Z.eqb (Z.of_N id) (u_pend s)) as [p|].
    + destruct (settle_of st d); injection H as <- <- <-; repeat split; auto; cbn; intuition discriminate.
    + injection H as <- <- <-; repeat split; auto; cbn; intuition discriminate.
  - destruct (push_value json_ok p) as [[t [ty d]]|]; injection H as <- <- <-; repeat split; auto; cbn; intuition discriminate.
  - injection H as <- <- <-; repeat split; auto; cbn; intuition discriminate.
Qed.
Lemma process_fixed : forall fuel s s' l, process json_ok fuel s = (s', l) ->
  wrote l = [] /\ u_next s' = u_next s /\ u_calls s' = u_calls s /\ ~ In EEnd l /\ ~ In ELost l /\
  u_sweep s' = u_sweep s /\ u_up s' = u_up s /\ u_loop s' = u_loop s /\ u_should s' = u_should s /\
  u_recon s' = u_recon s /\ u_sock s' = u_sock s.
Proof.
  induction fuel as [|fuel IH]; intros s s' l H; cbn [process] in H.
  - injection H as <- <-. cbn. tauto.
  - destruct (sdk_split (u_buf s)) as [| |f rest] eqn:Es; try (injection H as <- <-; cbn; tauto).
    destruct (handle_frame json_ok (with_buf s rest) f) as [[s1 l1] th] eqn:Ef.
    apply frame_fixed in Ef. cbn [with_buf u_next u_calls u_sweep u_up u_loop u_should u_recon u_sock] in Ef.
    destruct th.
    + injection H as <- <-. rewrite wrote_app. destruct Ef as (-> & Ef). cbn [wrote flat_map app].
      rewrite !in_app_iff. cbn. intuition congruence.
    + destruct (process json_ok fuel s1) as [s2 l2] eqn:Ep. injection H as <- <-.
      apply IH in Ep. rewrite wrote_app, !in_app_iff. destruct Ef as (-> & Ef). cbn [app]. intuition congruence.
Qed.

(** the ids written are those of an increasing choice of request numbers *)
Definition ids_ok (s : cli) (log : list ev) (k : nat) : Prop :=
  exists j, (j <= k)%nat /\ u_next s = request_id j /\
  exists js, wrote log = map request_id js /\ NoDup js /\ (forall i, In i js -> (i < j)%nat).
Lemma wrote_map_settled : forall (o : preq -> outcome) (m : list (Z * preq)),
  wrote (map (fun kp => ESettled (p_call (snd kp)) (o (snd kp))) m) = [].
Proof. intros o m. induction m; [reflexivity|exact IHm]. Qed.
Lemma ids_run : forall xs, ids_ok (ustate xs) (ulog xs) (length (filter makes_packet xs)).
Proof.
  induction xs as [|o xs IH] using rev_ind.
  - exists 0%nat. split; [lia|]. split; [reflexivity|]. exists []. split; [reflexivity|]. split; [constructor|intros i []].
  - rewrite ustate_snoc, ulog_snoc, filter_app, app_length.
    destruct IH as (j & Hj & Hn & js & Hw & Hnd & Hlt).
    assert (Hstay : forall s' l m, wrote l = [] -> u_next s' = u_next (ustate xs) -> ids_ok s' (ulog xs ++ l) (length (filter makes_packet xs) + m)).
    { intros s' l m Hl Hs. exists j. split; [lia|]. split; [congruence|]. exists js. rewrite wrote_app, Hl, app_nil_r. auto. }
    assert (Hskip : forall s' l, wrote l = [] -> u_next s' = next_id (u_next (ustate xs)) -> ids_ok s' (ulog xs ++ l) (length (filter makes_packet xs) + 1)).
    { intros s' l Hl Hs. exists (S j). split; [lia|]. split; [cbn; congruence|]. exists js. rewrite wrote_app, Hl, app_nil_r.
      split; [exact Hw|]. split; [exact Hnd|]. intros i Hi. specialize (Hlt i Hi). lia. }
    assert (Hnew : forall s' l, wrote l = [u_next (ustate xs)] -> u_next s' = next_id (u_next (ustate xs)) -> ids_ok s' (ulog xs ++ l) (length (filter makes_packet xs) + 1)).
    { intros s' l Hl Hs. exists (S j). split; [lia|]. split; [cbn; congruence|]. exists (js ++ [j]).
      rewrite wrote_app, Hl, Hw, map_app, Hn. split; [reflexivity|]. split.
      - apply NoDup_snoc; [exact Hnd|]. intro H. apply Hlt in H. lia.
      - intros i Hi. apply in_app_or in Hi. destruct Hi as [Hi|[<-|[]]]; [|lia]. specialize (Hlt i Hi). lia. }
    destruct o as [now tmo bad|bad|chunk|now| | | | | ]; cbn [SdkConnModel.ustep filter makes_packet length].
    + destruct (bad || negb (writable_u32 (u_next (ustate xs)))); cbn [fst snd].
      * apply Hskip; reflexivity.
      * destruct (u_up (ustate xs)); cbn [fst snd]; [apply Hnew|apply Hskip]; reflexivity.
    + destruct (u_up (ustate xs)); cbn [fst snd]; [|apply Hstay; reflexivity].
      destruct (bad || negb (writable_u32 (u_next (ustate xs)))); [apply Hskip|apply Hnew]; reflexivity.
    + destruct (u_sock (ustate xs)); try (apply Hstay; reflexivity).
      match goal with |- context [process ?a ?b ?c] => destruct (process a b c) as [s' l] eqn:Ep end.
      apply process_fixed in Ep. cbn [fst snd]. apply Hstay; [tauto|]. destruct Ep as (_ & -> & _). reflexivity.
    + destruct (u_sweep (ustate xs)); cbn [fst snd]; apply Hstay; try reflexivity.
      cbn. exact (wrote_map_settled (fun p => TimedOut (p_tmo p)) _).
    + destruct (u_sock (ustate xs)); cbn [fst snd]; apply Hstay; try reflexivity;
      cbn; exact (wrote_map_settled (fun _ => Closed) _).
    + destruct (u_loop (ustate xs)); cbn [fst snd]; apply Hstay; reflexivity.
    + destruct (u_loop (ustate xs)), (u_sock (ustate xs)); cbn [fst snd]; apply Hstay; reflexivity.
    + destruct (u_loop (ustate xs)), (u_sock (ustate xs)); cbn [fst snd]; apply Hstay; try reflexivity.
      cbn. exact (wrote_map_settled (fun _ => Closed) _).
    + cbn [fst snd]; apply Hstay; reflexivity.
Qed.
Lemma ids_differ : forall xs, (Z.of_nat (length (filter makes_packet xs)) < 2 ^ 32 - 1)%Z ->
  NoDup (wrote (ulog xs)).
Proof.
  intros xs Hk. destruct (ids_run xs) as (j & Hj & _ & js & -> & Hnd & Hlt).
  clear -Hk Hj Hnd Hlt. set (k := length (filter makes_packet xs)) in *. clearbody k.
  induction js as [|i js IH]; [constructor|]. inversion Hnd; subst. cbn [map]. constructor.
  - intro H. apply in_map_iff in H. destruct H as (i' & E & Hi').
    assert (i' = i); [|congruence]. apply request_id_unique; [|exact E].
    pose proof (Hlt i (or_introl eq_refl)). pose proof (Hlt i' (or_intror Hi')). lia.
  - apply IH; [assumption|]. intros i' Hi'. apply Hlt. right; exact Hi'.
Qed.

(** numbering of the requests *)
Definition asked (log : list ev) : list nat :=
  flat_map (fun e => match e with EAsked n _ _ _ => [n] | _ => [] end) log.
Lemma asked_app : forall a b, asked (a ++ b) = asked a ++ asked b.
Proof. intros; unfold asked; apply flat_map_app. Qed.
Lemma asked_wrote : forall l, wrote l = [] -> asked l = [].
Proof.
  induction l as [|e l IH]; [reflexivity|]. cbn. destruct e; cbn; try discriminate; exact IH.
Qed.
Lemma in_asked : forall n id t m l, In (EAsked n id t m) l -> In n (asked l).
Proof. intros. unfold asked. apply in_flat_map. exists (EAsked n id t m). cbn. auto. Qed.
Lemma in_wrote : forall n id t m l, In (EAsked n id t m) l -> In id (wrote l).
Proof. intros. unfold wrote. apply in_flat_map. exists (EAsked n id t m). cbn. auto. Qed.

Definition no_end (xs : list cliop) : Prop := ~ In UDisconnect xs.
Definition numbered (s : cli) (log : list ev) (xs : list cliop) : Prop :=
  u_calls s = length (filter is_send xs) /\
  NoDup (asked log) /\ (forall n, In n (asked log) -> (n < u_calls s)%nat) /\
  (forall n, (n < u_calls s)%nat -> In n (settled log) \/ In n (asked log)) /\
  (forall n id t m, In (EAsked n id t m) log -> In (USend t m false) xs) /\
  (no_end xs -> ~ In EEnd log /\ u_sweep s = true).
Lemma numbered_same : forall s log xs s' l o, numbered s log xs ->
  u_calls s' = u_calls s -> is_send o = false -> asked l = [] ->
  (o <> UDisconnect -> ~ In EEnd l /\ u_sweep s' = u_sweep s) ->
  numbered s' (log ++ l) (xs ++ [o]).
Proof.
  intros s log xs s' l o (H1 & H2 & H3 & H4 & H5 & H6) Hc Ho Ha He.
  unfold numbered. rewrite Hc, filter_app, app_length, asked_app, settled_app, Ha, app_nil_r. cbn [filter].
  rewrite Ho. cbn [length]. split; [lia|]. split; [exact H2|]. split; [exact H3|]. split; [|split].
  - intros n Hn. rewrite in_app_iff. destruct (H4 n Hn); tauto.
  - intros n id t m H. apply in_app_or in H. destruct H as [H|H].
    + apply in_or_app. left. eapply H5; eauto.
    + apply in_asked in H. rewrite Ha in H. destruct H.
  - intro Hn. assert (Hx : no_end xs) by (intro H; apply Hn; apply in_or_app; tauto).
    assert (Hoo : o <> UDisconnect) by (intro H; apply Hn; apply in_or_app; right; left; exact H).
    destruct (H6 Hx) as [Ha1 Ha2]. destruct (He Hoo) as [Hb1 Hb2]. split; [|congruence].
    rewrite in_app_iff. tauto.
Qed.
Lemma numbered_send : forall s log xs s' e now tmo bad, numbered s log xs ->
  u_calls s' = S (u_calls s) -> u_sweep s' = u_sweep s ->
  (e = EAsked (u_calls s) (u_next s) now tmo /\ bad = false \/ exists o, e = ESettled (u_calls s) o) ->
  numbered s' (log ++ [e]) (xs ++ [USend now tmo bad]).
Proof.
  intros s log xs s' e now tmo bad (H1 & H2 & H3 & H4 & H5 & H6) Hc Hs He.
  unfold numbered. rewrite Hc, filter_app, app_length, asked_app, settled_app. cbn [filter is_send length].
  split; [lia|].
  assert (Hend : no_end (xs ++ [USend now tmo bad]) -> ~ In EEnd (log ++ [e]) /\ u_sweep s' = true).
  { intro Hn. assert (Hx : no_end xs) by (intro H; apply Hn; apply in_or_app; tauto).
    destruct (H6 Hx) as [Ha1 Ha2]. split; [|congruence]. rewrite in_app_iff. intros [H|[H|[]]]; [tauto|].
    subst e. destruct He as [[He _]|[o He]]; discriminate. }
  destruct He as [[-> ->]|[o ->]]; cbn [asked settled flat_map app].
  - split; [apply NoDup_snoc; [exact H2|]; intro H; apply H3 in H; lia|].
    split; [intros n H; apply in_app_or in H; destruct H as [H|[<-|[]]]; [apply H3 in H|]; lia|].
    split; [|split; [|exact Hend]].
    + intros n Hn. rewrite !in_app_iff. destruct (Nat.eq_dec n (u_calls s)) as [->|Hne]; [right; right; left; reflexivity|].
      destruct (H4 n ltac:(lia)); tauto.
    + intros n id t m H. apply in_or_app. apply in_app_or in H. destruct H as [H|[H|[]]]; [left; eapply H5; eauto|].
      injection H as _ _ <- <-. right. left. reflexivity.
  - rewrite app_nil_r. split; [exact H2|]. split; [intros n H; apply H3 in H; lia|].
    split; [|split; [|exact Hend]].
    + intros n Hn. rewrite !in_app_iff. destruct (Nat.eq_dec n (u_calls s)) as [->|Hne]; [left; right; left; reflexivity|].
      destruct (H4 n ltac:(lia)); tauto.
    + intros n id t m H. apply in_or_app. apply in_app_or in H. destruct H as [H|[H|[]]]; [left; eapply H5; eauto|discriminate].
Qed.
Lemma no_end_settles : forall (o : preq -> outcome) (m : list (Z * preq)),
  ~ In EEnd (map (fun kp => ESettled (p_call (snd kp)) (o (snd kp))) m).
Proof. intros o m H. apply in_map_iff in H. destruct H as (x & E & _). discriminate. Qed.
Lemma numbered_run : forall xs, numbered (ustate xs) (ulog xs) xs.
Proof.
  induction xs as [|o xs IH] using rev_ind.
  - unfold numbered; cbn. split; [reflexivity|]. split; [constructor|]. split; [intros n []|].
    split; [intros n H; lia|]. split; [intros n id t m []|]. intros _. split; [intros []|reflexivity].
  - rewrite ustate_snoc, ulog_snoc.
    destruct o as [now tmo bad|bad|chunk|now| | | | | ]; cbn [SdkConnModel.ustep].
    + destruct bad; cbn [orb].
      * cbn [fst snd]. apply (numbered_send (ustate xs)); cbn; auto; [lia|]. right. eauto.
      * destruct (negb (writable_u32 (u_next (ustate xs)))); cbn [fst snd].
        -- apply (numbered_send (ustate xs)); cbn; auto; [lia|]. right. eauto.
        -- destruct (u_up (ustate xs)); cbn [fst snd]; apply (numbered_send (ustate xs)); cbn; auto; try lia. right. eauto.
    + destruct (u_up (ustate xs)); cbn [fst snd]; apply (numbered_same (ustate xs)); cbn; auto; try lia; try tauto.
      * destruct (bad || negb (writable_u32 (u_next (ustate xs)))); reflexivity.
      * intros _. split; [|reflexivity]. destruct (bad || negb (writable_u32 (u_next (ustate xs)))); cbn; intuition discriminate.
    + destruct (u_sock (ustate xs)); try (cbn [fst snd]; apply (numbered_same (ustate xs)); cbn; auto; tauto).
      match goal with |- context [process ?a ?b ?c] => destruct (process a b c) as [s' l] eqn:Ep end.
      apply process_fixed in Ep. cbn [fst snd with_buf u_calls u_sweep] in *.
      destruct Ep as (E1 & _ & E2 & E3 & _ & E4 & _).
      apply (numbered_same (ustate xs)); auto. apply asked_wrote. exact E1.
    + destruct (u_sweep (ustate xs)) eqn:Esw; cbn [fst snd]; apply (numbered_same (ustate xs)); cbn; auto; try tauto.
      * apply asked_wrote. exact (wrote_map_settled (fun p => TimedOut (p_tmo p)) _).
      * intros _. split; [|congruence]. intros [H|H]; [discriminate|].
        exact (no_end_settles (fun p => TimedOut (p_tmo p)) _ H).
    + destruct (u_sock (ustate xs)); cbn [fst snd]; apply (numbered_same (ustate xs)); cbn; auto; try tauto;
      first [apply asked_wrote; exact (wrote_map_settled (fun _ => Closed) _)
            |intros _; split; [|congruence]; intros [H|H]; [discriminate|];
             exact (no_end_settles (fun _ => Closed) _ H)].
    + destruct (u_loop (ustate xs)); cbn [fst snd]; apply (numbered_same (ustate xs)); cbn; auto; tauto.
    + destruct (u_loop (ustate xs)), (u_sock (ustate xs)); cbn [fst snd]; apply (numbered_same (ustate xs)); cbn; auto; try tauto.
      intros _. split; [|reflexivity]. intuition discriminate.
    + destruct (u_loop (ustate xs)), (u_sock (ustate xs)); cbn [fst snd]; apply (numbered_same (ustate xs)); cbn; auto; try tauto.
      * apply asked_wrote. exact (wrote_map_settled (fun _ => Closed) _).
      * intros _. split; [|congruence]. intros [H|H]; [discriminate|].
        exact (no_end_settles (fun _ => Closed) _ H).
    + cbn [fst snd]. apply (numbered_same (ustate xs)); cbn; auto. congruence.
Qed.

(** C84 *)
Lemma at_most_once : forall xs, NoDup (settled (ulog xs)) /\
  forall n, In n (settled (ulog xs)) -> (n < length (filter is_send xs))%nat.
Proof.
  intro xs. pose proof (uinv_run xs) as V. split; [apply (v_once _ _ V)|].
  intros n H. apply (v_lt _ _ V) in H. destruct (numbered_run xs) as (E & _). lia.
Qed.
Lemma all_justified : forall xs a n o b, ulog xs = a ++ ESettled n o :: b -> justified a n o.
Proof. intros xs a n o b H. eapply (v_why _ _ (uinv_run xs)); exact H. Qed.

Lemma split_unique : forall n id t m n' t' m' (a b a' b' : list ev),
  NoDup (wrote (a ++ EAsked n id t m :: b)) ->
  a ++ EAsked n id t m :: b = a' ++ EAsked n' id t' m' :: b' -> a = a' /\ b = b'.
Proof.
  intros n id t m n' t' m' a. induction a as [|e a IH]; intros b a' b' Hnd H.
  - destruct a' as [|e' a']; cbn in H; [injection H as _ _ _ ->; auto|].
    injection H as <- H. exfalso. cbn in Hnd. inversion Hnd as [|? ? Hx _]. apply Hx.
    eapply in_wrote. rewrite H. apply in_or_app. right. left. reflexivity.
  - destruct a' as [|e' a']; cbn in H.
    + injection H as -> H. exfalso. cbn in Hnd. inversion Hnd as [|? ? Hx _]. apply Hx.
      eapply in_wrote. apply in_or_app. right. left. reflexivity.
    + injection H as -> H. assert (Hnd' : NoDup (wrote (a ++ EAsked n id t m :: b))).
      { destruct e'; cbn in Hnd; try exact Hnd; inversion Hnd; assumption. }
      destruct (IH _ _ _ Hnd' H) as [-> ->]. auto.
Qed.


Lemma unsettled_waits : forall xs a n id now tmo b,
  (Z.of_nat (length (filter makes_packet xs)) < 2 ^ 32 - 1)%Z -> readable_errors (ulog xs) ->
  ulog xs = a ++ EAsked n id now tmo :: b ->
  In n (settled b) \/ In EEnd b \/ waits n id (now + tmo) b.
Proof.
  intros xs a n id now tmo b Hk Hr E. pose proof (ids_differ xs Hk) as Hnd.
  pose proof (uinv_run xs) as V.
  destruct (v_asks _ _ V _ _ _ _ _ _ E) as [H|[H|[H|[(d & H & Hd)|(n' & t' & m' & H)]]]]; auto.
  - right; right. destruct (v_pend _ _ V _ _ H) as (_ & a' & b' & E' & Hw). cbn in E', Hw.
    rewrite E in Hnd, E'. apply split_unique in E'; [|exact Hnd]. destruct E' as [_ ->]. exact Hw.
  - exfalso. apply (Hr id d); [|exact Hd]. rewrite E. apply in_or_app. right. right. exact H.
  - exfalso. rewrite E, wrote_app in Hnd. apply NoDup_remove_2 in Hnd. apply Hnd.
    apply in_or_app. right. eapply in_wrote; exact H.
Qed.

Lemma nothing_pending : forall xs, no_end xs ->
  (Z.of_nat (length (filter makes_packet xs)) < 2 ^ 32 - 1)%Z -> readable_errors (ulog xs) ->
  forall n, (n < length (filter is_send xs))%nat ->
  In n (settled (ulog xs)) \/ exists id t m, In (id, mkPreq n t m) (u_pend (ustate xs)).
Proof.
  intros xs Hend Hk Hr n Hn. destruct (numbered_run xs) as (E & _ & _ & H4 & _ & H6).
  destruct (H6 Hend) as [Hne _]. rewrite <- E in Hn. destruct (H4 n Hn) as [H|H]; [tauto|].
  unfold asked in H. apply in_flat_map in H. destruct H as (e & He & Hn').
  destruct e as [n' id t m| | | | | | | | | ]; cbn in Hn'; try tauto. destruct Hn' as [->|[]].
  apply in_split in He. destruct He as (a & b & El).
  pose proof (ids_differ xs Hk) as Hnd.
  destruct (v_asks _ _ (uinv_run xs) _ _ _ _ _ _ El) as [H|[H|[H|[(d & H & Hd)|(n' & t' & m' & H)]]]].
  - left. rewrite El, settled_app, in_app_iff. right. exact H.
  - right. eauto.
  - exfalso. apply Hne. rewrite El. apply in_or_app. right. right. exact H.
  - exfalso. apply (Hr id d); [|exact Hd]. rewrite El. apply in_or_app. right. right. exact H.
  - exfalso. rewrite El, wrote_app in Hnd. apply NoDup_remove_2 in Hnd. apply Hnd.
    apply in_or_app. right. eapply in_wrote; exact H.
Qed.
Lemma length_filter_snoc : forall (f : cliop -> bool) xs o, f o = false ->
  length (filter f (xs ++ [o])) = length (filter f xs).
Proof. intros f xs o H. rewrite filter_app. cbn. rewrite H, app_nil_r. reflexivity. Qed.

Lemma swept_all : forall xs t, no_end xs ->
  (Z.of_nat (length (filter makes_packet xs)) < 2 ^ 32 - 1)%Z -> readable_errors (ulog xs) ->
  (forall now tmo bad, In (USend now tmo bad) xs -> now + tmo < t) ->
  forall n, (n < length (filter is_send xs))%nat -> In n (settled (ulog (xs ++ [USweep t]))).
Proof.
  intros xs t Hend Hk Hr Ht n Hn. destruct (nothing_pending xs Hend Hk Hr n Hn) as [H|(id & t0 & m & H)].
  - rewrite ulog_snoc, settled_app, in_app_iff. tauto.
  - destruct (numbered_run xs) as (_ & _ & _ & _ & H5 & H6). destruct (H6 Hend) as [_ Hs].
    rewrite ulog_snoc, settled_app, in_app_iff. right. cbn [SdkConnModel.ustep]. rewrite Hs. cbn [snd settled flat_map app].
    destruct (v_pend _ _ (uinv_run xs) _ _ H) as (_ & a & b & E & _). cbn in E.
    assert (Hin : In (EAsked n id t0 m) (ulog xs)) by (rewrite E; apply in_or_app; right; left; reflexivity).
    apply H5, Ht in Hin.
    apply in_settled. exists (TimedOut m). apply in_map_iff. exists (id, mkPreq n t0 m). split; [reflexivity|].
    apply filter_In. split; [exact H|]. unfold expired, p_deadline. cbn. apply N.ltb_lt. exact Hin.
Qed.
Lemma closed_all : forall xs, no_end xs ->
  (Z.of_nat (length (filter makes_packet xs)) < 2 ^ 32 - 1)%Z -> readable_errors (ulog xs) ->
  forall n, (n < length (filter is_send xs))%nat -> In n (settled (ulog (xs ++ [UClose]))).
Proof.
  intros xs Hend Hk Hr n Hn. destruct (nothing_pending xs Hend Hk Hr n Hn) as [H|(id & t0 & m & H)].
  - rewrite ulog_snoc, settled_app, in_app_iff. tauto.
  - rewrite ulog_snoc, settled_app, in_app_iff. right. cbn [SdkConnModel.ustep].
    pose proof (uinv_run xs) as V.
    assert (Hu : u_up (ustate xs) = true) by (apply (v_pendup _ _ V); intro E; rewrite E in H; exact H).
    apply (v_open _ _ V) in Hu. rewrite Hu. cbn [snd settled flat_map app].
    apply in_settled. exists Closed. apply in_map_iff. exists (id, mkPreq n t0 m). auto.
Qed.

(** a settlement or a pending entry of a step belongs to an entry pending before,
    or to the call being made *)
Definition from_old (s s' : cli) (l : list ev) : Prop :=
  forall n, (n < u_calls s)%nat -> ~ In n (pcalls s) -> ~ In n (settled l) /\ ~ In n (pcalls s').
Lemma pcalls_adel_in : forall k m n, In n (map (fun kp : Z * preq => p_call (snd kp)) (adel Z.eqb k m)) ->
  In n (map (fun kp : Z * preq => p_call (snd kp)) m).
Proof.
  intros k m n H. apply in_map_iff in H. destruct H as ([k' p] & <- & H). apply (adel_In Z.eqb Z.eqb_eq) in H.
  apply in_map_iff. exists (k', p). tauto.
Qed.
Lemma frame_old : forall s f s' l th, handle_frame json_ok s f = (s', l, th) -> from_old s s' l.
Proof.
  intros s f s' l th H n Hn Hp. unfold handle_frame in H.
  destruct (sdk_handle f) as [id st d|p|ty].
  - destruct (aget Z.eqb (Z.of_N id) (u_pend s)) as [p|] eqn:Eg.
    + apply (aget_In Z.eqb Z.eqb_eq) in Eg.
      assert (p_call p <> n). { intros <-. apply Hp. unfold pcalls. apply in_map_iff. exists (Z.of_N id, p). auto. }
      destruct (settle_of st d); injection H as <- <- <-; cbn; split; try tauto;
        intro Hin; apply Hp; unfold pcalls in *; cbn in Hin; eapply pcalls_adel_in; exact Hin.
    + injection H as <- <- <-; cbn; tauto.
  - destruct (push_value json_ok p) as [[t [ty d]]|]; injection H as <- <- <-; cbn; tauto.
  - injection H as <- <- <-; cbn; tauto.
Qed.
Lemma process_old : forall fuel s s' l, process json_ok fuel s = (s', l) -> from_old s s' l.
Proof.
  induction fuel as [|fuel IH]; intros s s' l H n Hn Hp; cbn [process] in H.
  - injection H as <- <-. cbn. tauto.
  - destruct (sdk_split (u_buf s)) as [| |f rest] eqn:Es; try (injection H as <- <-; cbn; tauto).
    destruct (handle_frame json_ok (with_buf s rest) f) as [[s1 l1] th] eqn:Ef.
    pose proof (frame_old _ _ _ _ _ Ef n Hn Hp) as [H1 H2].
    pose proof (frame_fixed _ _ _ _ _ Ef) as (_ & _ & Hc & _).
    destruct th.
    + injection H as <- <-. rewrite settled_app, in_app_iff. cbn. tauto.
    + destruct (process json_ok fuel s1) as [s2 l2] eqn:Ep. injection H as <- <-.
      destruct (IH _ _ _ Ep n) as [H3 H4]; [rewrite Hc; exact Hn|exact H2|].
      rewrite settled_app, in_app_iff. tauto.
Qed.
Lemma step_old : forall s o, from_old s (fst (ustep s o)) (snd (ustep s o)).
Proof.
  intros s o. destruct o as [now tmo bad|bad|chunk|now| | | | | ]; cbn [SdkConnModel.ustep].
  - intros n Hn Hp. destruct (bad || negb (writable_u32 (u_next s))); cbn [fst snd].
    + cbn. split; [lia|exact Hp].
    + destruct (u_up s); cbn [fst snd]; [|cbn; split; [lia|exact Hp]].
      split; [cbn; tauto|]. unfold pcalls, aput; cbn [with_pend take_id u_pend]. rewrite map_app, in_app_iff.
      intros [H|[H|[]]]; [apply pcalls_adel_in in H; exact (Hp H)|cbn in H; lia].
  - intros n Hn Hp. destruct (u_up s); cbn [fst snd]; [|cbn; tauto].
    destruct (bad || negb (writable_u32 (u_next s))); cbn; tauto.
  - intros n Hn Hp. destruct (u_sock s); try (cbn; tauto).
    match goal with |- context [process ?a ?b ?c] => destruct (process a b c) as [s' l] eqn:Ep end.
    cbn [fst snd]. apply (process_old _ _ _ _ Ep n); assumption.
  - intros n Hn Hp. destruct (u_sweep s); cbn [fst snd]; [|cbn; tauto]. split.
    + cbn. rewrite (settled_map (fun p => TimedOut (p_tmo p))). intro H. apply Hp.
      apply in_map_iff in H. destruct H as (x & <- & H). apply filter_In in H. apply in_map_iff. exists x. tauto.
    + intro H. apply Hp. apply in_map_iff in H. destruct H as (x & <- & H). cbn in H. apply filter_In in H.
      apply in_map_iff. exists x. tauto.
  - intros n Hn Hp. destruct (u_sock s); cbn [fst snd]; try (cbn; tauto); (split; [|cbn; tauto]);
    cbn; unfold reject_all; rewrite (settled_map (fun _ => Closed)); exact Hp.
  - intros n Hn Hp. destruct (u_loop s); cbn; tauto.
  - intros n Hn Hp. destruct (u_loop s), (u_sock s); cbn; tauto.
  - intros n Hn Hp. destruct (u_loop s), (u_sock s); cbn [fst snd]; try (cbn; tauto). split; [|cbn; tauto].
    cbn. unfold reject_all. rewrite (settled_map (fun _ => Closed)). exact Hp.
  - intros n Hn Hp. cbn. tauto.
Qed.
Lemma calls_mono : forall s o, (u_calls s <= u_calls (fst (ustep s o)))%nat.
Proof.
  intros s o. destruct o as [now tmo bad|bad|chunk|now| | | | | ]; cbn [SdkConnModel.ustep].
  - destruct (bad || negb (writable_u32 (u_next s))); cbn [fst]; [cbn; lia|]. destruct (u_up s); cbn; lia.
  - destruct (u_up s); cbn; lia.
  - destruct (u_sock s); cbn [fst]; try lia.
    match goal with |- context [process ?a ?b ?c] => destruct (process a b c) as [s' l] eqn:Ep end.
    apply process_fixed in Ep. destruct Ep as (_ & _ & E & _). cbn [fst]. rewrite E. cbn. lia.
  - destruct (u_sweep s); cbn; lia.
  - destruct (u_sock s); cbn; lia.
  - destruct (u_loop s); cbn; lia.
  - destruct (u_loop s), (u_sock s); cbn; lia.
  - destruct (u_loop s), (u_sock s); cbn; lia.
  - cbn; lia.
Qed.
(** a request that is neither settled nor pending never will be *)
Lemma forgotten : forall xs n, (n < length (filter is_send xs))%nat ->
  ~ In n (settled (ulog xs)) -> ~ In n (pcalls (ustate xs)) ->
  forall ys, ~ In n (settled (ulog (xs ++ ys))).
Proof.
  intros xs n Hn Hs Hp ys. destruct (numbered_run xs) as (Ec & _). rewrite <- Ec in Hn.
  assert (H : (n < u_calls (ustate (xs ++ ys)))%nat /\ ~ In n (settled (ulog (xs ++ ys))) /\
              ~ In n (pcalls (ustate (xs ++ ys)))).
  { induction ys as [|o ys IH] using rev_ind; [rewrite app_nil_r; auto|].
    destruct IH as (H1 & H2 & H3). rewrite app_assoc, ustate_snoc, ulog_snoc, settled_app, in_app_iff.
    destruct (step_old (ustate (xs ++ ys)) o n H1 H3) as [H4 H5].
    pose proof (calls_mono (ustate (xs ++ ys)) o). split; [lia|]. tauto. }
  tauto.
Qed.
(** a request still waiting when disconnect() is called is never settled *)
Lemma cut_off : forall xs n, (n < length (filter is_send xs))%nat -> ~ In n (settled (ulog xs)) ->
  forall ys, ~ In n (settled (ulog (xs ++ UDisconnect :: ys))).
Proof.
  intros xs n Hn Hs ys. change (xs ++ UDisconnect :: ys) with (xs ++ [UDisconnect] ++ ys). rewrite app_assoc.
  apply forgotten.
  - rewrite length_filter_snoc by reflexivity. exact Hn.
  - rewrite ulog_snoc, settled_app, in_app_iff. cbn. tauto.
  - rewrite ustate_snoc. cbn. tauto.
Qed.

(** C85 *)
Definition down_sock (k : sock) : Prop := k = SClosing \/ k = SDead.
Lemma dead_stays : forall s o, u_up s = false -> u_should s = false -> u_loop s = LNone -> down_sock (u_sock s) ->
  u_pend s = [] ->
  let s' := fst (ustep s o) in let l := snd (ustep s o) in
  u_up s' = false /\ u_should s' = false /\ u_loop s' = LNone /\ down_sock (u_sock s') /\ u_pend s' = [] /\
  wrote l = [] /\ ~ In EUp l /\ (forall t ty d, ~ In (EPushed t ty d) l).
Proof.
  intros s o Hu Hs Hl Hk Hp. unfold down_sock in *.
  destruct o as [now tmo bad|bad|chunk|now| | | | | ]; cbn [SdkConnModel.ustep]; rewrite ?Hu, ?Hs, ?Hl.
  - destruct (bad || negb (writable_u32 (u_next s))); cbn; intuition discriminate.
  - cbn; intuition discriminate.
  - destruct Hk as [Hk|Hk]; rewrite Hk; cbn; rewrite ?Hk; intuition discriminate.
  - destruct (u_sweep s); cbn [fst snd with_pend u_up u_should u_loop u_sock u_pend]; rewrite ?Hp; cbn; intuition discriminate.
  - destruct Hk as [Hk|Hk]; rewrite Hk; cbn; rewrite ?Hk; unfold reject_all; rewrite ?Hp; cbn; intuition discriminate.
  - cbn; intuition discriminate.
  - cbn; intuition discriminate.
  - cbn; intuition discriminate.
  - cbn. destruct Hk as [Hk|Hk]; rewrite Hk; cbn; intuition discriminate.
Qed.
Lemma stays_down : forall xs ys, u_up (ustate xs) = true ->
  u_up (ustate (xs ++ UDisconnect :: ys)) = false /\
  exists l, ulog (xs ++ UDisconnect :: ys) = ulog xs ++ EEnd :: l /\ wrote l = [] /\ ~ In EUp l /\
    (forall t ty d, ~ In (EPushed t ty d) l).
Proof.
  intros xs ys Hup.
  assert (Hk : u_sock (ustate xs) = SOpen) by (apply (v_open _ _ (uinv_run xs)); exact Hup).
  assert (Hl : u_loop (ustate xs) = LNone).
  { pose proof (v_dial _ _ (uinv_run xs)) as Hd.
    unfold loop_ok in Hd. rewrite Hk in Hd. destruct (u_loop (ustate xs)); congruence. }
  change (xs ++ UDisconnect :: ys) with (xs ++ [UDisconnect] ++ ys). rewrite app_assoc.
  assert (H : let s := ustate ((xs ++ [UDisconnect]) ++ ys) in
     u_up s = false /\ u_should s = false /\ u_loop s = LNone /\ down_sock (u_sock s) /\ u_pend s = [] /\
     exists l, ulog ((xs ++ [UDisconnect]) ++ ys) = ulog xs ++ EEnd :: l /\ wrote l = [] /\ ~ In EUp l /\
       (forall t ty d, ~ In (EPushed t ty d) l)).
  { induction ys as [|o ys IH] using rev_ind.
    - rewrite app_nil_r. rewrite ustate_snoc, ulog_snoc. cbn. rewrite Hl, Hk. repeat split; auto; [left; reflexivity|].
      exists []. cbn. auto.
    - cbv zeta in *. destruct IH as (H1 & H2 & H3 & H4 & Hp & l & H5 & H6 & H7 & H8).
      rewrite (app_assoc (xs ++ [UDisconnect])), ustate_snoc, ulog_snoc.
      destruct (dead_stays _ o H1 H2 H3 H4 Hp) as (K1 & K2 & K3 & K4 & Kp & K5 & K6 & K7).
      split; [exact K1|]. split; [exact K2|]. split; [exact K3|]. split; [exact K4|]. split; [exact Kp|].
      rewrite H5. eexists. split; [rewrite <- app_assoc; reflexivity|].
      rewrite wrote_app, H6, K5. split; [reflexivity|]. split; [rewrite in_app_iff; tauto|].
      intros t ty d H. apply in_app_or in H. destruct H as [H|H]; [eapply H8|eapply K7]; exact H. }
  cbv zeta in H. split; [apply H|]. apply H.
Qed.
End Json.
