(** The wait loop loses no wake-up, whatever the operations are, provided those that
    can give a waiting request something to answer notify. *)
From Verif Require Import LibBase LibMap WakeModel.

Section Wake.
  Variables St Op Par Ans Tm : Type.
  Variable step : St -> Op -> St.
  Variable rings : St -> Op -> bool.
  Variable attempt : Par -> Tm -> Op.
  Variable answer : St -> Op -> option Ans.
  Variable eager : bool.
  Notation wst := (wst St Par Ans).
  Notation wop := (wop Op Par Tm).
  Notation wstep := (wstep St Op Par Ans Tm step rings attempt answer eager).
  Notation wrun := (wrun St Op Par Ans Tm step rings attempt answer eager).
  Notation do_op := (do_op St Op Par Ans step rings).
  Notation waiting := (waiting St Par Ans).
  Notation w_st := (w_st St Par Ans).
  Notation w_cnt := (w_cnt St Par Ans).
  Notation w_owed := (w_owed St Par Ans).
  Notation w_done := (w_done St Par Ans).
  Notation asleep := (asleep St Par Ans).
  Notation mkWaiter := (mkWaiter Par).

  Variable Inv : St -> Prop.
  Variable okop : St -> Op -> Prop.
  Variable okpar : Par -> Prop.
  (** there is nothing for [p] to answer *)
  Variable quiet : Par -> St -> Prop.
  Hypothesis Hinv : forall s o, Inv s -> okop s o -> Inv (step s o).
  Hypothesis Hatt : forall s p now, Inv s -> okpar p -> okop s (attempt p now).
  Hypothesis Hnone : forall s p now, Inv s -> okpar p -> answer s (attempt p now) = None -> quiet p (step s (attempt p now)).
  Hypothesis Hkeep : forall s o p, Inv s -> okop s o -> rings s o = false -> quiet p s -> quiet p (step s o).

  Definition xok (w : wst) (x : wop) : Prop :=
    match x with WOp _ _ _ o => okop (w_st w) o | WCall _ _ _ _ p _ => okpar p | _ => True end.
  Fixpoint xsok (w : wst) (xs : list wop) : Prop :=
    match xs with [] => True | x :: r => xok w x /\ xsok (wstep w x) r end.

  Definition good (w : wst) (p : Par) (ph : phase) : Prop :=
    okpar p /\
    match ph with
    | Idle => True
    | Armed n => n <= w_cnt w
    | Blocked n => n <= w_cnt w /\ (n = w_cnt w -> w_owed w = 0 -> quiet p (w_st w))
    end.
  Definition WI (w : wst) : Prop :=
    Inv (w_st w) /\ forall id p ph, waiting id w = Some (mkWaiter p ph) -> good w p ph.

  Lemma wait_put id id' v w : waiting id (put St Par Ans id' v w) = if id =? id' then Some v else waiting id w.
  Proof.
    unfold WakeModel.waiting, put; simpl. destruct (N.eqb_spec id id') as [->|E].
    - apply (aget_aset_same N.eqb N_eqb_eq).
    - apply (aget_aset_other N.eqb N_eqb_eq); auto.
  Qed.
  Lemma wait_del id id' t : aget N.eqb id (adel N.eqb id' t) = if id =? id' then None else aget (V := waiter Par) N.eqb id t.
  Proof.
    destruct (N.eqb_spec id id') as [->|E].
    - apply (aget_adel_same N.eqb).
    - apply (aget_adel_other N.eqb N_eqb_eq); auto.
  Qed.

  Lemma WI_op w o : WI w -> okop (w_st w) o -> WI (do_op o w).
  Proof.
    intros (I & G) OK. split; [apply Hinv; auto|]. intros id p ph HW. specialize (G id p ph HW). destruct G as (P & G).
    split; auto. destruct ph as [|n|n]; auto. simpl in *. destruct G as (L & Q). split; auto. intros E O.
    destruct (rings (w_st w) o) eqn:R; [lia|]. apply Hkeep; auto. apply Q; auto. lia.
  Qed.
  Lemma WI_put w id v : WI w -> good w (v_par Par v) (v_phase Par v) -> WI (put St Par Ans id v w).
  Proof.
    intros (I & G) OK. split; auto. intros id' p ph HW. rewrite wait_put in HW. destruct (id' =? id); [|exact (G id' p ph HW)].
    inversion HW; subst. exact OK.
  Qed.
  Lemma WI_answered w id a : WI w -> WI (answered St Par Ans id a w).
  Proof.
    intros (I & G). split; auto. intros id' p ph HW. unfold answered, WakeModel.waiting in HW. simpl in HW. rewrite wait_del in HW.
    destruct (id' =? id); [discriminate|]. exact (G id' p ph HW).
  Qed.
  Lemma WI_gone w id : WI w -> WI (gone St Par Ans id w).
  Proof.
    intros (I & G). split; auto. intros id' p ph HW. unfold gone, WakeModel.waiting in HW. simpl in HW. rewrite wait_del in HW.
    destruct (id' =? id); [discriminate|]. exact (G id' p ph HW).
  Qed.
  Lemma WI_step w x : WI w -> xok w x -> WI (wstep w x).
  Proof.
    intros W OK. destruct x as [o| |id p now|id|id now|id|id]; cbn [WakeModel.wstep].
    - apply WI_op; auto.
    - destruct (w_owed w =? 0) eqn:E; auto. destruct W as (I & G). split; auto. intros id p ph HW. specialize (G id p ph HW). destruct G as (P & G).
      split; auto. destruct ph as [|n|n]; simpl in *; auto; [lia|]. destruct G as (L & Q). split; [lia|]. intros; lia.
    - destruct (waiting id w); auto. simpl in OK. destruct eager; [|apply WI_put; [auto|split; simpl; auto]].
      assert (W2 : WI (do_op (attempt p now) w)) by (apply WI_op; auto; apply Hatt; auto; apply W).
      destruct (answer _ _); [apply WI_answered; auto|apply WI_put; [auto|split; simpl; auto]].
    - destruct (waiting id w) as [[p [|n|n]]|] eqn:HW; auto. apply WI_put; auto. destruct W as (_ & G). destruct (G _ _ _ HW) as (P & _). split; auto. simpl. lia.
    - destruct (waiting id w) as [[p [|n|n]]|] eqn:HW; auto. destruct (proj2 W _ _ _ HW) as (P & L).
      assert (W2 : WI (do_op (attempt p now) w)) by (apply WI_op; auto; apply Hatt; auto; apply W).
      destruct (answer _ _) eqn:E; [apply WI_answered; auto|apply WI_put; auto]. split; auto. simpl in *. split; auto. intros _ _.
      apply Hnone; auto. apply W.
    - destruct (waiting id w) as [[p [|n|n]]|] eqn:HW; auto. destruct (n =? w_cnt w); auto. apply WI_put; auto.
      destruct W as (_ & G). destruct (G _ _ _ HW) as (P & _). split; simpl; auto.
    - apply WI_gone; auto.
  Qed.
  Lemma WI_run : forall xs w, WI w -> xsok w xs -> WI (wrun w xs).
  Proof. induction xs as [|x xs IH]; intros w W OK; simpl; auto. destruct OK. apply IH; auto. apply WI_step; auto. Qed.
  Lemma WI_0 s : Inv s -> WI (wake0 St Par Ans s).
  Proof. intro I. split; auto. intros id p ph H. discriminate. Qed.

  (** Whoever sleeps with no wake-up under way has nothing to answer. *)
  Theorem no_lost_wakeup s xs id p : Inv s -> xsok (wake0 St Par Ans s) xs ->
    let w := wrun (wake0 St Par Ans s) xs in asleep id p w -> quiet p (w_st w).
  Proof.
    intros I OK w (HW & O). destruct (WI_run xs _ (WI_0 s I) OK) as (_ & G). fold w in G. destruct (G _ _ _ HW) as (_ & _ & Q). auto.
  Qed.

  (** ** Waking up *)
  Lemma wrun_app : forall a b w, wrun w (a ++ b) = wrun (wrun w a) b.
  Proof. induction a as [|x a IH]; intros b w; simpl; auto. Qed.
  Lemma ring_all : forall n w, w_owed w = N.of_nat n ->
    let w' := wrun w (repeat (WRing _ _ _) n) in
    w_st w' = w_st w /\ w_owed w' = 0 /\ w_cnt w' = w_cnt w + N.of_nat n /\ (forall id, waiting id w' = waiting id w) /\ w_done w' = w_done w.
  Proof.
    induction n as [|n IH]; intros w O; simpl; [repeat split; auto; simpl in O; lia|].
    destruct (N.eqb_spec (w_owed w) 0); [lia|].
    destruct (IH (mkWst St Par Ans (w_st w) (w_cnt w + 1) (w_owed w - 1) (w_tab _ _ _ w) (w_done w))) as (A & B & C & D & E); [simpl; lia|].
    split; [exact A|]. split; [exact B|]. split; [rewrite C; simpl; lia|]. split; [exact D|exact E].
  Qed.
  (** The wake-ups that are due, then the request's own next turn. *)
  Definition turn (w : wst) (id : N) (now : Tm) : list wop :=
    repeat (WRing _ _ _) (N.to_nat (w_owed w)) ++ [WWake _ _ _ id; WArm _ _ _ id; WTry _ _ _ id now].
  Theorem turn_answers s xs id p n now : Inv s -> xsok (wake0 St Par Ans s) xs ->
    let w := wrun (wake0 St Par Ans s) xs in
    waiting id w = Some (mkWaiter p (Blocked n)) -> ~ quiet p (w_st w) ->
    let w' := wrun w (turn w id now) in
    w_st w' = step (w_st w) (attempt p now) /\
    match answer (w_st w) (attempt p now) with
    | Some a => w_done w' = (id, a) :: w_done w /\ waiting id w' = None
    | None => quiet p (w_st w')
    end.
  Proof.
    intros I OK w HW NQ. cbv zeta. unfold turn. rewrite wrun_app.
    destruct (ring_all (N.to_nat (w_owed w)) w ltac:(lia)) as (A & B & C & D & E). set (w1 := wrun w (repeat _ _)) in *.
    pose proof (WI_run xs _ (WI_0 s I) OK) as W. fold w in W. destruct (proj2 W _ _ _ HW) as (P & L & Q).
    assert (NE : n =? w_cnt w1 = false).
    { apply N.eqb_neq. intro X. apply NQ. apply Q; rewrite X, C in *; lia. }
    cbn [WakeModel.wrun WakeModel.wstep]. rewrite D, HW, NE. rewrite wait_put, N.eqb_refl. rewrite wait_put, N.eqb_refl. simpl w_st. rewrite A.
    destruct (answer (w_st w) (attempt p now)) eqn:EA.
    - simpl. rewrite A. split; auto. split; [rewrite E; reflexivity|]. unfold WakeModel.waiting. simpl. rewrite wait_del, N.eqb_refl. reflexivity.
    - simpl. rewrite A. split; auto. apply Hnone; auto. apply W.
  Qed.
End Wake.
