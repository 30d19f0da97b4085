(** Messages pushed to a connection: order and loss. *)
From Verif Require Import LibBase WireModel WireProofs ConnModel ConnProofs ConnFacts ConnClient.

Section Push.
  Variables Eng Loc X : Type.
  Variable start : inframe -> Loc.
  Variable hstep : Eng -> Loc -> Eng * hres Loc.
  Variable xstep : Eng -> X -> Eng.
  Variables bye1 bye2 : Eng -> Eng.
  Variables maxp cap : N.
  Notation conn := (conn Eng Loc).
  Notation crun := (crun Eng Loc X start hstep xstep bye1 bye2 maxp cap).
  Notation cstep := (cstep Eng Loc X start hstep xstep bye1 bye2 maxp cap).
  Notation C0 := (conn0 Eng Loc).

  (** what the pub/sub engine handed over in a run, and the pushes among frames *)
  Definition handed (xs : list (cop X)) : list bytes := flat_map (fun x => match x with KPushIn _ p => [p] | _ => [] end) xs.
  Definition pushes (os : list outframe) : list bytes := flat_map (fun o => match o with OPush _ p => [p] | _ => [] end) os.

  Lemma pushes_app a b : pushes (a ++ b) = pushes a ++ pushes b. Proof. apply flat_map_app. Qed.
  Definition one (o : option bytes) : list bytes := match o with Some p => [p] | None => [] end.
  Definition inbridge (s : conn) : list bytes := one (c_bridge _ _ s).
  Definition flow (s : conn) : list bytes := pushes (written _ _ s) ++ pushes (map snd (c_out _ _ s)) ++ inbridge s ++ c_push _ _ s.
  Lemma flow_step s x : c_phase _ _ (cstep s x) = Open -> flow (cstep s x) = flow s ++ handed [x].
  Proof.
    intro H. pose proof (open_back _ _ _ start hstep xstep bye1 bye2 maxp cap [x] s H) as O. revert H. unfold flow, inbridge, written.
    destruct x; cbn [ConnModel.cstep]; unfold task_step, sock_end, abort, is_open, looping, handed; cbn [flat_map]; rewrite ?O, ?app_nil_r; cbn [andb];
      repeat match goal with |- context[match ?e with _ => _ end] => destruct e eqn:? end;
      cbn [ConnModel.c_phase ConnModel.c_out ConnModel.c_sent ConnModel.c_bridge ConnModel.c_push set_rd set_num set_hold set_in set_run set_out set_push set_bridge set_sent set_lost set_drop set_phase set_eng];
      auto; intro H; try discriminate; try congruence;
      repeat match goal with E : c_bridge _ _ s = _ |- _ => rewrite E | E : c_push _ _ s = _ |- _ => rewrite E | E : c_out _ _ s = _ |- _ => rewrite E end;
      rewrite ?map_app, ?pushes_app; cbn [map snd fst pushes flat_map app one]; rewrite ?app_nil_r, <- ?app_assoc; auto.
  Qed.
  Lemma flow_run : forall xs s, c_phase _ _ (crun s xs) = Open -> flow (crun s xs) = flow s ++ handed xs.
  Proof.
    induction xs as [|x xs IH]; intros s H; [cbn; rewrite app_nil_r; auto|]. cbn [ConnModel.crun] in *. rewrite IH by auto.
    rewrite flow_step by (eapply open_back; eauto). rewrite <- app_assoc. f_equal. unfold handed. cbn [flat_map]. rewrite app_nil_r. auto.
  Qed.
  (** once the connection is not open nothing is written any more *)
  Lemma closed_sent : forall xs s, c_phase _ _ s <> Open -> c_phase _ _ (crun s xs) <> Open /\ c_sent _ _ (crun s xs) = c_sent _ _ s.
  Proof.
    induction xs as [|x xs IH]; intros s H; auto. cbn [ConnModel.crun].
    assert (P : c_phase _ _ (cstep s x) <> Open) by (intro E; apply H; apply (open_back _ _ _ start hstep xstep bye1 bye2 maxp cap [x] s E)).
    destruct (IH _ P) as [A B]. split; auto. rewrite B. clear - H. assert (O : is_open _ _ s = false) by (unfold is_open; destruct (c_phase _ _ s); congruence).
    destruct x; cbn [ConnModel.cstep]; unfold task_step, sock_end, abort; rewrite ?O; cbn [andb];
      repeat match goal with |- context[match ?e with _ => _ end] => destruct e eqn:? end; reflexivity.
  Qed.
  Lemma sent_end s x : c_phase _ _ s = Open -> c_phase _ _ (cstep s x) <> Open -> c_sent _ _ (cstep s x) = c_sent _ _ s.
  Proof.
    intros O H. destruct x; cbn [ConnModel.cstep]; unfold task_step, sock_end, abort;
      repeat match goal with |- context[match ?e with _ => _ end] => destruct e eqn:? end; try reflexivity.
    exfalso. apply H. cbn [ConnModel.cstep]. repeat match goal with E : _ = _ |- _ => rewrite E end. exact O.
  Qed.
  (** The pushes on the wire are the first ones handed over, in their order, each once. *)
  Theorem push_order e xs : exists rest, handed xs = pushes (written _ _ (crun (C0 e) xs)) ++ rest.
  Proof.
    assert (G : forall xs s l, (c_phase _ _ s = Open -> flow s = l) -> (exists rest, l = pushes (written _ _ s) ++ rest) -> exists rest, l ++ handed xs = pushes (written _ _ (crun s xs)) ++ rest).
    { clear. induction xs as [|x xs IH]; intros s l F (rest & R); [exists rest; cbn; rewrite app_nil_r; auto|]. cbn [ConnModel.crun].
      replace (l ++ handed (x :: xs)) with ((l ++ handed [x]) ++ handed xs) by (rewrite <- app_assoc; unfold handed; cbn [flat_map]; rewrite app_nil_r; auto).
      apply IH.
      - intro O. pose proof (open_back _ _ _ start hstep xstep bye1 bye2 maxp cap [x] s O) as O'. rewrite flow_step by auto. rewrite F; auto.
      - assert (D : c_phase _ _ (cstep s x) = Open \/ c_phase _ _ (cstep s x) <> Open) by (destruct (c_phase _ _ (cstep s x)); ((left; reflexivity) || (right; discriminate))).
        destruct D as [O|O].
        + pose proof (open_back _ _ _ start hstep xstep bye1 bye2 maxp cap [x] s O) as O'. rewrite <- (F O'), <- flow_step by auto. unfold flow. eauto.
        + assert (E : c_sent _ _ (cstep s x) = c_sent _ _ s).
          { destruct (c_phase _ _ s) eqn:P; [apply sent_end; auto|..]; apply (closed_sent [x] s); congruence. }
          unfold written. rewrite E. fold (written Eng Loc s). exists (rest ++ handed [x]). rewrite R, app_assoc. auto. }
    destruct (G xs (C0 e) []) as (rest & R); [reflexivity|exists []; reflexivity|]. exists rest. exact R.
  Qed.
  (** ... all of them, when the connection is open and nothing is on its way. *)
  Theorem push_all e xs : let s := crun (C0 e) xs in c_phase _ _ s = Open -> c_out _ _ s = [] -> c_bridge _ _ s = None -> c_push _ _ s = [] ->
    pushes (written _ _ s) = handed xs.
  Proof.
    intros s O A B C. pose proof (flow_run xs (C0 e) O) as F. fold s in F. unfold flow, inbridge in F. rewrite A, B, C in F. cbn in F. rewrite app_nil_r in F. exact F.
  Qed.

  (** From the client's side. *)
  Definition ev_push (ev : sdk_event) : list bytes := match ev with EvPush p => [p] | _ => [] end.
  Lemma event_pushes : forall outs, flat_map ev_push (map out_event outs) = pushes outs.
  Proof. induction outs as [|[i [ | | | ]|i p] l IH]; cbn [map flat_map pushes out_event ev_push app]; auto. unfold pushes. cbn [flat_map]. rewrite IH. auto. Qed.
  Lemma prefix_frames : forall outs p q, Forall WireProofs.out_ok outs -> p ++ q = concat (map encode outs) ->
    exists a b tail, outs = a ++ b /\ p = concat (map encode a) ++ tail /\ sdk_split tail = DNone.
  Proof.
    induction outs as [|o l IH]; intros p q F E.
    - cbn in E. apply app_eq_nil in E. destruct E as [-> _]. exists [], [], []. repeat split; reflexivity.
    - inversion F as [|o' l' Fo Fl]; subst. cbn [map concat] in E.
      destruct (Nat.le_gt_cases (length (encode o)) (length p)) as [L|L].
      + assert (P : p = encode o ++ skipn (length (encode o)) p).
        { rewrite <- (firstn_skipn (length (encode o)) p) at 1. f_equal. apply (f_equal (firstn (length (encode o)))) in E.
          rewrite firstn_app, firstn_app, firstn_all, Nat.sub_diag in E. replace (length (encode o) - length p)%nat with 0%nat in E by lia. cbn in E. rewrite !app_nil_r in E. exact E. }
        rewrite P in E. rewrite <- app_assoc in E. apply app_inv_head in E. destruct (IH _ _ Fl E) as (a & b & t & A & B & C).
        exists (o :: a), b, t. split; [rewrite A; auto|]. split; [|auto]. rewrite P, B at 1. cbn [map concat]. rewrite app_assoc. auto.
      + exists [], (o :: l), p. split; auto. split; auto.
        assert (P : encode o = p ++ skipn (length p) (encode o)).
        { rewrite <- (firstn_skipn (length p) (encode o)) at 1. f_equal. apply (f_equal (firstn (length p))) in E.
          rewrite firstn_app, firstn_app, firstn_all, Nat.sub_diag in E. replace (length p - length (encode o))%nat with 0%nat in E by lia. cbn in E. rewrite !app_nil_r in E. auto. }
        eapply sdk_prefix_none; [exact Fo|symmetry; exact P|]. intro Z. apply (f_equal (@length N)) in P. rewrite app_length, Z in P. cbn in P. lia.
  Qed.
  Theorem push_client e xs back later : let s := crun (C0 e) xs in
    Forall WireProofs.out_ok (written _ _ s) -> concat back ++ later = wire _ _ s ->
    exists rest, handed xs = flat_map ev_push (map sdk_handle (r_frames (feed_all sdk_split back))) ++ rest.
  Proof.
    intros s OK B. destruct (push_order e xs) as (rest & R). fold s in R. destruct (prefix_frames (written _ _ s) (concat back) later OK B) as (a & b & t & A1 & A2 & A3).
    exists (pushes b ++ rest). rewrite A1 in OK. apply Forall_app in OK.
    assert (EV : map sdk_handle (r_frames (feed_all sdk_split back)) = map out_event a) by (apply (sdk_session _ back t); [apply OK|auto..]).
    rewrite EV, event_pushes, R, A1, pushes_app, <- app_assoc. reflexivity.
  Qed.
  (** ... and all of them once all bytes have arrived. *)
  Theorem push_client_all e xs back : let s := crun (C0 e) xs in
    Forall WireProofs.out_ok (written _ _ s) -> concat back = wire _ _ s ->
    flat_map ev_push (map sdk_handle (r_frames (feed_all sdk_split back))) = pushes (written _ _ s).
  Proof.
    intros s OK B.
    assert (EV : map sdk_handle (r_frames (feed_all sdk_split back)) = map out_event (written _ _ s)) by (apply (sdk_session _ back []); auto; rewrite app_nil_r; exact B).
    rewrite EV. apply event_pushes.
  Qed.

  (** Whatever the state of an open connection, its own steps get every push out. *)
  Hypothesis CAP : 1 <= cap.
  Definition quiet (x : cop X) : Prop := match x with KSpawn _ | KPass _ | KWrite _ | KBridge _ | KBridgeOut _ => True | _ => False end.
  Lemma room (l : list (option nat * outframe)) : l = [] -> lenN l <? cap = true.
  Proof. intros ->. apply N.ltb_lt. rewrite lenN_nil. lia. Qed.
  Lemma spawns : forall l s, c_in _ _ s = l -> c_phase _ _ s = Open -> exists ys, Forall quiet ys /\ let s' := crun s ys in c_in _ _ s' = [] /\ c_phase _ _ s' = Open.
  Proof.
    induction l as [|nf l IH]; intros s E O; [exists []; auto|].
    assert (E2 : cstep s (KSpawn X) = set_run Eng Loc (c_run _ _ s ++ [mkTask Loc (fst nf) (snd nf) (Fresh Loc) false]) (set_in Eng Loc l s)).
    { cbn [ConnModel.cstep]. rewrite E. unfold looping. rewrite O. reflexivity. }
    destruct (IH (cstep s (KSpawn X))) as (ys & Q & A); [rewrite E2; auto..|]. exists (KSpawn X :: ys). split; [constructor; simpl; auto|exact A].
  Qed.
  Lemma writes : forall l s, c_out _ _ s = l -> c_hold _ _ s = None -> c_phase _ _ s = Open -> exists ys, Forall quiet ys /\ let s' := crun s ys in
    c_out _ _ s' = [] /\ c_hold _ _ s' = None /\ c_phase _ _ s' = Open /\ c_bridge _ _ s' = c_bridge _ _ s /\ c_push _ _ s' = c_push _ _ s.
  Proof.
    induction l as [|o l IH]; intros s E H O; [exists []; cbn; repeat split; auto|].
    assert (E2 : cstep s (KWrite X) = set_sent Eng Loc (c_sent _ _ s ++ [o]) (set_out Eng Loc l s)).
    { cbn [ConnModel.cstep]. rewrite H, E. unfold is_open. rewrite O. reflexivity. }
    destruct (IH (cstep s (KWrite X))) as (ys & Q & A); [rewrite E2; auto..|]. exists (KWrite X :: ys). split; [constructor; simpl; auto|]. cbn [ConnModel.crun]. rewrite E2 in *. exact A.
  Qed.
  (** from a state with room for the frame in the bridge *)
  Lemma bridge_out s : c_out _ _ s = [] -> c_hold _ _ s = None -> c_phase _ _ s = Open -> exists ys, Forall quiet ys /\ let s' := crun s ys in
    c_out _ _ s' = [] /\ c_hold _ _ s' = None /\ c_phase _ _ s' = Open /\ c_bridge _ _ s' = None /\ c_push _ _ s' = c_push _ _ s.
  Proof.
    intros E H O. destruct (c_bridge _ _ s) as [p|] eqn:B; [|exists []; cbn; repeat split; auto].
    assert (E2 : cstep s (KBridgeOut X) = set_out Eng Loc (c_out _ _ s ++ [(None, OPush 0 p)]) (set_bridge Eng Loc None s)).
    { cbn [ConnModel.cstep]. rewrite B. unfold is_open. rewrite O, room by auto. reflexivity. }
    destruct (writes (c_out _ _ (cstep s (KBridgeOut X))) (cstep s (KBridgeOut X)) eq_refl) as (ys & Q & A); [rewrite E2; auto..|]. exists (KBridgeOut X :: ys). split; [constructor; simpl; auto|].
    cbn [ConnModel.crun]. destruct A as (A1 & A2 & A3 & A4 & A5). rewrite A1, A2, A3, A4, A5, E2. cbn. repeat split; auto.
  Qed.
  Lemma drain : forall l s, c_push _ _ s = l -> c_out _ _ s = [] -> c_hold _ _ s = None -> c_phase _ _ s = Open -> exists ys, Forall quiet ys /\ let s' := crun s ys in
    c_out _ _ s' = [] /\ c_phase _ _ s' = Open /\ c_bridge _ _ s' = None /\ c_push _ _ s' = [].
  Proof.
    induction l as [|p l IH]; intros s P E H O; destruct (bridge_out s E H O) as (ys & Q & A1 & A2 & A3 & A4 & A5); set (s1 := crun s ys) in *.
    - exists ys. split; auto. fold s1. cbv zeta. rewrite A5. auto.
    - assert (E2 : cstep s1 (KBridge X) = set_bridge Eng Loc (Some p) (set_push Eng Loc l s1)) by (cbn [ConnModel.cstep]; rewrite A4, A5, P; reflexivity).
      destruct (IH (cstep s1 (KBridge X))) as (zs & Q2 & B); [rewrite E2; auto..|]. exists (ys ++ KBridge X :: zs). split; [apply Forall_app; split; auto; constructor; simpl; auto|].
      rewrite crun_app. fold s1. exact B.
  Qed.
  Theorem push_progress e xs : c_phase _ _ (crun (C0 e) xs) = Open -> exists ys, Forall quiet ys /\ let s' := crun (crun (C0 e) xs) ys in
    c_phase _ _ s' = Open /\ pushes (written _ _ s') = handed xs.
  Proof.
    intro O. set (s := crun (C0 e) xs) in *. destruct (spawns (c_in _ _ s) s eq_refl O) as (y1 & Q1 & A1 & A2). set (s1 := crun s y1) in *.
    assert (exists y2, Forall quiet y2 /\ c_hold _ _ (crun s1 y2) = None /\ c_phase _ _ (crun s1 y2) = Open) as (y2 & Q2 & B1 & B2).
    { destruct (c_hold _ _ s1) as [nf|] eqn:EH; [|exists []; cbn; repeat split; auto]. exists [KPass X]. split; [repeat constructor|]. cbn [ConnModel.crun ConnModel.cstep]. rewrite EH, A1.
      destruct (N.ltb_spec (lenN (@nil (nat * inframe))) cap) as [L|L]; [cbn; auto|]. rewrite lenN_nil in L. lia. }
    set (s2 := crun s1 y2) in *. destruct (writes (c_out _ _ s2) s2 eq_refl B1 B2) as (y3 & Q3 & C1 & C2 & C3 & _ & _). set (s3 := crun s2 y3) in *.
    destruct (drain (c_push _ _ s3) s3 eq_refl C1 C2 C3) as (y4 & Q4 & D1 & D2 & D3 & D4).
    exists (y1 ++ y2 ++ y3 ++ y4). split; [repeat (apply Forall_app; split; auto)|]. rewrite !crun_app. fold s1. fold s2. fold s3. split; [exact D2|].
    assert (EQ : crun s3 y4 = crun (C0 e) (xs ++ y1 ++ y2 ++ y3 ++ y4)) by (rewrite !crun_app; reflexivity).
    pose proof (push_all e (xs ++ y1 ++ y2 ++ y3 ++ y4)) as PA. cbv zeta in PA. rewrite <- EQ in PA. rewrite PA by auto. unfold handed. rewrite !flat_map_app.
    assert (Z : forall l, Forall quiet l -> flat_map (fun x => match x with KPushIn _ p => [p] | _ => [] end) l = []) by (intros l F; induction F as [|x l Hx F IHF]; auto; destruct x; simpl in *; auto; destruct Hx).
    rewrite (Z y1), (Z y2), (Z y3), (Z y4) by auto. rewrite !app_nil_r. reflexivity.
  Qed.
End Push.
