(** A connection as the client sees it: the bytes it sent, the events its SDK gets. *)
From Verif Require Import LibBase WireModel WireProofs ConnModel ConnProofs ConnFacts.
From Coq Require Import Permutation.

Section Client.
  Variables Eng Loc X : Type.
  Variable start : inframe -> Loc.
  Variable hstep : Eng -> Loc -> Eng * hres Loc.
  Variable xstep : Eng -> X -> Eng.
  Variables bye1 bye2 : Eng -> Eng.
  Variables maxp cap : N.
  Notation conn := (conn Eng Loc).
  Notation crun := (crun Eng Loc X start hstep xstep bye1 bye2 maxp cap).
  Notation cstep := (cstep Eng Loc X start hstep xstep bye1 bye2 maxp cap).
  Notation C0 := (conn0 Eng Loc).

  (** the chunks that arrive in a run *)
  Definition arrived (xs : list (cop X)) : list bytes :=
    flat_map (fun x => match x with KRecv _ c => [c] | _ => [] end) xs.
  Lemma open_back : forall xs s, c_phase _ _ (crun s xs) = Open -> c_phase _ _ s = Open.
  Proof.
    induction xs as [|x xs IH]; intros s; cbn [ConnModel.crun]; auto. intro H. apply IH in H. revert H. clear IH.
    destruct x; cbn [ConnModel.cstep]; unfold task_step, sock_end, abort;
      repeat match goal with |- context[match ?e with _ => _ end] => destruct e eqn:? end; simpl; auto; intro H; try discriminate; congruence.
  Qed.
  Lemma step_rd s x : c_phase _ _ (cstep s x) = Open ->
    c_rd _ _ (cstep s x) = match x with KRecv _ c => feed (decode maxp) (c_rd _ _ s) c | _ => c_rd _ _ s end.
  Proof.
    intro H. pose proof (open_back [x] s H) as O. revert H. destruct x; cbn [ConnModel.cstep]; unfold task_step, sock_end, abort, is_open; rewrite ?O;
      repeat match goal with |- context[match ?e with _ => _ end] => destruct e eqn:? end; simpl; auto.
  Qed.
  Lemma run_rd : forall xs s, c_phase _ _ (crun s xs) = Open ->
    c_rd _ _ (crun s xs) = fold_left (feed (decode maxp)) (arrived xs) (c_rd _ _ s).
  Proof.
    induction xs as [|x xs IH]; intros s H; auto. cbn [ConnModel.crun] in *. rewrite IH by auto. rewrite step_rd by (eapply open_back; eauto).
    unfold arrived. cbn [flat_map]. fold (arrived xs). rewrite fold_left_app. destruct x; reflexivity.
  Qed.
  Lemma run_requests e xs reqs : let s := crun (C0 e) xs in c_phase _ _ s = Open -> Forall (req_ok maxp) reqs ->
    concat (arrived xs) = concat (map req_wire reqs) -> requests _ _ s = map req_frame reqs.
  Proof.
    intros s O F A. unfold ConnModel.requests, s. rewrite run_rd by auto. simpl.
    change (r_frames (feed_all (decode maxp) (arrived xs)) = map req_frame reqs).
    rewrite (server_session maxp reqs (arrived xs) []); auto. rewrite app_nil_r. auto.
  Qed.

  Definition ev_id (ev : sdk_event) : option N := match ev with EvResponse id _ _ => Some id | _ => None end.
  Definition for_id (id : N) (ev : sdk_event) : bool := match ev with EvResponse id' _ _ => id' =? id | _ => false end.
  Lemma for_id_out id o : for_id id (out_event o) = true -> exists r, o = OResponse id r.
  Proof. destruct o as [i [ | | | ]|]; simpl; intro H; try discriminate; apply N.eqb_eq in H; subst; eauto. Qed.
  Lemma filter_out id : forall outs, filter (for_id id) (map out_event outs) = filter (for_id id) (map out_event (filter is_response outs)).
  Proof. induction outs as [|[i [ | | | ]|i p] l IH]; simpl; auto; destruct (_ =? _); simpl; congruence. Qed.

  (** What the SDK gets for each request id. *)
  Theorem client_view e xs reqs back : let s := crun (C0 e) xs in
    c_phase _ _ s = Open -> Forall (req_ok maxp) reqs -> concat (arrived xs) = concat (map req_wire reqs) ->
    NoDup (map (fun q => in_id (req_frame q)) reqs) -> Forall WireProofs.out_ok (written _ _ s) -> concat back = wire _ _ s ->
    let events := map sdk_handle (r_frames (feed_all sdk_split back)) in
    (forall q, In q reqs ->
      filter (for_id (in_id (req_frame q))) events = [] \/
      exists r, result_of _ _ start hstep (req_frame q) r /\ filter (for_id (in_id (req_frame q))) events = [out_event (OResponse (in_id (req_frame q)) r)]) /\
    (forall id, (forall q, In q reqs -> in_id (req_frame q) <> id) -> filter (for_id id) events = []) /\
    (idle _ _ s -> forall q, In q reqs -> filter (for_id (in_id (req_frame q))) events = [] -> panics _ _ start hstep (req_frame q)).
  Proof.
    intros s O F A ND OK B events.
    assert (RQ : requests _ _ s = map req_frame reqs) by (apply run_requests; auto).
    assert (EV : events = map out_event (written _ _ s)).
    { unfold events. apply (sdk_session _ back []); auto. rewrite app_nil_r. exact B. }
    assert (ND' : NoDup (map in_id (requests _ _ s))) by (rewrite RQ, map_map; auto).
    destruct (own_responses _ _ X start hstep xstep bye1 bye2 maxp cap e xs) as (ns & N1 & F2). fold s in F2.
    assert (UNIQ : forall n n' f f', nth_error (requests _ _ s) n = Some f -> nth_error (requests _ _ s) n' = Some f' -> in_id f = in_id f' -> n = n').
    { intros n n' f f' E1 E2 EQ. apply (proj1 (NoDup_nth_error (map in_id (requests _ _ s))) ND'); [rewrite map_length; apply nth_error_Some; congruence|].
      rewrite !nth_error_map, E1, E2. simpl. congruence. }
    assert (KEY : forall n f, nth_error (requests _ _ s) n = Some f ->
      (~ In n ns -> filter (for_id (in_id f)) events = []) /\
      (In n ns -> exists r, result_of _ _ start hstep f r /\ filter (for_id (in_id f)) events = [out_event (OResponse (in_id f) r)])).
    { intros n f E. rewrite EV, filter_out. change (filter is_response (written _ _ s)) with (responses _ _ s). clear EV. revert N1 F2. generalize (responses _ _ s) as os. clear - E UNIQ.
      induction ns as [|m ns IH]; intros os ND F2; inversion F2 as [|? o ? os' (f' & r & E' & -> & R) F3]; subst; [split; [reflexivity|intros []]|].
      inversion ND; subst. specialize (IH _ H2 F3). destruct IH as [I1 I2]. cbn [map filter]. replace (for_id (in_id f) (out_event (OResponse (in_id f') r))) with (in_id f' =? in_id f) by (destruct r; reflexivity).
      destruct (N.eqb_spec (in_id f') (in_id f)) as [Q|Q].
      - assert (m = n) by eauto. subst m. assert (f' = f) by congruence. subst f'. split; [intro H; exfalso; apply H; left; auto|]. intros _. exists r. rewrite I1; auto.
      - assert (m <> n) by (intros ->; congruence). split.
        + intro H0. apply I1. intro; apply H0; right; auto.
        + intros [->|H0]; [congruence|]. auto. }
    assert (NTH : forall q, In q reqs -> exists n, nth_error (requests _ _ s) n = Some (req_frame q)).
    { intros q H. apply In_nth_error. rewrite RQ. apply in_map. auto. }
    split; [|split].
    - intros q H. destruct (NTH q H) as [n E]. destruct (KEY n _ E) as [K1 K2]. destruct (in_dec Nat.eq_dec n ns); auto.
    - intros id H. rewrite EV, filter_out. change (filter is_response (written _ _ s)) with (responses _ _ s). clear - H F2 RQ. induction F2 as [|n o ns os (f & r & E & -> & _) F2 IH]; auto.
      cbn [map filter]. replace (for_id id (out_event (OResponse (in_id f) r))) with (in_id f =? id) by (destruct r; reflexivity). destruct (N.eqb_spec (in_id f) id) as [Q|Q]; auto.
      exfalso. apply nth_error_In in E. rewrite RQ in E. apply in_map_iff in E. destruct E as (q & <- & E). apply (H q E Q).
    - intros I q H Z. destruct (NTH q H) as [n E]. destruct (all_answered _ _ X start hstep xstep bye1 bye2 maxp cap e xs I) as (ns' & lost & P & F3 & L). fold s in P, F3, L.
      assert (HN : In n (ns' ++ lost)). { apply (Permutation_in n (Permutation_sym P)). apply in_seq. split; [lia|]. simpl. apply nth_error_Some. congruence. }
      apply in_app_or in HN. destruct HN as [HN|HN]; [|destruct (L n HN) as (f & E2 & PN); congruence].
      exfalso. assert (HR : exists r, In (OResponse (in_id (req_frame q)) r) (responses _ _ s)).
      { clear - F3 HN E. induction F3 as [|m o ms os (f & r & E' & -> & _) F IH]; [contradiction|]. destruct HN as [->|HN].
        - assert (f = req_frame q) by congruence. subst. exists r. left; auto.
        - destruct (IH HN) as [r' HI]. exists r'. right; auto. }
      destruct HR as [r HR]. assert (HI : In (out_event (OResponse (in_id (req_frame q)) r)) (filter (for_id (in_id (req_frame q))) events)).
      { apply filter_In. split; [rewrite EV; apply in_map; apply filter_In in HR; apply HR|]. destruct r; simpl; apply N.eqb_refl. }
      rewrite Z in HI. destruct HI.
  Qed.

  Lemma lost_grows : forall xs s n, In n (c_lost _ _ s) -> In n (c_lost _ _ (crun s xs)).
  Proof.
    induction xs as [|x xs IH]; intros s n H; auto. cbn [ConnModel.crun]. apply IH. clear IH. destruct x; cbn [ConnModel.cstep]; unfold task_step, sock_end, abort;
      repeat match goal with |- context[match ?e with _ => _ end] => destruct e eqn:? end; simpl; auto. apply in_or_app; auto.
  Qed.
  Lemma requests_grow : forall xs s, exists l, requests _ _ (crun s xs) = requests _ _ s ++ l.
  Proof.
    induction xs as [|x xs IH]; intros s; [exists []; rewrite app_nil_r; auto|]. cbn [ConnModel.crun]. destruct (IH (cstep s x)) as [l E].
    assert (exists l', requests _ _ (cstep s x) = requests _ _ s ++ l') as [l' E'].
    { destruct x; cbn [ConnModel.cstep]; unfold task_step, sock_end, abort, ConnModel.requests;
      repeat match goal with |- context[match ?e with _ => _ end] => destruct e eqn:? end; simpl; try (exists []; rewrite app_nil_r; auto; fail). apply feed_grows. }
    exists (l' ++ l). rewrite E, E', app_assoc. auto.
  Qed.
  (** A request whose handler panicked is never answered. *)
  Theorem lost_for_good e xs n f : let s := crun (C0 e) xs in In n (c_lost _ _ s) -> nth_error (requests _ _ s) n = Some f ->
    forall ys, let s' := crun s ys in NoDup (map in_id (requests _ _ s')) -> forall r, ~ In (OResponse (in_id f) r) (responses _ _ s').
  Proof.
    intros s L E ys s' ND r HI. pose proof (CI_run _ _ X start hstep xstep bye1 bye2 maxp cap (xs ++ ys) _ (CI_0 _ _ start hstep e)) as C.
    rewrite crun_app in C. fold s in C. fold s' in C. pose proof (lost_grows ys s n L) as L'. fold s' in L'.
    assert (E' : nth_error (requests _ _ s') n = Some f).
    { destruct (requests_grow ys s) as [l G]. fold s' in G. rewrite G, nth_error_app1; auto. apply nth_error_Some. congruence. }
    pose proof (ci_out _ _ _ _ _ C) as Y. apply Forall_app in Y. destruct Y as [_ Y].
    unfold responses, written in HI. apply filter_In in HI. destruct HI as [HI _]. apply in_map_iff in HI. destruct HI as ([k o] & EO & HI). simpl in EO. subst o.
    rewrite Forall_forall in Y. pose proof (Y _ HI) as Z. unfold out_ok in Z. simpl in Z. destruct k as [m|]; [|discriminate]. destruct Z as (f' & r' & E2 & Q & _). injection Q as Q _.
    assert (n = m). { apply (proj1 (NoDup_nth_error _) ND); [rewrite map_length; apply nth_error_Some; congruence|]. rewrite !nth_error_map, E', E2. simpl. congruence. }
    subst m. pose proof (ci_cnt _ _ _ _ _ C n) as K. rewrite cnt_seq in K.
    assert (A : (1 <= cnt n (c_lost _ _ s'))%nat) by (apply count_occ_In; auto).
    assert (B : (1 <= cnt n (nums (c_sent _ _ s')))%nat). { apply count_occ_In. unfold nums. apply in_flat_map. exists (Some n, OResponse (in_id f) r). split; simpl; auto. }
    destruct (_ <? _)%nat; lia.
  Qed.
End Client.
