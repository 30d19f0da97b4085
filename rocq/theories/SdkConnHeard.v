(** What the server writes is what the application of the SDK hears. *)
From Verif Require Import LibBase LibMap WireModel WireProofs RespModel RespProofs SdkConnModel SdkConnSpec SdkConnProofs.
From Coq Require Import Lia.

Section Json.
Variable json_ok : bytes -> bool.
Notation ustep := (ustep json_ok).
Notation ulog := (ulog json_ok).
Notation ustate := (ustate json_ok).

Lemma sdk_mono_err : forall src x, sdk_split src = DErr -> sdk_split (src ++ x) = DErr.
Proof. intros src x H. exfalso. eapply sdk_noerr; exact H. Qed.
(** what a frame makes the client hear, if it can be read *)
Definition hears (e : sdk_event) : option (list heard_ev) :=
  match e with
  | EvResponse id st d =>
      if (st =? STATUS_ERR) && (match sdk_string d with None => true | _ => false end) then None
      else Some [HResponse id st d]
  | EvPush p => match push_value json_ok p with Some (t, (ty, d)) => Some [HPush t ty d] | None => None end
  | EvUnknown _ => Some []
  end.
Lemma heard_app : forall a b, heard (a ++ b) = heard a ++ heard b.
Proof. intros; unfold heard; apply flat_map_app. Qed.
Lemma frame_heard : forall s f s' l th hs, handle_frame json_ok s f = (s', l, th) ->
  hears (sdk_handle f) = Some hs -> th = false /\ heard l = hs /\ ~ In EThrown l /\ u_buf s' = u_buf s.
Proof.
  intros s f s' l th hs H Hh. unfold handle_frame in H. unfold hears in Hh.
  destruct (sdk_handle f) as [id st d|p|ty].
  - destruct ((st =? STATUS_ERR) && (match sdk_string d with None => true | _ => false end)) eqn:E; [discriminate|].
    injection Hh as <-. destruct (aget Z.eqb (Z.of_N id) (u_pend s)) as [p|].
    + unfold settle_of in H. destruct (st =? STATUS_ERR); cbn [andb] in E.
      * destruct (sdk_string d) as [[m r]|]; [|discriminate]. injection H as <- <- <-.
        cbn [heard flat_map app]. rewrite N2Z.id. split; [reflexivity|]. split; [reflexivity|]. split; [cbn; intuition discriminate|reflexivity].
      * injection H as <- <- <-. cbn [heard flat_map app]. rewrite N2Z.id. split; [reflexivity|]. split; [reflexivity|]. split; [cbn; intuition discriminate|reflexivity].
    + injection H as <- <- <-. cbn [heard flat_map app]. rewrite N2Z.id. split; [reflexivity|]. split; [reflexivity|]. split; [cbn; intuition discriminate|reflexivity].
  - destruct (push_value json_ok p) as [[t [ty d]]|]; [|discriminate]. injection Hh as <-. injection H as <- <- <-.
    split; [reflexivity|]. split; [reflexivity|]. split; [cbn; intuition discriminate|reflexivity].
  - injection Hh as <-. injection H as <- <- <-. split; [reflexivity|]. split; [reflexivity|]. split; [cbn; tauto|reflexivity].
Qed.

Fixpoint hears_all (es : list sdk_event) : option (list heard_ev) :=
  match es with
  | [] => Some []
  | e :: r => match hears e, hears_all r with Some a, Some b => Some (a ++ b) | _, _ => None end
  end.
Lemma hears_all_app : forall a b ha hb, hears_all a = Some ha -> hears_all b = Some hb -> hears_all (a ++ b) = Some (ha ++ hb).
Proof.
  induction a as [|e a IH]; intros b ha hb H Hb; cbn in *.
  - injection H as <-. exact Hb.
  - destruct (hears e) as [x|]; [|discriminate]. destruct (hears_all a) as [y|]; [|discriminate].
    injection H as <-. rewrite (IH _ _ _ eq_refl Hb), app_assoc. reflexivity.
Qed.
Lemma hears_all_split : forall a b h, hears_all (a ++ b) = Some h ->
  exists ha hb, hears_all a = Some ha /\ hears_all b = Some hb /\ h = ha ++ hb.
Proof.
  induction a as [|e a IH]; intros b h H; cbn in *.
  - exists [], h. auto.
  - destruct (hears e) as [x|]; [|discriminate]. destruct (hears_all (a ++ b)) as [y|] eqn:E; [|discriminate].
    injection H as <-. destruct (IH _ _ E) as (ha & hb & -> & Hb & ->). exists (x ++ ha), hb. rewrite app_assoc. auto.
Qed.

Lemma process_heard : forall fuel s fs e rest hs, drain sdk_split fuel (u_buf s) = Some (fs, e, rest) ->
  hears_all (map sdk_handle fs) = Some hs ->
  let s' := fst (process json_ok fuel s) in let l := snd (process json_ok fuel s) in
  u_buf s' = rest /\ heard l = hs /\ ~ In EThrown l.
Proof.
  induction fuel as [|fuel IH]; intros s fs e rest hs H Hh; cbn [drain process] in *; [discriminate|].
  destruct (sdk_split (u_buf s)) as [| |f r] eqn:Es.
  - injection H as <- <- <-. cbn in Hh |- *. injection Hh as <-. auto.
  - injection H as <- <- <-. cbn in Hh |- *. injection Hh as <-. auto.
  - destruct (drain sdk_split fuel r) as [[[fs' e'] b']|] eqn:Ed; [|discriminate]. injection H as <- <- <-.
    cbn [map hears_all] in Hh. destruct (hears (sdk_handle f)) as [h1|] eqn:Eh; [|discriminate].
    destruct (hears_all (map sdk_handle fs')) as [h2|] eqn:Eh2; [|discriminate]. injection Hh as <-.
    destruct (handle_frame json_ok (with_buf s r) f) as [[s1 l1] th] eqn:Ef.
    destruct (frame_heard _ _ _ _ _ _ Ef Eh) as (-> & H1 & H2 & H3). cbn in H3.
    destruct (process json_ok fuel s1) as [s2 l2] eqn:Ep.
    specialize (IH s1 fs' e' b' h2). rewrite H3, Ed, Ep in IH. destruct (IH eq_refl Eh2) as (K1 & K2 & K3).
    cbn [fst snd] in *. rewrite heard_app, H1, K2. split; [exact K1|]. split; [reflexivity|].
    rewrite in_app_iff. tauto.
Qed.
Lemma not_thrown_settles : forall (o : preq -> outcome) (m : list (Z * preq)),
  heard (map (fun kp => ESettled (p_call (snd kp)) (o (snd kp))) m) = [] /\
  ~ In EThrown (map (fun kp => ESettled (p_call (snd kp)) (o (snd kp))) m).
Proof.
  intros o m. split; [induction m; [reflexivity|exact IHm]|].
  intro H. apply in_map_iff in H. destruct H as (x & E & _). discriminate.
Qed.

(** reading in step with the reader of [feed_all] *)
Lemma steady_run : forall xs ys r0 hs, u_sock (ustate xs) = SOpen -> u_buf (ustate xs) = r_buf r0 -> r_err r0 = false ->
  Forall (fun o => steady o = true) ys ->
  (exists fs, r_frames (fold_left (feed sdk_split) (received ys) r0) = r_frames r0 ++ fs /\
              hears_all (map sdk_handle fs) = Some hs) ->
  exists l, ulog (xs ++ ys) = ulog xs ++ l /\ heard l = hs /\ ~ In EThrown l /\
    u_sock (ustate (xs ++ ys)) = SOpen /\
    u_buf (ustate (xs ++ ys)) = r_buf (fold_left (feed sdk_split) (received ys) r0) /\
    r_err (fold_left (feed sdk_split) (received ys) r0) = false.
Proof.
  intros xs ys. induction ys as [|o ys IH] using rev_ind; intros r0 hs Hs Hb He Hst (fs & Hf & Hh).
  - cbn in Hf. exists []. rewrite !app_nil_r. cbn.
    assert (fs = []) by (apply (app_inv_head (r_frames r0)); rewrite app_nil_r; congruence). subst fs.
    cbn in Hh. injection Hh as <-. repeat split; auto.
  - apply Forall_app in Hst. destruct Hst as [Hst Ho]. inversion Ho as [|? ? Ho' _]. subst.
    assert (Hrec : received (ys ++ [o]) = received ys ++ received [o]) by (unfold received; apply flat_map_app).
    rewrite Hrec in *. rewrite fold_left_app in *.
    set (r1 := fold_left (feed sdk_split) (received ys) r0) in *.
    assert (Hmono : exists fs1, r_frames r1 = r_frames r0 ++ fs1).
    { unfold r1. generalize (received ys). intro cs. clear.
      induction cs as [|c cs IH] using rev_ind; [exists []; rewrite app_nil_r; reflexivity|].
      rewrite fold_left_app. cbn [fold_left]. destruct IH as (fs1 & E). unfold feed at 1.
      destruct (r_err (fold_left (feed sdk_split) cs r0)); [eauto|].
      destruct (drain sdk_split _ _) as [[[fs2 e2] b2]|]; [|eauto]. cbn [r_frames].
      exists (fs1 ++ fs2). rewrite E, app_assoc. reflexivity. }
    destruct Hmono as (fs1 & Hr1).
    assert (Hmono2 : exists fs2, r_frames (fold_left (feed sdk_split) (received [o]) r1) = r_frames r1 ++ fs2).
    { destruct o as [| |c|n| | | | |]; cbn; try (exists []; rewrite app_nil_r; reflexivity).
      unfold feed. destruct (r_err r1); [exists []; rewrite app_nil_r; reflexivity|].
      destruct (drain sdk_split _ _) as [[[fs2 e2] b2]|]; [exists fs2; reflexivity|exists []; rewrite app_nil_r; reflexivity]. }
    destruct Hmono2 as (fs2 & Hr2).
    assert (fs = fs1 ++ fs2).
    { apply (app_inv_head (r_frames r0)). rewrite <- Hf, Hr2, Hr1, <- app_assoc. reflexivity. }
    subst fs. rewrite map_app in Hh. apply hears_all_split in Hh. destruct Hh as (h1 & h2 & Hh1 & Hh2 & ->).
    destruct (IH r0 h1 Hs Hb He Hst) as (l & K1 & K2 & K3 & K4 & K5 & K6); [exists fs1; auto|].
    fold r1 in K5, K6.
    rewrite app_assoc, ustate_snoc, ulog_snoc.
    set (s := ustate (xs ++ ys)) in *.
    assert (Hgen : forall l2, snd (ustep s o) = l2 -> heard l2 = h2 -> ~ In EThrown l2 ->
      u_sock (fst (ustep s o)) = SOpen ->
      u_buf (fst (ustep s o)) = r_buf (fold_left (feed sdk_split) (received [o]) r1) ->
      r_err (fold_left (feed sdk_split) (received [o]) r1) = false ->
      exists l0, ulog (xs ++ ys) ++ snd (ustep s o) = ulog xs ++ l0 /\ heard l0 = h1 ++ h2 /\ ~ In EThrown l0 /\
        u_sock (fst (ustep s o)) = SOpen /\
        u_buf (fst (ustep s o)) = r_buf (fold_left (feed sdk_split) (received [o]) r1) /\
        r_err (fold_left (feed sdk_split) (received [o]) r1) = false).
    { intros l2 E2 Hl2 Hn2 Hk Hbuf Herr. exists (l ++ l2). rewrite E2, K1, app_assoc, heard_app, K2, Hl2, in_app_iff. tauto. }
    assert (Hnone : received [o] = [] -> h2 = []).
    { intro E. rewrite E in Hr2. cbn in Hr2.
      assert (fs2 = []) by (apply (app_inv_head (r_frames r1)); rewrite app_nil_r; congruence). subst fs2.
      cbn in Hh2. congruence. }
    destruct o as [now tmo bad|bad|chunk|now| | | | | ]; try discriminate; cbn [SdkConnModel.ustep] in *.
    + specialize (Hnone eq_refl). subst h2.
      destruct (bad || negb (writable_u32 (u_next s))); cbn [fst snd] in *.
      * eapply Hgen; try reflexivity; auto. cbn; intuition discriminate.
      * destruct (u_up s); cbn [fst snd] in *; (eapply Hgen; try reflexivity; auto; cbn; intuition discriminate).
    + specialize (Hnone eq_refl). subst h2.
      destruct (u_up s); cbn [fst snd] in *; (eapply Hgen; try reflexivity; auto).
      * destruct (bad || negb (writable_u32 (u_next s))); reflexivity.
      * destruct (bad || negb (writable_u32 (u_next s))); cbn; intuition discriminate.
    + rewrite K4 in *. cbn [received flat_map app fold_left] in *. unfold feed in *. rewrite K6 in *.
      cbn [with_buf u_buf] in *. rewrite K5 in *.
      destruct (drain_fuel_ok sdk_split sdk_mono_frame sdk_mono_err sdk_progress (S (length (r_buf r1 ++ chunk))) (r_buf r1 ++ chunk)) as [[[fs3 e3] b3] H3]; [lia|].
      rewrite H3 in *. cbn [r_frames r_buf r_err] in *.
      assert (fs3 = fs2) by (apply (app_inv_head (r_frames r1)); exact Hr2). subst fs3.
      pose proof (process_heard (S (length (r_buf r1 ++ chunk))) (with_buf s (r_buf r1 ++ chunk)) fs2 e3 b3 h2) as P.
      cbn [with_buf u_buf] in P. specialize (P H3 Hh2). cbv zeta in P. destruct P as (P1 & P2 & P3).
      assert (e3 = false).
      { clear -H3. remember (S (length (r_buf r1 ++ chunk))) as fuel. clear Heqfuel. revert H3.
        generalize (r_buf r1 ++ chunk). revert fs2 e3 b3. induction fuel as [|fuel IH]; intros fs e b buf H; cbn [drain] in H; [discriminate|].
        destruct (sdk_split buf) as [| |f rest] eqn:E.
        - injection H as _ <- _. reflexivity.
        - exfalso. eapply sdk_noerr; exact E.
        - destruct (drain sdk_split fuel rest) as [[[fs' e'] b']|] eqn:D; [|discriminate].
          injection H as _ <- _. eapply IH; exact D. }
      eapply Hgen; try reflexivity; auto.
      destruct (process json_ok (S (length (r_buf r1 ++ chunk))) (with_buf s (r_buf r1 ++ chunk))) as [s' l'] eqn:Ep.
      apply process_fixed in Ep. cbn [fst]. destruct Ep as (_ & _ & _ & _ & _ & _ & _ & _ & _ & _ & E). rewrite E. exact K4.
    + specialize (Hnone eq_refl). subst h2.
      destruct (u_sweep s); cbn [fst snd] in *; (eapply Hgen; try reflexivity; auto).
      * cbn. apply (not_thrown_settles (fun p => TimedOut (p_tmo p))).
      * intros [H|H]; [discriminate|]. exact (proj2 (not_thrown_settles (fun p => TimedOut (p_tmo p)) _) H).
Qed.

Lemma idle_buf : forall xs, u_sock (ustate xs) = SDial \/ u_sock (ustate xs) = SDead -> u_buf (ustate xs) = [].
Proof.
  induction xs as [|o xs IH] using rev_ind; [reflexivity|]. rewrite ustate_snoc. intro H.
  destruct o as [now tmo bad|bad|chunk|now| | | | | ]; cbn [SdkConnModel.ustep] in *.
  - destruct (bad || negb (writable_u32 (u_next (ustate xs)))); cbn [fst] in *; [exact (IH H)|].
    destruct (u_up (ustate xs)); exact (IH H).
  - destruct (u_up (ustate xs)); exact (IH H).
  - destruct (u_sock (ustate xs)) eqn:E; cbn [fst] in *; try (apply IH; rewrite E in *; exact H).
    match goal with |- context [process ?a ?b ?c] => destruct (process a b c) as [s' l] eqn:Ep end.
    apply process_fixed in Ep. cbn [fst] in *. destruct Ep as (_ & _ & _ & _ & _ & _ & _ & _ & _ & _ & E2). cbn in E2.
    rewrite E2, E in H. destruct H; discriminate.
  - destruct (u_sweep (ustate xs)); exact (IH H).
  - destruct (u_sock (ustate xs)) eqn:E; cbn [fst] in *; try reflexivity; apply IH; rewrite E in *; exact H.
  - destruct (u_loop (ustate xs)) eqn:E; cbn [fst] in *; try (exact (IH H)).
    cbn. apply IH. pose proof (v_dial _ _ (uinv_run json_ok xs)) as Hd. unfold loop_ok in Hd. rewrite E in Hd. auto.
  - destruct (u_loop (ustate xs)), (u_sock (ustate xs)) eqn:E; cbn in *; rewrite ?E in *; try (apply IH; exact H); destruct H; discriminate.
  - destruct (u_loop (ustate xs)), (u_sock (ustate xs)) eqn:E; cbn in *; rewrite ?E in *; try (apply IH; exact H); reflexivity.
  - cbn in *. destruct (u_sock (ustate xs)) eqn:E; try (destruct H; discriminate). apply IH. auto.
Qed.

Lemma sounds_hears : forall o h, sounds json_ok o h -> WireProofs.out_ok o -> hears (out_event o) = Some [h].
Proof.
  intros o h H Hok. destruct H as [id r st d E|id topic ty d Ht Hj].
  - destruct r as [| |m|]; cbn in E; injection E as <- <-; cbn [out_event hears]; try reflexivity.
    cbn [STATUS_ERR N.eqb Pos.eqb andb].
    assert (Hm : lenN m < 2 ^ 32).
    { destruct Hok as [_ Hok]. cbn [response_parts snd] in Hok. rewrite lenN_app in Hok. lia. }
    pose proof (sdk_string_app m [] Hm) as Es. rewrite app_nil_r in Es. rewrite Es. reflexivity.
  - cbn [out_event hears]. unfold push_value.
    rewrite (push_roundtrip topic (ty :: d)) by (try exact Ht; discriminate). unfold typed; cbn [hd tl].
    destruct (ty =? 2) eqn:E2; cbn; [|reflexivity]. apply N.eqb_eq in E2.
    destruct (Hj E2) as [->|Hok']; [reflexivity|]. rewrite Hok'. rewrite andb_false_r. reflexivity.
Qed.

Lemma fresh_state : forall xs, fresh json_ok xs -> u_sock (ustate xs) = SOpen /\ u_buf (ustate xs) = [].
Proof.
  intros xs [->|(zs & -> & Hd & Hu)]; [split; reflexivity|].
  split; [apply (v_open _ _ (uinv_run json_ok _)); exact Hu|].
  rewrite ustate_snoc in *. cbn [SdkConnModel.ustep] in *.
  assert (Hb : u_buf (ustate zs) = []).
  { apply idle_buf. destruct (u_loop (ustate zs)), (u_sock (ustate zs)); cbn in *; auto; congruence. }
  destruct (u_loop (ustate zs)), (u_sock (ustate zs)); cbn in *; assumption.
Qed.
Lemma heard_written : forall xs ys outs hs tail, fresh json_ok xs -> Forall (fun o => steady o = true) ys ->
  Forall2 (sounds json_ok) outs hs -> Forall WireProofs.out_ok outs -> sdk_split tail = DNone ->
  concat (received ys) = concat (map encode outs) ++ tail ->
  exists l, ulog (xs ++ ys) = ulog xs ++ l /\ heard l = hs /\ ~ In EThrown l.
Proof.
  intros xs ys outs hs tail Hf Hst Hs Hok Ht Hc. destruct (fresh_state xs Hf) as [H1 H2].
  destruct (sdk_session outs (received ys) tail Hok Ht Hc) as (S1 & _ & _).
  destruct (steady_run xs ys reader0 hs H1 H2 eq_refl Hst) as (l & K1 & K2 & K3 & _).
  - exists (r_frames (feed_all sdk_split (received ys))). split; [reflexivity|]. rewrite S1.
    clear -Hs Hok. induction Hs as [|o h outs hs Ho Hs IH]; [reflexivity|]. inversion Hok; subst.
    cbn [map hears_all]. rewrite (sounds_hears _ _ Ho) by assumption. rewrite IH by assumption. reflexivity.
  - exists l. auto.
Qed.

(** the reconnect loop never dies before disconnect() *)
Definition alive (s : cli) : Prop :=
  u_should s = true /\
  match u_loop s with
  | LNone => u_up s = true /\ u_recon s = false
  | LSleep => u_up s = false /\ u_recon s = true
  | LDial => u_up s = false /\ u_recon s = true
  end.
Lemma alive_run : forall xs, ~ In UDisconnect xs -> alive (ustate xs).
Proof.
  induction xs as [|o xs IH] using rev_ind; intro Hn; [repeat split|].
  assert (A : alive (ustate xs)) by (apply IH; intro H; apply Hn; apply in_or_app; left; exact H).
  assert (Ho : o <> UDisconnect) by (intro H; apply Hn; apply in_or_app; right; left; exact H).
  pose proof (uinv_run json_ok xs) as V. pose proof (v_dial _ _ V) as Hd. pose proof (v_open _ _ V) as Hu.
  rewrite ustate_snoc. set (s := ustate xs) in *. clearbody s. destruct A as [A1 A2]. unfold alive, loop_ok in *.
  destruct o as [now tmo bad|bad|chunk|now| | | | | ]; cbn [SdkConnModel.ustep].
  - destruct (bad || negb (writable_u32 (u_next s))); cbn [fst]; [cbn; auto|]. destruct (u_up s) eqn:Eu; cbn; rewrite ?Eu; auto.
  - destruct (u_up s) eqn:Eu; cbn; rewrite ?Eu; auto.
  - destruct (u_sock s) eqn:E; cbn [fst]; auto.
    match goal with |- context [process ?a ?b ?c] => destruct (process a b c) as [s' l] eqn:Ep end.
    apply process_fixed in Ep. cbn [fst with_buf u_up u_loop u_should u_recon] in *.
    destruct Ep as (_ & _ & _ & _ & _ & _ & -> & -> & -> & -> & _). auto.
  - destruct (u_sweep s); cbn; auto.
  - destruct (u_sock s) eqn:E; cbn [fst]; auto; rewrite A1; cbn.
    + assert (Hup : u_up s = true) by (apply Hu; reflexivity).
      destruct (u_loop s); destruct A2 as [A2 A3]; try congruence. rewrite A3. cbn. auto.
    + exfalso. destruct (u_loop s); try discriminate. destruct A2 as [A2 _]. apply Hu in A2. discriminate.
  - destruct (u_loop s) eqn:E; cbn [fst]; cbn; rewrite ?E; try tauto.
  - destruct (u_loop s) eqn:E, (u_sock s) eqn:E2; cbn [fst]; cbn; rewrite ?E; try tauto.
  - destruct (u_loop s) eqn:E, (u_sock s) eqn:E2; cbn [fst]; rewrite ?E; auto. rewrite A1. cbn. tauto.
  - congruence.
Qed.
Lemma comes_back : forall xs, ~ In UDisconnect xs ->
  u_up (ustate (xs ++ [UWake; UDialOk])) = true /\
  (u_up (ustate xs) = false -> exists l, ulog (xs ++ [UWake; UDialOk]) = ulog xs ++ l /\ In EUp l).
Proof.
  intros xs Hn. pose proof (alive_run xs Hn) as [_ A].
  pose proof (uinv_run json_ok xs) as V. pose proof (v_dial _ _ V) as Hd. unfold loop_ok in Hd.
  change (xs ++ [UWake; UDialOk]) with (xs ++ [UWake] ++ [UDialOk]). rewrite app_assoc.
  rewrite ustate_snoc, ulog_snoc, ustate_snoc, ulog_snoc. set (s := ustate xs) in *. clearbody s.
  cbn [SdkConnModel.ustep]. destruct (u_loop s) eqn:E; destruct A as [A1 A2].
  - cbn [fst snd]. rewrite E. cbn [fst]. split; [exact A1|congruence].
  - cbn. split; [reflexivity|]. intros _. eexists. split; [rewrite <- app_assoc; reflexivity|cbn; auto].
  - cbn [fst snd]. rewrite E, Hd. cbn. split; [reflexivity|]. intros _. eexists. split; [rewrite <- app_assoc; reflexivity|cbn; auto].
Qed.
End Json.
