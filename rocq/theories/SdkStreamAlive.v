(** The subscription and the server: as long as no connection is lost while callbacks
    run, the server knows the subscription's identity. *)
From Verif Require Import LibBase LibMap StreamTopicModel StreamGroupModel StreamGroupSpec StreamGroupFacts StreamStoreModel StreamSysModel StreamSysHist ConnReleaseProofs StreamWake SdkLoopModel SdkLoopProofs SdkStreamModel SdkStreamSpec SdkStreamProofs SdkStreamServer SdkStreamSys SdkStreamSysSpec SdkStreamHold.

Section Y.
  Variable crc : bytes -> N.
  Variable cfg : gcfg.
  Variable smax : N.
  Variable conc : N.
  Variable gid : bytes.
  Variable limit : N.
  Notation sstep := (sstep crc cfg smax).
  Notation ystep := (ystep crc cfg smax conc gid limit).
  Notation yrun := (yrun crc cfg smax conc gid limit).
  Notation y_cli := (y_cli conc).
  Notation calm_losses := (calm_losses crc cfg smax conc gid limit).
  Notation usual := (usual gid).
  Notation ysteps := (ysteps crc cfg smax conc gid limit).
  Notation usuals := (usuals crc cfg smax conc gid limit).

  (** what writing requests changes *)
  Definition req_of (r : yreq) (es : list tev) : Prop :=
    match r with
    | QJoin => In VJoin es
    | QFetch i cold => cold = false /\ In (VFetch i) es
    | QLeave i => In (VLeave i) es
    | QAck i q => exists m, In (VDo (EAck item (i, m))) es
    end.
  Record wrote (es : list tev) (y y' : ysys) : Prop := {
    wr_k : y_k y' = y_k y; wr_log : y_log y' = y_log y; wr_conn : y_conn y' = y_conn y; wr_conns : y_conns y' = y_conns y;
    wr_gone : y_gone y' = y_gone y; wr_ans : y_ans y' = y_ans y; wr_used : y_used y' = y_used y; wr_mine : y_mine y' = y_mine y;
    wr_s : y_s y' = y_s y; wr_n : y_n y <= y_n y';
    wr_wire : forall n conn r, In (n, (conn, r)) (y_wire y') -> In (n, (conn, r)) (y_wire y) \/ (conn = y_conn y /\ y_n y <= n < y_n y' /\ req_of r es);
    wr_cur : (y_cur y' = y_cur y /\ forall e, In e es -> ~ request e) \/ (y_n y <= y_cur y' < y_n y' /\ exists e, In e es /\ request e)
  }.
  Lemma wrote_put (loop : bool) r (e : tev) es y : (if loop then request e else ~ request e) -> req_of r (e :: es) -> forall y', wrote es (y_put loop r y) y' -> wrote (e :: es) y y'.
  Proof.
    intros L R y' [K1 K2 K3 K4 K5 K6 K7 K8 K9 Kn Kw Kc]. cbn [y_put y_k y_log y_conn y_conns y_gone y_ans y_used y_mine y_s y_n y_wire y_cur] in *. constructor; auto.
    - lia.
    - intros n conn r' H. destruct (Kw n conn r' H) as [A|(A & B & C)].
      + apply in_app_or in A. destruct A as [A|[A|[]]]; auto. injection A as <- <- <-. right. split; auto. split; auto. lia.
      + right. split; auto. split; [lia|]. destruct r'; simpl in C |- *; try (intuition auto; fail). destruct C as [m C]. eauto.
    - destruct Kc as [[E N]|[B (e' & B1 & B2)]]; [|right; split; [lia|exists e'; split; [right|]; auto]]. destruct loop; [right; split; [lia|exists e; split; [left|]; auto]|]. left. split; auto. intros e' [<-|H]; auto.
  Qed.
  Lemma wrote_skip e es y : ~ request e -> forall y', wrote es y y' -> wrote (e :: es) y y'.
  Proof.
    intros L y' [K1 K2 K3 K4 K5 K6 K7 K8 K9 Kn Kw Kc]. constructor; auto.
    - intros n conn r' H. destruct (Kw n conn r' H) as [A|(A & B & C)]; auto. right. split; auto. split; auto. destruct r'; simpl in C |- *; try (intuition auto; fail). destruct C as [m C]. eauto.
    - destruct Kc as [[E N]|[B (e' & B1 & B2)]]; [|right; split; [lia|exists e'; split; [right|]; auto]]. left. split; auto. intros e' [<-|H]; auto.
  Qed.
  Lemma write_all : forall es y, wrote es y (fold_left y_write es y).
  Proof.
    induction es as [|e es IH]; intro y; simpl.
    - constructor; auto; try lia; try (left; split; auto; intros ? []).
    - assert (X : forall x, ~ request e -> y_write y e = y -> wrote (e :: es) y (fold_left y_write es (y_write y x)) \/ True) by auto.
      destruct e as [|i| | |i|i ms| |x| |i| | |c|]; cbn [y_write].
      all: try (apply wrote_skip; [intro H; exact H|apply IH]).
      + apply (wrote_put true QJoin); [exact Logic.I|left; auto|apply IH].
      + apply (wrote_put true (QFetch i false)); [exact Logic.I|split; [auto|left; auto]|apply IH].
      + destruct x as [j|j ok|[i m]|j|j]; try (apply wrote_skip; [intro H; exact H|apply IH]). apply (wrote_put false (QAck i (m_seq m))); [intro H; exact H|exists m; left; auto|apply IH].
      + apply (wrote_put false (QLeave i)); [intro H; exact H|left; auto|apply IH].
  Qed.
  (** one step of the client *)
  Record acted (o : cop) (y y' : ysys) : Prop := {
    ac_k : y_k y' = fst (cstep conc (y_k y) o); ac_log : y_log y' = y_log y ++ snd (cstep conc (y_k y) o); ac_conn : y_conn y' = y_conn y; ac_conns : y_conns y' = y_conns y;
    ac_gone : y_gone y' = y_gone y; ac_ans : y_ans y' = y_ans y; ac_used : y_used y' = y_used y; ac_mine : y_mine y' = y_mine y;
    ac_s : y_s y' = y_s y; ac_n : y_n y <= y_n y';
    ac_wire : forall n conn r, In (n, (conn, r)) (y_wire y') -> In (n, (conn, r)) (y_wire y) \/ (conn = y_conn y /\ y_n y <= n < y_n y' /\ req_of r (snd (cstep conc (y_k y) o)));
    ac_cur : (y_cur y' = y_cur y /\ forall e, In e (snd (cstep conc (y_k y) o)) -> ~ request e) \/ (y_n y <= y_cur y' < y_n y' /\ exists e, In e (snd (cstep conc (y_k y) o)) /\ request e)
  }.
  Lemma cli_acted o y : acted o y (y_cli o y).
  Proof.
    unfold SdkStreamSys.y_cli. destruct (cstep conc (y_k y) o) as [k es] eqn:E.
    match goal with |- acted _ _ (fold_left _ _ ?z) => pose proof (write_all es z) as [K1 K2 K3 K4 K5 K6 K7 K8 K9 Kn Kw Kc] end.
    cbn [y_k y_log y_conn y_conns y_gone y_ans y_used y_mine y_s y_n y_wire y_cur] in *. constructor; rewrite ?E; cbn [fst snd]; auto.
  Qed.

  (** the server knows identity [i]: unless the group has moved to a later generation, it
      is a member, and only the present connection's end takes it out *)
  Definition holds (i : ident) (y : ysys) : Prop :=
    In (fst i) (y_mine y) /\
    (~ In (y_conn y) (y_gone y) ->
     (exists g, gget gid (y_s y) = Some g /\ snd i <= g_gen g /\ (g_gen g = snd i -> member (fst i) g = true)) /\
     (forall conn l, aget N.eqb conn (s_clients (y_s y)) = Some l -> In (gid, fst i) l -> conn = y_conn y)).
  Record YI (y : ysys) : Prop := {
    yi_k : KI (y_k y) (y_log y);
    yi_h : is_run (k_pc (y_k y)) = handling (y_log y);
    yi_good : Every good (y_log y);
    yi_known : known (y_used y) (y_s y);
    yi_mine : incl (y_mine y) (y_used y);
    yi_conn : In (y_conn y) (y_conns y);
    yi_ans : forall n conn a, In (n, (conn, a)) (y_ans y) -> In conn (y_conns y);
    yi_wire : forall n conn r, In (n, (conn, r)) (y_wire y) -> In conn (y_conns y) /\ forall i, r = QLeave i -> k_active (y_k y) = false
  }.
  (** what needs the calm *)
  Record YC (y : ysys) : Prop := {
    yc_run : k_active (y_k y) = true -> k_up (y_k y) = false -> is_run (k_pc (y_k y)) = false;
    yc_id : forall i, k_active (y_k y) = true -> k_up (y_k y) = true -> k_id (y_k y) = Some i -> holds i y;
    yc_ans : forall i n, k_active (y_k y) = true -> k_up (y_k y) = true -> In (n, (y_conn y, AJoined i)) (y_ans y) -> holds i y
  }.

  Lemma yi_cli o y : YI y -> YI (y_cli o y).
  Proof.
    intros [K H G N M C A W]. destruct (cli_acted o y) as [Ek El Ec Ecs Eg Ea Eu Em Es En Ew _].
    pose proof (step_ok conc (y_k y) (y_log y) o K G) as [K' G']. constructor; rewrite ?Ek, ?El, ?Ec, ?Ecs, ?Eg, ?Ea, ?Eu, ?Em, ?Es; auto.
    - apply (hb_step conc (y_k y) (y_log y) o K H).
    - intros n conn r I. destruct (Ew n conn r I) as [I'|(-> & _ & R)].
      + destruct (W n conn r I') as [W1 W2]. split; auto. intros i E. specialize (W2 i E). rewrite (step_active conc). destruct o; auto. destruct (k_pc (y_k y)); auto.
      + split; auto. intros i ->. simpl in R. apply (step_leave conc (y_k y) o i R).
  Qed.
  (** client steps other than the loss and the return of the connection *)
  Lemma yc_cli o y : YI y -> YC y -> o <> CLost -> (forall c, o <> CUp c) -> (forall i, o = CJoined i -> k_active (y_k y) = true -> k_up (y_k y) = true -> holds i y) -> YC (y_cli o y).
  Proof.
    intros I [R D A] NL NU J. destruct (cli_acted o y) as [Ek El Ec Ecs Eg Ea Eu Em Es En Ew _].
    assert (Hd : forall i, holds i y -> holds i (y_cli o y)) by (intro i; unfold holds; rewrite Ec, Eg, Em, Es; auto).
    assert (Act : k_active (y_k (y_cli o y)) = true -> k_active (y_k y) = true).
    { rewrite Ek, (step_active conc). destruct o; auto. destruct (k_pc (y_k y)); auto; discriminate. }
    assert (Up : k_up (y_k (y_cli o y)) = k_up (y_k y)) by (rewrite Ek, (step_up conc); destruct o; auto; congruence).
    constructor.
    - intros HA HU. rewrite Up in HU. apply Act in HA. destruct (is_run (k_pc (y_k (y_cli o y)))) eqn:E; auto. rewrite Ek in E. apply (step_run conc) in E. destruct E as [E|(i & ms & bad & E & ->)].
      + rewrite R in E; auto.
      + pose proof (ki_wait _ _ (yi_k _ I)) as W. rewrite E in W. destruct W. congruence.
    - intros i HA HU E. rewrite Ek in E. rewrite Up in HU. apply Act in HA. apply Hd. apply (step_id conc) in E. destruct E as [E|E]; auto.
    - intros i n HA HU E. rewrite Ec, Ea in E. rewrite Up in HU. apply Act in HA. apply Hd. eauto.
  Qed.
  Lemma yc_lost y : YC y -> (k_up (y_k y) = true -> is_run (k_pc (y_k y)) = false) -> YC (y_cli CLost y).
  Proof.
    intros [R D A] Q. destruct (cli_acted CLost y) as [Ek El Ec Ecs Eg Ea Eu Em Es En Ew _]. assert (Up : k_up (y_k (y_cli CLost y)) = false) by (rewrite Ek, (step_up conc); auto).
    constructor; try congruence. intros HA _. rewrite Ek in HA |- *. rewrite (step_active conc) in HA. destruct (is_run (k_pc (fst (cstep conc (y_k y) CLost)))) eqn:E; auto. apply (step_run conc) in E. destruct E as [E|(i & ms & bad & _ & E)]; [|discriminate E].
    destruct (k_up (y_k y)) eqn:U; [rewrite Q in E|rewrite R in E]; auto.
  Qed.
  Lemma ki_idle k l : KI k l -> k_active k = true -> k_up k = false -> is_run (k_pc k) = false -> k_id k = None.
  Proof.
    intros K A U R. pose proof (ki_cur _ _ K) as C. pose proof (ki_wait _ _ K) as W. pose proof (ki_ended _ _ K) as E. destruct (k_pc k); try (destruct C; congruence); try discriminate R.
    - destruct W. congruence.
    - rewrite E in A; [discriminate A|auto].
  Qed.
  Lemma yc_up c y : YI y -> YC y -> YC (ystep y (YUp c)).
  Proof.
    intros I C. cbn [SdkStreamSys.ystep]. destruct (k_up (y_k y) || nmem c (y_conns y)) eqn:E; auto. apply orb_false_iff in E. destruct E as [U N]. apply nmem_out in N.
    set (z := mkY _ _ c _ _ _ _ _ _ _ _ _). destruct (cli_acted (CUp c) z) as [Ek El Ec Ecs Eg Ea Eu Em Es En Ew _].
    assert (X : fst (cstep conc (y_k z) (CUp c)) = mkCli (k_active (y_k y)) true (k_id (y_k y)) (k_pc (y_k y)) (k_leave (y_k y)) (k_stop (y_k y))) by (unfold z; cbn [y_k SdkStreamModel.cstep]; rewrite U; reflexivity).
    rewrite X in Ek. constructor.
    - rewrite Ek. cbn [k_up]. discriminate.
    - rewrite Ek. cbn [k_up k_active k_id]. intros i HA _ D. rewrite (ki_idle _ _ (yi_k _ I) HA U) in D; [discriminate D|]. apply (yc_run _ C); auto.
    - intros i n _ _ H. rewrite Ec, Ea in H. unfold z in H. cbn [y_conn y_ans] in H. apply (yi_ans _ I) in H. contradiction.
  Qed.

  (** ** The server's side *)
  Lemma holds_srv i y y' o : YI y -> holds i y -> y_s y' = fst (sstep (y_s y) o) -> y_conn y' = y_conn y -> y_gone y' = y_gone y -> incl (y_mine y) (y_mine y') ->
    (~ In (y_conn y) (y_gone y) -> spares gid (fst i) (y_s y) o) -> (forall g c conn, o = SJoin g c conn -> ~ In c (y_used y)) -> holds i y'.
  Proof.
    intros I [Hm Hh] Es Ec Eg Im Sp J. split; [auto|]. rewrite Ec, Eg, Es. intro NG. destruct (Hh NG) as ((g & G & L & Mb) & B). split.
    - destruct (srv_keep crc cfg smax gid (fst i) (y_s y) o g G (Sp NG)) as (g' & G' & L' & K'). exists g'. split; auto. split; [lia|]. intro E. apply K'; [|apply Mb]; lia.
    - intros conn l A In1. destruct (srv_clients crc cfg smax (y_s y) o conn l (gid, fst i) A In1) as [(l0 & A0 & I0)|E]; [apply (B conn l0 A0 I0)|].
      exfalso. cbn [fst snd] in E. apply (J _ _ _ E). apply (yi_mine _ I), Hm.
  Qed.
  Lemma yi_srv y y' o : YI y -> y_s y' = fst (sstep (y_s y) o) -> y_k y' = y_k y -> y_log y' = y_log y -> y_conn y' = y_conn y -> y_conns y' = y_conns y ->
    y_used y' = gives o (y_used y) -> incl (y_mine y') (y_used y') ->
    (forall n conn r, In (n, (conn, r)) (y_wire y') -> In conn (y_conns y) /\ forall i, r = QLeave i -> k_active (y_k y) = false) ->
    (forall n conn a, In (n, (conn, a)) (y_ans y') -> In conn (y_conns y)) -> YI y'.
  Proof.
    intros [K H G N M C A W] Es Ek El Ec Ecs Eu Em Ew Ea. constructor; rewrite ?Ek, ?El, ?Ec, ?Ecs, ?Es; auto. rewrite Eu. apply known_step, N.
  Qed.
  Lemma yi_same y y' : YI y -> y_s y' = y_s y -> y_k y' = y_k y -> y_log y' = y_log y -> y_conn y' = y_conn y -> y_conns y' = y_conns y ->
    y_used y' = y_used y -> y_mine y' = y_mine y ->
    (forall n conn r, In (n, (conn, r)) (y_wire y') -> In conn (y_conns y) /\ forall i, r = QLeave i -> k_active (y_k y) = false) ->
    (forall n conn a, In (n, (conn, a)) (y_ans y') -> In conn (y_conns y)) -> YI y'.
  Proof.
    intros [K H G N M C A W] Es Ek El Ec Ecs Eu Em Ew Ea. constructor; rewrite ?Ek, ?El, ?Ec, ?Ecs, ?Es, ?Eu, ?Em; auto.
  Qed.
  Lemma yc_srv y y' o : YI y -> YC y -> y_s y' = fst (sstep (y_s y) o) -> y_k y' = y_k y -> y_conn y' = y_conn y -> y_gone y' = y_gone y -> incl (y_mine y) (y_mine y') ->
    (k_active (y_k y) = true -> forall i, In (fst i) (y_mine y) -> holds i y -> ~ In (y_conn y) (y_gone y) -> spares gid (fst i) (y_s y) o) -> (forall g c conn, o = SJoin g c conn -> ~ In c (y_used y)) ->
    (forall i n, In (n, (y_conn y, AJoined i)) (y_ans y') -> In (n, (y_conn y, AJoined i)) (y_ans y) \/ holds i y') -> YC y'.
  Proof.
    intros I [R D A] Es Ek Ec Eg Im Sp J Ea. constructor; rewrite ?Ek, ?Ec; auto.
    - intros i HA HU E. apply (holds_srv i y y' o); auto. intro NG. apply Sp; auto. apply (D i HA HU E).
    - intros i n HA HU E. destruct (Ea i n E) as [E'|E']; auto. pose proof (A i n HA HU E') as X. apply (holds_srv i y y' o); auto. intro NG. apply Sp; auto. apply X.
  Qed.
  Lemma yc_same y y' : YC y -> y_s y' = y_s y -> y_k y' = y_k y -> y_conn y' = y_conn y -> y_gone y' = y_gone y -> y_mine y' = y_mine y ->
    (forall i n, In (n, (y_conn y, AJoined i)) (y_ans y') -> In (n, (y_conn y, AJoined i)) (y_ans y)) -> YC y'.
  Proof.
    intros [R D A] Es Ek Ec Eg Em Ea. assert (Hd : forall i, holds i y -> holds i y') by (intro i; unfold holds; rewrite Es, Ec, Eg, Em; auto).
    constructor; rewrite ?Ek, ?Ec; auto. intros i n HA HU E. apply Hd. eauto.
  Qed.
  Lemma in_adel {V} n k v : forall (m : list (N * V)), In (k, v) (adel N.eqb n m) -> In (k, v) m.
  Proof. induction m as [|[a b] m IH]; simpl; auto. destruct (n =? a); simpl; intuition auto. Qed.
  Lemma in_aset {V} n k v x : forall (m : list (N * V)), In (k, v) (aset N.eqb n x m) -> In (k, v) m \/ (k = n /\ v = x).
  Proof.
    induction m as [|[a b] m IH]; simpl; [intros [H|[]]; injection H as <- <-; auto|]. destruct (n =? a); simpl; intros [H|H]; auto.
    - injection H as <- <-. auto.
    - destruct (IH H); auto.
  Qed.
  Lemma wire_adel n y : YI y -> forall k conn r, In (k, (conn, r)) (adel N.eqb n (y_wire y)) -> In conn (y_conns y) /\ forall i, r = QLeave i -> k_active (y_k y) = false.
  Proof. intros I k conn r H. apply in_adel in H. apply (yi_wire _ I k conn r H). Qed.
  Lemma ans_app n conn a y : YI y -> In conn (y_conns y) -> forall k cn b, In (k, (cn, b)) (y_ans y ++ [(n, (conn, a))]) -> In cn (y_conns y).
  Proof. intros I C k cn b H. apply in_app_or in H. destruct H as [H|[H|[]]]; [apply (yi_ans _ I k cn b H)|congruence]. Qed.
  Lemma ans_new n conn a y : (forall i, a <> AJoined i) -> forall i k, In (k, (y_conn y, AJoined i)) (y_ans y ++ [(n, (conn, a))]) -> In (k, (y_conn y, AJoined i)) (y_ans y).
  Proof. intros N i k H. apply in_app_or in H. destruct H as [H|[H|[]]]; auto. exfalso. apply (N i). congruence. Qed.

  Notation Inv y := (YI y /\ YC y).
  Lemma yi_serve n c now tok ord y : YI y -> YI (y_serve crc cfg smax gid limit n c now tok ord y) /\ (YC y -> YC (y_serve crc cfg smax gid limit n c now tok ord y)).
  Proof.
    intro I. unfold y_serve. destruct (aget N.eqb n (y_wire y)) as [[conn r]|] eqn:E; auto. destruct (nmem conn (y_gone y)) eqn:G; auto. apply nmem_out in G.
    apply (aget_In N.eqb N.eqb_eq) in E. destruct (yi_wire _ I n conn r E) as [Cn Lv]. destruct r as [|i cold|i|i q].
    - destruct (nmem c (y_used y)) eqn:U; auto. apply nmem_out in U. destruct (srv_join crc cfg smax gid c conn (y_s y)) as (g & f & J1 & J2 & J3). rewrite J1. unfold y_done. set (y' := y_set_ans _ _). split.
      + apply (yi_srv y y' (SJoin gid c conn)); auto.
        * cbn. intros x [<-|H]; [left; auto|right; apply (yi_mine _ I), H].
        * exact (wire_adel n y I).
        * exact (ans_app n conn _ y I Cn).
      + intro C. apply (yc_srv y y' (SJoin gid c conn)); auto.
        * cbn. intros x H. right. auto.
        * simpl. auto.
        * intros g0 c0 cn H. injection H as _ <- _. auto.
        * intros i k H. cbn in H. apply in_app_or in H. destruct H as [H|[H|[]]]; auto. right. injection H as <- -> <-. split; [left; auto|]. intros _. cbn [fst snd]. split.
          -- exists g. split; [exact J2|]. split; [lia|auto].
          -- intros cn l A0 I0. change (y_conn y') with (y_conn y). destruct (srv_clients crc cfg smax (y_s y) (SJoin gid c (y_conn y)) cn l (gid, c) A0 I0) as [(l0 & A1 & I1)|X]; [|injection X as <-; auto].
             exfalso. apply U, (kn_bind _ _ (yi_known _ I) cn l0 gid c A1 I1).
    - destruct cold; auto. set (o := STry gid (fst i) (snd i) limit now tok). destruct (sstep (y_s y) o) as [s' r] eqn:S.
      assert (X : forall y', y_s y' = s' -> y_k y' = y_k y -> y_log y' = y_log y -> y_conn y' = y_conn y -> y_conns y' = y_conns y ->
        y_gone y' = y_gone y -> y_used y' = y_used y -> y_mine y' = y_mine y ->
        (forall n conn r, In (n, (conn, r)) (y_wire y') -> In (n, (conn, r)) (y_wire y) \/ (In conn (y_conns y) /\ forall i, r <> QLeave i)) ->
        (forall n cn a, In (n, (cn, a)) (y_ans y') -> In (n, (cn, a)) (y_ans y) \/ (cn = conn /\ forall i, a <> AJoined i)) -> YI y' /\ (YC y -> YC y')).
      { intros y' Es Ek El Ec Ecs Eg Eu Em W A. split; [|intro C].
        - apply (yi_srv y y' o); auto.
          + rewrite S. auto.
          + rewrite Em, Eu. apply (yi_mine _ I).
          + intros k cn r0 H. destruct (W k cn r0 H) as [H'|[H1 H2]]; [apply (yi_wire _ I k cn r0 H')|split; auto]. intros j ->. exfalso. apply (H2 j). auto.
          + intros k cn a H. destruct (A k cn a H) as [H'|[-> _]]; auto. apply (yi_ans _ I k cn a H').
        - apply (yc_srv y y' o); auto.
          + rewrite S. auto.
          + rewrite Em. apply incl_refl.
          + unfold o. simpl. auto.
          + discriminate.
          + intros j k H. destruct (A k _ _ H) as [H'|[_ H']]; auto. exfalso. apply (H' j). auto. }
      destruct (s_said r); try (apply X; auto; fail).
      all: apply X; auto; cbn; intros k cn a H; auto; try (apply in_adel in H; auto; fail);
        try (apply in_app_or in H; destruct H as [H|[H|[]]]; auto; injection H as _ <- <-; right; split; auto; discriminate).
      apply in_aset in H. destruct H as [H|[_ H]]; auto. injection H as -> ->. right. split; auto. discriminate.
    - set (o := SLeave ord gid (fst i) (snd i)). unfold y_done. set (y' := y_set_ans _ _). specialize (Lv i eq_refl). split.
      + apply (yi_srv y y' o); auto; [apply (yi_mine _ I)|exact (wire_adel n y I)|exact (ans_app n conn _ y I Cn)].
      + intro C. apply (yc_srv y y' o); auto; [apply incl_refl|congruence|discriminate|]. intros j k H. left. cbn in H. apply (ans_new n conn ADone y) in H; [auto|discriminate].
    - set (o := SAck gid (fst i) (snd i) q). set (y' := y_set_wire _ _). split.
      + apply (yi_srv y y' o); auto; [apply (yi_mine _ I)|exact (wire_adel n y I)|apply (yi_ans _ I)].
      + intro C. apply (yc_srv y y' o); auto; [apply incl_refl|simpl; auto|discriminate].
  Qed.
  Lemma yi_take n bad y : YI y -> YI (y_take conc n bad y) /\ (YC y -> YC (y_take conc n bad y)).
  Proof.
    intro I. unfold y_take. destruct (aget N.eqb n (y_ans y)) as [[conn a]|] eqn:E; auto. apply (aget_In N.eqb N.eqb_eq) in E. set (y' := y_set_ans _ y).
    assert (I' : YI y') by (apply (yi_same y y'); auto; [apply (yi_wire _ I)|intros k cn b H; cbn in H; apply in_adel in H; apply (yi_ans _ I k cn b H)]).
    assert (C' : YC y -> YC y') by (intro C; apply (yc_same y y'); auto; intros i k H; cbn in H; apply in_adel in H; auto).
    destruct (negb _) eqn:U; auto. apply negb_false_iff, andb_true_iff in U. destruct U as [U Cn]. apply N.eqb_eq in Cn. subst conn.
    assert (X : forall o, o <> CLost -> (forall c, o <> CUp c) -> (forall i, o <> CJoined i) -> YI (y_cli o y') /\ (YC y -> YC (y_cli o y'))).
    { intros o N1 N2 N3. split; [apply yi_cli; auto|]. intro C. apply yc_cli; auto. intros i H. exfalso. apply (N3 i). auto. }
    destruct a as [i|ms|r|]; try (destruct (n =? y_cur y); auto; apply X; discriminate); try (apply X; discriminate).
    destruct (n =? y_cur y); auto. split; [apply yi_cli; auto|]. intro C. apply yc_cli; auto; try discriminate. intros j H HA HU. injection H as <-.
    pose proof (yc_ans _ C i n HA HU E) as Y. exact Y.
  Qed.
  Lemma disc_spares i y conn ord : holds i y -> ~ In (y_conn y) (y_gone y) -> conn <> y_conn y -> spares gid (fst i) (y_s y) (SDisc ord conn).
  Proof. intros [_ H] N NE. simpl. intros l A B. destruct (H N) as [_ H']. apply NE, (H' conn l A B). Qed.

  Lemma yi_step y o : YI y -> YI (ystep y o) /\ (YC y -> (o = YLost -> handling (y_log y) = false) -> YC (ystep y o)).
  Proof.
    intro I. assert (X : forall o, o <> CLost -> (forall c, o <> CUp c) -> (forall i, o <> CJoined i) -> YI (y_cli o y) /\ (YC y -> YC (y_cli o y))).
    { intros o' N1 N2 N3. split; [apply yi_cli; auto|]. intro C. apply yc_cli; auto. intros i H. exfalso. apply (N3 i). auto. }
    destruct o as [n c now tok ord|n|n j now|n bad| |o| | | | | | |c|ord conn|o|s]; cbn [SdkStreamSys.ystep].
    - pose proof (yi_serve n c now tok ord y I) as [A B]. auto.
    - unfold y_expire. destruct (aget N.eqb n (y_wire y)) as [[conn [|i [|]|i|i q]]|] eqn:E; auto. apply (aget_In N.eqb N.eqb_eq) in E. destruct (nmem conn (y_gone y)); auto. unfold y_done. set (y' := y_set_ans _ _). split.
      + apply (yi_same y y'); auto; [exact (wire_adel n y I)|exact (ans_app n conn _ y I (proj1 (yi_wire _ I n conn _ E)))].
      + intros C _. apply (yc_same y y'); auto. apply (ans_new n conn (AMsgs []) y). discriminate.
    - unfold y_cold. destruct (aget N.eqb n (y_wire y)) as [[conn [|i [|]|i|i q]]|] eqn:E; auto. apply (aget_In N.eqb N.eqb_eq) in E. pose proof (proj1 (yi_wire _ I n conn _ E)) as Cn.
      destruct (nth_error (s_colds (y_s y)) j) as [k|]; auto. destruct (_ || _); auto. set (o := SColdDone j now). destruct (sstep (y_s y) o) as [s' r] eqn:S.
      assert (Y : forall y', y_s y' = s' -> y_k y' = y_k y -> y_log y' = y_log y -> y_conn y' = y_conn y -> y_conns y' = y_conns y ->
        y_gone y' = y_gone y -> y_used y' = y_used y -> y_mine y' = y_mine y ->
        (forall n conn r, In (n, (conn, r)) (y_wire y') -> In (n, (conn, r)) (y_wire y)) ->
        (forall n cn a, In (n, (cn, a)) (y_ans y') -> In (n, (cn, a)) (y_ans y) \/ (cn = conn /\ forall i, a <> AJoined i)) -> YI y' /\ (YC y -> (YCold n j now = YLost -> handling (y_log y) = false) -> YC y')).
      { intros y' Es Ek El Ec Ecs Eg Eu Em W A. split.
        - apply (yi_srv y y' o); auto.
          + rewrite S. auto.
          + rewrite Em, Eu. apply (yi_mine _ I).
          + intros q cn r0 H. apply (yi_wire _ I q cn r0 (W _ _ _ H)).
          + intros q cn a H. destruct (A q cn a H) as [H'|[-> _]]; auto. apply (yi_ans _ I q cn a H').
        - intros C _. apply (yc_srv y y' o); auto.
          + rewrite S. auto.
          + rewrite Em. apply incl_refl.
          + unfold o. simpl. auto.
          + discriminate.
          + intros x q H. destruct (A q _ _ H) as [H'|[_ H']]; auto. exfalso. apply (H' x). auto. }
      destruct r; apply Y; auto; cbn; intros q cn a H; auto; try (apply in_adel in H; auto; fail);
        try (apply in_app_or in H; destruct H as [H|[H|[]]]; auto; injection H as _ <- <-; right; split; auto; discriminate).
    - pose proof (yi_take n bad y I) as [A B]. auto.
    - destruct (X (CRefused false)) as [A B]; auto; discriminate.
    - destruct (X (CWork o)) as [A B]; auto; discriminate.
    - destruct (X CNext) as [A B]; auto; discriminate.
    - destruct (X CWake) as [A B]; auto; discriminate.
    - destruct (X CStop) as [A B]; auto; discriminate.
    - destruct (X CStopped) as [A B]; auto; discriminate.
    - destruct (X CLeft) as [A B]; auto; discriminate.
    - split; [apply yi_cli; auto|]. intros C Q. apply yc_lost; auto. intros _. rewrite (yi_h _ I). auto.
    - split; [|intros C _; apply (yc_up c y I C)]. destruct (_ || _); auto. apply yi_cli. destruct I as [K H G N M C A W]. constructor; auto; cbn.
      + auto.
      + intros n conn a Hn. right. eauto.
      + intros n conn r Hn. destruct (W n conn r Hn). split; auto.
    - destruct (nmem conn (y_conns y) && _) eqn:E; auto. apply andb_true_iff in E. destruct E as [E _]. set (o := SDisc ord conn). set (y' := y_set_gone _ _). assert (I' : YI y').
      { apply (yi_srv y y' o); auto; [apply (yi_mine _ I)|apply (yi_wire _ I)|apply (yi_ans _ I)]. }
      split; auto. intros C _. assert (Hd : forall i, holds i y -> holds i y').
      { intros i Hi. split; [apply Hi|]. intro N. cbn in N. assert (N' : ~ In (y_conn y) (y_gone y)) by auto. assert (NE : conn <> y_conn y) by auto.
        destruct (holds_srv i y (y_set_srv (fst (sstep (y_s y) o)) y) o) as [_ Z]; auto; [apply incl_refl|intros _; apply disc_spares; auto|discriminate]. }
      destruct C as [R D A]. constructor; auto. intros i n HA HU H. apply Hd. apply (A i n); auto.
    - destruct (y_foreign o y) eqn:F; auto. set (y' := match o with SJoin _ _ _ => _ | _ => _ end).
      assert (Z : y_s y' = fst (sstep (y_s y) o) /\ y_k y' = y_k y /\ y_log y' = y_log y /\ y_conn y' = y_conn y /\ y_conns y' = y_conns y /\ y_gone y' = y_gone y /\ y_used y' = gives o (y_used y) /\ y_mine y' = y_mine y /\ y_wire y' = y_wire y /\ y_ans y' = y_ans y).
      { unfold y'. destruct o; repeat split. }
      destruct Z as (Es & Ek & El & Ec & Ecs & Eg & Eu & Em & Ew & Ea). split.
      + apply (yi_srv y y' o); auto; rewrite ?Em, ?Eu, ?Ew, ?Ea; [|apply (yi_wire _ I)|apply (yi_ans _ I)]. intros x H. apply gives_in, (yi_mine _ I), H.
      + intros C _. apply (yc_srv y y' o); auto; rewrite ?Em, ?Ea; auto.
        * apply incl_refl.
        * intros HA i Mi Hi NG. destruct o; simpl; auto; simpl in F.
          -- intros ->. apply negb_true_iff, nmem_out in F. auto.
          -- apply negb_true_iff, nmem_out in F. apply disc_spares; auto. intros ->. apply F, (yi_conn _ I).
        * intros g c conn ->. simpl in F. apply andb_true_iff in F. destruct F as [F _]. apply negb_true_iff, nmem_out in F. auto.
    - destruct (new_srv s) eqn:NS; auto. set (y' := y_set_gone _ _). unfold new_srv in NS. apply andb_true_iff in NS. destruct NS as [NS _]. apply andb_true_iff in NS. destruct NS as [NM NC]. split.
      + destruct I as [K H G N M C A W]. constructor; auto. cbn. constructor.
        * intros gd g c Hg Hm. exfalso. unfold gget in Hg. apply (aget_In beqb beqb_eq) in Hg. rewrite forallb_forall in NM. apply NM in Hg. cbn [snd] in Hg. unfold member in Hm. destruct (g_mem g); discriminate.
        * intros cn l gd c Hc. exfalso. destruct (s_clients s); discriminate.
      + intros C _. assert (Hd : forall i, holds i y -> holds i y') by (intros i Hi; split; [apply Hi|]; intro N; exfalso; apply N; cbn; apply (yi_conn _ I)).
        destruct C as [R D A]. constructor; auto. intros i n HA HU H. apply Hd. apply (A i n); auto.
  Qed.

  Lemma yi_init c s : new_srv s = true -> YI (y0 c s) /\ YC (y0 c s).
  Proof.
    intro NS. unfold new_srv in NS. apply andb_true_iff in NS. destruct NS as [NS _]. apply andb_true_iff in NS. destruct NS as [NM NC]. split.
    - destruct (crun_ok conc c []) as [K G]. constructor; cbn; auto.
      + constructor.
        * intros gd g x Hg Hm. exfalso. unfold gget in Hg. apply (aget_In beqb beqb_eq) in Hg. rewrite forallb_forall in NM. apply NM in Hg. cbn [snd] in Hg. unfold member in Hm. destruct (g_mem g); discriminate.
        * intros cn l gd x Hc. exfalso. destruct (s_clients s); discriminate.
      + intros x [].
      + intros n conn r [H|[]]. injection H as <- <- <-. split; auto. discriminate.
    - constructor; cbn; try discriminate. intros i n _ _ [].
  Qed.

  Lemma yrun_snoc c s xs o : yrun c s (xs ++ [o]) = ystep (yrun c s xs) o.
  Proof. unfold SdkStreamSys.yrun. rewrite fold_left_app. reflexivity. Qed.
  Lemma run_inv c s : new_srv s = true -> forall xs, YI (yrun c s xs) /\ (calm_losses c s xs -> YC (yrun c s xs)).
  Proof.
    intro NS. induction xs as [|o xs IH] using rev_ind; [pose proof (yi_init c s NS) as [A B]; split; auto|].
    destruct IH as [I C]. rewrite yrun_snoc. pose proof (yi_step (yrun c s xs) o I) as [A B]. split; auto. intro K. apply B.
    - apply C. intros a b E. apply (K a (b ++ [o])). rewrite E, <- app_assoc. reflexivity.
    - intros ->. apply (K xs []). reflexivity.
  Qed.
  (** the subscription is known to the server *)
  Lemma admitted c s xs i : new_srv s = true -> calm_losses c s xs -> let y := yrun c s xs in
    ~ In VStop (y_log y) -> online (y_log y) = true -> current (y_log y) = Some i -> ~ In (y_conn y) (y_gone y) ->
    exists g, gget gid (y_s y) = Some g /\ (snd i < g_gen g \/ ensure_active (fst i) (snd i) g = None).
  Proof.
    intros NS K y ST UP CU NG. destruct (run_inv c s NS xs) as [I C]. specialize (C K). fold y in I, C. pose proof (yi_k _ I) as KK.
    assert (A : k_active (y_k y) = true) by (apply (ki_act _ _ KK); auto). rewrite (ki_up _ _ KK) in UP.
    assert (D : k_id (y_k y) = Some i).
    { pose proof (ki_cur _ _ KK) as X. destruct (k_pc (y_k y)) as [| | |j|j b| |]; try (destruct X; congruence). auto. }
    destruct (yc_id _ C i A UP D) as [_ H]. destruct (H NG) as ((g & G & L & M) & _). exists g. split; auto.
    destruct (N.eq_dec (g_gen g) (snd i)) as [E|E]; [|left; lia]. right. specialize (M E). unfold ensure_active. rewrite E, N.eqb_refl. cbn [negb]. unfold member in M. rewrite M. reflexivity.
  Qed.

  (** ** Shut out: an identity the server has forgotten in the present generation *)
  Record Shut (i : ident) (y : ysys) : Prop := {
    sh_i : YI y;
    sh_up : k_up (y_k y) = true;
    sh_pc : k_pc (y_k y) = PFetch i \/ k_pc (y_k y) = PEnd;
    sh_used : In (fst i) (y_used y);
    sh_out : exists g, gget gid (y_s y) = Some g /\ g_gen g = snd i /\ member (fst i) g = false;
    sh_wire : forall n conn r, In (n, (conn, r)) (y_wire y) -> n < y_n y /\ (n = y_cur y -> r = QFetch i false);
    sh_ans : forall n conn a, In (n, (conn, a)) (y_ans y) -> n < y_n y /\ (n = y_cur y -> a = AMsgs []);
    sh_cur : y_cur y < y_n y
  }.
  Lemma shut_srv i y y' o : Shut i y -> YI y' -> y_s y' = fst (sstep (y_s y) o) -> y_k y' = y_k y -> (forall g c conn, o = SJoin g c conn -> ~ In c (y_used y)) -> (forall b, o <> SSeek b gid) ->
    incl (y_used y) (y_used y') -> y_n y' = y_n y -> y_cur y' = y_cur y ->
    (forall n conn r, In (n, (conn, r)) (y_wire y') -> In (n, (conn, r)) (y_wire y) \/ (n < y_n y /\ n <> y_cur y)) ->
    (forall n conn a, In (n, (conn, a)) (y_ans y') -> In (n, (conn, a)) (y_ans y) \/ (n < y_n y /\ (n = y_cur y -> a = AMsgs []))) -> Shut i y'.
  Proof.
    intros [I U P Us (g & G & Gg & Gm) W A Cu] I' Es Ek J NS Iu En Ec Ew Ea. constructor; rewrite ?Ek, ?En, ?Ec; auto.
    - destruct (srv_out crc cfg smax gid (fst i) (y_s y) o g G) as (g' & G' & E1 & E2); auto.
      + intros g0 conn E. apply (J _ _ _ E), Us.
      + exists g'. rewrite Es. split; auto. split; [congruence|auto].
    - intros n conn r H. destruct (Ew n conn r H) as [H'|[H1 H2]]; [apply (W n conn r H')|split; auto; intro; contradiction].
    - intros n conn a H. destruct (Ea n conn a H) as [H'|H']; [apply (A n conn a H')|auto].
  Qed.
  Lemma shut_same i y y' : Shut i y -> YI y' -> y_s y' = y_s y -> y_k y' = y_k y ->
    y_used y' = y_used y -> y_n y' = y_n y -> y_cur y' = y_cur y ->
    (forall n conn r, In (n, (conn, r)) (y_wire y') -> In (n, (conn, r)) (y_wire y)) ->
    (forall n conn a, In (n, (conn, a)) (y_ans y') -> In (n, (conn, a)) (y_ans y) \/ (n < y_n y /\ a = AMsgs [])) -> Shut i y'.
  Proof.
    intros [I U P Us G W A Cu] I' Es Ek Eu En Ec Ew Ea. constructor; rewrite ?Ek, ?En, ?Ec, ?Es, ?Eu; auto.
    - intros n conn r H. apply (W n conn r (Ew _ _ _ H)).
    - intros n conn a H. destruct (Ea n conn a H) as [H'|[H1 H2]]; [apply (A n conn a H')|auto].
  Qed.
  (** the client's steps *)
  Lemma shut_cli i y o : Shut i y -> match o with CFetched ms _ => ms = [] | CJoined _ | CRefused _ | CLost | CUp _ => False | _ => True end ->
    Shut i (y_cli o y) /\ does (y_log (y_cli o y)) = does (y_log y).
  Proof.
    intros [I U P Us G W A Cu] O. pose proof (yi_cli o y I) as I'. destruct (cli_acted o y) as [Ek El Ec Ecs Eg Ea Eu Em Es En Ew Ecu].
    pose proof (yi_k _ I) as KK. pose proof (ki_cur _ _ KK) as KC.
    assert (X : forall e, In e (snd (cstep conc (y_k y) o)) -> match e with VFetch j => j = i | VJoin | VDo _ => False | _ => True end).
    { intro e. destruct o as [j|ms bad|recov|o| | | | | | |c]; try contradiction; cbn [SdkStreamModel.cstep]; destruct P as [P|P]; rewrite P in KC |- *; simpl; try contradiction.
      - subst ms. destruct KC as [_ KC]. unfold also, head, poll. rewrite KC, U. destruct (k_active (y_k y)); simpl; intuition (subst; auto).
      - destruct (k_id (y_k y)); try rewrite U; simpl; intuition (subst; auto).
      - destruct (k_id (y_k y)); try rewrite U; simpl; intuition (subst; auto).
      - destruct (_ && _); simpl; intuition (subst; auto). }
    assert (L : forall j e, In (VLeave j) (snd (cstep conc (y_k y) o)) -> In e (snd (cstep conc (y_k y) o)) -> ~ request e).
    { intros j e. destruct o as [x|ms bad|recov|o| | | | | | |c]; try contradiction; cbn [SdkStreamModel.cstep]; destruct P as [P|P]; rewrite P in KC |- *; simpl; try contradiction.
      - subst ms. destruct KC as [_ KC]. unfold also, head, poll. rewrite KC, U. destruct (k_active (y_k y)); simpl; intuition discriminate.
      - destruct (k_id (y_k y)); try rewrite U; simpl; intros _ [<-|H]; simpl; auto; destruct H as [<-|[]]; simpl; auto.
      - destruct (k_id (y_k y)); try rewrite U; simpl; intros _ [<-|H]; simpl; auto; destruct H as [<-|[]]; simpl; auto.
      - destruct (_ && _); simpl; intuition discriminate. }
    split; [constructor; rewrite ?Ek, ?Es, ?Eu; auto|].
    - rewrite (step_up conc). destruct o; auto; contradiction.
    - destruct o as [j|ms bad|recov|o| | | | | | |c]; try contradiction; cbn [SdkStreamModel.cstep]; destruct P as [P|P]; rewrite P in KC |- *; simpl; auto.
      + subst ms. destruct KC as [_ KC]. unfold also, head, poll. rewrite KC, U. destruct (k_active (y_k y)); simpl; auto.
      + destruct (k_id (y_k y)); try rewrite U; simpl; auto.
      + destruct (k_id (y_k y)); try rewrite U; simpl; auto.
      + destruct (_ && _); simpl; auto.
    - intros n conn r H. destruct (Ew n conn r H) as [H'|(_ & H1 & H2)].
      + destruct (W n conn r H') as [W1 W2]. split; [lia|]. intros ->. apply W2. destruct Ecu as [[-> _]|[B _]]; auto. lia.
      + split; [lia|]. intro E. destruct Ecu as [[B _]|[B (e & E1 & E2)]]; [lia|]. destruct r as [|j cold|j|j q]; simpl in H2.
        * destruct (X _ H2).
        * destruct H2 as [-> H2]. rewrite (X _ H2). reflexivity.
        * exfalso. apply (L j e H2 E1 E2).
        * destruct H2 as [m H2]. destruct (X _ H2).
    - intros n conn a H. rewrite Ea in H. destruct (A n conn a H) as [A1 A2]. split; [lia|]. intro E. destruct Ecu as [[B _]|[B _]]; [apply A2; congruence|lia].
    - destruct Ecu as [[-> _]|[B _]]; lia.
    - rewrite El, does_app. replace (does (snd (cstep conc (y_k y) o))) with (@nil (ev item)); [apply app_nil_r|]. symmetry. clear -X L.
      induction (snd (cstep conc (y_k y) o)) as [|e es IH]; auto. simpl. destruct e as [|z| | |z|z zs| |z| |z| | |z|]; simpl; try (apply IH; [intros e' H; apply X; right; auto|intros j' e' H1 H2; apply (L j'); right; auto]). destruct (X (VDo z)). left. auto.
  Qed.
  (** a FETCH of a forgotten identity is answered with no messages *)
  Lemma shut_try i s g now tok : gget gid s = Some g -> g_gen g = snd i -> member (fst i) g = false ->
    s_said (snd (sstep s (STry gid (fst i) (snd i) limit now tok))) = RMsgs [].
  Proof.
    intros G Gg Gm. cbn [StreamSysModel.sstep]. unfold op_try. rewrite G. destruct (clamp_head (t_head (s_top s)) g) as [g1 cl] eqn:E.
    assert (E1 : g1 = fst (clamp_head (t_head (s_top s)) g)) by (rewrite E; auto). destruct (is_backpressured cfg g1); auto.
    unfold fetch. assert (Z : ensure_active (fst i) (snd i) g1 = Some NotMember).
    { unfold ensure_active. rewrite E1, gen_clamp, mem_clamp, Gg, N.eqb_refl. cbn [negb]. unfold member in Gm. rewrite Gm. reflexivity. }
    rewrite Z. reflexivity.
  Qed.
  Lemma shut_step i y o : Shut i y -> usual y o -> Shut i (ystep y o) /\ does (y_log (ystep y o)) = does (y_log y).
  Proof.
    intros S US. pose proof (yi_step y o (sh_i _ _ S)) as [I' _]. destruct o as [n c now tok ord|n|n j now|n bad| |o| | | | | | |c|ord conn|o|s]; try contradiction; cbn [SdkStreamSys.ystep] in *.
    - unfold y_serve in *. destruct (aget N.eqb n (y_wire y)) as [[conn r]|] eqn:E; auto. destruct (nmem conn (y_gone y)) eqn:G; auto.
      apply (aget_In N.eqb N.eqb_eq) in E. destruct (sh_wire _ _ S n conn r E) as [Ln Lr]. destruct r as [|x cold|x|x q].
      + destruct (nmem c (y_used y)) eqn:U; auto. apply nmem_out in U. destruct (srv_join crc cfg smax gid c conn (y_s y)) as (g & f & J1 & J2 & J3). rewrite J1 in *. unfold y_done in *. split; [|reflexivity].
        eapply (shut_srv i y _ (SJoin gid c conn)); eauto; try reflexivity.
        * intros g0 c0 cn H. injection H as _ <- _. auto.
        * discriminate.
        * cbn. intros x H. right. auto.
        * cbn. intros k cn r H. left. apply in_adel in H. auto.
        * cbn. intros k cn a H. apply in_app_or in H. destruct H as [H|[H|[]]]; auto. injection H as <- <- <-. right. split; auto. intro H. specialize (Lr H). discriminate Lr.
      + destruct cold; auto. set (o := STry gid (fst x) (snd x) limit now tok) in *. assert (SAY : n = y_cur y -> s_said (snd (sstep (y_s y) o)) = RMsgs []).
        { intro H. specialize (Lr H). injection Lr as ->. destruct (sh_out _ _ S) as (g & G1 & G2 & G3). apply (shut_try i (y_s y) g now tok); auto. }
        destruct (sstep (y_s y) o) as [s' r] eqn:SS. cbn [snd] in SAY.
        destruct (s_said r) eqn:SR; (split; [|reflexivity]); eapply (shut_srv i y _ o); eauto; try reflexivity; try discriminate; try (rewrite SS; reflexivity); try (cbn; apply incl_refl); cbn; intros k cn a H; auto;
          try (left; apply in_adel in H; auto; fail); try (apply in_aset in H; destruct H as [H|[-> _]]; auto; right; split; auto; intro H; discriminate (SAY H));
          (apply in_app_or in H; destruct H as [H|[H|[]]]; auto; injection H as <- <- <-; right; split; auto; intro H; specialize (SAY H); congruence).
      + unfold y_done in *. split; [|reflexivity]. eapply (shut_srv i y _ (SLeave ord gid (fst x) (snd x))); eauto; try reflexivity; try discriminate; try (cbn; apply incl_refl); cbn; intros k cn a H.
        * left. apply in_adel in H. auto.
        * apply in_app_or in H. destruct H as [H|[H|[]]]; auto. injection H as <- <- <-. right. split; auto. intro H. specialize (Lr H). discriminate Lr.
      + split; [|reflexivity]. eapply (shut_srv i y _ (SAck gid (fst x) (snd x) q)); eauto; try reflexivity; try discriminate; try (cbn; apply incl_refl); cbn; intros k cn a H; auto.
        left. apply in_adel in H. auto.
    - unfold y_expire in *. destruct (aget N.eqb n (y_wire y)) as [[conn [|x [|]|x|x q]]|] eqn:E; auto. apply (aget_In N.eqb N.eqb_eq) in E. destruct (sh_wire _ _ S n conn _ E) as [Ln Lr]. destruct (nmem conn (y_gone y)); auto.
      unfold y_done in *. split; [|reflexivity]. eapply (shut_same i y _); eauto; try reflexivity; cbn; intros k cn a H.
      + apply in_adel in H. auto.
      + apply in_app_or in H. destruct H as [H|[H|[]]]; auto. injection H as <- <- <-. right. auto.
    - unfold y_cold in *. destruct (aget N.eqb n (y_wire y)) as [[conn [|x [|]|x|x q]]|] eqn:E; auto. apply (aget_In N.eqb N.eqb_eq) in E. destruct (sh_wire _ _ S n conn _ E) as [Ln Lr].
      destruct (nth_error (s_colds (y_s y)) j) as [k|]; auto. destruct (_ || _); auto. set (o := SColdDone j now) in *. destruct (sstep (y_s y) o) as [s' r] eqn:SS.
      destruct r; (split; [|reflexivity]); eapply (shut_srv i y _ o); eauto; try reflexivity; try discriminate; try (rewrite SS; reflexivity); try (cbn; apply incl_refl); cbn; intros q cn a H; auto;
        try (left; apply in_adel in H; auto; fail);
        apply in_app_or in H; destruct H as [H|[H|[]]]; auto; injection H as <- <- <-; right; split; auto; intro H; specialize (Lr H); discriminate Lr.
    - unfold y_take in *. destruct (aget N.eqb n (y_ans y)) as [[conn a]|] eqn:E; auto. apply (aget_In N.eqb N.eqb_eq) in E. destruct (sh_ans _ _ S n conn a E) as [Ln La]. set (y' := y_set_ans _ y) in *.
      assert (S' : Shut i y').
      { apply (shut_same i y y'); auto; try reflexivity.
        - apply (yi_same y y'); auto; try reflexivity; [apply (sh_i _ _ S)|apply (yi_wire _ (sh_i _ _ S))|]. cbn. intros k cn b H. apply in_adel in H. apply (yi_ans _ (sh_i _ _ S) k cn b H).
        - cbn. intros k cn b H. left. apply in_adel in H. auto. }
      destruct (negb _); auto. destruct a as [x|ms|r|]; try (destruct (N.eqb_spec n (y_cur y)) as [->|]; [|auto]; specialize (La eq_refl); try discriminate La).
      + injection La as ->. apply (shut_cli i y' (CFetched [] bad)); auto.
      + apply (shut_cli i y' CLeft); auto.
    - apply (shut_cli i y (CWork o)); simpl; auto.
    - apply (shut_cli i y CNext); simpl; auto.
    - apply (shut_cli i y CWake); simpl; auto.
    - apply (shut_cli i y CStop); simpl; auto.
    - apply (shut_cli i y CStopped); simpl; auto.
    - apply (shut_cli i y CLeft); simpl; auto.
    - rewrite (sh_up _ _ S). cbn [orb]. auto.
    - destruct (nmem conn (y_conns y) && _); auto. split; [|reflexivity]. eapply (shut_srv i y _ (SDisc ord conn)); eauto; try reflexivity; try discriminate; try (cbn; apply incl_refl); cbn; auto.
    - destruct (y_foreign o y) eqn:F; auto. split; [|destruct o; reflexivity].
      eapply (shut_srv i y _ o); eauto; try (destruct o; reflexivity); try (destruct o; cbn; auto; fail).
      + intros g c conn ->. simpl in F. apply andb_true_iff in F. destruct F as [F _]. apply negb_true_iff, nmem_out in F. auto.
      + intros b ->. simpl in US. auto.
      + destruct o; cbn; intros x H; auto; right; auto.
  Qed.
  Lemma shut_ever i : forall os y, Shut i y -> usuals y os -> Shut i (ysteps y os) /\ does (y_log (ysteps y os)) = does (y_log y).
  Proof.
    induction os as [|o os IH]; intros y S U; [split; auto|]. destruct U as [U1 U2]. destruct (shut_step i y o S U1) as [S' D]. destruct (IH (ystep y o) S' U2) as [S2 D2]. split; [exact S2|]. simpl. rewrite <- D. exact D2.
  Qed.

  (** ** Numbers of requests *)
  Record UQ (y : ysys) : Prop := {
    uq_w : forall n x, In (n, x) (y_wire y) -> n < y_n y;
    uq_a : forall n x, In (n, x) (y_ans y) -> n < y_n y;
    uq_d : forall n x a, In (n, x) (y_wire y) -> In (n, a) (y_ans y) -> False
  }.
  Lemma not_adel {V} n x : forall (m : list (N * V)), ~ In (n, x) (adel N.eqb n m).
  Proof. induction m as [|[k v] m IH]; simpl; auto. destruct (N.eqb_spec n k) as [->|NE]; auto. intros [H|H]; auto. congruence. Qed.
  Lemma uq_cli o y : UQ y -> UQ (y_cli o y).
  Proof.
    intros [W A D]. destruct (cli_acted o y) as [_ _ _ _ _ Ea _ _ _ En Ew _]. constructor; rewrite ?Ea.
    - intros n [conn r] H. destruct (Ew n conn r H) as [H'|(_ & H' & _)]; [apply W in H'; lia|lia].
    - intros n x H. apply A in H. lia.
    - intros n [conn r] a H I. destruct (Ew n conn r H) as [H'|(_ & H' & _)]; [apply (D n _ a H' I)|]. apply A in I. lia.
  Qed.
  Lemma uq_done n conn a z y : UQ y -> (exists x, In (n, x) (y_wire y)) -> y_n z = y_n y -> y_wire z = y_wire y -> y_ans z = y_ans y -> UQ (y_done n conn a z).
  Proof.
    intros [W A D] (x0 & X) En Ew Ea. unfold y_done. constructor; cbn; rewrite ?En, ?Ew, ?Ea.
    - intros k x H. apply in_adel in H. eauto.
    - intros k x H. apply in_app_or in H. destruct H as [H|[H|[]]]; [eauto|]. injection H as <- _. eauto.
    - intros k x b H I. apply in_app_or in I. destruct I as [I|[I|[]]]; [apply in_adel in H; eauto|]. injection I as <- _. apply (not_adel n x _ H).
  Qed.
  Lemma uq_same z y : UQ y -> y_n z = y_n y -> (forall n x, In (n, x) (y_wire z) -> exists x', In (n, x') (y_wire y)) -> (forall n x, In (n, x) (y_ans z) -> In (n, x) (y_ans y)) -> UQ z.
  Proof.
    intros [W A D] En Ew Ea. constructor; rewrite ?En.
    - intros n x H. destruct (Ew n x H) as (x' & H'). eauto.
    - intros n x H. eauto.
    - intros n x a H I. destruct (Ew n x H) as (x' & H'). eauto.
  Qed.
  Lemma uq_step y o : UQ y -> UQ (ystep y o).
  Proof.
    intro U. destruct o as [n c now tok ord|n|n j now|n bad| |o| | | | | | |c|ord conn|o|s]; cbn [SdkStreamSys.ystep]; try (apply uq_cli; auto; fail).
    - unfold y_serve. destruct (aget N.eqb n (y_wire y)) as [[conn r]|] eqn:E; auto. destruct (nmem conn (y_gone y)); auto. apply (aget_In N.eqb N.eqb_eq) in E.
      assert (X : exists x, In (n, x) (y_wire y)) by eauto. destruct r as [|i cold|i|i q].
      + destruct (nmem c (y_used y)); auto. destruct (sstep _ _) as [s' []]; auto. apply (uq_done n conn _ _ y); auto.
      + destruct cold; auto. destruct (sstep _ _) as [s' r]. destruct (s_said r); try (apply (uq_done n conn _ _ y); auto; fail); apply (uq_same _ y); auto; cbn; intros k x H; eauto.
        apply in_aset in H. destruct H as [H|[-> _]]; eauto.
      + apply (uq_done n conn _ _ y); auto.
      + apply (uq_same _ y); auto; cbn; intros k x H. apply in_adel in H. eauto.
    - unfold y_expire. destruct (aget N.eqb n (y_wire y)) as [[conn [|i [|]|i|i q]]|] eqn:E; auto. apply (aget_In N.eqb N.eqb_eq) in E. destruct (nmem conn (y_gone y)); auto. apply (uq_done n conn _ _ y); eauto.
    - unfold y_cold. destruct (aget N.eqb n (y_wire y)) as [[conn [|i [|]|i|i q]]|] eqn:E; auto. apply (aget_In N.eqb N.eqb_eq) in E. destruct (nth_error _ _); auto. destruct (_ || _); auto. destruct (sstep _ _) as [s' []]; try (apply (uq_done n conn _ _ y); eauto; fail); apply (uq_same _ y); auto; cbn; intros q x H; eauto.
    - unfold y_take. destruct (aget N.eqb n (y_ans y)) as [[conn a]|]; auto. assert (X : UQ (y_set_ans (adel N.eqb n (y_ans y)) y)).
      { apply (uq_same _ y); auto; cbn; intros k x H; eauto. apply in_adel in H. auto. }
      destruct (negb _); auto. destruct a; try (destruct (n =? y_cur y)); auto; apply uq_cli; auto.
    - destruct (_ || _); auto. apply uq_cli. apply (uq_same _ y); auto; cbn; intros k x H; eauto.
    - destruct (_ && _); auto. apply (uq_same _ y); auto; cbn; intros k x H; eauto.
    - destruct (y_foreign o y); auto. apply (uq_same _ y); auto; destruct o; cbn; auto; intros k x H; eauto.
    - destruct (new_srv s); auto. apply (uq_same _ y); auto; cbn; intros k x H; eauto.
  Qed.
  Lemma uq_run c s xs : UQ (yrun c s xs).
  Proof.
    induction xs as [|o xs IH] using rev_ind; [|rewrite yrun_snoc; apply uq_step; auto].
    constructor; cbn; try (intros n x []; fail).
    - intros n x [H|[]]. injection H as <- _. lia.
    - intros n x a _ [].
  Qed.
  Lemma cli_log o y : y_log (y_cli o y) = y_log y ++ snd (cstep conc (y_k y) o).
  Proof. apply (ac_log _ _ _ (cli_acted o y)). Qed.
  Lemma cli_k o y : y_k (y_cli o y) = fst (cstep conc (y_k y) o).
  Proof. apply (ac_k _ _ _ (cli_acted o y)). Qed.
  (** messages the server hands out reach the callback *)
  Lemma handed c s xs i now tok m ms : new_srv s = true -> let y := yrun c s xs in
    k_pc (y_k y) = PFetch i -> k_active (y_k y) = true -> aget N.eqb (y_cur y) (y_wire y) = Some (y_conn y, QFetch i false) -> ~ In (y_conn y) (y_gone y) ->
    snd (sstep (y_s y) (STry gid (fst i) (snd i) limit now tok)) = RMsgs (m :: ms) ->
    y_log (ysteps y [YServe (y_cur y) 0 now tok []; YTake (y_cur y) false; YWork (WTake 0 false)]) = y_log y ++ [VGot i (m :: ms); VDo (EStart item (i, m))].
  Proof.
    intros NS y P A W G R. destruct (run_inv c s NS xs) as [I _]. fold y in I. pose proof (ki_wait _ _ (yi_k _ I)) as U. rewrite P in U. destruct U as [U _]. pose proof (uq_run c s xs) as Q. fold y in Q.
    assert (AN : aget N.eqb (y_cur y) (y_ans y) = None).
    { destruct (aget N.eqb (y_cur y) (y_ans y)) as [x|] eqn:E; auto. exfalso. apply (aget_In N.eqb N.eqb_eq) in E. apply (aget_In N.eqb N.eqb_eq) in W. apply (uq_d _ Q _ _ _ W E). }
    unfold SdkStreamSysSpec.ysteps. cbn [fold_left SdkStreamSys.ystep].
    assert (S1 : y_serve crc cfg smax gid limit (y_cur y) 0 now tok [] y = y_done (y_cur y) (y_conn y) (AMsgs (m :: ms)) (y_set_srv (fst (sstep (y_s y) (STry gid (fst i) (snd i) limit now tok))) y)).
    { unfold y_serve. rewrite W. replace (nmem (y_conn y) (y_gone y)) with false by (symmetry; apply nmem_out; auto). destruct (sstep (y_s y) (STry gid (fst i) (snd i) limit now tok)) as [s' r]. cbn [snd fst] in *. subst r. reflexivity. }
    rewrite S1. set (z := y_done _ _ _ _).
    assert (S2 : exists z', y_take conc (y_cur y) false z = y_cli (CFetched (m :: ms) false) z' /\ y_k z' = y_k y /\ y_log z' = y_log y).
    { unfold y_take. assert (E : aget N.eqb (y_cur y) (y_ans z) = Some (y_conn y, AMsgs (m :: ms))).
      { unfold z, y_done. cbn. revert AN. generalize (y_ans y). induction l as [|[k v] l IH]; simpl; [rewrite N.eqb_refl; auto|]. destruct (_ =? _); [discriminate|auto]. }
      rewrite E. change (y_cur z) with (y_cur y). change (y_conn z) with (y_conn y). change (y_k z) with (y_k y). rewrite U, !N.eqb_refl. cbn [andb negb]. eexists. split; [reflexivity|]. split; reflexivity. }
    destruct S2 as (z' & S2 & K2 & L2). rewrite S2, !cli_log, cli_k, K2, L2. cbn [SdkStreamModel.cstep]. rewrite P. cbn [fst snd k_pc to_pc k_active k_up]. rewrite <- app_assoc. f_equal.
    unfold wstep, batch_new, workers. cbn [b_ws map b_q]. 
    match goal with |- context [repeat ?a (N.to_nat ?x)] => assert (X : exists l, repeat a (N.to_nat x) = a :: l); [destruct (N.to_nat x) as [|k] eqn:E; [|exists (repeat a k); reflexivity]|] end.
    { exfalso. destruct (N.leb_spec conc 1); [discriminate E|]. unfold lenN in E. cbn [length map] in E. lia. }
    destruct X as (l & ->). cbn [nth_error]. rewrite A. reflexivity.
  Qed.
End Y.
