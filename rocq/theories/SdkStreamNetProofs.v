(** Stream consumers end to end: what stays true along every run. *)
From Verif Require Import LibBase LibMap SdkLoopModel SdkLoopProofs SdkStreamModel SdkStreamSpec SdkStreamProofs SdkStreamFlow StreamTopicModel StreamGroupModel StreamStoreModel StreamStoreCodec StreamStoreProofs StreamStoreFacts StreamGroupSpec StreamGroupProofs StreamGroupFetch StreamGroupHist StreamGroupFacts StreamTopicProofs StreamSysModel StreamSysProofs StreamSysHist StreamSysFacts StreamSysBoot StreamSysLife StreamWake SdkStreamSys SdkStreamNetModel SdkStreamNetSpec SdkStreamNetServer.
From Coq Require Import Permutation.

Section Out.
  Variable crc : bytes -> N.
  Hypothesis crc32 : forall b, crc b < 2 ^ 32.
  Variable cfg : gcfg.
  Variable smax : N.
  Hypothesis MD : 1 <= max_del cfg.
  Notation sstep := (sstep crc cfg smax).
  Notation slog := (slog crc cfg smax).

  (** ** What the server gives out is what was published *)
  Lemma takeN_incl {T} n (l : list T) : incl (takeN n l) l.
  Proof. intros x H. rewrite <- (takeN_dropN _ n l). apply in_or_app. auto. Qed.
  Lemma dropN_incl {T} n (l : list T) : incl (dropN n l) l.
  Proof. intros x H. rewrite <- (takeN_dropN _ n l). apply in_or_app. auto. Qed.
  Lemma cold_genuine soft L A s : slog soft L A s -> forall k ms, In k (s_colds s) -> k_res k = Some ms -> incl ms A.
  Proof.
    induction 1 as [|L A s who o S IH OK OR SH|L A s soft' vis S IH V B F|L A s c e S IH]; intros k ms HI HR.
    - contradiction.
    - destruct (colds_step crc cfg smax s o k ms HI HR) as [(k' & HK & HE)|(i & vis & k' & -> & HK & ->)].
      + intros m Hm. apply in_or_app. left. apply (IH k' ms HK HE m Hm).
      + simpl adds. rewrite app_nil_r. pose proof (calm_sys crc crc32 cfg smax A s (slog_calm _ _ _ _ _ _ _ S)) as HS. simpl in OK.
        rewrite (cold_read_exact crc crc32 1 A s vis _ _ HS OK). intros m Hm. apply takeN_incl in Hm. unfold from in Hm. apply filter_In in Hm. destruct Hm as (Hm & _).
        destruct (disk_piece crc crc32 1 A s vis HS OK) as (n & ED & _). rewrite ED in Hm. apply takeN_incl in Hm. unfold from in Hm. apply filter_In in Hm. tauto.
    - assert (X : s_colds (boot crc soft' (crash vis (s_store s))) = []) by (unfold boot; destruct (recover_topic _ _) as [[? ?] ?]; reflexivity). rewrite X in HI. contradiction.
    - eauto.
  Qed.
  Lemma red_incl log ram : forall red m, In m (red_part log ram red) -> In m log.
  Proof.
    induction red as [|q red IH]; simpl; intros m H; [contradiction|]. destruct (read_from_log log ram q) as [x|] eqn:E; [|contradiction]. destruct H as [<-|H]; auto.
    unfold read_from_log in E. destruct (_ || _); [discriminate|]. eapply nth_error_In. exact E.
  Qed.
  Lemma new_incl log ram q m : In m (new_part log ram q) -> In m log.
  Proof. unfold new_part. destruct (ram <=? q); [|contradiction]. intro H. apply (dropN_incl _ _ _ H). Qed.
  Definition is_fetch (o : sop) : bool := match o with STry _ _ _ _ _ _ | SColdDone _ _ => true | _ => false end.
  Lemma out_genuine soft L A s o ms : slog soft L A s -> snd (sstep s o) = RMsgs ms -> incl ms A /\ NoDup (map m_seq ms).
  Proof.
    intros S R. destruct ms as [|m0 ms0]; [split; [intros x []|constructor]|]. set (ms := m0 :: ms0) in *. assert (NE : ms <> []) by discriminate. clearbody ms. clear m0 ms0.
    pose proof (slog_calm _ _ _ _ _ _ _ S) as C. pose proof (calm_all crc crc32 cfg smax MD A s C) as CO. pose proof (c_mem _ _ _ CO) as MO.
    pose proof (slog_si crc crc32 cfg smax MD soft L A s S) as I. destruct (calm_sys crc crc32 cfg smax A s C) as (W & dh & bl & HS). destruct (i_topic _ _ _ _ _ _ _ HS) as (K & _).
    destruct o; cbn [StreamSysModel.sstep] in R; try discriminate R.
    - unfold op_join in R. destruct (clamp_head _ _); discriminate R.
    - unfold op_leave in R. destruct (gget gid s); [|discriminate R]. destruct (negb _); [discriminate R|]. destruct (remove_member _ _ _ _) as [g' [x|]]; discriminate R.
    - unfold op_ack in R. destruct (gget gid s); [|discriminate R]. cbv zeta in R. destruct (ack _ _ _ _) as [g' [x|]]; discriminate R.
    - destruct (gget gid s) as [g|] eqn:EG; [|unfold op_try in R; rewrite EG in R; discriminate R].
      destruct (si_grp _ _ _ _ _ _ I gid g EG) as (st & h & HH & _).
      pose proof (try_answer crc cfg smax gid c gen limit now tok s g st h ms EG NE R) as X. unfold ev_step in X. rewrite EG in X. match type of X with Some (_, ?a) = Some (_, ?b) => assert (XX : a = b) by congruence; clear X; rename XX into X end.
      pose proof (grun_hist cfg st (gtrace crc cfg smax gid g s (STry gid c gen limit now tok)) g h HH (gtrace_ok crc cfg smax gid g s _ MO)) as HH'. rewrite X in HH'.
      destruct (out_status cfg MD _ _ _ _ _ HH') as (ND & _). split; auto.
      apply hist_tail in HH'. destruct HH' as (g0 & H0 & OK0 & X0). simpl in OK0, X0. destruct (hist_agrees cfg MD _ _ _ H0) as [IV _ _ _].
      destruct (ensure_active c gen g0) as [e|] eqn:EA; [rewrite (fetch_err cfg _ _ _ _ _ _ _ _ _ EA) in X0; inversion X0|].
      destruct (fetch_exact cfg MD c gen limit now _ _ (t_head (s_top s)) g0 IV OK0 EA) as (g2 & X2 & _). match type of X2 with _ = (_, inr ?r) => assert (X4 : ms = r) by (rewrite X2 in X0; injection X0; auto) end. clear X X0 X2 R ND. subst ms.
      assert (LI : incl (t_log (s_top s)) A) by (destruct (k_log _ _ _ K) as (k & -> & _); apply dropN_incl).
      intros m Hm. apply LI. apply in_app_or in Hm. destruct Hm as [Hm|Hm]; apply takeN_incl in Hm; [eapply red_incl; eauto|eapply new_incl; eauto].
    - destruct (nth_error (s_colds s) i) as [k|] eqn:EN; [|unfold op_cold_done in R; rewrite EN in R; discriminate R].
      destruct (k_res k) as [res|] eqn:ER; [|unfold op_cold_done in R; rewrite EN, ER in R; discriminate R].
      destruct (gget (k_gid k) s) as [g|] eqn:EG; [|unfold op_cold_done in R; rewrite EN, ER in R; cbv zeta in R; change (gget (k_gid k) (set_colds (remove_nth i (s_colds s)) s)) with (gget (k_gid k) s) in R; rewrite EG in R; discriminate R].
      destruct (si_grp _ _ _ _ _ _ I (k_gid k) g EG) as (st & h & HH & _).
      pose proof (cold_answer crc cfg smax i now s k res g st h ms EN ER EG NE R) as X. unfold ev_step in X. rewrite EG in X. match type of X with Some (_, ?a) = Some (_, ?b) => assert (XX : a = b) by congruence; clear X; rename XX into X end.
      pose proof (grun_hist cfg st (gtrace crc cfg smax (k_gid k) g s (SColdDone i now)) g h HH (gtrace_ok crc cfg smax (k_gid k) g s _ MO)) as HH'. rewrite X in HH'.
      destruct (out_status cfg MD _ _ _ _ _ HH') as (ND & _). split; auto.
      apply hist_tail in HH'. destruct HH' as (g0 & H0 & OK0 & X0). simpl in OK0, X0. destruct (hist_agrees cfg MD _ _ _ H0) as [IV _ _ _].
      destruct (ensure_active (k_c k) (k_gen k) g0) as [e|] eqn:EA; [rewrite (cold_err cfg _ _ _ _ _ _ _ EA) in X0; inversion X0|].
      destruct (cold_ok cfg MD (k_c k) (k_gen k) now res (t_head (s_top s)) g0 IV EA) as (g2 & out & X2 & _ & _ & _ & CI & _). assert (X4 : ms = out) by (rewrite X2 in X0; injection X0; auto). clear X X0 X2 R ND. subst ms.
      intros m Hm. apply (cold_genuine soft L A s S k res (nth_error_In _ _ EN) ER). apply CI. auto.
  Qed.
  Lemma pub_unique soft L A s m m' : slog soft L A s -> In m A -> In m' A -> m_seq m = m_seq m' -> m = m'.
  Proof.
    intros S H H' E. destruct (calm_sys crc crc32 cfg smax A s (slog_calm _ _ _ _ _ _ _ S)) as (W & dh & bl & HS). destruct (i_topic _ _ _ _ _ _ _ HS) as (K & _). pose proof (k_all _ _ _ K) as LO.
    apply In_nth_error in H. destruct H as (i & H). apply In_nth_error in H'. destruct H' as (j & H'). pose proof (LO _ _ H). pose proof (LO _ _ H'). assert (i = j) by lia. subst. congruence.
  Qed.
End Out.

(** ** One subscription *)
Definition hits (q : N) (ms : list msg) : nat := length (filter (fun m => m_seq m =? q) ms).
Lemma hits_app q a b : hits q (a ++ b) = (hits q a + hits q b)%nat.
Proof. unfold hits. rewrite filter_app, app_length. auto. Qed.
Lemma hits_out q ms : NoDup (map m_seq ms) -> (hits q ms <= if in_out q ms then 1 else 0)%nat.
Proof.
  unfold hits, in_out. induction ms as [|m ms IH]; simpl; intro ND; auto. inversion ND as [|? ? N1 N2]; subst. specialize (IH N2). destruct (N.eqb_spec (m_seq m) q) as [E|E]; simpl; auto.
  assert (X : filter (fun m => m_seq m =? q) ms = []); [|rewrite X; simpl; lia]. clear IH ND N2. induction ms as [|x ms IH]; simpl in *; auto. destruct (N.eqb_spec (m_seq x) q); [exfalso; apply N1; left; congruence|]. apply IH. tauto.
Qed.
(** a start for number [q]; what an answer brings of it *)
Definition w_start (q : N) (e : tev) : nat := match e with VDo (EStart _ (_, m)) => if (m_seq m =? q)%N then 1%nat else O | _ => O end.
Definition w_got (q : N) (e : tev) : nat := match e with VGot _ ms => hits q ms | _ => O end.
Definition tally {T} (w : T -> nat) (l : list T) : nat := fold_right (fun e n => (w e + n)%nat) O l.
Lemma tally_app {T} (w : T -> nat) a b : tally w (a ++ b) = (tally w a + tally w b)%nat.
Proof. unfold tally. induction a as [|x a IH]; simpl; auto. rewrite IH. lia. Qed.
Definition queued (q : N) (k : cli) : nat := match k_pc k with PRun _ b => hits q (map snd (b_q item b)) | _ => O end.

Section Cli.
  Variable conc : N.
  Lemma failed_w q r k : tally (w_start q) (snd (failed r k)) = O /\ tally (w_got q) (snd (failed r k)) = O /\ queued q (fst (failed r k)) = O.
  Proof. unfold failed. destruct (k_active k); [destruct (_ && _)|]; auto. Qed.
  Lemma poll_w q i k : tally (w_start q) (snd (poll i k)) = O /\ tally (w_got q) (snd (poll i k)) = O /\ queued q (fst (poll i k)) = O.
  Proof. unfold poll. destruct (k_up k); auto. apply failed_w. Qed.
  Lemma head_w q k : tally (w_start q) (snd (head k)) = O /\ tally (w_got q) (snd (head k)) = O /\ queued q (fst (head k)) = O.
  Proof. unfold head. destruct (k_active k); auto. destruct (k_id k); [apply poll_w|]. destruct (k_up k); auto. apply failed_w. Qed.
  Lemma vdo_got q es : tally (w_got q) (map VDo es) = O.
  Proof. induction es; simpl; auto. Qed.
  Lemma step_w q k o : (tally (w_start q) (snd (cstep conc k o)) + queued q (fst (cstep conc k o)) <= queued q k + tally (w_got q) (snd (cstep conc k o)))%nat.
  Proof.
    pose proof (failed_w q) as FW. pose proof (poll_w q) as PW. pose proof (head_w q) as HW.
    assert (AL : forall es r, (tally (w_start q) (snd r) = 0 /\ tally (w_got q) (snd r) = 0 /\ queued q (fst r) = 0)%nat -> (tally (w_start q) es = 0)%nat ->
      (tally (w_start q) (snd (also es r)) + queued q (fst (also es r)) <= queued q k + tally (w_got q) (snd (also es r)))%nat).
    { intros es r (A & B & C) D. unfold also. cbn [fst snd]. rewrite !tally_app. lia. }
    assert (ZE : forall r, (tally (w_start q) (snd r) = 0 /\ tally (w_got q) (snd r) = 0 /\ queued q (fst r) = 0)%nat ->
      (tally (w_start q) (snd r) + queued q (fst r) <= queued q k + tally (w_got q) (snd r))%nat) by (intros r (A & B & C); lia).
    assert (NO : (tally (w_start q) (snd (k, @nil tev)) + queued q (fst (k, @nil tev)) <= queued q k + tally (w_got q) (snd (k, @nil tev)))%nat) by (simpl; lia).
    destruct o; cbn [cstep].
    - destruct (k_pc k) eqn:EP; auto.
    - destruct (k_pc k) eqn:EP; auto. destruct ms as [|m ms]; auto. destruct bad; auto. cbn [snd fst]. unfold queued at 1. cbn [k_pc to_pc]. unfold batch_new. cbn [b_q]. rewrite map_map. cbn [snd].
      rewrite map_id. cbn [tally fold_right w_start w_got]. lia.
    - destruct (k_pc k) eqn:EP; auto.
    - destruct (k_pc k) as [| | | |i b| |] eqn:EP; auto. destruct o as [j bad|j ok bad]; cbn [wstep].
      + destruct (nth_error (b_ws item b) j) as [[|x| |]|] eqn:EN; try (cbn; unfold queued; rewrite EP; cbn; unfold hits; cbn; lia).
        destruct (b_q item b) as [|[i0 m] bq] eqn:EQ; [cbn; unfold queued; cbn; lia|]. destruct (k_active k); cbn; unfold queued; rewrite EP, EQ; cbn; unfold hits; cbn; destruct (m_seq m =? q); cbn; lia.
      + destruct (nth_error (b_ws item b) j) as [[|x| |]|] eqn:EN; try (cbn; unfold queued; rewrite EP; cbn; unfold hits; cbn; lia).
        destruct (k_up k); cbn [negb]; [destruct bad|]; [|destruct ok|]; cbn; unfold queued; rewrite EP; cbn; unfold hits; cbn; lia.
    - destruct (k_pc k) eqn:EP; auto. destruct (forallb _ _); auto.
    - destruct (k_pc k) eqn:EP; auto.
    - destruct (k_pc k) eqn:EP; auto; destruct (k_id k); try destruct (k_up k); cbn; unfold queued; rewrite ?EP; cbn; unfold hits; cbn; lia.
    - cbn. unfold queued. cbn. destruct (k_pc k); unfold hits; cbn; lia.
    - destruct (k_pc k) eqn:EP; auto. destruct (_ && _); auto.
    - destruct (k_up k); auto. destruct (k_pc k) eqn:EP; auto; unfold queued; cbn; rewrite ?EP; cbn; unfold hits; cbn; lia.
    - destruct (k_up k); auto.
  Qed.
  Lemma run_w q c os : (tally (w_start q) (klog conc c os) + queued q (kst conc c os) <= tally (w_got q) (klog conc c os))%nat.
  Proof.
    induction os as [|o os IH] using rev_ind; [cbn; lia|]. unfold klog, kst in *. rewrite crun_snoc. unfold cnext. pose proof (step_w q (fst (crun conc c os)) o) as X.
    destruct (cstep conc (fst (crun conc c os)) o) as [k es]. cbn [fst snd] in *. rewrite !tally_app. lia.
  Qed.
  (** a callback is started on what an answer brought *)
  Lemma start_got c os i m : In (VDo (EStart item (i, m))) (klog conc c os) -> exists ms, In (VGot i ms) (klog conc c os) /\ In m ms.
  Proof.
    induction os as [|o os IH] using rev_ind; [cbn; intros [H|[H|[]]]; discriminate|]. unfold klog in *. rewrite crun_snoc. unfold cnext. pose proof (crun_ok conc c os) as [K _]. unfold kst, klog in K. destruct (crun conc c os) as [k l]. cbn [fst snd] in *.
    destruct (cstep conc k o) as [k' es] eqn:E. cbn [snd]. intro H. apply in_app_or in H. destruct H as [H|H].
    - destruct (IH H) as (ms & A & B). exists ms. split; auto. apply in_or_app. auto.
    - cut (exists ms, In (VGot i ms) l /\ In m ms); [intros (ms & A & B); exists ms; split; auto; apply in_or_app; auto|]. assert (FW : forall r k, ~ In (VDo (EStart item (i, m))) (snd (failed r k))) by (intros r k0; unfold failed; destruct (k_active k0); [destruct (_ && _)|]; cbn; intuition discriminate).
      assert (PW : forall i0 k, ~ In (VDo (EStart item (i, m))) (snd (poll i0 k))) by (intros i0 k0; unfold poll; destruct (k_up k0); [cbn; intuition discriminate|apply FW]).
      assert (HW : forall k, ~ In (VDo (EStart item (i, m))) (snd (head k))) by (intros k0; unfold head; destruct (k_active k0); [destruct (k_id k0); [apply PW|destruct (k_up k0); [cbn; intuition discriminate|apply FW]]|cbn; intuition discriminate]).
      assert (Z : es = snd (cstep conc k o)) by (rewrite E; reflexivity). rewrite Z in H. clear Z E k' es.
      destruct o; cbn [cstep] in H.
      + exfalso. destruct (k_pc k); try contradiction; cbn in H; destruct H as [H|H]; try discriminate; [destruct H as [H|H]; try discriminate; eapply HW; eauto|eapply PW; eauto].
      + exfalso. destruct (k_pc k); try contradiction. destruct ms as [|x ms]; [cbn in H; destruct H as [H|H]; try discriminate; eapply HW; eauto|]. destruct bad; cbn in H; destruct H as [H|H]; try discriminate; try contradiction. eapply FW; eauto.
      + exfalso. destruct (k_pc k); try contradiction; try (eapply FW; eauto; fail). cbn in H. intuition discriminate.
      + destruct (k_pc k) as [| | | |i0 b| |] eqn:EP; try contradiction. destruct (ki_run _ _ K i0 b EP) as (a & ms & d & -> & _ & RB & _).
        assert (X : In (i, m) (b_q item b)).
        { destruct o as [j bad|j ok bad]; cbn [wstep] in H.
          - destruct (nth_error (b_ws item b) j) as [[|x| |]|]; try contradiction. destruct (b_q item b) as [|x bq]; [contradiction|]. destruct (k_active k); cbn in H; destruct H as [H|[]]; inversion H. left. reflexivity.
          - destruct (nth_error (b_ws item b) j) as [[|x| |]|]; try contradiction. exfalso. destruct (k_up k); cbn [negb] in H; [destruct bad|]; [|destruct ok|]; cbn in H; intuition discriminate. }
        destruct (RB (i, m)) as (m' & E1 & E2); [unfold bitems; apply in_or_app; auto|]. inversion E1; subst. exists ms. split; auto. apply in_or_app. right. left. reflexivity.
      + exfalso. destruct (k_pc k); try contradiction. destruct (forallb _ _); try contradiction. eapply HW; eauto.
      + exfalso. destruct (k_pc k); try contradiction. eapply HW; eauto.
      + exfalso. destruct (k_pc k); try contradiction; destruct (k_id k); try destruct (k_up k); cbn in H; intuition discriminate.
      + contradiction.
      + exfalso. destruct (k_pc k); try contradiction. destruct (_ && _); cbn in H; intuition discriminate.
      + exfalso. destruct (k_up k); try contradiction. destruct (k_pc k); cbn in H; try (intuition discriminate); destruct H as [H|H]; try discriminate; eapply FW; eauto.
      + exfalso. destruct (k_up k); cbn in H; intuition discriminate.
  Qed.
End Cli.

(** ** All of them *)
Definition clog (c : nat) (L : list nev) : list tev := flat_map (fun e => match e with OClient d x => if Nat.eqb d c then [x] else [] | _ => [] end) L.
Lemma clog_app c a b : clog c (a ++ b) = clog c a ++ clog c b. Proof. apply flat_map_app. Qed.
Lemma clog_map c d es : clog c (map (OClient d) es) = if Nat.eqb d c then es else [].
Proof. induction es as [|e es IH]; cbn; [destruct (Nat.eqb d c); reflexivity|]. unfold clog in IH. rewrite IH. destruct (Nat.eqb d c); reflexivity. Qed.
Lemma clog_in c e L : In e (clog c L) <-> In (OClient c e) L.
Proof.
  unfold clog. rewrite in_flat_map. split.
  - intros ([d x|w o r|a b] & H & X); try contradiction. destruct (Nat.eqb_spec d c); [|contradiction]. destruct X as [<-|[]]. subst. auto.
  - intro H. exists (OClient c e). split; auto. rewrite Nat.eqb_refl. left. auto.
Qed.
Definition w_cl (w : nat -> tev -> nat) (e : nev) : nat := match e with OClient c x => w c x | _ => O end.
Fixpoint sum (n : nat) (f : nat -> nat) : nat := match n with O => O | S m => (f m + sum m f)%nat end.
Lemma sum_le n f g : (forall d, (f d <= g d)%nat) -> (sum n f <= sum n g)%nat.
Proof. intro H. induction n as [|n IH]; cbn; [lia|]. specialize (H n). lia. Qed.
Lemma sum_zero n : sum n (fun _ => O) = O. Proof. induction n; auto. Qed.
Lemma sum_add n f g : sum n (fun d => (f d + g d)%nat) = (sum n f + sum n g)%nat.
Proof. induction n as [|n IH]; cbn; [lia|]. rewrite IH. lia. Qed.
Lemma sum_ext n f g : (forall d, f d = g d) -> sum n f = sum n g.
Proof. intro H. induction n; cbn; auto. Qed.
Lemma sum_one n d a : (d < n)%nat -> sum n (fun e => if Nat.eqb d e then a else O) = a.
Proof.
  induction n as [|n IH]; [lia|]. intro H. cbn [sum]. destruct (Nat.eqb_spec d n) as [->|N].
  - replace (sum n _) with O; [lia|]. symmetry. clear. assert (H : forall m, (m <= n)%nat -> sum m (fun e => if Nat.eqb n e then a else O) = O); [|apply H; lia]. induction m as [|m IH]; intro H; cbn; auto. destruct (Nat.eqb_spec n m); [lia|]. apply IH. lia.
  - rewrite IH; lia.
Qed.
Lemma sum_clients w : forall L n, (forall d e, In (OClient d e) L -> (d < n)%nat) -> tally (w_cl w) L = sum n (fun d => tally (w d) (clog d L)).
Proof.
  intros L n. induction L as [|e L IH]; intro B.
  - cbn. rewrite sum_zero. reflexivity.
  - assert (IH' := IH (fun d x H => B d x (or_intror H))). destruct e as [d x|who o r|a b]; try exact IH'.
    change (tally (w_cl w) (OClient d x :: L)) with (w d x + tally (w_cl w) L)%nat. rewrite IH'.
    rewrite (sum_ext n (fun d0 => tally (w d0) (clog d0 (OClient d x :: L))) (fun d0 => (if Nat.eqb d d0 then w d x else O) + tally (w d0) (clog d0 L))%nat).
    + rewrite sum_add, sum_one; auto. apply (B d x). left. reflexivity.
    + intro d0. change (OClient d x :: L) with ([OClient d x] ++ L). rewrite clog_app, tally_app. f_equal. cbn. destruct (Nat.eqb_spec d d0); [subst; cbn; lia|reflexivity].
Qed.
Lemma bound L : exists n, forall d e, In (OClient d e) L -> (d < n)%nat.
Proof.
  induction L as [|[d x|who o r|a b] L (n & IH)]; [exists O; intros ? ? []| |exists n; intros d e [H|H]; [discriminate|eauto]|exists n; intros d e [H|H]; [discriminate|eauto]].
  exists (S (Nat.max d n)). intros d' e [H|H]; [injection H as -> ->; lia|]. specialize (IH _ _ H). lia.
Qed.
Lemma clients_le w v L : (forall d, (tally (w d) (clog d L) <= tally (v d) (clog d L))%nat) -> (tally (w_cl w) L <= tally (w_cl v) L)%nat.
Proof. intro H. destruct (bound L) as (n & B). rewrite (sum_clients w L n B), (sum_clients v L n B). apply sum_le. exact H. Qed.

Section Net.
  Variable crc : bytes -> N.
  Hypothesis crc32 : forall b, crc b < 2 ^ 32.
  Variable cfg : gcfg.
  Variable smax : N.
  Hypothesis MD : 1 <= max_del cfg.
  Variable conc : nat -> N.
  Variable grp : nat -> bytes.
  Variable lim : nat -> N.
  Hypothesis SHORT : forall c, lenN (grp c) < 65536.
  Notation sstep := (sstep crc cfg smax).
  Notation slog := (slog crc cfg smax).
  Notation nstep := (nstep crc cfg smax conc grp lim).
  Notation nrun := (nrun crc cfg smax conc grp lim).
  Notation given_out := (given_out crc cfg smax).

  Definition w_served (gid : bytes) (q : N) (e : nev) : nat :=
    match e with OServer (Some c) _ (RMsgs ms) => if beqb (grp c) gid then hits q ms else O | _ => O end.
  Definition w_down (gid : bytes) (q : N) (a : answer) : nat :=
    match a_v a with AMsgs ms => if beqb (grp (a_c a)) gid then hits q ms else O | _ => O end.
  Definition in_grp (gid : bytes) (w : tev -> nat) (c : nat) (e : tev) : nat := if beqb (grp c) gid then w e else O.
  Record NI (soft : N) (y : net) : Prop := {
    ni_log : slog soft (n_log y) (published (n_log y)) (n_s y);
    ni_cl : forall c, match n_cl y c with
                      | None => clog c (n_log y) = []
                      | Some (k, l) => clog c (n_log y) = l /\ exists conn os, crun (conc c) conn os = (k, l)
                      end;
    ni_got : forall c i ms, In (OClient c (VGot i ms)) (n_log y) -> incl ms (published (n_log y));
    ni_down : forall a ms, In a (n_down y) -> a_v a = AMsgs ms -> incl ms (published (n_log y));
    ni_up : forall c i q, In (c, NAck i q) (n_up y) -> exists m, m_seq m = q /\ In (OClient c (VDo (EAck item (i, m)))) (n_log y);
    ni_ack : forall c gid x gen q r, In (OServer (Some c) (SAck gid x gen q) r) (n_log y) -> gid = grp c /\ exists i m, m_seq m = q /\ In (OClient c (VDo (EAck item (i, m)))) (n_log y);
    ni_served : forall gid q, N.of_nat (tally (w_served gid q) (n_log y)) <= given_out soft gid q (n_log y);
    ni_flow : forall gid q, (tally (w_cl (in_grp gid (w_got q))) (n_log y) + tally (w_down gid q) (n_down y) <= tally (w_served gid q) (n_log y))%nat
  }.
  Lemma ni0 soft : NI soft (net0 soft).
  Proof. constructor; cbn; try tauto; try lia. apply sl_new. Qed.

  Lemma slog_clients soft A s c es : forall L, slog soft L A s -> slog soft (L ++ map (OClient c) es) A s.
  Proof.
    induction es as [|e es IH]; intros L S; cbn; [rewrite app_nil_r; auto|]. change (OClient c e :: map (OClient c) es) with ([OClient c e] ++ map (OClient c) es). rewrite app_assoc. apply IH. apply sl_client. auto.
  Qed.
  Lemma pub_clients c es : published (map (OClient c) es) = [].
  Proof. unfold published. induction es; cbn; auto. Qed.
  Lemma served_clients gid q c es : tally (w_served gid q) (map (OClient c) es) = O.
  Proof. induction es; cbn; auto. Qed.
  Lemma given_clients soft gid q c es : forall L, given_out soft gid q (L ++ map (OClient c) es) = given_out soft gid q L.
  Proof.
    induction es as [|e es IH]; intro L; cbn [map]; [rewrite app_nil_r; auto|]. change (OClient c e :: map (OClient c) es) with ([OClient c e] ++ map (OClient c) es). rewrite app_assoc, IH, given_snoc. cbn. lia.
  Qed.
  Lemma got_clients gid q c es : tally (w_cl (in_grp gid (w_got q))) (map (OClient c) es) = if beqb (grp c) gid then tally (w_got q) es else O.
  Proof.
    induction es as [|e es IH]; [cbn; destruct (beqb _ _); auto|]. cbn [map]. change (tally ?w (?a :: ?b)) with (w a + tally w b)%nat. rewrite IH. cbn. unfold in_grp. destruct (beqb (grp c) gid); auto.
  Qed.

  (** a subscription does something; [d]: the answers still under way *)
  Lemma ni_client soft y c k l x es d :
    NI soft y -> clog c (n_log y) = l -> (exists conn os, crun (conc c) conn os = (k, l ++ es)) -> x = (k, l ++ es) ->
    (forall i ms, In (VGot i ms) es -> incl ms (published (n_log y))) -> incl d (n_down y) ->
    (forall gid q, ((if beqb (grp c) gid then tally (w_got q) es else O) + tally (w_down gid q) d <= tally (w_down gid q) (n_down y))%nat) ->
    NI soft (client c x es (with_down d y)).
  Proof.
    intros [N1 N2 N3 N4 N5 N6 N7 N8] HL HR -> HG HD HW.
    assert (PB : published (n_log y ++ map (OClient c) es) = published (n_log y)) by (rewrite published_app, pub_clients, app_nil_r; auto).
    constructor; cbn [client with_down n_log n_s n_cl n_up n_down]; rewrite ?PB.
    - apply slog_clients. auto.
    - intro e. unfold setc. rewrite clog_app, clog_map. destruct (Nat.eqb_spec e c) as [->|NE].
      + rewrite Nat.eqb_refl. split; [rewrite HL; auto|auto].
      + destruct (Nat.eqb_spec c e); [congruence|]. rewrite app_nil_r. apply N2.
    - intros e i ms H. apply in_app_or in H. destruct H as [H|H]; [eauto|]. apply in_map_iff in H. destruct H as (z & E & H). inversion E; subst. eauto.
    - intros a ms H E. eauto.
    - intros e i q H. apply in_app_or in H. destruct H as [H|H].
      + destruct (N5 e i q H) as (m & E & X). exists m. split; auto. apply in_or_app. auto.
      + apply in_map_iff in H. destruct H as (z & E & H). inversion E; subst. apply in_flat_map in H. destruct H as (v & H & X).
        destruct v; cbn in X; try contradiction; try (destruct X as [X|[]]; discriminate). destruct e0 as [z|z b|[j m]|z|z]; try contradiction. destruct X as [X|[]]. inversion X; subst. exists m. split; auto. apply in_or_app. right. apply in_map. auto.
    - intros e gid z gen q r H. apply in_app_or in H. destruct H as [H|H]; [|apply in_map_iff in H; destruct H as (v & E & _); discriminate].
      destruct (N6 _ _ _ _ _ _ H) as (E & i & m & E2 & X). split; auto. exists i, m. split; auto. apply in_or_app. auto.
    - intros gid q. rewrite tally_app, served_clients, given_clients, Nat.add_0_r. auto.
    - intros gid q. rewrite !tally_app, served_clients, got_clients. specialize (N8 gid q). specialize (HW gid q). lia.
  Qed.

  (** the server executes something *)
  Lemma ni_server soft y who o up' down' :
    NI soft y -> op_ok (n_s y) o -> orderly o -> short o ->
    (forall c i q, In (c, NAck i q) up' -> In (c, NAck i q) (n_up y)) ->
    (forall c gid x gen q, who = Some c -> o = SAck gid x gen q -> gid = grp c /\ exists i, In (c, NAck i q) (n_up y)) ->
    (forall c ms, who = Some c -> snd (sstep (n_s y) o) = RMsgs ms -> fetch_of (grp c) (n_s y) o = true) ->
    (down' = n_down y \/ exists c n v, who = Some c /\ down' = n_down y ++ [mkA c n v] /\ forall ms, v = AMsgs ms -> ms = [] \/ snd (sstep (n_s y) o) = RMsgs ms) ->
    NI soft (mkN (n_cl y) (fst (sstep (n_s y) o)) up' down' (n_log y ++ [OServer who o (snd (sstep (n_s y) o))])).
  Proof.
    intros [N1 N2 N3 N4 N5 N6 N7 N8] OK OR SH HU HA HF HD. set (e := OServer who o (snd (sstep (n_s y) o))).
    assert (S' : slog soft (n_log y ++ [e]) (published (n_log y) ++ adds (n_s y) o) (fst (sstep (n_s y) o))) by (apply sl_step; auto).
    assert (PB : published (n_log y ++ [e]) = published (n_log y) ++ adds (n_s y) o) by (apply (slog_pub _ _ _ _ _ _ _ S')).
    assert (SV : srv crc cfg smax soft (n_log y) = n_s y) by (apply (slog_srv _ _ _ _ _ _ _ N1)).
    assert (PI : incl (published (n_log y)) (published (n_log y ++ [e]))) by (rewrite PB; intros m H; apply in_or_app; auto).
    assert (GC : forall gid q, tally (w_cl (in_grp gid (w_got q))) [e] = O) by reflexivity.
    constructor; cbn [n_log n_s n_cl n_up n_down].
    - rewrite PB. exact S'.
    - intro c. rewrite clog_app. cbn [e clog flat_map app]. rewrite app_nil_r. apply N2.
    - intros c i ms H. apply in_app_or in H. destruct H as [H|[H|[]]]; [|discriminate]. eapply incl_tran; eauto.
    - intros a ms H E. destruct HD as [->|(c & n & v & W & -> & V)]; [eapply incl_tran; eauto|]. apply in_app_or in H. destruct H as [H|[<-|[]]]; [eapply incl_tran; eauto|]. cbn in E. destruct (V ms E) as [->|R]; [intros z []|].
      eapply incl_tran; [|exact PI]. apply (out_genuine crc crc32 cfg smax MD _ _ _ _ _ _ N1 R).
    - intros c i q H. destruct (N5 c i q (HU _ _ _ H)) as (m & E & X). exists m. split; auto. apply in_or_app. auto.
    - intros c gid x gen q r H. apply in_app_or in H. destruct H as [H|[H|[]]].
      + destruct (N6 _ _ _ _ _ _ H) as (E & i & m & E2 & X). split; auto. exists i, m. split; auto. apply in_or_app. auto.
      + unfold e in H. inversion H; subst. destruct (HA c gid x gen q eq_refl eq_refl) as (E & i & X). destruct (N5 c i q X) as (m & E2 & Y). split; auto. exists i, m. split; auto. apply in_or_app. auto.
    - intros gid q. rewrite tally_app, given_snoc, SV. specialize (N7 gid q).
      assert (X : N.of_nat (tally (w_served gid q) [e]) <= if gives_out gid q (n_s y) e then 1 else 0); [|lia].
      cbn [tally fold_right]. unfold e, w_served, gives_out. destruct who as [c|]; [|cbn; lia]. destruct (snd (sstep (n_s y) o)) as [| | |ms| | |] eqn:R; cbn; try lia.
      destruct (beqb (grp c) gid) eqn:G; [|cbn; lia]. apply beqb_eq in G. subst gid. rewrite (HF c ms eq_refl eq_refl). cbn [andb].
      destruct (out_genuine crc crc32 cfg smax MD _ _ _ _ _ _ N1 R) as (_ & ND). pose proof (hits_out q ms ND). destruct (in_out q ms); lia.
    - intros gid q. rewrite !tally_app, GC. specialize (N8 gid q). destruct HD as [->|(c & n & v & W & -> & V)]; [lia|]. rewrite tally_app.
      assert (X : (tally (w_down gid q) [mkA c n v] <= tally (w_served gid q) [e])%nat); [|lia].
      cbn [tally fold_right]. unfold w_down. cbn [a_v a_c]. destruct v as [i|ms|b|]; cbn; try lia. destruct (V ms eq_refl) as [->|R]; [destruct (beqb _ _); cbn; lia|].
      unfold e, w_served. rewrite W, R. lia.
  Qed.

  (** ** every step *)
  Lemma tally_cons {B} (w : B -> nat) a l : tally w (a :: l) = (w a + tally w l)%nat. Proof. reflexivity. Qed.
  Lemma drop_split {B} : forall j (l : list B) a, nth_error l j = Some a -> exists u v, l = u ++ a :: v /\ drop j l = u ++ v.
  Proof.
    induction j as [|j IH]; intros [|x l] a H; cbn in H; try discriminate.
    - inversion H; subst. exists [], l. auto.
    - destruct (IH l a H) as (u & v & E1 & E2). exists (x :: u), v. split; [cbn; congruence|]. unfold drop in *. cbn [firstn app]. change (skipn (S (S j)) (x :: l)) with (skipn (S j) l). rewrite E2. reflexivity.
  Qed.
  Lemma drop_in {B} j (l : list B) x : In x (drop j l) -> In x l.
  Proof. unfold drop. intro H. apply in_app_or in H. destruct H as [H|H]; [rewrite <- (firstn_skipn j l)|rewrite <- (firstn_skipn (S j) l)]; apply in_or_app; auto. Qed.
  Lemma swap_in {B} j (l : list B) y x : In x (swap j y l) -> x = y \/ In x l.
  Proof. unfold swap. intro H. apply in_app_or in H. destruct H as [H|[H|H]]; auto; right; [rewrite <- (firstn_skipn j l)|rewrite <- (firstn_skipn (S j) l)]; apply in_or_app; auto. Qed.
  Lemma tally_drop {B} (w : B -> nat) j l : (tally w (drop j l) <= tally w l)%nat.
  Proof.
    destruct (nth_error l j) as [a|] eqn:E.
    - destruct (drop_split j l a E) as (u & v & -> & ->). rewrite !tally_app, tally_cons. lia.
    - apply nth_error_None in E. unfold drop. rewrite firstn_all2, skipn_all2, app_nil_r by lia. auto.
  Qed.
  Lemma tally_drop1 {B} (w : B -> nat) j l a : nth_error l j = Some a -> (w a + tally w (drop j l) = tally w l)%nat.
  Proof. intro E. destruct (drop_split j l a E) as (u & v & -> & ->). rewrite !tally_app, tally_cons. lia. Qed.
  Lemma step_got k c o i ms : In (VGot i ms) (snd (cstep (conc c) k o)) -> exists bad, o = CFetched ms bad.
  Proof.
    assert (FW : forall r k, ~ In (VGot i ms) (snd (failed r k))) by (intros r k0; unfold failed; destruct (k_active k0); [destruct (_ && _)|]; cbn; intuition discriminate).
    assert (PW : forall i0 k, ~ In (VGot i ms) (snd (poll i0 k))) by (intros i0 k0; unfold poll; destruct (k_up k0); [cbn; intuition discriminate|apply FW]).
    assert (HW : forall k, ~ In (VGot i ms) (snd (head k))) by (intros k0; unfold head; destruct (k_active k0); [destruct (k_id k0); [apply PW|destruct (k_up k0); [cbn; intuition discriminate|apply FW]]|cbn; intuition discriminate]).
    intro H. destruct o; cbn [cstep] in H.
    - exfalso. destruct (k_pc k); try contradiction; cbn in H; destruct H as [H|H]; try discriminate; [destruct H as [H|H]; try discriminate; eapply HW; eauto|eapply PW; eauto].
    - exists bad. destruct (k_pc k); try contradiction. destruct ms0 as [|x ms0]; [cbn in H; destruct H as [H|H]; [inversion H; auto|exfalso; eapply HW; eauto]|]. destruct bad; cbn in H; destruct H as [H|H]; try (inversion H; subst; reflexivity); try contradiction. exfalso. eapply FW; eauto.
    - exfalso. destruct (k_pc k); try contradiction; try (eapply FW; eauto; fail). cbn in H. intuition discriminate.
    - exfalso. destruct (k_pc k); try contradiction. destruct (wstep _ _ _ _ _ _) as [b' es]. cbn in H. apply in_map_iff in H. destruct H as (z & E & _). discriminate.
    - exfalso. destruct (k_pc k); try contradiction. destruct (forallb _ _); try contradiction. eapply HW; eauto.
    - exfalso. destruct (k_pc k); try contradiction. eapply HW; eauto.
    - exfalso. destruct (k_pc k); try contradiction; destruct (k_id k); try destruct (k_up k); cbn in H; intuition discriminate.
    - contradiction.
    - exfalso. destruct (k_pc k); try contradiction. destruct (_ && _); cbn in H; intuition discriminate.
    - exfalso. destruct (k_up k); try contradiction. destruct (k_pc k); cbn in H; try (intuition discriminate); destruct H as [H|H]; try discriminate; eapply FW; eauto.
    - exfalso. destruct (k_up k); cbn in H; intuition discriminate.
  Qed.
  Lemma none_got q : forall es, (forall i ms, ~ In (VGot i ms) es) -> tally (w_got q) es = O.
  Proof. induction es as [|e es IH]; intro H; cbn; auto. change (fold_right _ _ es) with (tally (w_got q) es). rewrite IH; [|intros i ms X; apply (H i ms); right; auto]. destruct e; auto. exfalso. apply (H i ms). left. auto. Qed.
  Lemma fetched_got q k c ms bad : (tally (w_got q) (snd (cstep (conc c) k (CFetched ms bad))) <= hits q ms)%nat.
  Proof.
    cbn [cstep]. destruct (k_pc k); cbn; try lia. destruct ms as [|m ms]; [|destruct bad]; unfold also; cbn [fst snd].
    - rewrite tally_app. destruct (head_w q k) as (_ & -> & _). cbn. lia.
    - rewrite tally_app. destruct (failed_w q false k) as (_ & -> & _). cbn [tally fold_right w_got]. lia.
    - cbn [tally fold_right w_got]. lia.
  Qed.
  Lemma ni_cact soft y c o d : NI soft y -> incl d (n_down y) ->
    match o with
    | CFetched ms _ => incl ms (published (n_log y)) /\ forall gid q, ((if beqb (grp c) gid then hits q ms else O) + tally (w_down gid q) d <= tally (w_down gid q) (n_down y))%nat
    | _ => forall gid q, (tally (w_down gid q) d <= tally (w_down gid q) (n_down y))%nat
    end ->
    (forall gid q, (tally (w_down gid q) d <= tally (w_down gid q) (n_down y))%nat) ->
    NI soft (cact conc c o (with_down d y)).
  Proof.
    intros I HD H H'. unfold cact. cbn [with_down n_cl]. pose proof (ni_cl _ _ I c) as C. destruct (n_cl y c) as [[k l]|] eqn:EC.
    - destruct C as (C1 & conn & os & C2). destruct (cstep (conc c) k o) as [k' es] eqn:E. assert (ES : es = snd (cstep (conc c) k o)) by (rewrite E; reflexivity).
      apply (ni_client soft y c k' l (k', l ++ es) es d I C1); auto.
      + exists conn, (os ++ [o]). rewrite crun_snoc, C2. unfold cnext. cbn [fst snd]. rewrite E. reflexivity.
      + intros i ms X. rewrite ES in X. apply step_got in X. destruct X as (bad & ->). apply H.
      + intros gid q. destruct (match o with CFetched _ _ => true | _ => false end) eqn:EO.
        * destruct o; try discriminate. destruct H as (_ & H). specialize (H gid q). pose proof (fetched_got q k c ms bad) as F. rewrite ES. destruct (beqb (grp c) gid); lia.
        * rewrite (none_got q es); [destruct (beqb _ _); apply H'|]. intros i ms X. rewrite ES in X. apply step_got in X. destruct X as (bad & ->). discriminate.
    - destruct I as [N1 N2 N3 N4 N5 N6 N7 N8]. constructor; cbn [with_down n_log n_s n_cl n_up n_down]; auto; [intros; eauto|]. intros gid q. specialize (H' gid q). specialize (N8 gid q). lia.
  Qed.
  Lemma with_down_same y : with_down (n_down y) y = y. Proof. destruct y; reflexivity. Qed.
  Lemma ni_less soft y u d : NI soft y -> (forall c i q, In (c, NAck i q) u -> In (c, NAck i q) (n_up y)) -> (d = n_down y \/ exists j, d = drop j (n_down y)) -> NI soft (with_down d (with_up u y)).
  Proof.
    intros [N1 N2 N3 N4 N5 N6 N7 N8] HU HD. assert (ID : incl d (n_down y)) by (destruct HD as [->|(j & ->)]; [apply incl_refl|intros x; apply drop_in]).
    constructor; cbn [with_down with_up n_log n_s n_cl n_up n_down]; auto.
    - intros; eauto.
    - intros gid q. specialize (N8 gid q). destruct HD as [->|(j & ->)]; auto. pose proof (tally_drop (w_down gid q) j (n_down y)). lia.
  Qed.
  Lemma ni_plain soft y c n : NI soft y -> NI soft (reply c n (AMsgs []) y).
  Proof.
    intros [N1 N2 N3 N4 N5 N6 N7 N8]. constructor; cbn [reply with_down n_log n_s n_cl n_up n_down]; auto.
    - intros a ms H E. apply in_app_or in H. destruct H as [H|[<-|[]]]; [eauto|]. cbn in E. inversion E. intros z [].
    - intros gid q. specialize (N8 gid q). rewrite tally_app. cbn. destruct (beqb _ _); cbn; lia.
  Qed.
  Lemma nstep_ni soft y o : NI soft y -> env_ok y o -> NI soft (nstep y o).
  Proof.
    intros I E. destruct o; cbn [SdkStreamNetModel.nstep].
    - (* subscribe *) destruct (n_cl y c) as [x|] eqn:EC; auto. rewrite <- (with_down_same y). pose proof (ni_cl _ _ I c) as C. rewrite EC in C.
      apply (ni_client soft y c cli0 [] (cli0, clog0 conn) (clog0 conn) (n_down y)); auto.
      + exists conn, []. reflexivity.
      + intros i ms [H|[H|[]]]; discriminate.
      + apply incl_refl.
      + intros gid q. cbn. destruct (beqb _ _); lia.
    - (* subscription *)
      assert (X : forall o, match o with CFetched _ _ => False | _ => True end -> NI soft (cact conc c o y)).
      { intros o0 HO. rewrite <- (with_down_same y). apply ni_cact; auto; [apply incl_refl|]. destruct o0; try contradiction; auto. }
      destruct o; auto; apply X; exact Logic.I.
    - (* serve *)
      destruct (nth_error (n_up y) i) as [[c r]|] eqn:EN; auto. pose proof (nth_error_In _ _ EN) as IN.
      destruct r as [n|n id|n id|id|id q]; auto.
      + set (o := SJoin (grp c) cid conn). assert (RJ : exists f gen, snd (sstep (n_s y) o) = RJoin f gen) by (unfold o; cbn [StreamSysModel.sstep]; unfold op_join; destruct (clamp_head _ _); cbn; eauto).
        destruct RJ as (f & gen & RJ). rewrite RJ. unfold server, reply, with_down, with_up. cbn [n_cl n_s n_up n_down n_log].
        apply ni_server; auto; try exact Logic.I; try (apply SHORT).
        * intros c' i' q H. eapply drop_in; eauto.
        * intros ? ? ? ? ? _ H. discriminate.
        * intros c' ms _ H. rewrite RJ in H. discriminate.
        * right. exists c, n, (AJoined (cid, gen)). repeat split; auto. discriminate.
      + set (o := STry (grp c) (fst id) (snd id) (lim c) now tok).
        assert (GEN : forall u d, (forall c' i' q, In (c', NAck i' q) u -> In (c', NAck i' q) (n_up y)) ->
          (d = n_down y \/ exists v, d = n_down y ++ [mkA c n v] /\ forall ms, v = AMsgs ms -> ms = [] \/ snd (sstep (n_s y) o) = RMsgs ms) ->
          NI soft (mkN (n_cl y) (fst (sstep (n_s y) o)) u d (n_log y ++ [OServer (Some c) o (snd (sstep (n_s y) o))]))).
        { intros u d HU HD. apply ni_server; auto; try exact Logic.I; try (apply SHORT).
          - intros ? ? ? ? ? _ H. discriminate.
          - intros c' ms H _. inversion H; subst. cbn. apply beqb_refl.
          - destruct HD as [HD|(v & HD & HV)]; auto. right. exists c, n, v. auto. }
        assert (RD : forall ms, s_said (snd (sstep (n_s y) o)) = RMsgs ms -> ms = [] \/ snd (sstep (n_s y) o) = RMsgs ms).
        { intros ms H. destruct (snd (sstep (n_s y) o)) as [| | |e| | |]; cbn in H; try discriminate; auto. destruct e as [|e]; try discriminate. destruct e; try discriminate. inversion H. auto. }
        assert (DR : forall c' i' q, In (c', NAck i' q) (drop i (n_up y)) -> In (c', NAck i' q) (n_up y)) by (intros; eapply drop_in; eauto).
        destruct (s_said (snd (sstep (n_s y) o))) eqn:SR; unfold server, reply, with_down, with_up; cbn [n_cl n_s n_up n_down n_log]; apply GEN; auto.
        * right. eexists. split; [reflexivity|]. discriminate.
        * right. eexists. split; [reflexivity|]. intros ms0 H. inversion H; subst. auto.
        * intros c' i' q H. apply swap_in in H. destruct H as [H|H]; [discriminate|auto].
      + unfold server, reply, with_down, with_up. cbn [n_cl n_s n_up n_down n_log]. apply ni_server; auto; try exact Logic.I; try (apply SHORT).
        * intros c' i' q H. eapply drop_in; eauto.
        * intros ? ? ? ? ? _ H. discriminate.
        * intros c' ms _ H. exfalso. cbn [StreamSysModel.sstep] in H. unfold op_leave in H. destruct (gget _ _); [|discriminate H]. destruct (negb _); [discriminate H|]. destruct (remove_member _ _ _ _) as [g' [x|]]; discriminate H.
        * right. exists c, O, ADone. repeat split; auto. discriminate.
      + unfold server, with_up. cbn [n_cl n_s n_up n_down n_log]. apply ni_server; auto; try exact Logic.I; try (apply SHORT).
        * intros c' i' q' H. eapply drop_in; eauto.
        * intros c' gid x gen q' H1 H2. inversion H1; subst. inversion H2; subst. split; auto. exists id. auto.
        * intros c' ms _ H. exfalso. cbn [StreamSysModel.sstep] in H. unfold op_ack in H. destruct (gget _ _); [|discriminate H]. cbv zeta in H. destruct (ack _ _ _ _) as [g' [x|]]; discriminate H.
    - (* expire *) destruct (nth_error (n_up y) i) as [[c r]|]; auto. destruct r; auto. apply ni_plain. rewrite <- (with_down_same (with_up _ y)). apply (ni_less soft y (drop i (n_up y)) (n_down y)); auto. intros; eapply drop_in; eauto.
    - (* cold *)
      destruct (nth_error (n_up y) i) as [[c r]|] eqn:EN; auto. destruct r as [n|n id|n id|id|id q]; auto. destruct (nth_error (s_colds (n_s y)) j) as [k|] eqn:EK; auto.
      destruct (beqb (StreamSysModel.k_gid k) (grp c) && _ && _) eqn:EB; auto. apply andb_prop in EB. destruct EB as (EB & _). apply andb_prop in EB. destruct EB as (EB & _). apply beqb_eq in EB.
      set (o := SColdDone j now).
      assert (GEN : forall u d, (forall c' i' q, In (c', NAck i' q) u -> In (c', NAck i' q) (n_up y)) ->
          (d = n_down y \/ exists v, d = n_down y ++ [mkA c n v] /\ forall ms, v = AMsgs ms -> ms = [] \/ snd (sstep (n_s y) o) = RMsgs ms) ->
          NI soft (mkN (n_cl y) (fst (sstep (n_s y) o)) u d (n_log y ++ [OServer (Some c) o (snd (sstep (n_s y) o))]))).
      { intros u d HU HD. apply ni_server; auto; try exact Logic.I.
        - intros ? ? ? ? ? _ H. discriminate.
        - intros c' ms H _. inversion H; subst. cbn. rewrite EK, EB. apply beqb_refl.
        - destruct HD as [HD|(v & HD & HV)]; auto. right. exists c, n, v. auto. }
      assert (DR : forall c' i' q, In (c', NAck i' q) (drop i (n_up y)) -> In (c', NAck i' q) (n_up y)) by (intros; eapply drop_in; eauto).
      destruct (snd (sstep (n_s y) o)) eqn:SR; unfold server, reply, with_down, with_up; cbn [n_cl n_s n_up n_down n_log]; rewrite SR; apply GEN; auto.
      + right. eexists. split; [reflexivity|]. discriminate.
      + right. eexists. split; [reflexivity|]. intros ms0 H. inversion H; subst. auto.
    - (* lose *) rewrite <- (with_down_same (with_up _ y)). apply (ni_less soft y (drop i (n_up y)) (n_down y)); auto. intros; eapply drop_in; eauto.
    - replace (with_down (drop j (n_down y)) y) with (with_down (drop j (n_down y)) (with_up (n_up y) y)) by (destruct y; reflexivity). apply ni_less; eauto.
    - (* take *)
      destruct (nth_error (n_down y) j) as [a|] eqn:EN; auto. pose proof (nth_error_In _ _ EN) as IN.
      assert (DI : incl (drop j (n_down y)) (n_down y)) by (intros x; apply drop_in).
      assert (DT : forall gid q, (tally (w_down gid q) (drop j (n_down y)) <= tally (w_down gid q) (n_down y))%nat) by (intros; apply tally_drop).
      assert (JN : NI soft (with_down (drop j (n_down y)) y)).
      { replace (with_down (drop j (n_down y)) y) with (with_down (drop j (n_down y)) (with_up (n_up y) y)) by (destruct y; reflexivity). apply ni_less; eauto. }
      assert (CA : forall c o, match o with CFetched _ _ => False | _ => True end -> NI soft (cact conc c o (with_down (drop j (n_down y)) y))).
      { intros c o HO. apply ni_cact; auto. destruct o; try contradiction; auto. }
      destruct (n_cl y (a_c a)) as [[k l]|] eqn:EC; auto. destruct (a_v a) as [id|ms|r|] eqn:EV; try (apply CA; exact Logic.I); destruct (_ && _); auto; try (apply CA; exact Logic.I).
      apply ni_cact; auto. split; [eapply (ni_down _ _ I); eauto|]. intros gid q. pose proof (tally_drop1 (w_down gid q) j (n_down y) a EN) as T. unfold w_down in T at 1. rewrite EV in T. lia.
    - (* others *) destruct E as (E1 & E2 & E3). unfold server. apply ni_server; auto; intros; discriminate.
    - (* restart *) destruct E as (E1 & E2 & E3). destruct I as [N1 N2 N3 N4 N5 N6 N7 N8].
      assert (PB : published (n_log y ++ [OBoot soft0 vis]) = published (n_log y)) by (rewrite published_app; cbn; rewrite app_nil_r; auto).
      constructor; cbn [n_log n_s n_cl n_up n_down]; rewrite ?PB.
      + apply sl_boot; auto.
      + intro c. rewrite clog_app. cbn. rewrite app_nil_r. apply N2.
      + intros c i ms H. apply in_app_or in H. destruct H as [H|[H|[]]]; [eauto|discriminate].
      + auto.
      + intros c i q H. destruct (N5 c i q H) as (m & X & Y). exists m. split; auto. apply in_or_app; auto.
      + intros c gid x gen q r H. apply in_app_or in H. destruct H as [H|[H|[]]]; [|discriminate]. destruct (N6 _ _ _ _ _ _ H) as (X & i & m & Y & Z). split; auto. exists i, m. split; auto. apply in_or_app; auto.
      + intros gid q. rewrite tally_app, given_snoc. cbn [tally fold_right w_served]. specialize (N7 gid q). cbn. lia.
      + intros gid q. rewrite !tally_app. specialize (N8 gid q). cbn [tally fold_right w_served w_cl]. lia.
  Qed.
  Theorem run_ni soft os : envs_ok crc cfg smax grp conc lim (net0 soft) os -> NI soft (nrun soft os).
  Proof.
    unfold SdkStreamNetModel.nrun. generalize (ni0 soft). generalize (net0 soft). induction os as [|o os IH]; intros y I E; cbn in *; auto. destruct E as (E1 & E2). apply IH; auto. apply nstep_ni; auto.
  Qed.
End Net.
