(** Proofs for the stream pages of the dashboard. *)
From Verif Require Import LibBase LibMap StreamTopicModel StreamGroupModel StreamStoreModel StreamStoreCodec StreamStoreProofs StreamStoreFacts StreamGroupSpec StreamGroupProofs StreamGroupFetch StreamGroupHist StreamGroupFacts StreamTopicProofs StreamSysModel StreamSysProofs StreamSysHist StreamSysFacts StreamSysBoot StreamSysLife StreamDashModel.

Lemma takeN_rev_drop : forall A (l : list A) n, takeN n (rev l) = rev (dropN (lenN l - n) l).
Proof.
  intros A l n. unfold takeN, dropN, lenN. rewrite firstn_rev. f_equal. f_equal. lia.
Qed.

(** ** Memory keeps the newest messages *)
Definition recent (t : topic) : Prop := t_ram t <= t_head t \/ t_soft t <= lenN (t_log t).

Lemma ram_len : forall A t, init_ok 1 A t -> t_log t <> [] -> t_ram t + lenN (t_log t) = t_next t.
Proof.
  intros A t (K & _) NE. destruct K as [K1 K2 (k & E & F) K4 K5]. destruct (F NE) as [F1 F2]. rewrite E, lenN_dropN, F1, K2. lia.
Qed.
Lemma recent_append : forall A t ts pay, init_ok 1 A t -> recent t -> recent (fst (append ts pay t)).
Proof.
  intros A t ts pay I R. unfold append, recent. cbn [fst t_ram t_head t_soft t_log]. rewrite lenN_app, lenN_cons, lenN_nil. destruct R as [R|R]; [|right; lia].
  destruct (t_log t) eqn:E; [|left; auto]. left. destruct I as (K & H1 & H2). pose proof (k_ram _ _ _ K E). lia.
Qed.
Lemma evict_kept : forall p head soft log ram, evict_loop p head soft log ram = (log, ram) \/ soft <= lenN (fst (evict_loop p head soft log ram)).
Proof.
  induction log as [|m log IH]; intro ram; cbn [evict_loop]; auto. destruct (N.ltb_spec soft (lenN (m :: log))) as [L|L]; auto.
  destruct (m_seq m <=? p); auto. right. rewrite lenN_cons in L. destruct (IH (N.max (m_seq m + 1) head)) as [->|H]; auto. cbn [fst]. lia.
Qed.
Lemma recent_evict : forall t p, recent t -> recent (evict p t).
Proof.
  intros t p R. unfold evict, recent in *. destruct (evict_kept p (t_head t) (t_soft t) (t_log t) (t_ram t)) as [E|H].
  - rewrite E. exact R.
  - destruct (evict_loop p (t_head t) (t_soft t) (t_log t) (t_ram t)) as [log ram]. right. exact H.
Qed.
Lemma recent_head : forall A t h, init_ok 1 A t -> t_head t <= h -> recent t -> recent (apply_head h t).
Proof.
  intros A t h I HH R. unfold recent in *. unfold apply_head. cbn [t_ram t_head t_soft t_log].
  destruct (drop_below_spec (N.max h 1) (t_log t)) as (pre & E & F & G). pose proof (topic_log_ok _ _ _ (proj1 I)) as LO.
  revert E G. generalize (drop_below (N.max h 1) (t_log t)) as D. intros D E G.
  destruct (t_log t) as [|m0 log] eqn:EL.
  - symmetry in E. apply app_eq_nil in E. destruct E as [_ ->]. destruct R as [R|R]; [|right; auto]. left. pose proof (k_ram _ _ _ (proj1 I) EL). lia.
  - pose proof (ram_len _ _ I) as RL. rewrite EL in RL. specialize (RL ltac:(discriminate)). pose proof (log_ok_cons _ _ _ LO) as [M0 _].
    destruct pre as [|p0 pre].
    + cbn [app] in E. subst D. destruct R as [R|R]; [|right; auto]. left. lia.
    + left. cbn [app] in E. injection E as <- E. destruct D as [|m post].
      * rewrite app_nil_r in E. subst log. destruct (exists_last (l := m0 :: pre)) as (l & x & EX); [discriminate|]. rewrite EX in *.
        apply Forall_app in F. destruct F as [_ F]. inversion F; subst. assert (X : nth_error (l ++ [x]) (length l) = Some x) by (rewrite nth_error_app2, Nat.sub_diag by lia; reflexivity). apply LO in X.
        rewrite lenN_app, lenN_cons, lenN_nil in RL. unfold lenN in RL. lia.
      * assert (X : nth_error (m0 :: log) (length (m0 :: pre)) = Some m) by (rewrite E; cbn [length nth_error]; rewrite nth_error_app2, Nat.sub_diag by lia; reflexivity). apply LO in X.
        destruct (exists_last (l := m0 :: pre)) as (l & x & EX); [discriminate|]. rewrite EX in *. apply Forall_app in F. destruct F as [_ F]. inversion F as [|x0 l0 F1 F2].
        assert (Y : nth_error (m0 :: log) (length l) = Some x).
        { change (m0 :: log) with ([m0] ++ log). rewrite E. change ([m0] ++ pre ++ m :: post) with ((m0 :: pre) ++ m :: post). rewrite EX, <- app_assoc, nth_error_app2, Nat.sub_diag by lia. reflexivity. }
        apply LO in Y. rewrite app_length in X. cbn [length] in X. lia.
Qed.

Section Sys.
  Variable crc : bytes -> N.
  Hypothesis crc32 : forall b, crc b < 2 ^ 32.
  Variable cfg : gcfg.
  Variable smax : N.
  Notation sstep := (sstep crc cfg smax).
  Notation run := (run crc cfg smax).

  Lemma soft_step s o : t_soft (s_top (fst (sstep s o))) = t_soft (s_top s).
  Proof.
    destruct (top_step crc cfg smax s o) as [->|[(ts & pay & _ & ->)|[(_ & ->)|(h & _ & _ & ->)]]]; auto. apply evict_fields.
  Qed.
  Lemma recent_run : forall ops A s, life crc cfg smax A s -> runs_ok crc cfg smax s ops -> recent (s_top s) -> recent (s_top (run s ops)) /\ t_soft (s_top (run s ops)) = t_soft (s_top s).
  Proof.
    induction ops as [|o ops IH]; intros A s L RO R; [auto|]. destruct RO as (R1 & R2 & R3). pose proof (life_step crc cfg smax A s o L R1 R2) as L1.
    pose proof (life_ok crc crc32 _ _ _ _ L) as (W & dh & bl & H). pose proof (i_topic _ _ _ _ _ _ _ H) as I.
    cbn [StreamSysHist.run]. rewrite <- (soft_step s o). apply (IH _ _ L1 R3).
    destruct (top_step crc cfg smax s o) as [->|[(ts & pay & _ & ->)|[(_ & ->)|(h & _ & ER & ->)]]]; auto.
    - eapply recent_append; eauto.
    - apply recent_evict; auto.
    - eapply recent_head; eauto. apply (i_ret _ _ _ _ _ _ _ H); auto.
  Qed.

  (** ** Pages *)
  Lemma last_eq A s : life crc cfg smax A s -> su_last (topic_summary s) = lenN A.
  Proof. intro L. pose proof (next_of crc _ _ _ (life_ok crc crc32 _ _ _ _ L)). unfold topic_summary. cbn [su_last]. lia. Qed.

  Lemma newest_gen A s l : life crc cfg smax A s -> takeN l (from (N.max (page_from (lenN A) l None) (t_head (s_top s))) A) = rev (takeN l (rev (from (t_head (s_top s)) A))).
  Proof.
    intro L. pose proof (life_ok crc crc32 _ _ _ _ L) as (W & dh & bl & H). pose proof (k_all _ _ _ (proj1 (i_topic _ _ _ _ _ _ _ H))) as LO.
    destruct (i_pos _ _ _ _ _ _ _ H) as (P & _). pose proof (proj2 (proj2 (i_topic _ _ _ _ _ _ _ H))) as HN. rewrite (k_next _ _ _ (proj1 (i_topic _ _ _ _ _ _ _ H))) in HN.
    rewrite !(from_drop A 1) by (auto; lia). rewrite takeN_rev_drop, rev_involutive, lenN_dropN, dropN_dropN. unfold page_from.
    destruct (N.eq_dec l 0) as [->|NZ].
    - rewrite takeN_0. symmetry. apply lenN_0_nil. rewrite lenN_dropN. lia.
    - replace (N.max (N.max (lenN A - (l - 1)) 1) (t_head (s_top s)) - 1) with (lenN A - (t_head (s_top s) - 1) - l + (t_head (s_top s) - 1)) by lia.
      apply takeN_all. rewrite lenN_dropN. lia.
  Qed.
End Sys.
