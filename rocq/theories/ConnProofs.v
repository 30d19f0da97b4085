(** Every request gets its own response, exactly once, in every interleaving. *)
From Verif Require Import LibBase WireModel WireProofs ConnModel.

Section Conn.
  Variables Eng Loc X : Type.
  Variable start : inframe -> Loc.
  Variable hstep : Eng -> Loc -> Eng * hres Loc.
  Variable xstep : Eng -> X -> Eng.
  Variables bye1 bye2 : Eng -> Eng.
  Variables maxp cap : N.
  Notation conn := (conn Eng Loc).
  Notation task := (task Loc).
  Notation cstep := (cstep Eng Loc X start hstep xstep bye1 bye2 maxp cap).
  Notation crun := (crun Eng Loc X start hstep xstep bye1 bye2 maxp cap).
  Notation result_of := (result_of Eng Loc start hstep).
  Notation panics := (panics Eng Loc start hstep).
  Notation reaches := (reaches Eng Loc hstep).
  Notation requests := (requests Eng Loc).
  Arguments c_eng {Eng Loc}. Arguments c_rd {Eng Loc}. Arguments c_num {Eng Loc}. Arguments c_hold {Eng Loc}. Arguments c_in {Eng Loc}.
  Arguments c_run {Eng Loc}. Arguments c_out {Eng Loc}. Arguments c_push {Eng Loc}. Arguments c_bridge {Eng Loc}. Arguments c_sent {Eng Loc}.
  Arguments c_lost {Eng Loc}. Arguments c_drop {Eng Loc}. Arguments c_phase {Eng Loc}.
  Arguments k_n {Loc}. Arguments k_f {Loc}. Arguments k_at {Loc}. Arguments k_poll {Loc}.

  Definition cnt (n : nat) (l : list nat) : nat := count_occ Nat.eq_dec l n.
  Arguments cnt : simpl never.
  Lemma cnt_app n a b : cnt n (a ++ b) = (cnt n a + cnt n b)%nat.
  Proof. apply count_occ_app. Qed.
  Lemma cnt_cons n a b : cnt n (a :: b) = (cnt n [a] + cnt n b)%nat.
  Proof. change (a :: b) with ([a] ++ b). apply cnt_app. Qed.
  Lemma nums_app {A} (a b : list (option nat * A)) : nums (a ++ b) = nums a ++ nums b.
  Proof. apply flat_map_app. Qed.
  Definition holdn (h : option (nat * inframe)) : list nat := match h with Some x => [fst x] | None => [] end.

  Definition stage_ok (t : task) : Prop :=
    match k_at t with
    | Fresh _ => True
    | Inside _ l => in_type (k_f t) = TYPE_REQUEST /\ reaches (start (k_f t)) l
    | Reply _ r => result_of (k_f t) r
    end.
  Definition out_ok (fs : list inframe) (x : option nat * outframe) : Prop :=
    match fst x with
    | Some n => exists f r, nth_error fs n = Some f /\ snd x = OResponse (in_id f) r /\ result_of f r
    | None => is_response (snd x) = false
    end.
  Record CI (s : conn) : Prop := {
    ci_cnt : forall n, (cnt n (holdn (c_hold s)) + cnt n (map fst (c_in s)) + cnt n (map k_n (c_run s)) + cnt n (nums (c_out s))
                        + cnt n (nums (c_sent s)) + cnt n (c_lost s) + cnt n (c_drop s) = cnt n (seq 0 (c_num s)))%nat;
    ci_num : (c_num s <= length (requests s))%nat;
    ci_hold : forall n f, c_hold s = Some (n, f) -> nth_error (requests s) n = Some f;
    ci_in : forall n f, List.In (n, f) (c_in s) -> nth_error (requests s) n = Some f;
    ci_run : forall t, List.In t (c_run s) -> nth_error (requests s) (k_n t) = Some (k_f t) /\ stage_ok t;
    ci_out : Forall (out_ok (requests s)) (c_out s ++ c_sent s);
    ci_lost : forall n, List.In n (c_lost s) -> exists f, nth_error (requests s) n = Some f /\ panics f;
    ci_drop : c_phase s = Open -> c_drop s = []
  }.
  Lemma CI_0 e : CI (conn0 Eng Loc e).
  Proof. constructor; simpl; try constructor; intros; try contradiction; try discriminate; auto. Qed.

  Lemma feed_grows r chunk : exists fs, r_frames (feed (decode maxp) r chunk) = r_frames r ++ fs.
  Proof.
    unfold feed. destruct (r_err r); [exists []; rewrite app_nil_r; auto|]. destruct (drain _ _ _) as [[[fs e] b]|]; simpl; eauto.
    exists []. rewrite app_nil_r; auto.
  Qed.
  Lemma nth_grows (l fs : list inframe) n f : nth_error l n = Some f -> nth_error (l ++ fs) n = Some f.
  Proof. intro H. rewrite nth_error_app1; auto. apply nth_error_Some. congruence. Qed.
  Lemma out_grows l fs x : out_ok l x -> out_ok (l ++ fs) x.
  Proof. unfold out_ok. destruct (fst x); auto. intros (f & r & A & B). exists f, r. split; auto. apply nth_grows; auto. Qed.

  Lemma split_nth {A} : forall (l : list A) i t, nth_error l i = Some t -> l = firstn i l ++ t :: skipn (S i) l.
  Proof. induction l as [|a l IH]; intros [|i] t H; try discriminate; simpl in *; [inversion H; auto|]. f_equal. auto. Qed.
  Lemma run_swap (s : conn) i t t' : nth_error (c_run s) i = Some t -> k_n t' = k_n t -> forall n,
    cnt n (map k_n (swap Loc i t' (c_run s))) = cnt n (map k_n (c_run s)).
  Proof.
    intros H E n. rewrite (split_nth _ _ _ H) at 2. unfold swap. rewrite !map_app. simpl map. rewrite E, !cnt_app. reflexivity.
  Qed.
  Lemma run_del (s : conn) i t : nth_error (c_run s) i = Some t -> forall n,
    (cnt n (map k_n (c_run s)) = cnt n (map k_n (del Loc i (c_run s))) + cnt n [k_n t])%nat.
  Proof.
    intros H n. rewrite (split_nth _ _ _ H) at 1. unfold del. rewrite !map_app. simpl map. rewrite !cnt_app, (cnt_cons n (k_n t)). lia.
  Qed.
  Lemma in_swap l i t' t : List.In t (swap Loc i t' l) -> t = t' \/ List.In t l.
  Proof.
    unfold swap. intro H. apply in_app_or in H. destruct H as [H|[H|H]]; auto; right.
    - rewrite <- (firstn_skipn i l). apply in_or_app; auto.
    - rewrite <- (firstn_skipn (S i) l). apply in_or_app; auto.
  Qed.
  Lemma in_del l i t : List.In t (del Loc i l) -> List.In t l.
  Proof.
    unfold del. intro H. apply in_app_or in H. destruct H as [H|H].
    - rewrite <- (firstn_skipn i l). apply in_or_app; auto.
    - rewrite <- (firstn_skipn (S i) l). apply in_or_app; auto.
  Qed.
  Lemma poll_split n (l : list task) : cnt n (map k_n l) = (cnt n (map k_n (filter k_poll l)) + cnt n (map k_n (filter (fun t => negb (k_poll t)) l)))%nat.
  Proof.
    induction l as [|t l IH]; simpl; auto. destruct (k_poll t); simpl map; rewrite (cnt_cons n (k_n t) (map k_n l)), IH.
    - rewrite (cnt_cons n (k_n t) (map k_n (filter k_poll l))). lia.
    - rewrite (cnt_cons n (k_n t) (map k_n (filter (fun t => negb (k_poll t)) l))). lia.
  Qed.

  Ltac cc := repeat (rewrite ?cnt_app, ?nums_app, ?map_app); simpl holdn; simpl map; simpl nums; change (cnt _ []) with 0%nat in *.
  Lemma CI_abort s : CI s -> c_phase s <> Open -> CI (abort Eng Loc s).
  Proof.
    intros [C1 C2 C3 C4 C5 C6 C7 C8] NO. unfold abort. constructor; simpl; auto; try contradiction.
    - intro n. specialize (C1 n). rewrite (poll_split n (c_run s)) in C1. cc. lia.
    - intros t H. apply filter_In in H. apply C5; tauto.
  Qed.
  Lemma CI_phase s p : CI s -> (p = Open -> c_phase s = Open) -> CI (set_phase Eng Loc p s).
  Proof. intros [C1 C2 C3 C4 C5 C6 C7 C8] H. constructor; simpl; auto. Qed.
  Lemma CI_eng s e : CI s -> CI (set_eng Eng Loc e s).
  Proof. intros [C1 C2 C3 C4 C5 C6 C7 C8]. constructor; simpl; auto. Qed.
  Lemma CI_end s ok : CI s -> CI (sock_end Eng Loc ok s).
  Proof.
    intros [C1 C2 C3 C4 C5 C6 C7 C8]. unfold sock_end. constructor; simpl; auto; try discriminate.
    - intro n. specialize (C1 n). fold (holdn (c_hold s)). cc. lia.
    - apply Forall_app in C6. apply C6.
  Qed.
  Lemma CI_swap (s : conn) i t t' : CI s -> nth_error (c_run s) i = Some t -> k_n t' = k_n t -> k_f t' = k_f t -> (stage_ok t -> stage_ok t') ->
    CI (set_run Eng Loc (swap Loc i t' (c_run s)) s).
  Proof.
    intros [C1 C2 C3 C4 C5 C6 C7 C8] H E1 E2 E3. destruct (C5 t (nth_error_In _ _ H)) as (A & B). constructor; simpl; auto.
    - intro n. rewrite (run_swap s i t t' H E1). apply C1.
    - intros x Hx. apply in_swap in Hx. destruct Hx as [->|Hx]; auto. rewrite E1, E2. auto.
  Qed.
  Lemma CI_task (s : conn) i t : CI s -> nth_error (c_run s) i = Some t -> CI (task_step Eng Loc start hstep cap i t s).
  Proof.
    intros C H. pose proof C as [C1 C2 C3 C4 C5 C6 C7 C8]. destruct (C5 t (nth_error_In _ _ H)) as (A & B). unfold task_step. unfold stage_ok in B.
    destruct (k_at t) as [|l|r] eqn:E.
    - eapply CI_swap; eauto. intros _. unfold stage_ok. simpl. destruct (in_type (k_f t) =? TYPE_REQUEST) eqn:ET.
      + apply N.eqb_eq in ET. split; auto. constructor.
      + unfold ConnModel.result_of. rewrite ET. reflexivity.
    - destruct B as (B1 & B2). destruct (hstep (c_eng s) l) as [e [l'|a|]] eqn:EH.
      + apply (CI_swap (set_eng Eng Loc e s) i t); auto. { apply CI_eng; auto. }
        intros _. unfold stage_ok. simpl. split; auto. econstructor; eauto.
      + apply (CI_swap (set_eng Eng Loc e s) i t); auto. { apply CI_eng; auto. }
        intros _. unfold stage_ok. simpl. unfold ConnModel.result_of. rewrite B1. simpl. eauto.
      + constructor; simpl; auto.
        * intro n. specialize (C1 n). rewrite (run_del s i t H) in C1. cc. lia.
        * intros x Hx. apply in_del in Hx. auto.
        * intros n Hn. apply in_app_or in Hn. destruct Hn as [Hn|[<-|[]]]; auto. exists (k_f t). split; auto. split; eauto.
    - destruct (is_open Eng Loc s) eqn:EO.
      + destruct (_ <? cap); auto. constructor; simpl; auto.
        * intro n. specialize (C1 n). rewrite (run_del s i t H) in C1. cc. lia.
        * intros x Hx. apply in_del in Hx. auto.
        * apply Forall_app in C6. destruct C6 as (D1 & D2). apply Forall_app. split; auto. apply Forall_app. split; auto.
          constructor; [|constructor]. exists (k_f t), r. auto.
      + constructor; simpl; auto.
        * intro n. specialize (C1 n). rewrite (run_del s i t H) in C1. cc. lia.
        * intros x Hx. apply in_del in Hx. auto.
        * intro P. unfold is_open in EO. rewrite P in EO. discriminate.
  Qed.
  Theorem CI_step s x : CI s -> CI (cstep s x).
  Proof.
    intro C. pose proof C as [C1 C2 C3 C4 C5 C6 C7 C8]. destruct x; cbn [ConnModel.cstep]; auto.
    - destruct (is_open _ _ s); auto. destruct (feed_grows (c_rd s) chunk) as (fs & E). unfold ConnModel.requests in *. constructor; simpl; unfold ConnModel.requests; simpl; rewrite ?E; auto.
      + rewrite app_length. lia.
      + intros. apply nth_grows; auto.
      + intros. apply nth_grows; auto.
      + intros t Ht. destruct (C5 t Ht). split; auto. apply nth_grows; auto.
      + eapply Forall_impl; [|exact C6]. intros. apply out_grows; auto.
      + intros n Hn. destruct (C7 n Hn) as (f & A & B). exists f. split; auto. apply nth_grows; auto.
    - destruct (is_open _ _ s); auto. destruct (c_hold s) eqn:EH; auto. destruct (nth_error _ _) as [f|] eqn:EN; auto. constructor; simpl; auto.
      + intro n. specialize (C1 n). simpl in C1. change (0%nat :: seq 1 (c_num s)) with (seq 0 (S (c_num s))). rewrite seq_S, cnt_app. change (cnt n []) with 0%nat in C1. simpl plus in *. lia.
      + apply nth_error_Some. unfold ConnModel.requests. simpl. congruence.
      + intros n f' E. inversion E; subst. exact EN.
    - destruct (c_hold s) as [[n0 f0]|] eqn:EH; auto. destruct (_ <? cap); auto. constructor; simpl; auto.
      + intro n. specialize (C1 n). simpl in C1. cc. simpl in *. lia.
      + discriminate.
      + intros n f Hf. apply in_app_or in Hf. destruct Hf as [Hf|[Hf|[]]]; auto. inversion Hf; subst. apply C3; auto.
    - destruct (_ && _); auto. apply CI_end; auto.
    - destruct (_ && _); auto. apply CI_end; auto.
    - destruct (_ && _); auto. apply CI_end; auto.
    - destruct (c_hold s) eqn:EH; auto. destruct (c_out s) as [|o r] eqn:EO; auto. destruct (is_open _ _ s); auto. constructor; simpl; auto.
      + intro n. specialize (C1 n). rewrite EH. simpl in C1 |- *. cc. change (flat_map _ r) with (nums r) in *.
        change (flat_map (fun x : option nat * outframe => match fst x with Some n0 => [n0] | None => [] end) [o]) with (nums [o]).
        assert (Y : nums (o :: r) = nums [o] ++ nums r) by (change (o :: r) with ([o] ++ r); apply nums_app).
        change (match fst o with Some n0 => [n0] | None => [] end ++ nums r) with (nums (o :: r)) in C1. rewrite Y, cnt_app in C1.
        change (match fst o with Some n0 => [n0] | None => [] end ++ []) with (nums [o]). lia.
      + rewrite EH. discriminate.
      + inversion C6; subst. apply Forall_app in H2. destruct H2 as (D1 & D2). apply Forall_app. split; auto. apply Forall_app. auto.
    - destruct (c_in s) as [|[n0 f0] r] eqn:EI; auto. destruct (looping _ _ s); auto. constructor; simpl; auto.
      + intro n. specialize (C1 n). simpl in C1. rewrite (cnt_cons n n0) in C1. cc. simpl. lia.
      + intros n f Hf. apply C4. right; auto.
      + intros t Ht. apply in_app_or in Ht. destruct Ht as [Ht|[<-|[]]]; auto. simpl. split; [apply C4; left; auto|exact Logic.I].
    - destruct (nth_error (c_run s) i) as [t|] eqn:E; auto. destruct (looping _ _ s); auto. eapply CI_swap; eauto.
    - destruct (nth_error (c_run s) i) as [t|] eqn:E; auto. destruct (k_poll t); auto. apply CI_task; auto.
    - destruct (nth_error (c_run s) i) as [t|] eqn:E; auto. destruct (looping _ _ s) eqn:EL; [eapply CI_swap; eauto|]. constructor; simpl; auto.
      + intro n. specialize (C1 n). rewrite (run_del s i t E) in C1. cc. lia.
      + intros x Hx. apply in_del in Hx. auto.
      + intro P. unfold looping in EL. rewrite P in EL. discriminate.
    - constructor; simpl; auto.
    - destruct (c_bridge s); auto. destruct (c_push s); auto. constructor; simpl; auto.
    - destruct (c_bridge s); auto. destruct (_ && _); auto. constructor; simpl; auto.
      + intro n. specialize (C1 n). cc. simpl. change (cnt n []) with 0%nat. lia.
      + apply Forall_app in C6. destruct C6 as (D1 & D2). apply Forall_app. split; auto. apply Forall_app. split; auto. constructor; [reflexivity|constructor].
    - apply CI_eng; auto.
    - destruct (c_phase s) as [|[|]| | |] eqn:EP; auto.
      + apply CI_phase; [|discriminate]. apply CI_abort; auto. congruence.
      + apply CI_phase; [|discriminate]. apply CI_abort; auto. congruence.
    - destruct (c_phase s) eqn:EP; auto. apply CI_phase; [|discriminate]. apply CI_eng; auto.
    - destruct (c_phase s) eqn:EP; auto. apply CI_phase; [|discriminate]. apply CI_eng; auto.
  Qed.
  Theorem CI_run : forall xs s, CI s -> CI (crun s xs).
  Proof. induction xs as [|x xs IH]; intros s C; simpl; auto. apply IH. apply CI_step; auto. Qed.
End Conn.
