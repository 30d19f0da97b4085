(** Facts about the topic tree. *)
From Verif Require Import LibBase LibMap PubSubModel PubSubSpec.

Lemma NoDup_app_intro : forall A (a b : list A), NoDup a -> NoDup b -> (forall x, In x a -> ~ In x b) -> NoDup (a ++ b).
Proof.
  induction a as [|x a IH]; intros b Ha Hb H; auto. inv Ha. cbn. constructor.
  - rewrite in_app_iff. intros [H1|H1]; [auto|]. apply (H x); [left; auto|auto].
  - apply IH; auto. intros y Hy. apply H. right; auto.
Qed.

(** nested induction *)
Section NodeInd.
  Variable P : node -> Prop.
  Hypothesis HP : forall ch p h s r, (forall k n, In (k, n) ch -> P n) -> (forall n, p = Some n -> P n) -> (forall n, h = Some n -> P n) -> P (Node ch p h s r).
  Fixpoint node_ind' (n : node) : P n.
  Proof.
    destruct n as [ch p h s r]. apply HP.
    - induction ch as [|[k m] ch IH]; intros k' n' H; [destruct H|]. destruct H as [H|H].
      + pose proof (node_ind' m) as Hm. injection H as _ <-. exact Hm.
      + exact (IH k' n' H).
    - destruct p as [m|]; intros n H; [|discriminate]. pose proof (node_ind' m) as Hm. injection H as <-. exact Hm.
    - destruct h as [m|]; intros n H; [|discriminate]. pose proof (node_ind' m) as Hm. injection H as <-. exact Hm.
  Qed.
End NodeInd.

(** subscribers stored for a pattern, retained message stored for a topic *)
Fixpoint subs_at (p : list level) (n : node) : list N :=
  match p with
  | [] => n_subs n
  | x :: tl =>
    if beqb x lhash then match n_hash n with Some h => n_subs h | None => [] end
    else if beqb x lplus then match n_plus n with Some m => subs_at tl m | None => [] end
    else match aget beqb x (n_ch n) with Some m => subs_at tl m | None => [] end
  end.
Fixpoint ret_at (t : list level) (n : node) : option retained :=
  match t with
  | [] => n_ret n
  | x :: tl => match aget beqb x (n_ch n) with Some m => ret_at tl m | None => None end
  end.

Lemma subs_at_node0 : forall p, subs_at p node0 = [].
Proof. destruct p as [|x p]; simpl; auto. destruct (beqb x lhash); auto. destruct (beqb x lplus); auto. Qed.
Lemma ret_at_node0 : forall t, ret_at t node0 = None.
Proof. destruct t; auto. Qed.
Lemma subs_at_opt : forall p (o : option node), match o with Some m => subs_at p m | None => [] end = subs_at p (or_new o).
Proof. intros p [m|]; cbn; auto. rewrite subs_at_node0. auto. Qed.
Lemma ret_at_opt : forall p (o : option node), match o with Some m => ret_at p m | None => None end = ret_at p (or_new o).
Proof. intros p [m|]; cbn; auto. rewrite ret_at_node0. auto. Qed.

Lemma n_empty_eq : forall n, n_empty n = true -> n = node0.
Proof.
  intros [ch p h s r] H. unfold n_empty in H. cbn in H. destruct s, ch, p, h, r; cbn in H; try discriminate. reflexivity.
Qed.

Definition hlit (x : level) : Prop := beqb x lhash = false /\ beqb x lplus = false.
Lemma level_cases : forall x, x = lhash \/ x = lplus \/ hlit x.
Proof.
  intro x. unfold hlit. destruct (beqb x lhash) eqn:E; [left; apply beqb_eq; auto|]. destruct (beqb x lplus) eqn:E2; [right; left; apply beqb_eq; auto|]. auto.
Qed.

Lemma insert_hash : forall tl c n, insert_sub (lhash :: tl) c n =
  Node (n_ch n) (n_plus n) (Some (Node (n_ch (or_new (n_hash n))) (n_plus (or_new (n_hash n))) (n_hash (or_new (n_hash n))) (nins c (n_subs (or_new (n_hash n)))) (n_ret (or_new (n_hash n))))) (n_subs n) (n_ret n).
Proof. intros tl c [ch p h s r]. cbn. destruct h as [[a b d e f]|]; reflexivity. Qed.
Lemma insert_plus : forall tl c n, insert_sub (lplus :: tl) c n = Node (n_ch n) (Some (insert_sub tl c (or_new (n_plus n)))) (n_hash n) (n_subs n) (n_ret n).
Proof. intros tl c [ch p h s r]. reflexivity. Qed.
Lemma insert_lit : forall x tl c n, hlit x -> insert_sub (x :: tl) c n =
  Node (aset beqb x (insert_sub tl c (or_new (aget beqb x (n_ch n)))) (n_ch n)) (n_plus n) (n_hash n) (n_subs n) (n_ret n).
Proof. intros x tl c [ch p h s r] [H1 H2]. cbn. rewrite H1, H2. reflexivity. Qed.
Lemma insert_nil : forall c n, insert_sub [] c n = Node (n_ch n) (n_plus n) (n_hash n) (nins c (n_subs n)) (n_ret n).
Proof. intros c [ch p h s r]. reflexivity. Qed.

Lemma trunc_hash : forall tl, trunc (lhash :: tl) = [lhash].
Proof. reflexivity. Qed.
Lemma trunc_plus : forall tl, trunc (lplus :: tl) = lplus :: trunc tl.
Proof. reflexivity. Qed.
Lemma trunc_lit : forall x tl, hlit x -> trunc (x :: tl) = x :: trunc tl.
Proof. intros x tl [H _]. cbn. rewrite H. auto. Qed.
Lemma hlit_hash : ~ hlit lhash.
Proof. intros [H _]. discriminate. Qed.
Lemma hlit_plus : ~ hlit lplus.
Proof. intros [_ H]. discriminate. Qed.

Lemma subs_at_lit : forall x tl n, hlit x -> subs_at (x :: tl) n = subs_at tl (or_new (aget beqb x (n_ch n))).
Proof. intros x tl n [H1 H2]. cbn. rewrite H1, H2. apply subs_at_opt. Qed.
Lemma subs_at_plus : forall tl n, subs_at (lplus :: tl) n = subs_at tl (or_new (n_plus n)).
Proof. intros tl n. cbn. apply subs_at_opt. Qed.
Lemma subs_at_hash : forall tl n, subs_at (lhash :: tl) n = n_subs (or_new (n_hash n)).
Proof. intros tl n. cbn. destruct (n_hash n); auto. Qed.

Ltac lv x := destruct (level_cases x) as [?Hx|[?Hx|?Hx]]; [subst x|subst x|].
Lemma hlit_neq : forall x y, hlit x -> ~ hlit y -> x <> y.
Proof. intros x y H1 H2 ->. auto. Qed.

(** subscribing adds the client at that pattern and nowhere else *)
Lemma subs_at_insert : forall p c n q d, In d (subs_at q (insert_sub p c n)) <-> In d (subs_at q n) \/ (d = c /\ trunc p = trunc q).
Proof.
  induction p as [|x p IH]; intros c n q d.
  - rewrite insert_nil. destruct q as [|y q].
    + cbn. rewrite nins_In. intuition.
    + lv y; rewrite ?subs_at_hash, ?subs_at_plus, ?subs_at_lit by auto; cbn [n_hash n_plus n_ch]; rewrite ?trunc_hash, ?trunc_plus, ?trunc_lit by auto; cbn; intuition discriminate.
  - lv x.
    + rewrite insert_hash, trunc_hash. destruct q as [|y q]; [cbn; intuition discriminate|].
      lv y; rewrite ?subs_at_hash, ?subs_at_plus, ?subs_at_lit by auto; cbn [n_hash n_plus n_ch]; rewrite ?trunc_hash, ?trunc_plus, ?trunc_lit by auto.
      * cbn [or_new n_subs]. rewrite nins_In. intuition.
      * intuition discriminate.
      * split; [auto|]. intros [H|[_ H]]; auto. injection H as H _. subst y. destruct (hlit_hash Hx).
    + rewrite insert_plus, trunc_plus. destruct q as [|y q]; [cbn; intuition discriminate|].
      lv y; rewrite ?subs_at_hash, ?subs_at_plus, ?subs_at_lit by auto; cbn [n_hash n_plus n_ch]; rewrite ?trunc_hash, ?trunc_plus, ?trunc_lit by auto.
      * intuition discriminate.
      * cbn [or_new]. rewrite IH. split; intros [H|[H1 H2]]; auto; right; split; auto; [f_equal; auto|injection H2; auto].
      * split; [auto|]. intros [H|[_ H]]; auto. injection H as H _. subst y. destruct (hlit_plus Hx).
    + rewrite insert_lit, trunc_lit by auto. destruct q as [|y q]; [cbn; intuition discriminate|].
      lv y; rewrite ?subs_at_hash, ?subs_at_plus, ?subs_at_lit by auto; cbn [n_hash n_plus n_ch]; rewrite ?trunc_hash, ?trunc_plus, ?trunc_lit by auto.
      * split; [auto|]. intros [H|[_ H]]; auto. injection H as H _. subst x. destruct (hlit_hash Hx).
      * split; [auto|]. intros [H|[_ H]]; auto. injection H as H _. subst x. destruct (hlit_plus Hx).
      * destruct (beqb x y) eqn:E.
        -- apply beqb_eq in E. subst y. rewrite (aget_aset_same beqb beqb_eq). cbn [or_new]. rewrite IH.
           split; intros [H|[H1 H2]]; auto; right; split; auto; [f_equal; auto|injection H2; auto].
        -- apply beqb_neq in E. rewrite (aget_aset_other beqb beqb_eq) by congruence. split; [auto|]. intros [H|[_ H]]; auto. injection H as H _. congruence.
Qed.

Lemma ret_at_insert : forall p c n t, ret_at t (insert_sub p c n) = ret_at t n.
Proof.
  induction p as [|x p IH]; intros c n t.
  - rewrite insert_nil. destruct t; auto.
  - lv x; rewrite ?insert_hash, ?insert_plus, ?insert_lit by auto; destruct t as [|y t]; auto.
    cbn [ret_at n_ch]. rewrite !ret_at_opt. destruct (beqb x y) eqn:E.
    + apply beqb_eq in E; subst y. rewrite (aget_aset_same beqb beqb_eq). cbn [or_new]. apply IH.
    + apply beqb_neq in E. rewrite (aget_aset_other beqb beqb_eq) by congruence. auto.
Qed.

(** removal; [prune n]: what the parent keeps *)
Definition rem (p : list level) (c : N) (n : node) : node := fst (remove_sub p c n).
Definition prune (n : node) : option node := if n_empty n then None else Some n.
Lemma prune_or : forall n, or_new (prune n) = n.
Proof. intro n. unfold prune. destruct (n_empty n) eqn:E; auto. apply n_empty_eq in E. subst; auto. Qed.
Lemma remove_snd : forall p c n, remove_sub p c n = (rem p c n, n_empty (rem p c n)).
Proof. intros p c n. unfold rem. destruct p, n; reflexivity. Qed.
Lemma rem_nil : forall c n, rem [] c n = Node (n_ch n) (n_plus n) (n_hash n) (nrem c (n_subs n)) (n_ret n).
Proof. intros c [ch p h s r]. reflexivity. Qed.
Lemma rem_hash : forall tl c n, rem (lhash :: tl) c n =
  Node (n_ch n) (n_plus n) (match n_hash n with None => None | Some h => prune (Node (n_ch h) (n_plus h) (n_hash h) (nrem c (n_subs h)) (n_ret h)) end) (n_subs n) (n_ret n).
Proof. intros tl c [ch p h s r]. destruct h as [[a b d e f]|]; reflexivity. Qed.
Lemma rem_plus : forall tl c n, rem (lplus :: tl) c n =
  Node (n_ch n) (match n_plus n with None => None | Some m => prune (rem tl c m) end) (n_hash n) (n_subs n) (n_ret n).
Proof.
  intros tl c [ch p h s r]. unfold rem at 1. cbn [remove_sub n_ch n_plus n_hash n_subs n_ret]. change (beqb lplus lhash) with false. change (beqb lplus lplus) with true. cbv iota.
  destruct p as [m|]; [|reflexivity]. rewrite remove_snd. reflexivity.
Qed.
Lemma rem_lit : forall x tl c n, hlit x -> rem (x :: tl) c n =
  Node (match aget beqb x (n_ch n) with None => n_ch n | Some m => match prune (rem tl c m) with None => adel beqb x (n_ch n) | Some m' => aset beqb x m' (n_ch n) end end)
    (n_plus n) (n_hash n) (n_subs n) (n_ret n).
Proof.
  intros x tl c [ch p h s r] [H1 H2]. unfold rem at 1. cbn [remove_sub n_ch n_plus n_hash n_subs n_ret]. rewrite H1, H2.
  destruct (aget beqb x ch) as [m|]; [|reflexivity]. rewrite remove_snd. unfold prune. destruct (n_empty (rem tl c m)); reflexivity.
Qed.

Lemma rem_node0 : forall p c, rem p c node0 = node0.
Proof. intros [|x p] c; [reflexivity|]. lv x; rewrite ?rem_hash, ?rem_plus, ?rem_lit by auto; reflexivity. Qed.

Definition child (x : level) (n : node) : node := or_new (aget beqb x (n_ch n)).
Lemma child_rem_same : forall x tl c n, hlit x -> child x (rem (x :: tl) c n) = rem tl c (child x n).
Proof.
  intros x tl c n H. rewrite rem_lit by auto. unfold child at 1. cbn [n_ch]. unfold child. destruct (aget beqb x (n_ch n)) as [m|] eqn:E.
  - cbn [or_new]. pose proof (prune_or (rem tl c m)) as P. destruct (prune (rem tl c m)) as [m'|].
    + rewrite (aget_aset_same beqb beqb_eq). exact P.
    + rewrite (aget_adel_same beqb). exact P.
  - rewrite E. cbn. rewrite rem_node0. auto.
Qed.
Lemma child_rem_other : forall x y tl c n, hlit x -> x <> y -> child y (rem (x :: tl) c n) = child y n.
Proof.
  intros x y tl c n H E. rewrite rem_lit by auto. unfold child at 1. cbn [n_ch]. unfold child. destruct (aget beqb x (n_ch n)) as [m|]; auto.
  destruct (prune (rem tl c m)).
  - rewrite (aget_aset_other beqb beqb_eq); auto.
  - rewrite (aget_adel_other beqb beqb_eq); auto.
Qed.

(** unsubscribing removes the client at that pattern and nowhere else; pruning loses nothing *)
Lemma subs_at_rem : forall p c n q d, In d (subs_at q (rem p c n)) <-> In d (subs_at q n) /\ ~ (d = c /\ trunc p = trunc q).
Proof.
  induction p as [|x p IH]; intros c n q d.
  - rewrite rem_nil. destruct q as [|y q].
    + cbn. rewrite nrem_In. intuition.
    + lv y; rewrite ?subs_at_hash, ?subs_at_plus, ?subs_at_lit by auto; cbn [n_hash n_plus n_ch]; rewrite ?trunc_hash, ?trunc_plus, ?trunc_lit by auto; cbn [trunc]; intuition discriminate.
  - lv x.
    + rewrite rem_hash, trunc_hash. destruct q as [|y q]; [cbn; intuition discriminate|].
      lv y; rewrite ?subs_at_hash, ?subs_at_plus, ?subs_at_lit by auto; cbn [n_hash n_plus n_ch]; rewrite ?trunc_hash, ?trunc_plus, ?trunc_lit by auto.
      * destruct (n_hash n) as [h|]; cbn [or_new]; [|cbn; intuition]. rewrite prune_or. cbn [n_subs]. rewrite nrem_In. intuition.
      * intuition discriminate.
      * split; [intro H; split; auto; intros [_ H2]; injection H2 as H2 _; subst y; apply (hlit_hash Hx)|intuition].
    + rewrite rem_plus, trunc_plus. destruct q as [|y q]; [cbn; intuition discriminate|].
      lv y; rewrite ?subs_at_hash, ?subs_at_plus, ?subs_at_lit by auto; cbn [n_hash n_plus n_ch]; rewrite ?trunc_hash, ?trunc_plus, ?trunc_lit by auto.
      * intuition discriminate.
      * assert (E : or_new (match n_plus n with Some m => prune (rem p c m) | None => None end) = rem p c (or_new (n_plus n)))
          by (destruct (n_plus n); cbn [or_new]; [apply prune_or|rewrite rem_node0; auto]).
        rewrite E, IH. split; intros [H1 H2]; split; auto; intros [H3 H4]; apply H2; split; auto; [injection H4; auto|f_equal; auto].
      * split; [intro H; split; auto; intros [_ H2]; injection H2 as H2 _; subst y; apply (hlit_plus Hx)|intuition].
    + destruct q as [|y q]; [rewrite rem_lit by auto; cbn [subs_at n_subs]; rewrite trunc_lit by auto; cbn [trunc]; intuition discriminate|].
      rewrite trunc_lit by auto.
      lv y; rewrite ?trunc_hash, ?trunc_plus, ?trunc_lit by auto.
      * rewrite rem_lit by auto. rewrite !subs_at_hash. cbn [n_hash].
        split; [intro H; split; auto; intros [_ H2]; injection H2 as H2 _; subst x; apply (hlit_hash Hx)|intuition].
      * rewrite rem_lit by auto. rewrite !subs_at_plus. cbn [n_plus].
        split; [intro H; split; auto; intros [_ H2]; injection H2 as H2 _; subst x; apply (hlit_plus Hx)|intuition].
      * rewrite !subs_at_lit by auto. fold (child y (rem (x :: p) c n)). fold (child y n). destruct (beqb x y) eqn:E.
        -- apply beqb_eq in E; subst y. rewrite child_rem_same by auto. rewrite IH.
           split; intros [H1 H2]; split; auto; intros [H3 H4]; apply H2; split; auto; [injection H4; auto|f_equal; auto].
        -- apply beqb_neq in E. rewrite child_rem_other by auto. split; [intro H; split; auto; intros [_ H2]; injection H2; congruence|intuition].
Qed.

Lemma ret_at_child : forall x t n, ret_at (x :: t) n = ret_at t (child x n).
Proof. intros. cbn [ret_at]. apply ret_at_opt. Qed.
Lemma ret_at_rem : forall p c n t, ret_at t (rem p c n) = ret_at t n.
Proof.
  induction p as [|x p IH]; intros c n t.
  - rewrite rem_nil. destruct t; auto.
  - lv x; [rewrite rem_hash|rewrite rem_plus|]; try (destruct t; reflexivity).
    destruct t as [|y t]; [rewrite rem_lit by auto; reflexivity|]. rewrite !ret_at_child. destruct (beqb x y) eqn:E.
    + apply beqb_eq in E; subst y. rewrite child_rem_same by auto. apply IH.
    + apply beqb_neq in E. rewrite child_rem_other by auto. auto.
Qed.

Fixpoint leqb (a b : list level) : bool :=
  match a, b with [], [] => true | x :: a', y :: b' => beqb x y && leqb a' b' | _, _ => false end.
Lemma leqb_eq : forall a b, leqb a b = true <-> a = b.
Proof.
  induction a as [|x a IH]; intros [|y b]; cbn; split; intro H; try discriminate; auto.
  - apply andb_prop in H. destruct H as [H1 H2]. apply beqb_eq in H1. apply IH in H2. congruence.
  - injection H as -> ->. rewrite beqb_refl. apply IH. auto.
Qed.

Lemma set_ret_eq : forall x tl v n, set_ret (x :: tl) v n = Node (aset beqb x (set_ret tl v (child x n)) (n_ch n)) (n_plus n) (n_hash n) (n_subs n) (n_ret n).
Proof. intros x tl v [ch p h s r]. reflexivity. Qed.
Lemma ret_at_set : forall p v n t, ret_at t (set_ret p v n) = if leqb p t then v else ret_at t n.
Proof.
  induction p as [|x p IH]; intros v n t.
  - destruct n. destruct t; reflexivity.
  - rewrite set_ret_eq. destruct t as [|y t]; [reflexivity|]. rewrite !ret_at_child. cbn [leqb]. unfold child at 1. cbn [n_ch].
    destruct (beqb x y) eqn:E.
    + apply beqb_eq in E; subst y. rewrite (aget_aset_same beqb beqb_eq). cbn [or_new]. rewrite IH. auto.
    + apply beqb_neq in E. rewrite (aget_aset_other beqb beqb_eq) by congruence. reflexivity.
Qed.
Lemma subs_at_set : forall p v n q, subs_at q (set_ret p v n) = subs_at q n.
Proof.
  induction p as [|x p IH]; intros v n q.
  - destruct n, q; reflexivity.
  - rewrite set_ret_eq. destruct q as [|y q]; [reflexivity|]. lv y; rewrite ?subs_at_hash, ?subs_at_plus; auto.
    rewrite !subs_at_lit by auto. cbn [n_ch]. destruct (beqb x y) eqn:E.
    + apply beqb_eq in E; subst y. rewrite (aget_aset_same beqb beqb_eq). cbn [or_new]. rewrite IH. auto.
    + apply beqb_neq in E. rewrite (aget_aset_other beqb beqb_eq) by congruence. reflexivity.
Qed.

Definition still (now : N) (r : option retained) : option retained :=
  match r with Some v => if is_expired now v then None else r | None => None end.
Lemma cleanup_eq : forall now n, cleanup now n = Node (map (fun kv => (fst kv, cleanup now (snd kv))) (n_ch n)) (option_map (cleanup now) (n_plus n)) (option_map (cleanup now) (n_hash n)) (n_subs n) (still now (n_ret n)).
Proof. intros now [ch p h s r]. reflexivity. Qed.
Lemma aget_map : forall (f : node -> node) x ch, aget beqb x (map (fun kv => (fst kv, f (snd kv))) ch) = option_map f (aget beqb x ch).
Proof. induction ch as [|[k m] ch IH]; cbn; auto. destruct (beqb k x || beqb x k); destruct (beqb x k); cbn; auto. Qed.
Lemma ret_at_cleanup : forall now t n, ret_at t (cleanup now n) = still now (ret_at t n).
Proof.
  intros now. induction t as [|x t IH]; intro n; rewrite cleanup_eq; [reflexivity|]. cbn [ret_at n_ch]. rewrite aget_map. destruct (aget beqb x (n_ch n)); cbn; auto.
Qed.
Lemma subs_at_cleanup : forall now q n, subs_at q (cleanup now n) = subs_at q n.
Proof.
  intros now. induction q as [|x q IH]; intro n; rewrite cleanup_eq; [reflexivity|]. cbn [subs_at n_ch n_hash n_plus].
  rewrite aget_map. destruct (beqb x lhash); [|destruct (beqb x lplus)].
  - destruct (n_hash n) as [h|]; cbn; auto. rewrite cleanup_eq. auto.
  - destruct (n_plus n); cbn; auto.
  - destruct (aget beqb x (n_ch n)); cbn; auto.
Qed.

(** routing *)
Lemma match_eq : forall t n, match_subs t n = n_subs (or_new (n_hash n)) ++
  match t with [] => n_subs n | x :: tl => match_subs tl (child x n) ++ match_subs tl (or_new (n_plus n)) end.
Proof.
  intros t [ch p h s r].
  assert (E0 : forall u, match_subs u node0 = []) by (destruct u; reflexivity).
  destruct t as [|x t]; cbn [match_subs n_hash n_subs n_plus]; f_equal; try (destruct h; reflexivity).
  unfold child. cbn [n_ch]. destruct (aget beqb x ch), p; cbn [or_new]; rewrite ?E0; auto.
Qed.
Lemma match_node0 : forall t, match_subs t node0 = [].
Proof. destruct t; reflexivity. Qed.

(** children have distinct names; below a literal child called "+" or "#" (made by a
    retained publish) there is no subscriber *)
Inductive wf : node -> Prop :=
| wf_node : forall ch p h s r, NoDup (akeys ch) -> (forall k m, In (k, m) ch -> wf m) ->
    (forall k m, In (k, m) ch -> ~ hlit k -> forall t, match_subs t m = []) -> (forall m, p = Some m -> wf m) -> wf (Node ch p h s r).
Lemma wf_inv : forall n, wf n -> NoDup (akeys (n_ch n)) /\ (forall k m, In (k, m) (n_ch n) -> wf m) /\
  (forall k m, In (k, m) (n_ch n) -> ~ hlit k -> forall t, match_subs t m = []) /\ (forall m, n_plus n = Some m -> wf m).
Proof. intros n H. destruct H. cbn. auto. Qed.
Lemma wf_intro : forall n, NoDup (akeys (n_ch n)) -> (forall k m, In (k, m) (n_ch n) -> wf m) ->
  (forall k m, In (k, m) (n_ch n) -> ~ hlit k -> forall t, match_subs t m = []) -> (forall m, n_plus n = Some m -> wf m) -> wf n.
Proof. intros [ch p h s r]. cbn. constructor; auto. Qed.
Lemma wf_node0 : wf node0.
Proof. constructor; cbn; try tauto; [constructor|discriminate]. Qed.
Lemma wf_child : forall x n, wf n -> wf (child x n).
Proof.
  intros x n H. apply wf_inv in H. unfold child. destruct (aget beqb x (n_ch n)) as [m|] eqn:E; [|apply wf_node0].
  apply (aget_In beqb beqb_eq) in E. apply H in E. auto.
Qed.
Lemma wf_plus : forall n, wf n -> wf (or_new (n_plus n)).
Proof. intros n H. apply wf_inv in H. destruct H as [_ [_ [_ H]]]. destruct (n_plus n); [apply H; auto|apply wf_node0]. Qed.
Lemma nosub_child : forall x n, wf n -> ~ hlit x -> forall t, match_subs t (child x n) = [].
Proof.
  intros x n H Hx t. apply wf_inv in H. unfold child. destruct (aget beqb x (n_ch n)) as [m|] eqn:E; [|apply match_node0].
  apply (aget_In beqb beqb_eq) in E. destruct H as [_ [_ [H _]]]. eapply H; eauto.
Qed.

(** a published topic reaches exactly the subscribers of the matching patterns *)
Lemma match_in : forall t n c, wf n -> In c (match_subs t n) <-> exists p, In c (subs_at p n) /\ mqtt (trunc p) t.
Proof.
  induction t as [|x t IH]; intros n c W; rewrite match_eq.
  - rewrite in_app_iff. split.
    + intros [H|H]; [exists [lhash]; rewrite subs_at_hash; split; auto; constructor|exists []; split; auto; constructor].
    + intros [p [H1 H2]]. destruct p as [|y p]; [right; auto|]. lv y.
      * rewrite subs_at_hash in H1. auto.
      * inversion H2.
      * rewrite trunc_lit in H2 by auto. inversion H2; subst; try (destruct (hlit_hash Hx)).
  - rewrite !in_app_iff. pose proof (wf_child x n W) as Wc. pose proof (wf_plus n W) as Wp. split.
    + intros [H|[H|H]].
      * exists [lhash]; rewrite subs_at_hash; split; auto; constructor.
      * destruct (level_cases x) as [E|[E|Hx]].
        -- rewrite nosub_child in H by (auto; subst; apply hlit_hash); destruct H.
        -- rewrite nosub_child in H by (auto; subst; apply hlit_plus); destruct H.
        -- apply IH in H; auto. destruct H as [p [H1 H2]]. exists (x :: p). rewrite subs_at_lit, trunc_lit by auto. split; auto.
           constructor; auto; intros ->; [apply (hlit_plus Hx)|apply (hlit_hash Hx)].
      * apply IH in H; auto. destruct H as [p [H1 H2]]. exists (lplus :: p). rewrite subs_at_plus, trunc_plus. split; auto. constructor; auto.
    + intros [p [H1 H2]]. destruct p as [|y p]; [inversion H2|]. lv y.
      * rewrite subs_at_hash in H1. auto.
      * rewrite subs_at_plus in H1. rewrite trunc_plus in H2. right; right. apply IH; auto. exists p. split; auto. inversion H2; subst; auto.
      * rewrite subs_at_lit in H1 by auto. rewrite trunc_lit in H2 by auto. inversion H2; subst.
        -- destruct (hlit_hash Hx).
        -- destruct (hlit_plus Hx).
        -- right; left. apply IH; auto. exists p. split; auto.
Qed.

(** well-formedness is kept *)
Lemma wf_aset : forall x m n, wf n -> wf m -> (~ hlit x -> forall t, match_subs t m = []) ->
  wf (Node (aset beqb x m (n_ch n)) (n_plus n) (n_hash n) (n_subs n) (n_ret n)).
Proof.
  intros x m n Hn Hm Hx. apply wf_inv in Hn. destruct Hn as [N1 [N2 [N3 N4]]].
  assert (Hin : forall k v, In (k, v) (aset beqb x m (n_ch n)) -> (k = x /\ v = m) \/ In (k, v) (n_ch n)).
  { intros k v H. apply (In_aget beqb beqb_eq) in H; [|apply (NoDup_aset beqb beqb_eq); auto]. destruct (beqb k x) eqn:E.
    - apply beqb_eq in E; subst. rewrite (aget_aset_same beqb beqb_eq) in H. injection H as <-. auto.
    - apply beqb_neq in E. rewrite (aget_aset_other beqb beqb_eq) in H by auto. right. apply (aget_In beqb beqb_eq); auto. }
  constructor; auto.
  - apply (NoDup_aset beqb beqb_eq); auto.
  - intros k v H. destruct (Hin _ _ H) as [[-> ->]|H']; eauto.
  - intros k v H Hk t. destruct (Hin _ _ H) as [[-> ->]|H']; eauto.
Qed.
Lemma wf_insert : forall p c n, wf n -> wf (insert_sub p c n).
Proof.
  induction p as [|x p IH]; intros c n W.
  - rewrite insert_nil. apply wf_inv in W. destruct W as [N1 [N2 [N3 N4]]]. constructor; auto.
  - lv x.
    + rewrite insert_hash. apply wf_inv in W. destruct W as [N1 [N2 [N3 N4]]]. constructor; auto.
    + rewrite insert_plus. pose proof (IH c _ (wf_plus n W)). apply wf_inv in W. destruct W as [N1 [N2 [N3 N4]]]. constructor; auto. intros m E. injection E as <-. auto.
    + rewrite insert_lit by auto. apply wf_aset; auto; [|tauto]. apply IH. apply (wf_child x n W).
Qed.
Lemma wf_rem : forall p c n, wf n -> wf (rem p c n).
Proof.
  induction p as [|x p IH]; intros c n W.
  - rewrite rem_nil. apply wf_inv in W. destruct W as [N1 [N2 [N3 N4]]]. constructor; auto.
  - lv x.
    + rewrite rem_hash. apply wf_inv in W. destruct W as [N1 [N2 [N3 N4]]]. constructor; auto.
    + rewrite rem_plus. apply wf_inv in W. destruct W as [N1 [N2 [N3 N4]]]. constructor; auto. intros m E.
      destruct (n_plus n) as [m0|]; [|discriminate]. unfold prune in E. destruct (n_empty (rem p c m0)); [discriminate|]. injection E as <-. apply IH. auto.
    + rewrite rem_lit by auto. pose proof W as W0. apply wf_inv in W. destruct W as [N1 [N2 [N3 N4]]]. destruct (aget beqb x (n_ch n)) as [m|] eqn:E; [|constructor; auto].
      unfold prune. destruct (n_empty (rem p c m)).
      * constructor; auto; [apply (NoDup_adel beqb beqb_eq); auto| |].
        -- intros k v H. apply (adel_In beqb beqb_eq) in H. destruct H. eauto.
        -- intros k v H. apply (adel_In beqb beqb_eq) in H. destruct H. eauto.
      * apply wf_aset; auto; [|tauto]. apply IH. apply (aget_In beqb beqb_eq) in E. eauto.
Qed.
Lemma match_set : forall p v n t, match_subs t (set_ret p v n) = match_subs t n.
Proof.
  induction p as [|x p IH]; intros v n t.
  - destruct n, t; reflexivity.
  - rewrite set_ret_eq. rewrite !match_eq. cbn [n_hash n_subs n_plus]. f_equal. destruct t as [|y t]; auto. f_equal. unfold child. cbn [n_ch].
    destruct (beqb x y) eqn:E.
    + apply beqb_eq in E; subst y. rewrite (aget_aset_same beqb beqb_eq). cbn [or_new]. rewrite IH. auto.
    + apply beqb_neq in E. rewrite (aget_aset_other beqb beqb_eq) by congruence. reflexivity.
Qed.
Lemma wf_set : forall p v n, wf n -> wf (set_ret p v n).
Proof.
  induction p as [|x p IH]; intros v n W.
  - destruct n. inv W. cbn. constructor; auto.
  - rewrite set_ret_eq. apply wf_aset; auto.
    + apply IH. apply wf_child. auto.
    + intros Hx t. rewrite match_set. apply nosub_child; auto.
Qed.
Lemma match_cleanup : forall now t n, match_subs t (cleanup now n) = match_subs t n.
Proof.
  intros now. induction t as [|x t IH]; intro n; rewrite cleanup_eq; (etransitivity; [apply match_eq|]; symmetry; etransitivity; [apply match_eq|]; symmetry); cbn [n_hash n_subs n_plus].
  - destruct (n_hash n) as [h|]; cbn [option_map or_new]; [rewrite cleanup_eq|]; reflexivity.
  - f_equal; [destruct (n_hash n) as [h|]; cbn [option_map or_new]; [rewrite cleanup_eq|]; reflexivity|]. unfold child. cbn [n_ch]. rewrite aget_map. f_equal.
    + destruct (aget beqb x (n_ch n)); cbn [option_map or_new]; [apply IH|reflexivity].
    + destruct (n_plus n); cbn [option_map or_new]; [apply IH|reflexivity].
Qed.
Lemma akeys_map : forall (f : node -> node) (ch : list (level * node)), akeys (map (fun kv => (fst kv, f (snd kv))) ch) = akeys ch.
Proof. intros. unfold akeys. rewrite map_map. apply map_ext. auto. Qed.
Lemma wf_cleanup : forall now n, wf n -> wf (cleanup now n).
Proof.
  intros now n. induction n as [ch p h s r IHc IHp _] using node_ind'. intro W. inv W. rewrite cleanup_eq. cbn [n_ch n_plus n_hash n_subs n_ret].
  constructor; auto.
  - rewrite akeys_map. auto.
  - intros k m H. apply in_map_iff in H. destruct H as [[k' m'] [E H]]. injection E as <- <-. cbn. eauto.
  - intros k m H Hk t. apply in_map_iff in H. destruct H as [[k' m'] [E H]]. injection E as <- <-. cbn in *. rewrite match_cleanup. eauto.
  - intros m E. destruct p as [m0|]; [|discriminate]. injection E as <-. auto.
Qed.

(** retained messages found, with the list of levels *)
Fixpoint rets (now : N) (n : node) {struct n} : list (list level * retained) :=
  let (ch, _, _, _, r) := n in
  live_here now r (fun v => ([], v)) ++ flat_map (fun kv => map (fun x => (fst kv :: fst x, snd x)) (rets now (snd kv))) ch.
Fixpoint pick (now : N) (pat : list level) (n : node) : list (list level * retained) :=
  match pat with
  | [] => live_here now (n_ret n) (fun v => ([], v))
  | x :: tl =>
    if beqb x lplus then flat_map (fun kv => map (fun y => (fst kv :: fst y, snd y)) (pick now tl (snd kv))) (n_ch n)
    else if beqb x lhash then rets now n
    else map (fun y => (x :: fst y, snd y)) (pick now tl (child x n))
  end.
Definition named (path : bytes) (x : list level * retained) : bytes * retained := (fold_left join1 (fst x) path, snd x).

Lemma flat_map_ext_in : forall A B (f g : A -> list B) l, (forall x, In x l -> f x = g x) -> flat_map f l = flat_map g l.
Proof. induction l as [|x l IH]; intros H; cbn; auto. rewrite H by (left; auto). rewrite IH; auto. intros; apply H; right; auto. Qed.
Lemma map_flat_map : forall A B C (f : B -> C) (g : A -> list B) l, map f (flat_map g l) = flat_map (fun x => map f (g x)) l.
Proof. induction l; cbn; auto. rewrite map_app. f_equal. auto. Qed.
Lemma collect_all_eq : forall now n path, collect_all now path n = map (named path) (rets now n).
Proof.
  intros now n. induction n as [ch p h s r IHc _ _] using node_ind'. intro path. cbn [collect_all rets]. rewrite map_app. f_equal.
  - destruct r as [v|]; cbn; auto. destruct (is_expired now v); auto.
  - rewrite map_flat_map. apply flat_map_ext_in. intros [k m] H. cbn [fst snd]. rewrite (IHc k m H). rewrite map_map. apply map_ext. intros [ls v]. reflexivity.
Qed.
Lemma pick_node0 : forall now q, pick now q node0 = [].
Proof.
  induction q as [|y q IH]; auto. cbn [pick]. destruct (beqb y lplus); auto. destruct (beqb y lhash); auto. change (child y node0) with node0. rewrite IH. auto.
Qed.
Lemma collect_pat_eq : forall now pat n path, collect_pat now pat path n = map (named path) (pick now pat n).
Proof.
  intros now. induction pat as [|x pat IH]; intros n path.
  - destruct n as [ch p h s r]. cbn. destruct r as [v|]; cbn; auto. destruct (is_expired now v); auto.
  - destruct n as [ch p h s r]. cbn [collect_pat pick n_ch]. destruct (beqb x lplus); [|destruct (beqb x lhash)].
    + rewrite map_flat_map. apply flat_map_ext_in. intros [k m] H. cbn [fst snd]. rewrite IH, map_map. apply map_ext. intros [ls v]. reflexivity.
    + apply collect_all_eq.
    + unfold child. cbn [n_ch]. destruct (aget beqb x ch) as [m|]; cbn [or_new].
      * rewrite IH, map_map. apply map_ext. intros [ls v]. reflexivity.
      * rewrite pick_node0. reflexivity.
Qed.

Definition alive (now : N) (t : list level) (n : node) (v : retained) : Prop := ret_at t n = Some v /\ is_expired now v = false.
Lemma live_here_in : forall A now r (f : retained -> A) x, In x (live_here now r f) <-> exists v, r = Some v /\ is_expired now v = false /\ x = f v.
Proof.
  intros A now r f x. unfold live_here. destruct r as [v|]; [|split; [intros []|intros [v [H _]]; discriminate]]. destruct (is_expired now v) eqn:E.
  - split; [intros []|]. intros [v' [H [H2 _]]]. congruence.
  - split; [intros [<-|[]]; eauto|]. intros [v' [H [_ ->]]]. injection H as <-. left; auto.
Qed.
Lemma ret_in_child : forall n k m t, wf n -> In (k, m) (n_ch n) -> ret_at (k :: t) n = ret_at t m.
Proof. intros n k m t W H. apply wf_inv in W. destruct W as [N1 _]. cbn. rewrite (In_aget beqb beqb_eq _ _ _ N1 H). auto. Qed.
Lemma ret_cons_child : forall n k t v, ret_at (k :: t) n = Some v -> exists m, In (k, m) (n_ch n) /\ ret_at t m = Some v.
Proof. intros n k t v H. cbn in H. destruct (aget beqb k (n_ch n)) as [m|] eqn:E; [|discriminate]. apply (aget_In beqb beqb_eq) in E. eauto. Qed.

Lemma rets_in : forall now n, wf n -> forall t v, In (t, v) (rets now n) <-> alive now t n v.
Proof.
  intros now n. induction n as [ch p h s r IHc _ _] using node_ind'. intros W t v. pose proof W as W0. cbn [rets]. rewrite in_app_iff, live_here_in, in_flat_map. pose proof (wf_inv _ W) as [W1 [W2 _]]; cbn [n_ch] in W1, W2. unfold alive. split.
  - intros [[v' [H1 [H2 H3]]]|[[k m] [H1 H2]]].
    + injection H3 as -> ->. auto.
    + cbn [fst snd] in H2. apply in_map_iff in H2. destruct H2 as [[t' v'] [E H2]]. cbn in E. injection E as <- <-.
      apply (IHc k m H1) in H2; [|eauto]. rewrite (ret_in_child (Node ch p h s r) k m t' W0 H1). exact H2.
  - intros [H1 H2]. destruct t as [|k t]; [left; exists v; cbn in H1; auto|]. right. apply ret_cons_child in H1. destruct H1 as [m [H1 H3]]. cbn in H1.
    exists (k, m). split; auto. apply in_map_iff. exists (t, v). split; auto. apply (IHc k m H1); [eauto|]. split; auto.
Qed.
Lemma NoDup_map_cons : forall (k : level) (l : list (list level * retained)), NoDup (map fst l) -> NoDup (map fst (map (fun x => (k :: fst x, snd x)) l)).
Proof.
  intros k l H. rewrite map_map. cbn. rewrite <- (map_map fst (cons k)). apply FinFun.Injective_map_NoDup; auto. intros a b E. injection E; auto.
Qed.
Lemma NoDup_levels : forall (f : level * node -> list (list level * retained)) ch, NoDup (akeys ch) -> (forall k m, In (k, m) ch -> NoDup (map fst (f (k, m)))) ->
  NoDup (map fst (flat_map (fun kv => map (fun x => (fst kv :: fst x, snd x)) (f kv)) ch)).
Proof.
  intros f ch. induction ch as [|[k m] ch IH]; intros H1 H2; [constructor|]. cbn [flat_map]. rewrite map_app. cbn in H1. inversion H1 as [|k0 l0 Hk Hn]; subst.
  apply NoDup_app_intro.
  - apply NoDup_map_cons. apply H2. left; auto.
  - apply IH; auto. intros; apply H2; right; auto.
  - intros x Hx Hy. apply in_map_iff in Hx. destruct Hx as [[a b] [<- Hx]]. apply in_map_iff in Hx. destruct Hx as [[a' b'] [E Hx]]. injection E as <- _.
    apply in_map_iff in Hy. destruct Hy as [[a2 b2] [E Hy]]. cbn in E. subst a2. apply in_flat_map in Hy. destruct Hy as [[k' m'] [Hy1 Hy2]].
    apply in_map_iff in Hy2. destruct Hy2 as [[a3 b3] [E Hy2]]. injection E as -> _ _. apply Hk. apply in_map_iff. exists (k, m'). auto.
Qed.
Lemma live_NoDup : forall now r, NoDup (map fst (live_here now r (fun v => (@nil level, v)))).
Proof. intros now [v|]; cbn; [destruct (is_expired now v)|]; cbn; repeat constructor; auto. Qed.
Lemma rets_NoDup : forall now n, wf n -> NoDup (map fst (rets now n)).
Proof.
  intros now n. induction n as [ch p h s r IHc _ _] using node_ind'. intro W. inv W. cbn [rets]. rewrite map_app. apply NoDup_app_intro.
  - apply live_NoDup.
  - apply NoDup_levels; auto. intros k m H. cbn [snd]. apply (IHc k m H). eauto.
  - intros x Hx Hy. apply in_map_iff in Hx. destruct Hx as [[a b] [<- Hx]]. apply live_here_in in Hx. destruct Hx as [v [_ [_ E]]]. injection E as -> _.
    apply in_map_iff in Hy. destruct Hy as [[a2 b2] [E Hy]]. cbn in E. subst a2. apply in_flat_map in Hy. destruct Hy as [[k' m'] [Hy1 Hy2]].
    apply in_map_iff in Hy2. destruct Hy2 as [[a3 b3] [E Hy2]]. discriminate.
Qed.

Lemma mqtt_hash_all : forall t, mqtt [lhash] t.
Proof. constructor. Qed.
(** a subscriber of [pat] is shown exactly the unexpired retained topics that match *)
Lemma pick_in : forall now pat n, wf n -> forall t v, In (t, v) (pick now pat n) <-> alive now t n v /\ mqtt (trunc pat) t.
Proof.
  intros now. induction pat as [|x pat IH]; intros n W t v.
  - cbn [pick trunc]. rewrite live_here_in. unfold alive. split.
    + intros [v' [H1 [H2 H3]]]. injection H3 as -> ->. split; [auto|constructor].
    + intros [[H1 H2] H3]. inv H3. exists v. auto.
  - lv x.
    + cbn [pick]. change (beqb lhash lplus) with false. change (beqb lhash lhash) with true. cbv iota. rewrite trunc_hash, rets_in by auto. split; [|tauto]. intro; split; auto. constructor.
    + cbn [pick]. change (beqb lplus lplus) with true. cbv iota. rewrite in_flat_map, trunc_plus. pose proof (wf_inv n W) as [N1 [N2 _]]. split.
      * intros [[k m] [H1 H2]]. apply in_map_iff in H2. destruct H2 as [[t' v'] [E H2]]. injection E as <- <-. cbn [snd] in H2. apply IH in H2; [|eauto].
        destruct H2 as [[H2 H3] H4]. split; [split; auto; rewrite (ret_in_child n k m); auto|constructor; auto].
      * intros [[H1 H2] H3]. inversion H3 as [| |y p' t' Hm|]; subst; [|congruence]. apply ret_cons_child in H1. destruct H1 as [m [H1 H4]]. exists (y, m). split; auto.
        apply in_map_iff. exists (t', v). split; auto. apply IH; [eauto|]. split; [split|]; auto.
    + cbn [pick]. pose proof Hx as [X1 X2]. rewrite X1, X2. rewrite trunc_lit by auto. rewrite in_map_iff. split.
      * intros [[t' v'] [E H2]]. injection E as <- <-. apply IH in H2; [|apply wf_child; auto]. destruct H2 as [[H2 H3] H4]. split; [split; auto; rewrite ret_at_child; auto|].
        constructor; auto; intros ->; [apply (hlit_plus Hx)|apply (hlit_hash Hx)].
      * intros [[H1 H2] H3]. inversion H3 as [|t0 E0|y p' t' Hm|y p' t' Y1 Y2 Hm]; subst; [destruct (hlit_hash Hx)|destruct (hlit_plus Hx)|].
        exists (t', v). split; auto. apply IH; [apply wf_child; auto|]. split; [split|]; auto. rewrite <- ret_at_child. auto.
Qed.
Lemma pick_NoDup : forall now pat n, wf n -> NoDup (map fst (pick now pat n)).
Proof.
  intros now. induction pat as [|x pat IH]; intros n W; cbn [pick]; [apply live_NoDup|]. pose proof (wf_inv n W) as [N1 [N2 _]].
  destruct (beqb x lplus); [|destruct (beqb x lhash)].
  - apply NoDup_levels; auto. intros k m H. cbn [snd]. apply IH. eauto.
  - apply rets_NoDup; auto.
  - apply NoDup_map_cons. apply IH. apply wf_child; auto.
Qed.
