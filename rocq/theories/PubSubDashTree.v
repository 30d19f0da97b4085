(** The dashboard's walk over the topic tree. *)
From Verif Require Import LibBase LibMap StoreModel PubSubModel PubSubSpec PubSubTree PubSubProofs PubSubDashModel.

Definition cell := (list level * (list N * option retained))%type.
Definition under (k : level) (x : cell) : cell := (k :: fst x, snd x).
(** all nodes with their paths *)
Fixpoint dump (n : node) {struct n} : list cell :=
  let (ch, p, h, s, r) := n in
  ([], (s, r)) :: flat_map (fun kv => map (under (fst kv)) (dump (snd kv))) ch ++
  (match p with Some pn => map (under lplus) (dump pn) | None => [] end) ++
  (match h with Some hn => map (under lhash) (dump hn) | None => [] end).
Lemma dump_eq : forall n, dump n = ([], (n_subs n, n_ret n)) :: flat_map (fun kv => map (under (fst kv)) (dump (snd kv))) (n_ch n) ++
  (match n_plus n with Some pn => map (under lplus) (dump pn) | None => [] end) ++
  (match n_hash n with Some hn => map (under lhash) (dump hn) | None => [] end).
Proof. destruct n; reflexivity. Qed.

(** the row of one node *)
Definition busy (x : cell) : bool := negb (is_nil (fst (snd x))) || negb (is_none (snd (snd x))).
Definition row (now : N) (search : option bytes) (path : bytes) (x : cell) : list trow :=
  match fold_left join1 (fst x) path with
  | [] => []
  | _ => if hits search (fold_left join1 (fst x) path) && busy x
         then [(fold_left join1 (fst x) path, lenN (fst (snd x)), shown_ret now (snd (snd x)))] else []
  end.
Lemma row_under : forall now search path k x, row now search path (under k x) = row now search (join1 path k) x.
Proof. intros now search path k [q [s r]]. reflexivity. Qed.
Lemma flat_map_map : forall A B C (f : A -> B) (g : B -> list C) l, flat_map g (map f l) = flat_map (fun x => g (f x)) l.
Proof. induction l; cbn; auto. f_equal. auto. Qed.
Lemma flat_map_flat_map : forall A B C (f : A -> list B) (g : B -> list C) l, flat_map g (flat_map f l) = flat_map (fun x => flat_map g (f x)) l.
Proof. induction l; cbn; auto. rewrite flat_map_app. f_equal. auto. Qed.
Lemma rows_under : forall now search path k l, flat_map (row now search path) (map (under k) l) = flat_map (row now search (join1 path k)) l.
Proof. intros. rewrite flat_map_map. apply flat_map_ext_in. intros x _. apply row_under. Qed.
Lemma collect_rows : forall now search n path, collect_filtered now search path n = flat_map (row now search path) (dump n).
Proof.
  intros now search n. induction n as [ch p h s r IHc IHp IHh] using node_ind'. intro path. cbn [collect_filtered dump flat_map].
  f_equal. rewrite !flat_map_app. f_equal; [|f_equal].
  - rewrite flat_map_flat_map. apply flat_map_ext_in. intros [k m] H. cbn [fst snd]. rewrite rows_under. eauto.
  - destruct p as [m|]; [|reflexivity]. rewrite rows_under. auto.
  - destruct h as [m|]; [|reflexivity]. rewrite rows_under. auto.
Qed.

(** shape of the tree when no retained topic has a level "+" or "#"; [b]: retained
    messages may be stored here *)
Inductive wd : bool -> node -> Prop :=
| wd_node : forall b ch p h s r, NoDup (akeys ch) -> NoDup s -> (b = false -> r = None) ->
    (forall k m, In (k, m) ch -> hlit k) -> (forall k m, In (k, m) ch -> wd b m) -> (forall m, p = Some m -> wd false m) ->
    (forall m, h = Some m -> exists s', m = Node [] None None s' None /\ NoDup s') -> wd b (Node ch p h s r).
Lemma wd_inv : forall b n, wd b n -> NoDup (akeys (n_ch n)) /\ NoDup (n_subs n) /\ (b = false -> n_ret n = None) /\
  (forall k m, In (k, m) (n_ch n) -> hlit k) /\ (forall k m, In (k, m) (n_ch n) -> wd b m) /\ (forall m, n_plus n = Some m -> wd false m) /\
  (forall m, n_hash n = Some m -> exists s', m = Node [] None None s' None /\ NoDup s').
Proof. intros b n H. destruct H. cbn. repeat (split; [assumption|]). assumption. Qed.
Lemma wd_node0 : forall b, wd b node0.
Proof. intro b. constructor; cbn; try tauto; try discriminate; constructor. Qed.
Lemma wd_or : forall b o, (forall m, o = Some m -> wd b m) -> wd b (or_new o).
Proof. intros b [m|] H; cbn; auto using wd_node0. Qed.
Lemma wd_child : forall b x n, wd b n -> wd b (child x n).
Proof.
  intros b x n H. apply wd_inv in H. unfold child. apply wd_or. intros m E. apply (aget_In beqb beqb_eq) in E. apply H in E. auto.
Qed.
Lemma wd_hleaf : forall b n, wd b n -> exists s', or_new (n_hash n) = Node [] None None s' None /\ NoDup s'.
Proof. intros b n H. apply wd_inv in H. destruct H as (_ & _ & _ & _ & _ & _ & H). destruct (n_hash n) as [m|]; cbn [or_new]; [apply H; auto|]. exists []. split; [reflexivity|constructor]. Qed.
Lemma In_aset_cases : forall (k x : level) (m v : node) ch, NoDup (akeys ch) -> In (k, m) (aset beqb x v ch) -> k = x /\ m = v \/ In (k, m) ch.
Proof.
  intros k x m v ch N H. pose proof (In_aget beqb beqb_eq _ _ _ (NoDup_aset beqb beqb_eq x v ch N) H) as E. destruct (beqb k x) eqn:B.
  - apply beqb_eq in B. subst k. rewrite (aget_aset_same beqb beqb_eq) in E. injection E as ->. auto.
  - right. rewrite (aget_aset_other beqb beqb_eq) in E by (intros ->; rewrite (eqb_refl' beqb beqb_eq) in B; discriminate). apply (aget_In beqb beqb_eq) in E. auto.
Qed.
Lemma wd_insert : forall p c b n, wd b n -> wd b (insert_sub p c n).
Proof.
  induction p as [|x p IH]; intros c b n W; pose proof (wd_inv _ _ W) as (W1 & W2 & W3 & W4 & W5 & W6 & W7).
  - rewrite insert_nil. constructor; auto. apply NoDup_nins; auto.
  - destruct (level_cases x) as [->|[->|Hx]].
    + rewrite insert_hash. constructor; auto. intros m E. injection E as <-. destruct (wd_hleaf _ _ W) as [s' [E N]].
      rewrite E. cbn. eexists. split; [reflexivity|]. apply NoDup_nins; auto.
    + rewrite insert_plus. constructor; auto. intros m E. injection E as <-. apply IH. apply wd_or. auto.
    + rewrite insert_lit by auto. constructor; auto.
      * apply (NoDup_aset beqb beqb_eq); auto.
      * intros k m H. apply In_aset_cases in H; auto. destruct H as [[-> _]|H]; eauto.
      * intros k m H. apply In_aset_cases in H; auto. destruct H as [[_ ->]|H]; eauto. apply IH. apply (wd_child b x n W).
Qed.
Lemma wd_prune : forall b n m, wd b n -> prune n = Some m -> wd b m.
Proof. intros b n m H E. unfold prune in E. destruct (n_empty n); congruence. Qed.
Lemma wd_rem : forall p c b n, wd b n -> wd b (rem p c n).
Proof.
  induction p as [|x p IH]; intros c b n W; pose proof (wd_inv _ _ W) as (W1 & W2 & W3 & W4 & W5 & W6 & W7).
  - rewrite rem_nil. constructor; auto. apply NoDup_nrem; auto.
  - destruct (level_cases x) as [->|[->|Hx]].
    + rewrite rem_hash. destruct (n_hash n) as [hn|] eqn:Eh; constructor; auto; try discriminate. intros m E. destruct (W7 hn eq_refl) as [s' [-> N]]. cbn [n_ch n_plus n_hash n_subs n_ret] in E.
      unfold prune in E. destruct (n_empty (Node [] None None (nrem c s') None)); [discriminate|]. injection E as <-. eexists. split; [reflexivity|]. apply NoDup_nrem; auto.
    + rewrite rem_plus. destruct (n_plus n) as [pn|] eqn:Ep; constructor; auto; try discriminate. intros m E. apply (wd_prune false) in E; auto.
    + rewrite rem_lit by auto. destruct (aget beqb x (n_ch n)) as [cn|] eqn:Ec; [|constructor; auto].
      assert (Wc : wd b cn) by (apply (aget_In beqb beqb_eq) in Ec; eauto).
      unfold prune. destruct (n_empty (rem p c cn)) eqn:Ee; constructor; auto.
      * apply (NoDup_adel beqb beqb_eq); auto.
      * intros k m H. apply (adel_In beqb beqb_eq) in H. destruct H; eauto.
      * intros k m H. apply (adel_In beqb beqb_eq) in H. destruct H; eauto.
      * apply (NoDup_aset beqb beqb_eq); auto.
      * intros k m H. apply In_aset_cases in H; auto. destruct H as [[-> _]|H]; eauto.
      * intros k m H. apply In_aset_cases in H; auto. destruct H as [[_ ->]|H]; eauto.
Qed.
Lemma wd_set : forall p v n, Forall hlit p -> wd true n -> wd true (set_ret p v n).
Proof.
  induction p as [|x p IH]; intros v n F W; pose proof (wd_inv _ _ W) as (W1 & W2 & W3 & W4 & W5 & W6 & W7).
  - destruct n as [ch p h s r]. cbn in *. constructor; auto. discriminate.
  - inversion F as [|x0 p0 Hx F']; subst. rewrite set_ret_eq. constructor; auto.
    + apply (NoDup_aset beqb beqb_eq); auto.
    + intros k m H. apply In_aset_cases in H; auto. destruct H as [[-> _]|H]; eauto.
    + intros k m H. apply In_aset_cases in H; auto. destruct H as [[_ ->]|H]; eauto. apply IH; auto. apply wd_child; auto.
Qed.
Lemma wd_cleanup : forall now n b, wd b n -> wd b (cleanup now n).
Proof.
  intros now n. induction n as [ch p h s r IHc IHp _] using node_ind'. intros b W. pose proof (wd_inv _ _ W) as (W1 & W2 & W3 & W4 & W5 & W6 & W7). cbn [n_ch n_plus n_hash n_subs n_ret] in *.
  rewrite cleanup_eq. cbn [n_ch n_plus n_hash n_subs n_ret]. constructor; auto.
  - rewrite akeys_map. auto.
  - intro Eb. rewrite (W3 Eb). auto.
  - intros k m H. apply in_map_iff in H. destruct H as [[k' m'] [E H]]. injection E as <- <-. eauto.
  - intros k m H. apply in_map_iff in H. destruct H as [[k' m'] [E H]]. injection E as <- <-. eauto.
  - intros m E. destruct p as [m0|]; [|discriminate]. injection E as <-. auto.
  - intros m E. destruct h as [m0|]; [|discriminate]. injection E as <-. destruct (W7 m0 eq_refl) as [s' [-> N]]. exists s'. auto.
Qed.

(** what the walk finds *)
Lemma dump_noret : forall n, wd false n -> forall q ss r, In (q, (ss, r)) (dump n) -> r = None.
Proof.
  intros n. induction n as [ch p h s r IHc IHp IHh] using node_ind'. intros W q ss r0 H. pose proof (wd_inv _ _ W) as (W1 & W2 & W3 & W4 & W5 & W6 & W7). cbn [n_ch n_plus n_hash n_subs n_ret] in *.
  cbn [dump] in H. destruct H as [H|H]; [injection H as _ _ <-; auto|]. rewrite !in_app_iff in H. destruct H as [H|[H|H]].
  - apply in_flat_map in H. destruct H as [[k m] [H1 H2]]. apply in_map_iff in H2. destruct H2 as [[q' [s' r']] [E H2]]. injection E as _ _ <-. eapply (IHc k m H1); eauto.
  - destruct p as [m|]; [|destruct H]. apply in_map_iff in H. destruct H as [[q' [s' r']] [E H]]. injection E as _ _ <-. eapply (IHp m eq_refl); eauto.
  - destruct h as [m|]; [|destruct H]. destruct (W7 m eq_refl) as [s' [-> N]]. destruct H as [H|[]]. injection H as _ _ <-. auto.
Qed.
Lemma key_wild : forall b n x, wd b n -> ~ hlit x -> aget beqb x (n_ch n) = None.
Proof.
  intros b n x W Hx. destruct (aget beqb x (n_ch n)) as [m|] eqn:E; auto. apply (aget_In beqb beqb_eq) in E. apply wd_inv in W. destruct W as (_ & _ & _ & W & _). destruct Hx. eauto.
Qed.
Lemma dump_in : forall n b, wd b n -> forall q ss r, In (q, (ss, r)) (dump n) -> trunc q = q /\ ss = subs_at q n /\ r = ret_at q n /\ NoDup ss.
Proof.
  intros n. induction n as [ch p h s r IHc IHp _] using node_ind'. intros b W q ss r0 H. pose proof W as W0. pose proof (wd_inv _ _ W) as (W1 & W2 & W3 & W4 & W5 & W6 & W7). cbn [n_ch n_plus n_hash n_subs n_ret] in *.
  cbn [dump] in H. destruct H as [H|H]; [injection H as <- <- <-; auto|]. rewrite !in_app_iff in H. destruct H as [H|[H|H]].
  - apply in_flat_map in H. destruct H as [[k m] [H1 H2]]. apply in_map_iff in H2. destruct H2 as [[q' [s' r']] [E H2]]. injection E as <- <- <-. cbn [fst snd] in *.
    destruct (IHc k m H1 b (W5 k m H1) _ _ _ H2) as [A [B [C D]]]. pose proof (W4 _ _ H1) as Hk. rewrite trunc_lit, A by auto. rewrite subs_at_lit by auto. cbn [n_ch ret_at].
    rewrite (In_aget beqb beqb_eq _ _ _ W1 H1). cbn. auto.
  - destruct p as [m|]; [|destruct H]. apply in_map_iff in H. destruct H as [[q' [s' r']] [E H]]. injection E as <- <- <-.
    destruct (IHp m eq_refl false (W6 m eq_refl) _ _ _ H) as [A [B [C D]]]. cbn [fst]. rewrite trunc_plus, A, subs_at_plus. cbn [ret_at]. rewrite (key_wild b _ lplus W0 hlit_plus). cbn [n_plus or_new].
    repeat split; auto. eapply dump_noret; eauto.
  - destruct h as [m|]; [|destruct H]. destruct (W7 m eq_refl) as [s' [-> N]]. destruct H as [H|[]]. injection H as <- <- <-. rewrite subs_at_hash. cbn [ret_at]. rewrite (key_wild b _ lhash W0 hlit_hash). auto.
Qed.
Lemma trunc_cons_inv : forall x q, trunc (x :: q) = x :: q -> x = lhash /\ q = [] \/ x <> lhash /\ trunc q = q.
Proof.
  intros x q H. destruct (level_cases x) as [->|[->|Hx]].
  - rewrite trunc_hash in H. injection H as <-. auto.
  - rewrite trunc_plus in H. injection H as ->. right. split; auto. discriminate.
  - rewrite trunc_lit in H by auto. injection H as ->. right. split; auto. intros ->. apply (hlit_hash Hx).
Qed.
Lemma dump_has : forall q n b, wd b n -> trunc q = q -> subs_at q n <> [] \/ ret_at q n <> None -> In (q, (subs_at q n, ret_at q n)) (dump n).
Proof.
  induction q as [|x q IH]; intros n b W T H; [rewrite dump_eq; left; reflexivity|]. pose proof (wd_inv _ _ W) as (W1 & W2 & W3 & W4 & W5 & W6 & W7).
  rewrite dump_eq. right. rewrite !in_app_iff. destruct (level_cases x) as [->|[->|Hx]].
  - apply trunc_cons_inv in T. destruct T as [[_ ->]|[T _]]; [|congruence]. right; right. rewrite subs_at_hash in *. cbn [ret_at] in *. rewrite (key_wild _ _ _ W hlit_hash) in *.
    destruct H as [H|H]; [|congruence]. destruct (n_hash n) as [m|]; cbn [or_new n_subs] in *; [|exfalso; apply H; reflexivity]. destruct (W7 m eq_refl) as [s' [-> N]]. left. reflexivity.
  - apply trunc_cons_inv in T. destruct T as [[T _]|[_ T]]; [discriminate|]. right; left. rewrite subs_at_plus in *. cbn [ret_at] in *. rewrite (key_wild _ _ _ W hlit_plus) in *.
    destruct H as [H|H]; [|congruence]. destruct (n_plus n) as [m|]; cbn [or_new] in *; [|rewrite subs_at_node0 in H; congruence]. apply in_map_iff. exists (q, (subs_at q m, ret_at q m)).
    pose proof (IH m false (W6 m eq_refl) T (or_introl H)) as K. split; auto. pose proof (dump_noret m (W6 m eq_refl) _ _ _ K) as ->. reflexivity.
  - apply trunc_cons_inv in T. destruct T as [[-> _]|[_ T]]; [destruct (hlit_hash Hx)|]. left. rewrite subs_at_lit in * by auto. cbn [ret_at] in *. destruct (aget beqb x (n_ch n)) as [m|] eqn:E; cbn [or_new] in *.
    + pose proof (aget_In beqb beqb_eq _ _ _ E) as K. apply in_flat_map. exists (x, m). split; auto. apply in_map_iff. exists (q, (subs_at q m, ret_at q m)). split; auto. eapply IH; eauto.
    + rewrite subs_at_node0 in H. destruct H; congruence.
Qed.
Lemma NoDup_under : forall k (l : list cell), NoDup (map fst l) -> NoDup (map fst (map (under k) l)).
Proof. intros k l H. replace (map fst (map (under k) l)) with (map (cons k) (map fst l)) by (rewrite !map_map; reflexivity). apply FinFun.Injective_map_NoDup; auto. intros a b E. injection E; auto. Qed.
Lemma NoDup_unders : forall ch, NoDup (akeys ch) -> (forall k m, In (k, m) ch -> NoDup (map fst (dump m))) ->
  NoDup (map fst (flat_map (fun kv => map (under (fst kv)) (dump (snd kv))) ch)).
Proof.
  induction ch as [|[k m] ch IH]; intros H1 H2; [constructor|]. cbn [flat_map]. rewrite map_app. cbn in H1. inversion H1 as [|k0 l0 Hk Hn]; subst. apply NoDup_app_intro.
  - apply NoDup_under. apply (H2 k). left; auto.
  - apply IH; auto. intros k' m' H. apply (H2 k'). right; auto.
  - intros x Hx Hy. apply in_map_iff in Hx. destruct Hx as [[a b] [<- Hx]]. apply in_map_iff in Hx. destruct Hx as [[a' b'] [E Hx]]. injection E as <- _.
    apply in_map_iff in Hy. destruct Hy as [[a2 b2] [E Hy]]. cbn in E. subst a2. apply in_flat_map in Hy. destruct Hy as [[k' m'] [Hy1 Hy2]].
    apply in_map_iff in Hy2. destruct Hy2 as [[a3 b3] [E Hy2]]. injection E as -> _ _. apply Hk. apply in_map_iff. exists (k, m'). auto.
Qed.
Lemma dump_NoDup : forall n b, wd b n -> NoDup (map fst (dump n)).
Proof.
  intros n. induction n as [ch p h s r IHc IHp _] using node_ind'. intros b W. pose proof (wd_inv _ _ W) as (W1 & W2 & W3 & W4 & W5 & W6 & W7). cbn [n_ch n_plus n_hash n_subs n_ret] in *.
  assert (Hin : forall k l a, In a (map fst (map (under k) l)) -> exists q, a = k :: q).
  { intros k l a H. apply in_map_iff in H. destruct H as [x [<- H]]. apply in_map_iff in H. destruct H as [y [<- H]]. exists (fst y). reflexivity. }
  assert (Hch : forall a, In a (map fst (flat_map (fun kv => map (under (fst kv)) (dump (snd kv))) ch)) -> exists k q, hlit k /\ a = k :: q).
  { intros a H. apply in_map_iff in H. destruct H as [x [<- H]]. apply in_flat_map in H. destruct H as [[k m] [H1 H2]]. apply in_map_iff in H2. destruct H2 as [y [<- H2]]. exists k, (fst y). eauto. }
  cbn [dump map fst]. constructor.
  - rewrite !map_app, !in_app_iff. intros [H|[H|H]].
    + apply Hch in H. destruct H as (k & q & _ & E). discriminate.
    + destruct p; [|destruct H]. apply Hin in H. destruct H; discriminate.
    + destruct h; [|destruct H]. apply Hin in H. destruct H; discriminate.
  - rewrite !map_app. apply NoDup_app_intro; [|apply NoDup_app_intro|].
    + apply NoDup_unders; auto. intros k m H. eapply (IHc k m H); eauto.
    + destruct p as [m|]; [|constructor]. apply NoDup_under. eapply (IHp m eq_refl); eauto.
    + destruct h as [m|]; [|constructor]. apply NoDup_under. destruct (W7 m eq_refl) as [s' [-> N]]. repeat constructor. intros [].
    + intros a H1 H2. destruct p as [m|]; [|destruct H1]. destruct h as [m'|]; [|destruct H2]. apply Hin in H1. apply Hin in H2. destruct H1 as [q1 ->]. destruct H2 as [q2 E]. discriminate.
    + intros a H1 H2. apply Hch in H1. destruct H1 as (k & q & Hk & ->). apply in_app_iff in H2. destruct H2 as [H2|H2].
      * destruct p as [m|]; [|destruct H2]. apply Hin in H2. destruct H2 as [q2 E]. injection E as -> _. apply (hlit_plus Hk).
      * destruct h as [m|]; [|destruct H2]. apply Hin in H2. destruct H2 as [q2 E]. injection E as -> _. apply (hlit_hash Hk).
Qed.
