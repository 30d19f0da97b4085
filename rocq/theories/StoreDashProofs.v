(** Proofs about the store page: searching UTF-8 text, and the rows. *)
From Verif Require Import LibBase LibMap Utf8 CmdModel ValueModel ValueProofs StoreModel StoreProofs StoreDashModel.
From Coq Require Import Permutation.
Open Scope N_scope.

(** a byte in the middle of a character *)
Definition mid (b : N) : Prop := 128 <= b < 192.
Lemma put_shape n : scalar n -> exists b r, utf8_put n = b :: r /\ ~ mid b /\ Forall mid r.
Proof.
  intro S. unfold scalar in S. unfold utf8_put, mid. assert (M : forall x, 128 <= 128 + x mod 64 < 192) by (intro x; pose proof (N.mod_lt x 64 ltac:(lia)); lia).
  destruct (N.ltb_spec n 128); [exists n, []; split; [reflexivity|]; split; [lia|constructor]|].
  destruct (n <? 2048); [|destruct (n <? 65536)]; eexists; eexists; (split; [reflexivity|]; split; [lia|repeat constructor; apply M]).
Qed.
(** where a character starts, the text can be cut *)
Lemma cut_at_lead : forall ns, Forall scalar ns -> forall x b y, x ++ b :: y = flat_map utf8_put ns -> ~ mid b -> exists n1 n2, ns = n1 ++ n2 /\ x = flat_map utf8_put n1 /\ b :: y = flat_map utf8_put n2.
Proof.
  induction 1 as [|n ns S F IH]; intros x b y E B; [destruct x; discriminate|]. cbn [flat_map] in E. destruct (put_shape n S) as (c & r & P & _ & R). destruct x as [|c' x].
  - exists [], (n :: ns). split; [reflexivity|]. split; [reflexivity|exact E].
  - destruct (app_eq_app _ _ _ _ E) as (m & [(E1 & E2)|(E1 & E2)]).
    + destruct (IH m b y) as (n1 & n2 & -> & -> & X); [congruence|exact B|]. exists (n :: n1), n2. split; [reflexivity|]. split; [exact E1|exact X].
    + destruct m as [|z m].
      * rewrite app_nil_r in E1. cbn [app] in E2. exists [n], ns. split; [reflexivity|]. split; [cbn; rewrite app_nil_r; auto|auto].
      * exfalso. cbn in E2. injection E2 as -> _. rewrite P in E1. injection E1 as _ E1. rewrite E1 in R. apply Forall_app in R. destruct R as (_ & R). apply Forall_inv in R. exact (B R).
Qed.
Lemma lossy_front s y : Forall scalar s -> utf8_lossy (flat_map utf8_put s ++ y) = s ++ utf8_lossy y.
Proof. induction 1 as [|n s S _ IH]; [reflexivity|]. cbn [flat_map app]. rewrite <- app_assoc, lossy_put, IH by auto. reflexivity. Qed.
Lemma infix_text s ns : Forall scalar s -> Forall scalar ns -> (exists x y, flat_map utf8_put ns = x ++ flat_map utf8_put s ++ y) <-> exists a b, ns = a ++ s ++ b.
Proof.
  intros S F. split.
  - intros (x & y & E). destruct s as [|n s]; [exists [], ns; reflexivity|]. inversion S as [|? ? S1 S2]; subst. destruct (put_shape n S1) as (c & r & P & C & _).
    assert (X : x ++ c :: (r ++ flat_map utf8_put s ++ y) = flat_map utf8_put ns) by (rewrite E; cbn [flat_map]; rewrite P, <- !app_assoc; reflexivity).
    destruct (cut_at_lead ns F x c _ X C) as (n1 & n2 & -> & _ & E2). exists n1, (utf8_lossy y). f_equal. apply Forall_app in F. destruct F as (_ & F2).
    rewrite <- (lossy_all n2 F2), <- E2, <- lossy_front by auto. cbn [flat_map]. rewrite P, <- !app_assoc. reflexivity.
  - intros (a & b & ->). exists (flat_map utf8_put a), (flat_map utf8_put b). rewrite !flat_map_app. reflexivity.
Qed.
(** the entries of a reachable store, by its history *)
Lemma live_entries ticks dttl imax h now it kv : Permutation it (srun ticks dttl imax h) -> Forall (fun c => c <= now) (sweeps h) ->
  (In kv it /\ live now kv = true <-> exists e, spec_last ticks dttl imax (fst kv) (rev h) = Some (e_val (snd kv), e) /\ e_exp (snd kv) = Some e /\ now < e).
Proof.
  intros P S. pose proof (run_NoDup ticks dttl imax h) as ND. pose proof (held ticks dttl imax h (fst kv)) as H. split.
  - intros (I & L). assert (G : sget (fst kv) (srun ticks dttl imax h) = Some (snd kv)) by (apply (In_aget beqb beqb_ok); auto; rewrite <- surjective_pairing; eapply Permutation_in; eauto).
    destruct (spec_last ticks dttl imax (fst kv) (rev h)) as [[v e]|]; [|congruence]. destruct H as [H|(H & _)]; [|congruence]. assert (K : snd kv = mkEntry v (Some e)) by congruence. unfold live in L. rewrite K in *. cbn [e_exp e_val] in *. exists e. split; [reflexivity|]. split; [reflexivity|]. destruct (N.leb_spec e now); [discriminate|auto].
  - intros (e & E & X & L). rewrite E in H. destruct H as [H|(_ & c & I & K)]; [|rewrite Forall_forall in S; specialize (S c I); lia].
    split.
    + eapply Permutation_in; [symmetry; exact P|]. apply (aget_In beqb beqb_ok) in H. destruct kv as [k en]. cbn [fst snd] in *. destruct en as [v x]. cbn [e_val e_exp] in *. subst x. exact H.
    + unfold live. rewrite X. destruct (N.leb_spec e now); [lia|reflexivity].
Qed.
