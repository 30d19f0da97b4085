(** Property C111: the store page of the dashboard. *)
From Verif Require Import LibBase LibMap Utf8 CmdModel ValueModel ValueProofs StoreModel StoreProofs StoreDashModel StoreDashProofs.
From Coq Require Import Permutation.
Open Scope N_scope.

(** ** Specification *)
(** the key has the searched text in it *)
Definition has_text (search : option bytes) (k : bytes) : Prop := match search with Some s => exists a b, k = a ++ s ++ b | None => True end.
(** the row of a key, its value and the instant at which it expires; [epoch]: the time of
    day at instant 0, [now2]: the instant at which the row is made *)
Definition row_shows V (show : bytes -> V) (epoch now2 : N) (x : bytes * bytes * N) (r : krow V) : Prop :=
  let '(k, v, e) := x in k_key V r = k /\ k_value V r = show v /\ k_exp V r = Some (epoch + N.max e now2).
(** the first [n] pages of [size] rows *)
Definition first_pages {V} (page : N -> kpage V) (size : N) (n : nat) : list (krow V) := flat_map (fun i => p_keys V (page (N.of_nat i * size))) (seq 0 n).

Lemma matches_text s kv : matches s kv = true <-> has_text s (fst kv).
Proof. destruct s as [s|]; cbn; [apply contains_spec|tauto]. Qed.
Lemma page_scan V show now now2 sysnow limit offset search it : let lim := match limit with Some n => n | None => 500 end in let off := match offset with Some n => n | None => 0 end in
  store_page V show now now2 sysnow limit offset search it = mkKpage V (map (krow_of V show now2 sysnow) (fst (scan now lim off search it))) (lenN it) off lim.
Proof. reflexivity. Qed.
Lemma first_scan V show now now2 sysnow limit search it n : let size := match limit with Some k => k | None => 500 end in
  first_pages (fun off => store_page V show now now2 sysnow limit (Some off) search it) size n = map (krow_of V show now2 sysnow) (pages now size search it n).
Proof.
  intro size. unfold first_pages. induction n as [|n IH]; [reflexivity|]. rewrite seq_S, flat_map_app, IH. cbn [pages flat_map]. rewrite app_nil_r, map_app. reflexivity.
Qed.

(** * C111 *)
(** Rows: for every history of SETs, DELs and sweeps, the pages (500 rows if no size is asked for) laid
    end to end show each key once: those whose newest SET, not followed by a DEL, has not
    expired and whose name has the searched text in it, each with the value of that SET and the
    time of day at which it expires. *)
Theorem C111_rows : forall V show ticks dttl imax h it now now2 epoch limit search n,
  Permutation it (srun ticks dttl imax h) -> Forall (fun c => c <= now) (sweeps h) -> now <= now2 ->
  let size := match limit with Some k => k | None => 500 end in
  lenN it <= N.of_nat n * size ->
  exists l, (forall k v e, In (k, v, e) l <-> spec_last ticks dttl imax k (rev h) = Some (v, e) /\ now < e /\ has_text search k) /\
    NoDup (map (fun x => fst (fst x)) l) /\
    Forall2 (row_shows V show epoch now2) l
      (first_pages (fun off => store_page V show now now2 (epoch + now2) limit (Some off) search it) size n).
Proof.
  intros V show ticks dttl imax h it now now2 epoch limit search n P S LE size L.
  rewrite first_scan. fold size. rewrite pages_complete by exact L.
  set (f := filter (live now) (filter (matches search) it)).
  assert (IF : forall kv, In kv f <-> (exists e, spec_last ticks dttl imax (fst kv) (rev h) = Some (e_val (snd kv), e) /\ e_exp (snd kv) = Some e /\ now < e) /\ has_text search (fst kv)).
  { intro kv. unfold f. rewrite !filter_In, matches_text, <- (live_entries ticks dttl imax h now it kv P S). tauto. }
  exists (map (fun kv => (fst kv, e_val (snd kv), match e_exp (snd kv) with Some e => e | None => 0 end)) f). split; [|split].
  - intros k v e. rewrite in_map_iff. split.
    + intros ([k' [v' x]] & E & I). cbn [fst snd e_val e_exp] in E. apply IF in I. cbn [fst snd e_val e_exp] in I. destruct I as ((e' & A & -> & B) & C). injection E as <- <- <-. auto.
    + intros (A & B & C). exists (k, mkEntry v (Some e)). split; [reflexivity|]. apply IF. cbn [fst snd e_val e_exp]. split; [exists e; auto|exact C].
  - rewrite map_map. cbn [fst]. unfold f. apply NoDup_map_filter, NoDup_map_filter. eapply Permutation_NoDup; [|apply (run_NoDup ticks dttl imax h)]. apply Permutation_map. symmetry. exact P.
  - assert (G : Forall (fun kv => exists e, e_exp (snd kv) = Some e /\ now < e) f) by (apply Forall_forall; intros kv I; apply IF in I; destruct I as ((e & _ & A & B) & _); eauto).
    clear - G LE. induction G as [|kv f (e & A & B) G IH]; cbn [map]; constructor; auto. unfold row_shows, krow_of. cbn [k_key k_value k_exp]. rewrite A. split; [reflexivity|]. split; [reflexivity|]. f_equal. lia.
Qed.
Print Assumptions C111_rows.
(** A page has at most the rows asked for, and says what was asked. *)
Theorem C111_page : forall V show now now2 sysnow limit offset search it, let p := store_page V show now now2 sysnow limit offset search it in
  p_limit V p = match limit with Some k => k | None => 500 end /\ p_offset V p = match offset with Some k => k | None => 0 end /\ lenN (p_keys V p) <= p_limit V p.
Proof.
  intros V show now now2 sysnow limit offset search it p. unfold p. rewrite page_scan. cbn [p_limit p_offset p_keys]. split; [reflexivity|]. split; [reflexivity|]. unfold lenN. rewrite map_length.
  unfold scan. cbn [fst]. match goal with |- context [filter ?f (takeN ?n ?x)] => pose proof (filter_length_le' _ f (takeN n x)) as A; assert (B : (length (takeN n x) <= N.to_nat n)%nat) by (unfold takeN; apply firstn_le_length) end. lia.
Qed.
Print Assumptions C111_page.
(** Keys and search are texts in UTF-8: the key is found by exactly the texts that are a part of it. *)
Theorem C111_search : forall s ns, Forall scalar s -> Forall scalar ns -> (has_text (Some (flat_map utf8_put s)) (flat_map utf8_put ns) <-> exists a b, ns = a ++ s ++ b).
Proof. intros s ns S F. apply infix_text; auto. Qed.
Print Assumptions C111_search.
(** The total is never less than the number of keys found, and with no search and
    nothing expired but not yet swept it is that number. *)
Theorem C111_total_partial : forall V show ticks dttl imax h it now now2 sysnow limit offset search l,
  Permutation it (srun ticks dttl imax h) -> Forall (fun c => c <= now) (sweeps h) ->
  (forall k, In k l <-> exists v e, spec_last ticks dttl imax k (rev h) = Some (v, e) /\ now < e /\ has_text search k) -> NoDup l ->
  let p := store_page V show now now2 sysnow limit offset search it in
  lenN l <= p_total V p /\ ((forall k v e, spec_last ticks dttl imax k (rev h) = Some (v, e) -> now < e) -> search = None -> p_total V p = lenN l).
Proof.
  intros V show ticks dttl imax h it now now2 sysnow limit offset search l P S L ND p. unfold p. rewrite page_scan. cbn [p_total].
  assert (NI : NoDup (map fst it)) by (eapply Permutation_NoDup; [|apply (run_NoDup ticks dttl imax h)]; apply Permutation_map; symmetry; exact P).
  assert (A : incl l (map fst it)).
  { intros k I. apply L in I. destruct I as (v & e & E & B & _). destruct (live_entries ticks dttl imax h now it (k, mkEntry v (Some e)) P S) as (_ & X). destruct X as (X & _); [exists e; auto|]. apply (in_map fst) in X. exact X. }
  pose proof (NoDup_incl_length ND A) as LE. rewrite map_length in LE. unfold lenN. split; [lia|]. intros AL ->.
  assert (B : incl (map fst it) l).
  { intros k I. apply in_map_iff in I. destruct I as ([k' en] & <- & I). cbn [fst]. apply L.
    assert (G : sget k' (srun ticks dttl imax h) = Some en) by (apply (In_aget beqb beqb_ok); [apply run_NoDup|eapply Permutation_in; eauto]).
    pose proof (held ticks dttl imax h k') as H. destruct (spec_last ticks dttl imax k' (rev h)) as [[v e]|] eqn:E; [|congruence]. exists v, e. split; [reflexivity|]. split; [eapply AL; eauto|exact Logic.I]. }
  pose proof (NoDup_incl_length NI B) as GE. rewrite map_length in GE. lia.
Qed.
Print Assumptions C111_total_partial.
(** In general it is more: keys that the search does not find are counted, and so are keys that have expired. *)
Theorem C111_total_refuted : exists V show ticks dttl imax h1 h2 now s,
  (forall k v e, spec_last ticks dttl imax k (rev h1) = Some (v, e) -> now < e /\ ~ has_text (Some s) k) /\
  p_total V (store_page V show now now now None None (Some s) (srun ticks dttl imax h1)) = 1 /\
  (forall k v e, spec_last ticks dttl imax k (rev h2) = Some (v, e) -> e <= now) /\
  p_total V (store_page V show now now now None None None (srun ticks dttl imax h2)) = 1.
Proof.
  exists bytes, (fun v => v), 1, 10, 1000, [OSet 0 [97] [1] (Some 100)], [OSet 0 [97] [1] (Some 5)], 50, [98]. split; [|split; [vm_compute; reflexivity|split; [|vm_compute; reflexivity]]].
  - intros k v e H. cbn in H. destruct k as [|k0 [|k1 k]]; cbn in H; try discriminate; try (rewrite andb_false_r in H; discriminate). rewrite andb_true_r in H. destruct (N.eqb_spec k0 97) as [->|]; [|discriminate]. injection H as _ <-. split; [lia|]. intro X. apply (matches_text (Some [98]) ([97], mkEntry [] None)) in X. vm_compute in X. discriminate.
  - intros k v e H. cbn in H. destruct (beqb k [97]); [|discriminate]. injection H as _ <-. lia.
Qed.
Print Assumptions C111_total_refuted.
(** Pages read one after the other while the sweeper runs can leave out a key that is there and live all the time. *)
Theorem C111_sweep_refuted : exists V show ticks dttl imax h now c now' k v e size, now <= c /\ c <= now' /\ now' < e /\ 0 < size /\
  spec_last ticks dttl imax k (rev (h ++ [OSweep c])) = Some (v, e) /\
  let one := store_page V show now now now (Some size) (Some 0) None (srun ticks dttl imax h) in
  let two := store_page V show now' now' now' (Some size) (Some size) None (srun ticks dttl imax (h ++ [OSweep c])) in
  lenN (p_keys V one) = size /\ p_total V one <= 2 * size /\ ~ In k (map (k_key V) (p_keys V one ++ p_keys V two)).
Proof.
  exists bytes, (fun v => v), 1, 10, 1000, [OSet 0 [97] [1] (Some 20); OSet 0 [98] [2] (Some 90)], 10, 30, 31, [98], [2], 90, 1.
  split; [lia|]. split; [lia|]. split; [lia|]. split; [lia|]. split; [vm_compute; reflexivity|]. cbv zeta. split; [vm_compute; reflexivity|]. split; [vm_compute; discriminate|]. vm_compute. intros [H|[]]. discriminate.
Qed.
Print Assumptions C111_sweep_refuted.
(** Not vacuous: three keys, one deleted, one expired but not swept; pages of one row; a search inside
    a text with characters of several bytes (the key is "né" and the search "é"). *)
Example C111_rows_example :
  let h := [OSet 0 [110; 195; 169] [1] (Some 100); OSet 1 [98] [2] (Some 5); OSet 2 [99] [3] None; OSweep 5; ODel [99]; OSet 6 [110; 195; 169] [7] (Some 60)] in
  let it := srun 1 10 1000 h in
  Forall (fun c => c <= 50) (sweeps h) /\ lenN it = 2 /\
  spec_last 1 10 1000 [110; 195; 169] (rev h) = Some ([7], 66) /\
  first_pages (fun off => store_page bytes (fun v => v) 50 51 (1000 + 51) (Some 1) (Some off) (Some (flat_map utf8_put [233])) it) 1 2 = [mkKrow bytes [110; 195; 169] [7] (Some 1066)] /\
  ~ has_text (Some (flat_map utf8_put [233])) [98].
Proof.
  cbv zeta. split; [repeat constructor; vm_compute; discriminate|]. split; [vm_compute; reflexivity|]. split; [vm_compute; reflexivity|]. split; [vm_compute; reflexivity|].
  intro X. apply (matches_text (Some (flat_map utf8_put [233])) ([98], mkEntry [] None)) in X. vm_compute in X. discriminate.
Qed.
