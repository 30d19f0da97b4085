(** Properties C13-C17: the key/value store. *)
From Verif Require Import LibBase LibMap StoreModel StoreProofs.

(** C13: with [spec_last], which scans the history backwards for the newest SET of the
    key that is not followed by a DEL: a GET whose clock reading is not before the
    sweeper's returns that value until it expires, and nothing after that. At the very
    instant of expiry it may be either; nothing only if the sweeper has looked at that
    same instant. *)
Theorem C13_last_write : forall ticks dttl imax h now k, Forall (fun c => c <= now) (sweeps h) ->
  let answer := snd (sstep ticks dttl imax (srun ticks dttl imax h) (OGet now k)) in
  match spec_last ticks dttl imax k (rev h) with
  | None => answer = SNull
  | Some (v, e) => (now < e -> answer = SData v) /\ (e < now -> answer = SNull) /\
      (now = e -> answer = SData v \/ answer = SNull /\ In e (sweeps h))
  end.
Proof. exact get_answer. Qed.
Print Assumptions C13_last_write.
(** ... which is the value, when the GET's clock reading is later than the sweeper's. *)
Theorem C13_after_sweeps : forall ticks dttl imax h now k,
  Forall (fun c => c < now) (sweeps h) ->
  snd (sstep ticks dttl imax (srun ticks dttl imax h) (OGet now k))
  = match spec_get ticks dttl imax now k (rev h) with Some v => SData v | None => SNull end.
Proof. exact get_response. Qed.
Print Assumptions C13_after_sweeps.
(** C13 without any clock hypothesis: whatever GET returns was set by the last
    effective write to the key and has not expired. *)
Theorem C13_sound : forall ticks dttl imax h now k v,
  do_get now k (srun ticks dttl imax h) = Some v ->
  exists h1 t ttl e h2, h = h1 ++ OSet t k v ttl :: h2 /\ expiry ticks dttl imax t ttl = Some e /\ now <= e /\
    Forall (leaves ticks dttl imax k) h2.
Proof. exact get_sound. Qed.
Print Assumptions C13_sound.
Example C13_example :
  let h := [OSet 1 [97] [1] (Some 5); OSet 2 [98] [2] None; ODel [98]; OSweep 3; OSet 4 [97] [9] (Some 2)] in
  Forall (fun c => c < 6) (sweeps h) /\
  map (fun k => snd (sstep 1 100 1000 (srun 1 100 1000 h) (OGet 6 k))) [[97]; [98]] = [SData [9]; SNull] /\
  spec_last 1 100 1000 [97] (rev h) = Some ([9], 6) /\ spec_last 1 100 1000 [98] (rev h) = None.
Proof. split; [repeat constructor; lia|vm_compute; auto]. Qed.

(** C14: exact life time of one value, whatever happens to other keys and
    however often the sweeper runs. *)
Theorem C14_ttl_exact : forall ticks dttl imax h1 t k v ttl e h2 now,
  expiry ticks dttl imax t ttl = Some e -> Forall (leaves ticks dttl imax k) h2 ->
  Forall (fun c => c < now) (sweeps (h1 ++ OSet t k v ttl :: h2)) ->
  do_get now k (srun ticks dttl imax (h1 ++ OSet t k v ttl :: h2)) = if now <=? e then Some v else None.
Proof. exact ttl_exact. Qed.
Print Assumptions C14_ttl_exact.
(** the expiry instant: TTL seconds, or the default when absent or zero *)
Theorem C14_expiry : forall ticks dttl imax t ttl e, expiry ticks dttl imax t ttl = Some e ->
  e = t + (match ttl with Some 0 => dttl | Some n => n | None => dttl end) * ticks.
Proof. exact expiry_value. Qed.
Print Assumptions C14_expiry.
(** an expired value is never returned, with no hypothesis on clocks *)
Theorem C14_never_after : forall ticks dttl imax h1 t k v ttl e h2 now,
  expiry ticks dttl imax t ttl = Some e -> Forall (leaves ticks dttl imax k) h2 -> e < now ->
  do_get now k (srun ticks dttl imax (h1 ++ OSet t k v ttl :: h2)) = None.
Proof. exact never_after. Qed.
Print Assumptions C14_never_after.
(** a TTL so large that the deadline is not representable makes the request
    panic: the store is unchanged and no response is sent *)
Theorem C14_huge_ttl_refuted : exists now ttl, snd (sstep 1000000000 3600 (2 ^ 63 * 1000000000) [] (OSet now [107] [1] (Some ttl))) = SPanic
  /\ ttl < 2 ^ 64.
Proof. exact huge_ttl. Qed.
Print Assumptions C14_huge_ttl_refuted.
Example C14_example : expiry 10 60 1000 5 (Some 3) = Some 35 /\ expiry 10 60 1000 5 (Some 0) = Some 605 /\
  do_get 35 [107] (srun 10 60 1000 [OSet 5 [107] [8] (Some 3); OSweep 34]) = Some [8] /\
  do_get 36 [107] (srun 10 60 1000 [OSet 5 [107] [8] (Some 3); OSweep 34]) = None.
Proof. vm_compute; auto. Qed.

(** C15: dropping all sweeps from a history changes no later GET ... *)
Theorem C15_sweep_invisible_partial : forall ticks dttl imax h now k,
  Forall (fun c => c < now) (sweeps h) ->
  do_get now k (srun ticks dttl imax h)
  = do_get now k (srun ticks dttl imax (filter (fun o => negb (is_sweep o)) h)).
Proof. exact sweep_invisible. Qed.
Print Assumptions C15_sweep_invisible_partial.
(** ... except at the exact expiry instant, where GET still returns the value
    but a sweep with the same clock reading has removed it. *)
Theorem C15_boundary_refuted : exists h1 h2 now k v,
  h2 = h1 ++ [OSweep now] /\ do_get now k (srun 1 10 1000 h1) = Some v /\ do_get now k (srun 1 10 1000 h2) = None.
Proof. exact sweep_boundary. Qed.
Print Assumptions C15_boundary_refuted.
Example C15_example : let h := [OSet 1 [97] [1] (Some 5); OSweep 2; OSweepKey 3 [97]; OSweep 5] in
  Forall (fun c => c < 6) (sweeps h) /\ do_get 6 [97] (srun 1 9 99 h) = Some [1].
Proof. split; [repeat constructor; lia|vm_compute; reflexivity]. Qed.

(** C16: only operations on the key itself (and sweeps) matter. *)
Theorem C16_keys_independent : forall ticks dttl imax h now k,
  do_get now k (srun ticks dttl imax h) = do_get now k (srun ticks dttl imax (filter (concerns k) h)).
Proof. exact keys_independent. Qed.
Print Assumptions C16_keys_independent.
Example C16_example : let h := [OSet 1 [97] [1] None; OSet 2 [98] [2] None; ODel [97]; OGet 3 [99]] in
  filter (concerns [98]) h = [OSet 2 [98] [2] None] /\ do_get 3 [98] (srun 1 9 99 h) = Some [2].
Proof. vm_compute; auto. Qed.

(** C17: a listing (for any iteration order [it] of the store [s]). *)
Theorem C17_sound : forall now limit offset f it s k en,
  Permutation it s -> NoDup (akeys s) -> In (k, en) (fst (scan now limit offset f it)) ->
  do_get now k s = Some (e_val en) /\ (forall n, f = Some n -> exists a b, k = a ++ n ++ b) /\
  lenN (fst (scan now limit offset f it)) <= limit.
Proof. exact scan_sound_full. Qed.
Print Assumptions C17_sound.
Theorem C17_no_duplicates : forall now limit offset f it s, Permutation it s -> NoDup (akeys s) ->
  NoDup (map fst (fst (scan now limit offset f it))).
Proof. exact scan_NoDup. Qed.
Print Assumptions C17_no_duplicates.
(** paging through the store shows exactly the live matching entries *)
Theorem C17_pages_complete : forall now limit f it n, lenN it <= N.of_nat n * limit ->
  pages now limit f it n = filter (live now) (filter (matches f) it).
Proof. exact pages_complete. Qed.
Print Assumptions C17_pages_complete.
(** but a short page does not mean the end: expired entries are dropped after
    the page was cut *)
Theorem C17_short_page_refuted : exists now limit offset f it kv,
  NoDup (akeys it) /\ In kv (dropN (offset + limit) (filter (matches f) it)) /\ live now kv = true /\
  lenN (fst (scan now limit offset f it)) < limit.
Proof. exact scan_short_refuted. Qed.
Print Assumptions C17_short_page_refuted.
(** every reachable store satisfies the no-duplicate hypothesis *)
Theorem C17_reachable : forall ticks dttl imax h, NoDup (akeys (srun ticks dttl imax h)).
Proof. exact run_NoDup. Qed.
Print Assumptions C17_reachable.
Example C17_example : let s := srun 1 100 1000 [OSet 1 [97; 98] [1] None; OSet 2 [98] [2] (Some 3); OSet 3 [99; 98; 97] [4] None] in
  map fst (pages 50 1 (Some [98]) s 3) = [[97; 98]; [99; 98; 97]].
Proof. vm_compute; reflexivity. Qed.
