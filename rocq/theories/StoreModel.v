(** Model of the key/value store (src/brokers/store). *)
From Verif Require Import LibBase LibMap.

(** src/brokers/store/domain/map.rs:8-12 (Entry). [set] always fills
    [expires_at] (map.rs:58-63), so the Option is kept but is never None. *)
Record sentry := mkEntry { e_val : bytes; e_exp : option N }.
(** map.rs:16 DashMap<String, Entry>: association list without duplicate keys;
    its order stands for the unspecified iteration order. Each map operation of
    DashMap is atomic (shard lock), so a history is a sequence of operations. *)
Definition store := list (bytes * sentry).
Definition sget := @aget bytes sentry beqb.

Section Store.
  (** ticks per second of the clock; config.default_ttl_secs; largest
      representable Instant *)
  Variables (ticks default_ttl inst_max : N).

  (** map.rs:58-63: the instant at which the value expires; `Instant + Duration`
      panics on overflow ([None]). *)
  Definition expiry (now : N) (ttl : option N) : option N :=
    let secs := match ttl with Some n => if n =? 0 then default_ttl else n | None => default_ttl end in
    let e := now + secs * ticks in
    if e <=? inst_max then Some e else None.
  (** map.rs:65-68 *)
  Definition do_set (k v : bytes) (e : N) (s : store) : store := aput beqb k (mkEntry v (Some e)) s.
  (** map.rs:71-82 *)
  Definition do_get (now : N) (k : bytes) (s : store) : option bytes :=
    match sget k s with
    | Some en =>
        match e_exp en with
        | Some x => if x <? now then None else Some (e_val en)
        | None => Some (e_val en)
        end
    | None => None
    end.
  (** map.rs:84-86 *)
  Definition do_del (k : bytes) (s : store) : store := adel beqb k s.
  (** map.rs:38-44 (one sweep; DashMap::retain locks shard by shard, a sweep
      interleaved with other operations is covered by sweeping with several
      [OSweep]s because every retained/removed decision is per entry) *)
  Definition kept (now : N) (kv : bytes * sentry) : bool :=
    match e_exp (snd kv) with Some x => now <? x | None => true end.
  Definition do_sweep (now : N) (s : store) : store := filter (kept now) s.

  (** Operations with the clock value the code reads while executing them.
      [OSweepKey] is the sweeper visiting a single entry. *)
  Inductive sop :=
  | OSet (now : N) (k v : bytes) (ttl : option N)
  | OGet (now : N) (k : bytes)
  | ODel (k : bytes)
  | OSweep (now : N)
  | OSweepKey (now : N) (k : bytes).
  (** What the client sees (src/brokers/store/tcp.rs:72-87); [SPanic]: the
      request's task panics, no response is sent. *)
  Inductive sout := SOk | SData (v : bytes) | SNull | SPanic | SSilent.
  Definition sstep (s : store) (o : sop) : store * sout :=
    match o with
    | OSet now k v ttl =>
        match expiry now ttl with
        | Some e => (do_set k v e s, SOk)
        | None => (s, SPanic)
        end
    | OGet now k => (s, match do_get now k s with Some v => SData v | None => SNull end)
    | ODel k => (do_del k s, SOk)
    | OSweep now => (do_sweep now s, SSilent)
    | OSweepKey now k => (filter (fun kv => negb (beqb k (fst kv)) || kept now kv) s, SSilent)
    end.
  Definition srun (h : list sop) : store := fold_left (fun s o => fst (sstep s o)) h [].
End Store.

(** `str::contains` on byte strings *)
Fixpoint prefixb (p l : bytes) : bool :=
  match p, l with
  | [], _ => true
  | x :: p', y :: l' => (x =? y) && prefixb p' l'
  | _ :: _, [] => false
  end.
Fixpoint contains (needle hay : bytes) : bool :=
  prefixb needle hay || match hay with [] => false | _ :: h' => contains needle h' end.

(** src/brokers/store/manager.rs:20-51; the entries come in iteration order.
    [take] is usize::MAX-safe because lists are finite. *)
Definition matches (f : option bytes) (kv : bytes * sentry) : bool :=
  match f with Some n => contains n (fst kv) | None => true end.
Definition live (now : N) (kv : bytes * sentry) : bool :=
  match e_exp (snd kv) with Some x => negb (x <=? now) | None => true end.
Definition scan (now limit offset : N) (f : option bytes) (it : store) : list (bytes * sentry) * N :=
  (filter (live now) (takeN limit (dropN offset (filter (matches f) it))), lenN it).
