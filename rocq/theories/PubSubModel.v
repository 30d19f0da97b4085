(** Pub/sub broker: topic tree, client registry, retained messages
    (src/brokers/pub-sub). Topics, patterns and payloads are byte strings, client
    ids are numbers (in the code: the text of a UUID). *)
From Verif Require Import LibBase LibMap.

Definition level := bytes.
Definition slash : N := 47.
(** the levels "+" and "#" *)
Definition lplus : level := [43].
Definition lhash : level := [35].

(** str::split('/') (pub-sub/manager.rs:36,116,130,148,154): always at least one part. *)
Fixpoint split (s : bytes) : list level :=
  match s with
  | [] => [[]]
  | b :: s' => if b =? slash then [] :: split s' else match split s' with [] => [[b]] | w :: ws => (b :: w) :: ws end
  end.

(** domain/retained.rs:8-13. [rt_exp]: the Instant; [rt_unix]: seconds since the epoch.
    Simplification: Instant and SystemTime read the same clock, in ticks
    ([ticks] per second), and the clock is never set back. *)
Record retained := mkRet { rt_data : bytes; rt_exp : option N; rt_unix : option N }.

Section Clock.
  (** ticks per second; last representable Instant *)
  Variables (ticks inst_max : N).

  (** retained.rs:16-25; None: `Instant + Duration` overflows and panics. *)
  Definition ret_new (now : N) (data : bytes) (ttl : N) : option retained :=
    if now + ttl * ticks <=? inst_max then Some (mkRet data (Some (now + ttl * ticks)) (Some (now / ticks + ttl))) else None.

  (** retained.rs:27-29 *)
  Definition is_expired (now : N) (r : retained) : bool :=
    match rt_exp r with Some e => e <=? now | None => false end.

  (** retained.rs:31-42. Simplification: the addition is taken not to overflow. *)
  Definition from_persisted (now : N) (data : bytes) (unix : option N) : retained :=
    mkRet data
      (match unix with
       | Some u => if now / ticks <? u then Some (now + (u - now / ticks) * ticks) else None
       | None => None
       end) unix.
End Clock.

(** domain/radix_tree.rs:10-24: children, plus_child, hash_child, subscribers, retained *)
Inductive node := Node (ch : list (level * node)) (plus hash : option node) (subs : list N) (ret : option retained).
Definition n_ch (n : node) := let (c, _, _, _, _) := n in c.
Definition n_plus (n : node) := let (_, p, _, _, _) := n in p.
Definition n_hash (n : node) := let (_, _, h, _, _) := n in h.
Definition n_subs (n : node) := let (_, _, _, s, _) := n in s.
Definition n_ret (n : node) := let (_, _, _, _, r) := n in r.

(** radix_tree.rs:27-35 *)
Definition node0 : node := Node [] None None [] None.
Definition or_new (o : option node) : node := match o with Some n => n | None => node0 end.
Definition is_nil {A} (l : list A) : bool := match l with [] => true | _ => false end.
Definition is_none {A} (o : option A) : bool := match o with None => true | _ => false end.

(** radix_tree.rs:37-43 *)
Definition n_empty (n : node) : bool :=
  is_nil (n_subs n) && is_nil (n_ch n) && is_none (n_plus n) && is_none (n_hash n) && is_none (n_ret n).

(** radix_tree.rs:45-64 *)
Fixpoint insert_sub (parts : list level) (c : N) (n : node) : node :=
  let (ch, p, h, s, r) := n in
  match parts with
  | [] => Node ch p h (nins c s) r
  | x :: tl =>
    if beqb x lhash then
      let (ch', p', h', s', r') := or_new h in Node ch p (Some (Node ch' p' h' (nins c s') r')) s r
    else if beqb x lplus then Node ch (Some (insert_sub tl c (or_new p))) h s r
    else Node (aset beqb x (insert_sub tl c (or_new (aget beqb x ch))) ch) p h s r
  end.

(** radix_tree.rs:66-107 *)
Fixpoint remove_sub (parts : list level) (c : N) (n : node) : node * bool :=
  let (ch, p, h, s, r) := n in
  let n' :=
    match parts with
    | [] => Node ch p h (nrem c s) r
    | x :: tl =>
      if beqb x lhash then
        match h with
        | Some (Node ch' p' h' s' r') =>
          let hn := Node ch' p' h' (nrem c s') r' in
          Node ch p (if n_empty hn then None else Some hn) s r
        | None => n
        end
      else if beqb x lplus then
        match p with
        | Some pn => let (pn', b) := remove_sub tl c pn in Node ch (if b then None else Some pn') h s r
        | None => n
        end
      else
        match aget beqb x ch with
        | Some cn => let (cn', b) := remove_sub tl c cn in Node (if b then adel beqb x ch else aset beqb x cn' ch) p h s r
        | None => n
        end
    end in
  (n', n_empty n').

(** radix_tree.rs:109-134 *)
Fixpoint match_subs (parts : list level) (n : node) : list N :=
  let (ch, p, h, s, r) := n in
  (match h with Some hn => n_subs hn | None => [] end) ++
  match parts with
  | [] => s
  | x :: tl =>
    (match aget beqb x ch with Some cn => match_subs tl cn | None => [] end) ++
    (match p with Some pn => match_subs tl pn | None => [] end)
  end.

(** radix_tree.rs:136-142 *)
Fixpoint set_ret (parts : list level) (v : option retained) (n : node) : node :=
  let (ch, p, h, s, r) := n in
  match parts with
  | [] => Node ch p h s v
  | x :: tl => Node (aset beqb x (set_ret tl v (or_new (aget beqb x ch))) ch) p h s r
  end.

(** radix_tree.rs:159,166,179,191 *)
Definition join1 (path : bytes) (key : level) : bytes :=
  match path with [] => key | _ => path ++ slash :: key end.

Definition live_here {A} (now : N) (r : option retained) (f : retained -> A) : list A :=
  match r with Some v => if is_expired now v then [] else [f v] | None => [] end.

(** radix_tree.rs:172-194 (collect_all_retained_for_subscribe and
    collect_all_retained differ only in what they copy). Simplification: one clock
    reading per traversal; children are visited in the list's order (a HashMap in
    the code), results are only used up to permutation. *)
Fixpoint collect_all (now : N) (path : bytes) (n : node) {struct n} : list (bytes * retained) :=
  let (ch, _, _, _, r) := n in
  live_here now r (fun v => (path, v)) ++
  flat_map (fun kv => collect_all now (join1 path (fst kv)) (snd kv)) ch.

(** radix_tree.rs:144-170 *)
Fixpoint collect_pat (now : N) (pat : list level) (path : bytes) (n : node) : list (bytes * retained) :=
  let (ch, _, _, _, r) := n in
  match pat with
  | [] => live_here now r (fun v => (path, v))
  | x :: tl =>
    if beqb x lplus then flat_map (fun kv => collect_pat now tl (join1 path (fst kv)) (snd kv)) ch
    else if beqb x lhash then collect_all now path n
    else match aget beqb x ch with Some cn => collect_pat now tl (join1 path x) cn | None => [] end
  end.

(** radix_tree.rs:196-225 *)
Fixpoint cleanup (now : N) (n : node) : node :=
  let (ch, p, h, s, r) := n in
  Node (map (fun kv => (fst kv, cleanup now (snd kv))) ch) (option_map (cleanup now) p) (option_map (cleanup now) h) s
    (match r with Some v => if is_expired now v then None else r | None => None end).

(** its return value: something was removed *)
Fixpoint cleaned (now : N) (n : node) : bool :=
  let (ch, p, h, s, r) := n in
  (match r with Some v => is_expired now v | None => false end) || existsb (fun kv => cleaned now (snd kv)) ch ||
  (match p with Some pn => cleaned now pn | None => false end) || (match h with Some hn => cleaned now hn | None => false end).

(** types.rs:12-15. [ci_open]: the receiving end of the channel still exists. *)
Record cinfo := mkCi { ci_subs : list bytes; ci_open : bool }.
(** manager.rs:17-22 (the configuration is a parameter; [ps_dirty] = retained_dirty) *)
Record pubsub := mkPs { ps_tree : node; ps_cl : list (N * cinfo); ps_dirty : bool }.
Definition ps0 : pubsub := mkPs node0 [] false.

Definition bins (x : bytes) (l : list bytes) : list bytes := if existsb (beqb x) l then l else l ++ [x].
Definition brem (x : bytes) (l : list bytes) : list bytes := filter (fun y => negb (beqb y x)) l.
Definition cget (c : N) (m : list (N * cinfo)) : option cinfo := aget N.eqb c m.

(** manager.rs:105-110 *)
Definition connect (c : N) (s : pubsub) : pubsub := mkPs (ps_tree s) (aset N.eqb c (mkCi [] true) (ps_cl s)) (ps_dirty s).

Definition unsub_all (c : N) (pats : list bytes) (t : node) : node :=
  fold_left (fun t p => fst (remove_sub (split p) c t)) pats t.
(** manager.rs:112-120 *)
Definition disconnect (c : N) (s : pubsub) : pubsub :=
  match cget c (ps_cl s) with
  | Some i => mkPs (unsub_all c (ci_subs i) (ps_tree s)) (adel N.eqb c (ps_cl s)) (ps_dirty s)
  | None => s
  end.

(** manager.rs:138 *)
Definition strip1 (p : bytes) : bytes := match p with b :: p' => if b =? slash then p' else p | [] => [] end.

(** one queued push: topic and payload *)
Definition push := (bytes * bytes)%type.
Definition retained_pushes (now : N) (pat : bytes) (t : node) : list push :=
  map (fun x => (strip1 (fst x), rt_data (snd x))) (collect_pat now (split pat) [] t).

(** manager.rs:122-142; the pushes are queued to the client's channel (nobody gets
    them if its receiver is gone). *)
Definition subscribe (now : N) (c : N) (pat : bytes) (s : pubsub) : pubsub * list (N * push) :=
  match cget c (ps_cl s) with
  | None => (s, [])
  | Some i =>
    let t := insert_sub (split pat) c (ps_tree s) in
    (mkPs t (aset N.eqb c (mkCi (bins pat (ci_subs i)) (ci_open i)) (ps_cl s)) (ps_dirty s),
     if ci_open i then map (fun m => (c, m)) (retained_pushes now pat t) else [])
  end.

(** manager.rs:144-151 *)
Definition unsubscribe (c : N) (pat : bytes) (s : pubsub) : pubsub :=
  let cl := match cget c (ps_cl s) with
            | Some i => aset N.eqb c (mkCi (brem pat (ci_subs i)) (ci_open i)) (ps_cl s)
            | None => ps_cl s
            end in
  mkPs (fst (remove_sub (split pat) c (ps_tree s))) cl (ps_dirty s).

(** manager.rs:174-175: keep the first occurrence of each client *)
Fixpoint dedup (seen l : list N) : list N :=
  match l with
  | [] => []
  | x :: l' => if nmem x seen then dedup seen l' else x :: dedup (x :: seen) l'
  end.

(** manager.rs:182-183 *)
Definition reachable_client (cl : list (N * cinfo)) (c : N) : bool :=
  match cget c cl with Some i => ci_open i | None => false end.

Section Publish.
  Variables (ticks inst_max default_ttl : N).

  (** manager.rs:157-166; None: the computation of the expiry panics *)
  Definition retain_step (now : N) (topic data : bytes) (retain : bool) (ttl : option N) (s : pubsub) : option pubsub :=
    if retain then
      match data with
      | [] => Some (mkPs (set_ret (split topic) None (ps_tree s)) (ps_cl s) true)
      | _ =>
        match ret_new ticks inst_max now data (match ttl with Some t => t | None => default_ttl end) with
        | Some r => Some (mkPs (set_ret (split topic) (Some r) (ps_tree s)) (ps_cl s) true)
        | None => None
        end
      end
    else Some s.

  (** manager.rs:153-198; the result is the list of deliveries; its length is the
      returned sent_count. None: panic, the request gets no answer. *)
  Definition publish (now : N) (topic data : bytes) (retain : bool) (ttl : option N) (s : pubsub) : pubsub * option (list (N * push)) :=
    match retain_step now topic data retain ttl s with
    | None => (s, None)
    | Some s1 =>
      let matched := dedup [] (match_subs (split topic) (ps_tree s1)) in
      let ok := filter (reachable_client (ps_cl s1)) matched in
      let zombies := filter (fun c => negb (reachable_client (ps_cl s1) c)) matched in
      (fold_left (fun s c => disconnect c s) zombies s1, Some (map (fun c => (c, (topic, data))) ok))
    end.

  (** Requests and events, each run atomically here (PubSubConc.v has the
      interleavings). [PClose]: the receiving end of the client's channel is dropped
      (its connection ended). [PClean]: one run of the clean-up task, manager.rs:85-94. *)
  Inductive pop :=
  | PConnect (c : N) | PDisconnect (c : N) | PClose (c : N)
  | PSub (c : N) (pat : bytes) (now : N) | PUnsub (c : N) (pat : bytes)
  | PPub (topic data : bytes) (retain : bool) (ttl : option N) (now : N)
  | PClean (now : N).

  Definition pstep1 (o : pop) (s : pubsub) : pubsub * option (list (N * push)) :=
    match o with
    | PConnect c => (connect c s, Some [])
    | PDisconnect c => (disconnect c s, Some [])
    | PClose c => (mkPs (ps_tree s) (match cget c (ps_cl s) with Some i => aset N.eqb c (mkCi (ci_subs i) false) (ps_cl s) | None => ps_cl s end) (ps_dirty s), Some [])
    | PSub c pat now => let (s', l) := subscribe now c pat s in (s', Some l)
    | PUnsub c pat => (unsubscribe c pat s, Some [])
    | PPub topic data rt ttl now => publish now topic data rt ttl s
    | PClean now => (mkPs (cleanup now (ps_tree s)) (ps_cl s) (ps_dirty s || cleaned now (ps_tree s)), Some [])
    end.

  Definition prun (h : list pop) (s : pubsub) : pubsub := fold_left (fun s o => fst (pstep1 o s)) h s.
End Publish.
