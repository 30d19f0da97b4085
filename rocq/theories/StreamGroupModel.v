(** Consumer groups (stream/domain/group.rs). *)
From Verif Require Import LibBase LibMap StreamTopicModel.

(** group.rs:16-20 *)
Record pmsg := mkP { p_cons : N; p_at : N; p_cnt : N }.
(** group.rs:38-40 *)
Record gcfg := mkGc { max_pend : N; ack_wait : N; max_del : N }.
(** group.rs:26-46. Consumer and connection ids (UUID strings) are numbers. Hash maps
    are association lists; where their iteration order matters it is a parameter.
    The cancellation token is a number: a token taken earlier is cancelled iff it
    differs from the current one. *)
Record group := mkG {
  g_floor : N; g_next : N; g_pend : list (N * pmsg); g_red : list N; g_park : list N;
  g_att : list (N * N); g_mem : list (N * N); g_cold : bool; g_gen : N; g_tok : N }.

Definition set_floor f g := mkG f (g_next g) (g_pend g) (g_red g) (g_park g) (g_att g) (g_mem g) (g_cold g) (g_gen g) (g_tok g).
Definition set_next n g := mkG (g_floor g) n (g_pend g) (g_red g) (g_park g) (g_att g) (g_mem g) (g_cold g) (g_gen g) (g_tok g).
Definition set_pend p g := mkG (g_floor g) (g_next g) p (g_red g) (g_park g) (g_att g) (g_mem g) (g_cold g) (g_gen g) (g_tok g).
Definition set_red r g := mkG (g_floor g) (g_next g) (g_pend g) r (g_park g) (g_att g) (g_mem g) (g_cold g) (g_gen g) (g_tok g).
Definition set_park p g := mkG (g_floor g) (g_next g) (g_pend g) (g_red g) p (g_att g) (g_mem g) (g_cold g) (g_gen g) (g_tok g).
Definition set_att a g := mkG (g_floor g) (g_next g) (g_pend g) (g_red g) (g_park g) a (g_mem g) (g_cold g) (g_gen g) (g_tok g).
Definition set_mem m g := mkG (g_floor g) (g_next g) (g_pend g) (g_red g) (g_park g) (g_att g) m (g_cold g) (g_gen g) (g_tok g).
Definition set_cold b g := mkG (g_floor g) (g_next g) (g_pend g) (g_red g) (g_park g) (g_att g) (g_mem g) b (g_gen g) (g_tok g).
(** group.rs:266-270 invalidate_inflight *)
Definition new_token g := mkG (g_floor g) (g_next g) (g_pend g) (g_red g) (g_park g) (g_att g) (g_mem g) (g_cold g) (g_gen g) (g_tok g + 1).

Definition pget (s : N) (m : list (N * pmsg)) : option pmsg := aget N.eqb s m.
Definition agetN (s : N) (m : list (N * N)) : option N := aget N.eqb s m.
Definition isSome {A} (o : option A) : bool := match o with Some _ => true | None => false end.

(** group.rs:49-67 *)
Definition group_new (head : N) : group :=
  let h := N.max head 1 in mkG (h - 1) h [] [] [] [] [] false 1 0.
(** group.rs:73-91 (saturation at 2^64 not modelled) *)
Definition group_restore (floor head : N) : group :=
  let f := N.max floor (head - 1) in mkG f (N.max (f + 1) (N.max head 1)) [] [] [] [] [] false 1 0.

(** group.rs:350-357; the loop runs at most [next - floor] times *)
Fixpoint advance (fuel : nat) (floor next : N) (pend : list (N * pmsg)) (red : list N) : N :=
  match fuel with
  | O => floor
  | S f => if (floor + 1 <? next) && negb (isSome (pget (floor + 1) pend)) && negb (nmem (floor + 1) red)
           then advance f (floor + 1) next pend red else floor
  end.
Definition try_advance_floor (g : group) : group :=
  set_floor (advance (N.to_nat (g_next g - g_floor g)) (g_floor g) (g_next g) (g_pend g) (g_red g)) g.

Definition lenb {A} (a b : list A) : bool := lenN a =? lenN b.
(** group.rs:201-249 *)
Definition clamp_head (head : N) (g : group) : group * bool :=
  let h := N.max head 1 in
  let floor := if g_floor g <? h - 1 then h - 1 else g_floor g in
  let next := if g_next g <? h then h else g_next g in
  let pend := filter (fun kv => h <=? fst kv) (g_pend g) in
  let stale := filter (fun s => s <? h) (akeys (g_pend g)) in
  let att1 := filter (fun kv => negb (nmem (fst kv) stale)) (g_att g) in
  let red := filter (fun s => h <=? s) (g_red g) in
  let park := filter (fun s => h <=? s) (g_park g) in
  let att := filter (fun kv => h <=? fst kv) att1 in
  let changed := (g_floor g <? h - 1) || (g_next g <? h) || negb (lenb pend (g_pend g)) ||
                 negb (lenb red (g_red g)) || negb (lenb park (g_park g)) || negb (lenb att att1) in
  let g1 := mkG floor next pend red park att (g_mem g) (g_cold g) (g_gen g) (g_tok g) in
  if changed then (new_token (try_advance_floor (set_cold false g1)), true) else (g1, false).

(** group.rs:251-253 *)
Definition next_fetch_seq (head : N) (g : group) : N :=
  N.max (match g_red g with s :: _ => s | [] => g_next g end) (N.max head 1).

Inductive gerr := Fenced | NotMember | NotOwner | NotPending (seq : N).
(** group.rs:367-375 *)
Definition ensure_active (c gen : N) (g : group) : option gerr :=
  if negb (gen =? g_gen g) then Some Fenced
  else if isSome (agetN c (g_mem g)) then None else Some NotMember.

(** group.rs:278-284; [c]: the fresh consumer id *)
Definition add_member (c conn : N) (g : group) : group := set_mem (aset N.eqb c conn (g_mem g)) g.

Section Cfg.
  Variable cfg : gcfg.

  (** group.rs:69-71 *)
  Definition is_backpressured (g : group) : bool := max_pend cfg <=? lenN (g_pend g).

  (** group.rs:377-393 (the count is u32 saturating; it never exceeds max_deliveries) *)
  Definition issue_delivery (c now : N) (m : msg) (g : group) : group * option msg :=
    let n := match agetN (m_seq m) (g_att g) with Some k => k | None => 0 end + 1 in
    if max_del cfg <? n then
      (try_advance_floor (set_att (adel N.eqb (m_seq m) (g_att g)) (set_park (nins (m_seq m) (g_park g)) g)), None)
    else (set_pend (aset N.eqb (m_seq m) (mkP c now n) (g_pend g)) (set_att (aset N.eqb (m_seq m) n (g_att g)) g), Some m).

  (** group.rs:395-402 *)
  Definition release_seq (s cnt : N) (g : group) : group :=
    if max_del cfg <=? cnt then set_att (adel N.eqb s (g_att g)) (set_park (nins s (g_park g)) g)
    else if nmem s (g_red g) then g else set_red (g_red g ++ [s]) g.

  (** entries of a hash map in an arbitrary order: [ord] names the keys coming first *)
  Definition in_order_of (ord : list N) (l : list (N * pmsg)) : list (N * pmsg) :=
    flat_map (fun s => match pget s l with Some p => [(s, p)] | None => [] end) (nodup N.eq_dec ord) ++ filter (fun kv => negb (nmem (fst kv) ord)) l.
  Definition release_one (g : group) (kv : N * pmsg) : group :=
    release_seq (fst kv) (p_cnt (snd kv)) (set_pend (adel N.eqb (fst kv) (g_pend g)) g).

  (** group.rs:404-416 *)
  Definition release_consumer (ord : list N) (c : N) (g : group) : group :=
    try_advance_floor (fold_left release_one (in_order_of ord (filter (fun kv => p_cons (snd kv) =? c) (g_pend g))) g).
  (** group.rs:286-293; result: its connection *)
  Definition remove_member (ord : list N) (c : N) (g : group) : group * option N :=
    match agetN c (g_mem g) with
    | Some conn => (new_token (release_consumer ord c (set_mem (adel N.eqb c (g_mem g)) g)), Some conn)
    | None => (g, None)
    end.
  (** group.rs:167-187 *)
  Definition check_redelivery (ord : list N) (now : N) (g : group) : group * bool :=
    match filter (fun kv => ack_wait cfg <? now - p_at (snd kv)) (g_pend g) with
    | [] => (g, false)
    | ex => (try_advance_floor (fold_left release_one (in_order_of ord ex) g), true)
    end.

  (** group.rs:150-164 *)
  Definition ack (c gen s : N) (g : group) : group * option gerr :=
    match ensure_active c gen g with
    | Some e => (g, Some e)
    | None =>
      match pget s (g_pend g) with
      | Some p => if p_cons p =? c then
          (try_advance_floor (set_park (nrem s (g_park g)) (set_att (adel N.eqb s (g_att g)) (set_pend (adel N.eqb s (g_pend g)) g))), None)
        else (g, Some NotOwner)
      | None => (g, Some (NotPending s))
      end
    end.

  (** group.rs:255-264 (saturation of the generation at 2^64 not modelled) *)
  Definition reset_runtime (g : group) : group :=
    new_token (mkG (g_floor g) (g_next g) [] [] [] [] [] false (g_gen g + 1) (g_tok g)).
  (** group.rs:189-199 *)
  Definition seek_beginning (head : N) (g : group) : group := reset_runtime (set_next (N.max head 1) (set_floor (N.max head 1 - 1) g)).
  Definition seek_end (last : N) (g : group) : group := reset_runtime (set_next (last + 1) (set_floor last g)).

  (** group.rs:106-127: redeliveries; [red] is the redelivery queue left *)
  Fixpoint fetch_red (c now : N) (log : list msg) (ram head budget : N) (red : list N) (res : list msg) (g : group) : group * list msg :=
    match red with
    | [] => (set_red [] g, res)
    | s :: red' =>
      if budget <=? lenN res then (set_red red g, res)
      else if s <? head then
        fetch_red c now log ram head budget red' res (set_park (nrem s (g_park g)) (set_att (adel N.eqb s (g_att g)) (set_red red' g)))
      else match read_from_log log ram s with
           | Some m =>
             let (g1, o) := issue_delivery c now m (set_red red' g) in
             fetch_red c now log ram head budget red' (match o with Some m' => res ++ [m'] | None => res end) g1
           | None => (set_red red g, res)
           end
    end.
  (** group.rs:130-144: fresh messages; every round takes a further message of the log *)
  Fixpoint fetch_new (fuel : nat) (c now : N) (log : list msg) (ram head budget : N) (res : list msg) (g : group) : group * list msg :=
    match fuel with
    | O => (g, res)
    | S f =>
      if budget <=? lenN res then (g, res)
      else
        let s := N.max (g_next g) head in
        let g := if g_next g <? head then set_floor (N.max (g_floor g) (head - 1)) (set_next head g) else g in
        match read_from_log log ram s with
        | Some m =>
          let (g1, o) := issue_delivery c now m (set_next (s + 1) g) in
          fetch_new f c now log ram head budget (match o with Some m' => res ++ [m'] | None => res end) g1
        | None => (g, res)
        end
    end.
  (** group.rs:94-147 *)
  Definition fetch (c gen limit now : N) (log : list msg) (ram head : N) (g : group) : group * (gerr + list msg) :=
    match ensure_active c gen g with
    | Some e => (g, inl e)
    | None =>
      let g := fst (clamp_head head g) in
      if max_pend cfg <=? lenN (g_pend g) then (g, inr [])
      else
        let budget := N.min limit (max_pend cfg - lenN (g_pend g)) in
        let (g1, r1) := fetch_red c now log ram head budget (g_red g) [] g in
        let (g2, r2) := fetch_new (S (length log)) c now log ram head budget r1 g1 in
        (g2, inr r2)
    end.

  (** group.rs:312-345, one message *)
  Definition cold_one (c now head : N) (acc : group * list msg) (m : msg) : group * list msg :=
    let (g, res) := acc in
    let s := m_seq m in
    if s <? head then (g, res)
    else
      let redel := nmem s (g_red g) in
      let g := if redel then set_red (nrem s (g_red g)) g else g in
      let fresh_seq := N.max (g_next g) (N.max head 1) in
      let g := if g_next g <? head then set_floor (N.max (g_floor g) (head - 1)) (set_next head g) else g in
      let is_fresh := s =? fresh_seq in
      if redel || is_fresh then
        let g := if is_fresh then set_next (s + 1) g else g in
        let (g1, o) := issue_delivery c now m g in
        (g1, match o with Some m' => res ++ [m'] | None => res end)
      else (g, res).
  Fixpoint cold_loop (c now head : N) (ms : list msg) (acc : group * list msg) : group * list msg :=
    match ms with
    | [] => acc
    | m :: r => if max_pend cfg <=? lenN (g_pend (fst acc)) then acc else cold_loop c now head r (cold_one c now head acc m)
    end.
  (** group.rs:306-348 *)
  Definition register_cold (c gen now : N) (ms : list msg) (head : N) (g : group) : group * (gerr + list msg) :=
    match ensure_active c gen g with
    | Some e => (g, inl e)
    | None => let (g1, r) := cold_loop c now head ms (fst (clamp_head head g), []) in (g1, inr r)
    end.
End Cfg.
