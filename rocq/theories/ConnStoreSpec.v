(** What it means that the requests of a connection to the store, and those of all
    others, took effect one after another. Small definitions, independent of the
    handler in ConnStore.v. *)
From Verif Require Import LibBase LibMap WireModel CmdModel StoreModel ConnModel ConnStore.

(** A line of the history: the number of the request on this connection ([None]: another
    connection or the sweeper), the time, the operation. *)
Definition entry : Type := option nat * N * sop.
Definition who (e : entry) : option nat := fst (fst e).
Definition time (e : entry) : N := snd (fst e).
Definition act (e : entry) : sop := snd e.

Definition is_store (c : command) : Prop := match c with SSet _ _ _ | SGet _ | SDel _ => True | _ => False end.
(** the operation a command asks for at time [t] *)
Definition asks (ttl_of : bytes -> option N) (c : command) (t : N) (o : sop) : Prop :=
  match c with
  | SSet k j v => o = OSet t k v (ttl_of j)
  | SGet k => o = OGet t k
  | SDel k => o = ODel k
  | _ => False
  end.
(** the response that tells an outcome *)
Definition says (x : sout) (r : response) : Prop :=
  match x with SOk => r = ROk | SData v => r = RData v | SNull => r = RNull | _ => False end.
(** the store after the operations of a history, one after another *)
Definition after (ticks dttl imax : N) (st : store) (h : list entry) : store :=
  fold_left (fun s e => fst (sstep ticks dttl imax s (act e))) h st.
Definition is_other (e : entry) : bool := match who e with None => true | Some _ => false end.
Definition mine (h : list entry) : list nat := flat_map (fun e => match who e with Some n => [n] | None => [] end) h.
(** the operations of others in a run *)
Definition others (xs : list (cop sx)) : list sop := flat_map (fun x => match x with KExt _ (SXOp o) => [o] | _ => [] end) xs.

(** operations and commands that change what key [k] holds; sweeps whose clock shows at
    most [b] *)
Definition writes_key (k : bytes) (o : sop) : Prop := match o with OSet _ k' _ _ => k' = k | ODel k' => k' = k | _ => False end.
Definition cmd_writes (k : bytes) (c : command) : Prop := match c with SSet k' _ _ => k' = k | SDel k' => k' = k | _ => False end.
Definition sweep_by (b : N) (o : sop) : Prop := match o with OSweep t | OSweepKey t _ => t <= b | _ => True end.
(** the lifetime an option text asks for, in ticks; none or zero: the default *)
Definition life (ttl_of : bytes -> option N) (ticks dttl : N) (j : bytes) : N :=
  match ttl_of j with Some n => if n =? 0 then dttl else n | None => dttl end * ticks.

Section Linear.
  Variable json_ok : N -> bytes -> bool.
  Variable ttl_of : bytes -> option N.
  Variable emsg : dispatched -> bytes.
  Variables ticks dttl imax maxp cap : N.
  (** the store and the clock when the connection is opened *)
  Variable e0 : seng.
  Definition state (xs : list (cop sx)) : conn seng dispatched :=
    crun seng dispatched sx (s_start json_ok) (s_hstep ttl_of emsg ticks dttl imax) (s_xstep ticks dttl imax) (fun e => e) (fun e => e) maxp cap (conn0 seng dispatched e0) xs.
  Definition clock (xs : list (cop sx)) : N := snd (c_eng _ _ (state xs)).
  (** the requests received and the responses written *)
  Definition received (xs : list (cop sx)) : list inframe := requests _ _ (state xs).
  Definition answered (xs : list (cop sx)) : list outframe := responses _ _ (state xs).
  (** [c] is what frame [f] requests *)
  Definition wants (f : inframe) (c : command) : Prop := in_type f = TYPE_REQUEST /\ dispatch json_ok (in_meta f) (in_payload f) = DCmd c.

  (** [H] tells for every run a history of which the following holds. *)
  Definition linearized (H : list (cop sx) -> list entry) : Prop := forall xs,
    (* the store is what its operations make of it one after another *)
    fst (c_eng _ _ (state xs)) = after ticks dttl imax (fst e0) (H xs) /\
    (* the operations of the others are there in their order *)
    map act (filter is_other (H xs)) = others xs /\
    (* a request of the connection is there at most once, with the operation it asks for *)
    NoDup (mine (H xs)) /\
    (forall e n, In e (H xs) -> who e = Some n -> exists f c, nth_error (received xs) n = Some f /\ wants f c /\ asks ttl_of c (time e) (act e)) /\
    (* each response to a store request tells the outcome at its place *)
    (exists ns, NoDup ns /\ Forall2 (fun n o => exists f r, nth_error (received xs) n = Some f /\ o = OResponse (in_id f) r /\
      forall c, wants f c -> is_store c -> exists h1 e h2, H xs = h1 ++ e :: h2 /\ who e = Some n /\ says (snd (sstep ticks dttl imax (after ticks dttl imax (fst e0) h1) (act e))) r) ns (answered xs)) /\
    (* what is going to happen comes behind what has happened, and later *)
    (forall ys, exists l, H (xs ++ ys) = H xs ++ l /\ Forall (fun e => clock xs <= time e /\ time e <= clock (xs ++ ys)) l).
End Linear.
