(** The connection of ConnModel.v with the store behind it: dispatcher, parser and
    store operations as the handler of a request. *)
From Verif Require Import LibBase LibMap WireModel CmdModel StoreModel ConnModel.

Section ConnStore.
  (** [json_ok]: what serde accepts. [ttl_of]: the "ttl" field of the option text.
      [emsg]: the text of an error answer. *)
  Variable json_ok : N -> bytes -> bool.
  Variable ttl_of : bytes -> option N.
  Variable emsg : dispatched -> bytes.
  Variables ticks default_ttl inst_max : N.

  (** the store and the clock *)
  Definition seng : Type := store * N.
  (** other connections, the sweeper, and time: [SXClock d] lets [d] ticks pass *)
  Inductive sx := SXOp (o : sop) | SXClock (d : N).
  Definition s_xstep (e : seng) (x : sx) : seng :=
    match x with
    | SXOp o => (fst (sstep ticks default_ttl inst_max (fst e) o), snd e)
    | SXClock d => (fst e, snd e + d)
    end.
  (** src/transport/tcp/dispatcher.rs:22-43: parsing touches no shared state *)
  Definition s_start (f : inframe) : dispatched := dispatch json_ok (in_meta f) (in_payload f).
  (** The store operation of a command (src/brokers/store/tcp.rs:64-90) *)
  Definition op_of (now : N) (d : dispatched) : option sop :=
    match d with
    | DCmd (SSet k j v) => Some (OSet now k v (ttl_of j))
    | DCmd (SGet k) => Some (OGet now k)
    | DCmd (SDel k) => Some (ODel k)
    | _ => None
    end.
  (** One section: the DashMap operation. Commands of the other brokers are answered
      with an error here; they have their own models. *)
  Definition s_hstep (e : seng) (d : dispatched) : seng * hres dispatched :=
    match op_of (snd e) d with
    | Some o =>
      let (s', r) := sstep ticks default_ttl inst_max (fst e) o in
      ((s', snd e), match r with SOk => Answer ROk | SData v => Answer (RData v) | SNull => Answer RNull | SPanic => Panic | SSilent => Answer ROk end)
    | None => (e, match d with DCmd (CEcho p) => Answer (RData p) | _ => Answer (RError (emsg d)) end)
    end.
End ConnStore.
