(** Model of queue durability: SQLite tables, the storage channel and writer,
    recovery and the warm start (src/brokers/queue/domain/persistence.rs and
    manager.rs:52-148).
    Not modelled: I/O errors (failing to open, begin or commit, logged by the
    code), power loss under `synchronous = OFF`.  Integers stored as i64 and read
    back as u64 are unchanged (`as i64` / `as u64` are inverse on 64 bits). *)
From Verif Require Import LibBase LibMap QueueModel.

(** persistence.rs:246-257 table `queue` without its key *)
Record row := mkRow { w_payload : bytes; w_prio : N; w_vis : N; w_att : N; w_created : N }.
(** tables in rowid (insertion) order; the key is the primary key.
    `dlq_messages` (259-270) holds the fields of a dead letter. *)
Record db := mkDb { db_main : list (N * row); db_dead : list (N * dlqmsg) }.
Definition db0 : db := mkDb [] [].
(** the columns written by an INSERT into queue (353-364) *)
Definition row_of (m : message) : row := mkRow (m_payload m) (m_prio m) (m_vis m) (m_att m) (m_created m).
(** INSERT: refused if the primary key exists (the error is logged, 209-211) *)
Definition ins {A} (k : N) (v : A) (t : list (N * A)) : list (N * A) :=
  match aget N.eqb k t with Some _ => t | None => t ++ [(k, v)] end.
(** UPDATE queue SET visible_at, attempts WHERE id (370-374) *)
Definition set_va (v a : N) (r : row) : row := mkRow (w_payload r) (w_prio r) v a (w_created r).
Definition upd_row (k v a : N) (t : list (N * row)) : list (N * row) :=
  match aget N.eqb k t with Some r => aset N.eqb k (set_va v a r) t | None => t end.
(** persistence.rs:350-441. Each case is one or two statements of the same
    transaction; a refused INSERT does not undo the preceding DELETE. *)
Definition exec_op (d : db) (o : storeop) : db :=
  match o with
  | SInsert m => mkDb (ins (m_id m) (row_of m) (db_main d)) (db_dead d)
  | SDelete id => mkDb (adel N.eqb id (db_main d)) (db_dead d)
  | SUpdate id v a => mkDb (upd_row id v a (db_main d)) (db_dead d)
  | SInsertDLQ e => mkDb (db_main d) (ins (d_id e) e (db_dead d))
  | SDeleteDLQ id => mkDb (db_main d) (adel N.eqb id (db_dead d))
  | SMoveToDLQ id e => mkDb (adel N.eqb id (db_main d)) (ins (d_id e) e (db_dead d))
  | SMoveToMain id m =>
      mkDb (ins (m_id m) (mkRow (m_payload m) (m_prio m) 0 0 (m_created m)) (db_main d)) (adel N.eqb id (db_dead d))
  | SPurgeDLQ => mkDb (db_main d) []
  end.
(** persistence.rs:201-221 flush_batch: all operations of the batch in order *)
Definition exec_all (l : list storeop) (d : db) : db := fold_left exec_op l d.

(** persistence.rs:280-310: one loaded row; [now] is read per row *)
Definition load_row (now : N) (e : N * row) : message :=
  let (id, r) := e in
  mkMsg id (w_payload r) (w_prio r) (w_att r) (w_created r) (w_vis r) None
    (if (now <? w_vis r) && (0 <? w_att r) then InFlight (w_vis r) else Ready).
(** persistence.rs:275-315; the i-th row is loaded at clock reading [clk i] *)
Fixpoint load_rows (clk : nat -> N) (i : nat) (t : list (N * row)) : list message :=
  match t with [] => [] | e :: t' => load_row (clk i) e :: load_rows clk (S i) t' end.
(** manager.rs:104-148 (recover + push in load order). Without ORDER BY the load
    order is up to SQLite: [main] and [dead] are the rows in the order returned. *)
Definition recover (clk : nat -> N) (main : list (N * row)) (dead : list (N * dlqmsg)) : inner :=
  mkInner (fold_left (fun s m => q_push m s) (load_rows clk 0 main) q_empty)
          (fold_left (fun q d => dlq_push d q) (avals dead) []).

(** The running server for one queue: memory, channel (mpsc, FIFO), the writer's
    batch, the database. *)
Record psys := mkSys { p_mem : inner; p_chan : list storeop; p_batch : list storeop; p_db : db }.
Inductive pev := EReq (o : qop) | ERecv | EFlush | ECrash (clk : nat -> N).
Section Sys.
  Variable cfg : qconfig.
  (** [EReq]: a request runs and its storage operations enter the channel before
      the next request runs (sends are outside the lock, see [cstep] for the
      general case); [ERecv]: the writer drains any part of the channel
      (persistence.rs:166-175); [EFlush]: full batch, timer or channel closed
      (177-196) -- any moment is allowed; [ECrash]: the process dies at any moment
      and is started again, loading rows in any order. *)
  Inductive pstep : psys -> pev -> psys -> Prop :=
  | PS_req : forall i c b d o,
      pstep (mkSys i c b d) (EReq o) (mkSys (qnext cfg i o) (c ++ qstore cfg i o) b d)
  | PS_recv : forall i c1 c2 b d, pstep (mkSys i (c1 ++ c2) b d) ERecv (mkSys i c2 (b ++ c1) d)
  | PS_flush : forall i c b d, pstep (mkSys i c b d) EFlush (mkSys i c [] (exec_all b d))
  | PS_crash : forall i c b d clk main dead,
      Permutation main (db_main d) -> Permutation dead (db_dead d) ->
      pstep (mkSys i c b d) (ECrash clk) (mkSys (recover clk main dead) [] [] d).
  Inductive psteps : psys -> list pev -> psys -> Prop :=
  | psteps_nil : forall s, psteps s [] s
  | psteps_snoc : forall s evs s1 e s2, psteps s evs s1 -> pstep s1 e s2 -> psteps s (evs ++ [e]) s2.
  Definition sys0 : psys := mkSys inner0 [] [] db0.
  (** storage operations emitted by a request history, in order *)
  Fixpoint sends (i : inner) (h : list qop) : list storeop :=
    match h with [] => [] | o :: h' => qstore cfg i o ++ sends (qnext cfg i o) h' end.

  (** Concurrent requests: every request locks the queue, changes memory and
      computes its storage operations in one step; the operations are sent later,
      one at a time, interleaved with other requests (manager.rs: every
      `store.execute` comes after the block holding the lock, e.g. 285-290,
      322-329, 341-368). *)
  Record csys := mkC { c_mem : inner; c_out : list (list storeop); c_sent : list storeop }.
  Inductive cev := CReq (o : qop) | CSend (k : nat).
  Definition cstep (s : csys) (e : cev) : csys :=
    match e with
    | CReq o => mkC (qnext cfg (c_mem s) o) (c_out s ++ [qstore cfg (c_mem s) o]) (c_sent s)
    | CSend k =>
        match nth_error (c_out s) k with
        | Some (op :: rest) =>
            mkC (c_mem s) (firstn k (c_out s) ++ rest :: skipn (S k) (c_out s)) (c_sent s ++ [op])
        | _ => s
        end
    end.
  Definition crun (s : csys) (l : list cev) : csys := fold_left cstep l s.
  Definition c0 : csys := mkC inner0 [] [].
End Sys.
Definition reqs (l : list pev) : list qop := flat_map (fun e => match e with EReq o => [o] | _ => [] end) l.
Definition is_crash (e : pev) : bool := match e with ECrash _ => true | _ => false end.

(** * File names (manager.rs:107 format!("{}.db"), 75-77 warm start) *)
Definition dotdb : bytes := [46; 100; 98].
Definition db_file (name : bytes) : bytes := name ++ dotdb.
Fixpoint is_prefix (a b : bytes) : bool :=
  match a, b with
  | [], _ => true
  | x :: a', y :: b' => (x =? y) && is_prefix a' b'
  | _, [] => false
  end.
(** str::ends_with *)
Definition ends_with (suf s : bytes) : bool := is_prefix (rev suf) (rev s).
(** str::trim_end_matches(".db"): removes the suffix as often as it occurs *)
Fixpoint trim_end (fuel : nat) (suf s : bytes) : bytes :=
  match fuel with
  | O => s
  | S f => if ends_with suf s then trim_end f suf (firstn (length s - length suf) s) else s
  end.
Definition restored_name (file : bytes) : option bytes :=
  if ends_with dotdb file then Some (trim_end (length file) dotdb file) else None.
