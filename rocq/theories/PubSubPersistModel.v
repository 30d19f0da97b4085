(** Saving and loading retained messages (pub-sub/domain/persistence.rs,
    pub-sub/manager.rs:31-74). *)
From Verif Require Import LibBase LibMap PubSubModel.

(** table retained(path TEXT PRIMARY KEY, data, expires_at), persistence.rs:14-21.
    expires_at is stored as i64 and read back as u64: the identity on 64-bit values. *)
Definition rdb := list (bytes * (bytes * option N)).

Fixpoint distinct (l : list bytes) : bool :=
  match l with [] => true | x :: l' => negb (existsb (beqb x) l') && distinct l' end.

(** persistence.rs:46-59: one transaction; a repeated path violates the primary key,
    the transaction is rolled back and the error only logged (manager.rs:69-71). *)
Definition db_flush (entries d : rdb) : rdb := if distinct (map fst entries) then entries else d.

Section Load.
  Variable ticks : N.
  (** persistence.rs:25-44, manager.rs:32-38 *)
  Definition load_entry (now : N) (t : node) (e : bytes * (bytes * option N)) : node :=
    let v := from_persisted ticks now (fst (snd e)) (snd (snd e)) in
    if is_expired now v then t else set_ret (split (fst e)) (Some v) t.
  Definition load_tree (now : N) (d : rdb) : node := fold_left (load_entry now) d node0.
End Load.

(** manager.rs:62-67 *)
Definition collect_db (now : N) (t : node) : rdb := map (fun x => (fst x, (rt_data (snd x), rt_unix (snd x)))) (collect_all now [] t).

(** where the flush task is: waiting for the tick; between the swap of the dirty flag
    (manager.rs:58) and the traversal; between the traversal and the transaction *)
Inductive fpc := FIdle | FSwapped | FHolding (entries : rdb).
Record fsys := mkF { f_ps : pubsub; f_pc : fpc; f_db : rdb }.
(** a request; the three steps of the flush task; a crash followed by a restart
    (clients are gone, the tree is loaded from the table) *)
Inductive fev := FReq (o : pop) | FSwap | FCollect (now : N) | FWrite | FCrash (now : N).

Section Flush.
  Variables (ticks inst_max default_ttl : N).
  Definition fstep (s : fsys) (e : fev) : fsys :=
    match e with
    | FReq o => mkF (fst (pstep1 ticks inst_max default_ttl o (f_ps s))) (f_pc s) (f_db s)
    | FSwap =>
      match f_pc s with
      | FIdle => if ps_dirty (f_ps s) then mkF (mkPs (ps_tree (f_ps s)) (ps_cl (f_ps s)) false) FSwapped (f_db s) else s
      | _ => s
      end
    | FCollect now => match f_pc s with FSwapped => mkF (f_ps s) (FHolding (collect_db now (ps_tree (f_ps s)))) (f_db s) | _ => s end
    | FWrite => match f_pc s with FHolding es => mkF (f_ps s) FIdle (db_flush es (f_db s)) | _ => s end
    | FCrash now => mkF (mkPs (load_tree ticks now (f_db s)) [] false) FIdle (f_db s)
    end.
  Definition f0 : fsys := mkF ps0 FIdle [].
  Definition frun (evs : list fev) (s : fsys) : fsys := fold_left fstep evs s.
End Flush.
