(** One topic of the stream broker as a whole (stream/manager.rs): the state behind the
    topic lock, the storage actor, the messages on their way between them and the
    background tasks. Each operation is one critical section of the topic lock or one
    command handled by the storage actor, so any interleaving of requests and tasks is
    a list of operations. Other topics share nothing but the storage actor's loop. *)
From Verif Require Import LibBase LibMap StreamTopicModel StreamGroupModel StreamStoreModel.

(** A fetch waiting for a disk read (manager.rs:721-763). *)
Record cold := mkCold { k_gid : bytes; k_c : N; k_gen : N; k_limit : N; k_from : N; k_tok : N; k_res : option (list msg) }.

(** manager.rs:22-41 TopicShared / TopicInner, the storage side (see [store]), and:
    messages published but not yet handed to storage ([s_box]: between
    manager.rs:160 and the handling of the command sent at 163-171); reads in
    progress; the values background tasks hold between their two halves. *)
Record sys := mkSys {
  s_top : topic; s_groups : list (bytes * group); s_clients : list (N * list (bytes * N)); s_dirty : bool;
  s_store : store; s_box : list msg; s_colds : list cold;
  s_evp : N; s_ret : option N; s_save : option (list (bytes * N)) }.

Definition set_top t s := mkSys t (s_groups s) (s_clients s) (s_dirty s) (s_store s) (s_box s) (s_colds s) (s_evp s) (s_ret s) (s_save s).
Definition set_groups g s := mkSys (s_top s) g (s_clients s) (s_dirty s) (s_store s) (s_box s) (s_colds s) (s_evp s) (s_ret s) (s_save s).
Definition set_clients c s := mkSys (s_top s) (s_groups s) c (s_dirty s) (s_store s) (s_box s) (s_colds s) (s_evp s) (s_ret s) (s_save s).
Definition set_dirty d s := mkSys (s_top s) (s_groups s) (s_clients s) d (s_store s) (s_box s) (s_colds s) (s_evp s) (s_ret s) (s_save s).
Definition set_store t s := mkSys (s_top s) (s_groups s) (s_clients s) (s_dirty s) t (s_box s) (s_colds s) (s_evp s) (s_ret s) (s_save s).
Definition set_box b s := mkSys (s_top s) (s_groups s) (s_clients s) (s_dirty s) (s_store s) b (s_colds s) (s_evp s) (s_ret s) (s_save s).
Definition set_colds c s := mkSys (s_top s) (s_groups s) (s_clients s) (s_dirty s) (s_store s) (s_box s) c (s_evp s) (s_ret s) (s_save s).
Definition set_evp e s := mkSys (s_top s) (s_groups s) (s_clients s) (s_dirty s) (s_store s) (s_box s) (s_colds s) e (s_ret s) (s_save s).
Definition set_ret r s := mkSys (s_top s) (s_groups s) (s_clients s) (s_dirty s) (s_store s) (s_box s) (s_colds s) (s_evp s) r (s_save s).
Definition set_save v s := mkSys (s_top s) (s_groups s) (s_clients s) (s_dirty s) (s_store s) (s_box s) (s_colds s) (s_evp s) (s_ret s) v.

Definition gget (gid : bytes) (s : sys) : option group := aget beqb gid (s_groups s).
Definition gput (gid : bytes) (g : group) (s : sys) : sys := set_groups (aset beqb gid g (s_groups s)) s.
Definition mark (b : bool) (s : sys) : sys := if b then set_dirty true s else s.

Inductive serr := NoGroup | Group (e : gerr).
(** Answers: a number (publish: sequence; join: floor and generation), messages, ... *)
Inductive sout :=
| RUnit
| RSeq (n : N)
| RJoin (floor gen : N)
| RErr (e : serr)
| RMsgs (ms : list msg)
| RCold (from : N)      (* the fetch goes on with a disk read *)
| RWait.                (* the fetch finds nothing and waits (wait > 0) or answers [] *)

Section Sys.
  Variable crc : bytes -> N.
  Variable cfg : gcfg.
  Variable smax : N.

  (** manager.rs:153-161 (the rest of publish: [op_send], notification) *)
  Definition op_publish (ts : N) (pay : bytes) (s : sys) : sys * sout :=
    let (t, n) := append ts pay (s_top s) in
    (set_box (s_box s ++ [mkMsg n ts pay]) (set_top t s), RSeq n).
  (** manager.rs:163-171 and its handling (persistence.rs:199-269). [i]: which of the
      publishers that have left the lock gets to send next. *)
  Definition op_send (i : nat) (s : sys) : sys :=
    match nth_error (s_box s) i with
    | Some m => set_box (firstn i (s_box s) ++ skipn (S i) (s_box s)) (set_store (handle_append crc smax [m] (s_store s)) s)
    | None => s
    end.

  (** manager.rs:331-364; [c]: the fresh consumer id (a UUID) *)
  Definition op_join (gid : bytes) (c conn : N) (s : sys) : sys * sout :=
    let head := t_head (s_top s) in
    let g0 := match gget gid s with Some g => g | None => group_new head end in
    let (g1, clamped) := clamp_head head g0 in
    let g2 := add_member c conn g1 in
    let cl := match aget N.eqb conn (s_clients s) with Some l => l | None => [] end in
    (mark (negb (isSome (gget gid s)) || clamped)
       (set_clients (aset N.eqb conn (cl ++ [(gid, c)]) (s_clients s)) (gput gid g2 s)),
     RJoin (g_floor g2) (g_gen g2)).

  Definition drop_binding (gid : bytes) (c conn : N) (cl : list (N * list (bytes * N))) : list (N * list (bytes * N)) :=
    match aget N.eqb conn cl with
    | Some l => let l' := filter (fun b => negb (beqb (fst b) gid && (snd b =? c))) l in
                match l' with [] => adel N.eqb conn cl | _ => aset N.eqb conn l' cl end
    | None => cl
    end.
  (** manager.rs:297-329; [ord]: hash map iteration order *)
  Definition op_leave (ord : list N) (gid : bytes) (c gen : N) (s : sys) : sys * sout :=
    match gget gid s with
    | None => (s, RErr NoGroup)
    | Some g =>
      if negb (g_gen g =? gen) then (s, RErr (Group Fenced))
      else match remove_member cfg ord c g with
           | (_, None) => (s, RErr (Group NotMember))
           | (g', Some conn) => (set_dirty true (set_clients (drop_binding gid c conn (s_clients s)) (gput gid g' s)), RUnit)
           end
    end.
  (** manager.rs:366-387, for this topic; [ord c]: iteration order when c is removed *)
  Definition drop_member (ord : N -> list N) (s : sys) (b : bytes * N) : sys :=
    match gget (fst b) s with
    | None => s
    | Some g => match remove_member cfg (ord (snd b)) (snd b) g with
                | (_, None) => s
                | (g', Some _) => set_dirty true (gput (fst b) g' s)
                end
    end.
  Definition op_disconnect (ord : N -> list N) (conn : N) (s : sys) : sys :=
    match aget N.eqb conn (s_clients s) with
    | None => s
    | Some l => fold_left (drop_member ord) l (set_clients (adel N.eqb conn (s_clients s)) s)
    end.

  (** manager.rs:258-273 *)
  Definition op_ack (gid : bytes) (c gen seq : N) (s : sys) : sys * sout :=
    match gget gid s with
    | None => (s, RErr NoGroup)
    | Some g =>
      match ack c gen seq (fst (clamp_head (t_head (s_top s)) g)) with
      | (g', None) => (set_dirty true (gput gid g' s), RUnit)
      | (g', Some e) => (gput gid g' s, RErr (Group e))
      end
    end.
  (** manager.rs:275-295 *)
  Definition op_seek (beginning : bool) (gid : bytes) (s : sys) : sys :=
    let g := match gget gid s with Some g => g | None => group_new (t_head (s_top s)) end in
    set_dirty true (gput gid (if beginning then seek_beginning (t_head (s_top s)) g else seek_end (t_next (s_top s) - 1) g) s).

  (** manager.rs:666-719; [tok]: the cancellation token the fetch took at its start
      (manager.rs:208-214), used if it goes on with a disk read *)
  Definition op_try (gid : bytes) (c gen limit now tok : N) (s : sys) : sys * sout :=
    let t := s_top s in
    match gget gid s with
    | None => (s, RErr NoGroup)
    | Some g0 =>
      let (g1, clamped) := clamp_head (t_head t) g0 in
      if is_backpressured cfg g1 then (gput gid g1 s, RMsgs [])
      else
        match fetch cfg c gen limit now (t_log t) (t_ram t) (t_head t) g1 with
        | (g2, inl e) => (gput gid g2 s, RErr (Group e))
        | (g2, inr (m :: ms)) => (mark clamped (gput gid g2 s), RMsgs (m :: ms))
        | (g2, inr []) =>
          if g_cold g2 then (mark clamped (gput gid g2 s), RMsgs [])
          else
            let from := next_fetch_seq (t_head t) g2 in
            if (from <? t_next t) && (from <? t_ram t) then
              (set_colds (s_colds s ++ [mkCold gid c gen limit from tok None]) (mark clamped (gput gid (set_cold true g2) s)), RCold from)
            else (mark clamped (gput gid g2 s), RWait)
        end
    end.
  Definition remove_nth {A} (i : nat) (l : list A) : list A := firstn i l ++ skipn (S i) l.
  (** persistence.rs:171-174: the storage actor answers the i-th disk read; [vis]: how
      much of each file is visible *)
  Definition op_cold_run (i : nat) (vis : N -> N) (s : sys) : sys :=
    match nth_error (s_colds s) i with
    | Some k => set_colds (firstn i (s_colds s) ++ [mkCold (k_gid k) (k_c k) (k_gen k) (k_limit k) (k_from k) (k_tok k)
                             (Some (cold_read crc (seen vis (s_store s)) (k_from k) (k_limit k)))] ++ skipn (S i) (s_colds s)) s
    | None => s
    end.
  (** manager.rs:745-762 *)
  Definition op_cold_done (i : nat) (now : N) (s : sys) : sys * sout :=
    match nth_error (s_colds s) i with
    | Some k =>
      match k_res k with
      | None => (s, RUnit)
      | Some ms =>
        let s := set_colds (remove_nth i (s_colds s)) s in
        match gget (k_gid k) s with
        | None => (s, RErr NoGroup)
        | Some g0 =>
          let g1 := set_cold false g0 in
          if negb (k_tok k =? g_tok g0) then (gput (k_gid k) g1 s, RMsgs [])
          else
            let (g2, clamped) := clamp_head (t_head (s_top s)) g1 in
            match register_cold cfg (k_c k) (k_gen k) now ms (t_head (s_top s)) g2 with
            | (g3, inl e) => (gput (k_gid k) g3 s, RErr (Group e))
            | (g3, inr r) => (mark clamped (gput (k_gid k) g3 s), RMsgs r)
            end
        end
      end
    | None => (s, RUnit)
    end.
  (** transport/tcp/connection.rs:99: the connection ends, its request tasks are
      aborted where they wait (manager.rs:736) *)
  Definition op_cold_abort (i : nat) (s : sys) : sys := set_colds (remove_nth i (s_colds s)) s.

  (** manager.rs:531-533: the eviction task reads the mark, then locks the topic *)
  Definition op_load (s : sys) : sys := set_evp (d_pers (s_store s)) s.
  Definition op_evict (s : sys) : sys := set_top (evict (s_evp s) (s_top s)) s.
  (** manager.rs:553-568 *)
  Definition op_collect (s : sys) : sys :=
    if s_dirty s then set_save (Some (map (fun e => (fst e, g_floor (snd e))) (s_groups s))) (set_dirty false s) else s.
  Definition op_save (s : sys) : sys :=
    match s_save s with Some gs => set_save None (set_store (save_groups crc gs (s_store s)) s) | None => s end.
  (** manager.rs:592-607 *)
  Definition op_retain (vis : N -> N) (age : option (N -> bool)) (maxb : option N) (s : sys) : sys :=
    let (st, h) := apply_retention vis age maxb (s_store s) in set_ret (Some h) (set_store st s).
  (** manager.rs:609-623 *)
  Definition op_head (s : sys) : sys * bool :=
    match s_ret s with
    | None => (s, false)
    | Some h =>
      let s1 := set_ret None s in
      if h =? t_head (s_top s) then (s1, false)
      else
        let gs := map (fun e => (fst e, clamp_head h (snd e))) (s_groups s) in
        (mark (existsb (fun e => snd (snd e)) gs) (set_groups (map (fun e => (fst e, fst (snd e))) gs) (set_top (apply_head h (s_top s)) s1)), true)
    end.
  (** manager.rs:643-656 *)
  Definition op_tick (ord : bytes -> list N) (now : N) (s : sys) : sys * bool :=
    let gs := map (fun e => (fst e, check_redelivery cfg (ord (fst e)) now (snd e))) (s_groups s) in
    let any := existsb (fun e => snd (snd e)) gs in
    (mark any (set_groups (map (fun e => (fst e, fst (snd e))) gs) s), any).

  (** manager.rs:176-203 read: what memory answers, or a disk read *)
  Definition op_read (vis : N -> N) (from limit : N) (s : sys) : list msg :=
    let t := s_top s in
    let from := N.max from (t_head t) in
    match read from limit t with
    | [] => if (from <? t_ram t) && (from <? t_next t) then cold_read crc (seen vis (s_store s)) from limit else []
    | ms => ms
    end.

  (** topic.rs:74-83, manager.rs:484-514 with an empty directory *)
  Definition sys_new (soft : N) : sys := mkSys (topic_new soft) [] [] false store_new [] [] 0 None None.
  (** manager.rs:444-514 on what a crash left *)
  Definition boot (soft : N) (d : disk) : sys :=
    let '(head, ms, gs) := recover_topic crc d in
    let t := topic_restore soft (N.max head 1) ms in
    mkSys t (map (fun e => (fst e, group_restore (snd e) (t_head t))) gs) [] false (store_open d (t_next t - 1)) [] [] 0 None None.

  Inductive sop :=
  | SPub (ts : N) (pay : bytes) | SSend (i : nat)
  | SJoin (gid : bytes) (c conn : N) | SLeave (ord : list N) (gid : bytes) (c gen : N) | SDisc (ord : N -> list N) (conn : N)
  | SAck (gid : bytes) (c gen seq : N) | SSeek (beginning : bool) (gid : bytes)
  | STry (gid : bytes) (c gen limit now tok : N)
  | SColdRun (i : nat) (vis : N -> N) | SColdDone (i : nat) (now : N) | SColdAbort (i : nat)
  | SLoad | SEvict | SCollect | SSave | SRetain (vis : N -> N) (age : option (N -> bool)) (maxb : option N) | SHead
  | STick (ord : bytes -> list N) (now : N)
  | SFlush | SSync (upto : N -> N).

  Definition sstep (s : sys) (o : sop) : sys * sout :=
    match o with
    | SPub ts pay => op_publish ts pay s
    | SSend i => (op_send i s, RUnit)
    | SJoin gid c conn => op_join gid c conn s
    | SLeave ord gid c gen => op_leave ord gid c gen s
    | SDisc ord conn => (op_disconnect ord conn s, RUnit)
    | SAck gid c gen seq => op_ack gid c gen seq s
    | SSeek b gid => (op_seek b gid s, RUnit)
    | STry gid c gen limit now tok => op_try gid c gen limit now tok s
    | SColdRun i vis => (op_cold_run i vis s, RUnit)
    | SColdDone i now => op_cold_done i now s
    | SColdAbort i => (op_cold_abort i s, RUnit)
    | SLoad => (op_load s, RUnit)
    | SEvict => (op_evict s, RUnit)
    | SCollect => (op_collect s, RUnit)
    | SSave => (op_save s, RUnit)
    | SRetain vis age maxb => (op_retain vis age maxb s, RUnit)
    | SHead => (fst (op_head s), RUnit)
    | STick ord now => (fst (op_tick ord now s), RUnit)
    | SFlush => (set_store (flush_all (s_store s)) s, RUnit)
    | SSync upto => (set_store (partial_sync upto (s_store s)) s, RUnit)
    end.
End Sys.
