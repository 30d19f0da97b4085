(** Stream files on disk (stream/domain/persistence.rs). One topic's directory.
    Not modelled: IO errors, the allocation of the buffer for a record's announced
    length, paths and JSON config. A crash is the death of the process: what was
    handed to the operating system stays, in order; what a BufWriter still held is
    lost from some byte on. *)
From Verif Require Import LibBase LibMap StreamTopicModel.

Section Codec.
  (** crc32fast's checksum, any function to 32-bit values *)
  Variable crc : bytes -> N.

  Definition rec_body (m : msg) : bytes := be 8 (m_seq m) ++ be 8 (m_ts m) ++ m_pay m.
  (** persistence.rs:387-402 *)
  Definition enc_msg (m : msg) : bytes :=
    be 4 (16 + lenN (m_pay m)) ++ be 4 (crc (rec_body m)) ++ rec_body m.
  Definition enc_msgs (ms : list msg) : bytes := flat_map enc_msg ms.

  (** The three read_exact calls shared by persistence.rs:415-425, 541-551 and
      576-586: stored checksum, content and rest; None when the file ends early. *)
  Definition next_record (b : bytes) : option (N * bytes * bytes) :=
    if lenN b <? 4 then None
    else
      let len := unbe (takeN 4 b) in
      let b1 := dropN 4 b in
      if lenN b1 <? 4 then None
      else
        let b2 := dropN 4 b1 in
        if lenN b2 <? len then None
        else Some (unbe (takeN 4 b1), takeN len b2, dropN len b2).
  (** persistence.rs:433-437 = 559-563 *)
  Definition dec_body (c : bytes) : msg :=
    mkMsg (unbe (takeN 8 c)) (unbe (takeN 8 (dropN 8 c))) (dropN 16 c).

  (** persistence.rs:531-567. Every round consumes at least 8 bytes: the length of
      the file bounds the rounds. *)
  Fixpoint load_loop (fuel : nat) (b : bytes) : list msg :=
    match fuel with
    | O => []
    | S f =>
      match next_record b with
      | None => []
      | Some (stored, c, rest) =>
        if negb (crc c =? stored) then []
        else if lenN c <? 16 then [] else dec_body c :: load_loop f rest
      end
    end.
  Definition load_segment (b : bytes) : list msg := load_loop (S (length b)) b.

  (** persistence.rs:405-444 *)
  Fixpoint read_loop (fuel : nat) (b : bytes) (start limit : N) : list msg :=
    match fuel with
    | O => []
    | S f =>
      match next_record b with
      | None => []
      | Some (stored, c, rest) =>
        if negb (crc c =? stored) then read_loop f rest start limit
        else if lenN c <? 16 then read_loop f rest start limit
        else
          let m := dec_body c in
          if start <=? m_seq m then m :: (if limit <=? 1 then [] else read_loop f rest start (limit - 1))
          else read_loop f rest start limit
      end
    end.
  Definition read_segment (b : bytes) (start limit : N) : list msg := read_loop (S (length b)) b start limit.

  (** persistence.rs:302-325; [segs]: the segment files in name order with what is
      visible of them *)
  Fixpoint skip_to (cur : N) (segs : list (N * bytes)) : list (N * bytes) :=
    match segs with
    | [] => []
    | s :: r => if existsb (fun s' => fst s' <=? cur) r then skip_to cur r
                else if fst s <=? cur then s :: r else []
    end.
  Fixpoint cold_segs (cur limit : N) (segs : list (N * bytes)) : list msg :=
    match segs with
    | [] => []
    | s :: r =>
      if limit =? 0 then []
      else
        let ms := read_segment (snd s) cur limit in
        match last_msg ms with
        | None => cold_segs cur limit r
        | Some m => ms ++ cold_segs (m_seq m + 1) (limit - lenN ms) r
        end
    end.
  Definition cold_read (segs : list (N * bytes)) (from limit : N) : list msg :=
    match segs with
    | [] => []
    | s :: _ => let cur := N.max from (fst s) in cold_segs cur limit (skip_to cur segs)
    end.

  (** persistence.rs:508-529; group ids are byte strings *)
  Definition group_body (floor : N) (id : bytes) : bytes := be 8 floor ++ be 2 (lenN id) ++ id.
  Definition enc_group (e : bytes * N) : bytes :=
    let (id, floor) := e in
    be 4 (10 + lenN id mod 65536) ++ be 4 (crc (group_body floor id)) ++ group_body floor id.
  (** persistence.rs:491-506; the order is the hash map's *)
  Definition enc_groups (gs : list (bytes * N)) : bytes := flat_map enc_group gs.
  (** persistence.rs:569-604 (from_utf8_lossy is the identity on the ids written,
      which are valid UTF-8) *)
  Fixpoint load_groups_loop (fuel : nat) (b : bytes) (acc : list (bytes * N)) : list (bytes * N) :=
    match fuel with
    | O => acc
    | S f =>
      match next_record b with
      | None => acc
      | Some (stored, c, rest) =>
        if negb (crc c =? stored) then acc
        else if lenN c <? 10 then load_groups_loop f rest acc
        else
          let floor := unbe (takeN 8 c) in
          let glen := unbe (takeN 2 (dropN 8 c)) in
          let c2 := dropN 10 c in
          if lenN c2 <? glen then load_groups_loop f rest acc
          else load_groups_loop f rest (aset beqb (takeN glen c2) floor acc)
      end
    end.
  Definition load_groups (b : bytes) : list (bytes * N) := load_groups_loop (S (length b)) b [].

  (** What is found on disk: segment files in name order (find_segments,
      persistence.rs:470-488), and groups.log. *)
  Record disk := mkDisk { k_segs : list (N * bytes); k_groups : option bytes }.
  Definition last_seg {A} (l : list (N * A)) : option (N * A) := last (map Some l) None.
  (** persistence.rs:447-467: head, messages kept in memory, group floors *)
  Definition recover_topic (d : disk) : N * list msg * list (bytes * N) :=
    let head := match k_segs d with (n, _) :: _ => n | [] => 1 end in
    let ms := match last_seg (k_segs d) with Some (_, b) => load_segment b | None => [] end in
    let gs := match k_groups d with Some b => load_groups b | None => [] end in
    (head, ms, gs).

  (** A file being written: the bytes handed to its writer, and how many of them are
      certainly with the operating system. *)
  Record file := mkFile { f_bytes : bytes; f_sure : N }.
  (** persistence.rs:98-103 *)
  Record ctx := mkCtx { c_active : N; c_high : N; c_size : N }.
  (** The storage manager's view of one topic (persistence.rs:105-112): files by
      start number, groups.log, context, membership in dirty_topics, and the shared
      persisted_seq. *)
  Record store := mkStore {
    d_segs : list (N * file); d_groups : option bytes; d_ctx : option ctx; d_dirty : bool; d_pers : N }.

  Definition append_file (n : N) (b : bytes) (segs : list (N * file)) : list (N * file) :=
    match aget N.eqb n segs with
    | Some f => bput n (mkFile (f_bytes f ++ b) (f_sure f)) segs
    | None => bput n (mkFile b 0) segs
    end.
  Definition sync (f : file) : file := mkFile (f_bytes f) (lenN (f_bytes f)).
  Definition sync_file (n : N) (segs : list (N * file)) : list (N * file) :=
    match aget N.eqb n segs with Some f => bput n (sync f) segs | None => segs end.

  (** persistence.rs:208-233: the topic's context, made from the last file if missing *)
  Definition open_ctx (st : store) : ctx :=
    match d_ctx st with
    | Some c => c
    | None => match last_seg (d_segs st) with
              | Some (n, f) => mkCtx n 0 (lenN (f_bytes f))
              | None => mkCtx 1 0 0
              end
    end.
  (** persistence.rs:241-268; [max]: max_segment_size. Writers evicted from the LRU
      cache are flushed (271-282): see [partial_sync]. *)
  Definition write_batch (max first highest : N) (buf : bytes) (c : ctx) (st : store) : store :=
    let rot := (max <? c_size c + lenN buf) && (0 <? c_size c) in
    let active := if rot then first else c_active c in
    let segs := if rot then sync_file (c_active c) (d_segs st) else d_segs st in
    mkStore (append_file active buf segs) (d_groups st)
      (Some (mkCtx active highest ((if rot then 0 else c_size c) + lenN buf))) true (d_pers st).
  (** persistence.rs:199-269 *)
  Definition handle_append (max : N) (ms : list msg) (st : store) : store :=
    match ms with
    | [] => st
    | m0 :: _ => write_batch max (m_seq m0) (match last_msg ms with Some m => m_seq m | None => 0 end) (enc_msgs ms) (open_ctx st) st
    end.
  (** persistence.rs:284-300 *)
  Definition flush_all (st : store) : store :=
    let segs := map (fun nf => (fst nf, sync (snd nf))) (d_segs st) in
    match d_dirty st, d_ctx st with
    | true, Some c =>
      if 0 <? c_high c then mkStore segs (d_groups st) (Some (mkCtx (c_active c) 0 (c_size c))) false (c_high c)
      else mkStore segs (d_groups st) (Some c) false (d_pers st)
    | _, x => mkStore segs (d_groups st) x false (d_pers st)
    end.
  (** A BufWriter passes on bytes whenever its buffer is full, and is flushed when
      evicted from the LRU cache (persistence.rs:271-282): at least [upto n] bytes of
      file n are now with the operating system. *)
  Definition partial_sync (upto : N -> N) (st : store) : store :=
    mkStore (map (fun nf => (fst nf, mkFile (f_bytes (snd nf)) (N.max (f_sure (snd nf)) (N.min (upto (fst nf)) (lenN (f_bytes (snd nf))))))) (d_segs st))
      (d_groups st) (d_ctx st) (d_dirty st) (d_pers st).

  (** What a reader of the files sees, or what is left after a crash, when [vis n]
      bytes of file n have reached the operating system. *)
  Definition seen (vis : N -> N) (st : store) : list (N * bytes) :=
    map (fun nf => (fst nf, takeN (vis (fst nf)) (f_bytes (snd nf)))) (d_segs st).
  Definition vis_ok (vis : N -> N) (st : store) : Prop :=
    forall n f, In (n, f) (d_segs st) -> f_sure f <= vis n.

  (** persistence.rs:342-364; [old n]: file n was last modified before the limit *)
  Definition retain_age (old : N -> bool) (segs : list (N * bytes)) : list (N * bytes) :=
    match last_seg segs with
    | None => []
    | Some (l, _) => filter (fun s => (fst s =? l) || negb (old (fst s))) segs
    end.
  (** persistence.rs:366-380 *)
  Fixpoint retain_size (max total : N) (segs : list (N * bytes)) : list (N * bytes) :=
    match segs with
    | s :: ((_ :: _) as r) => if max <? total then retain_size max (total - lenN (snd s)) r else segs
    | _ => segs
    end.
  Definition total_size (segs : list (N * bytes)) : N := fold_left (fun a s => a + lenN (snd s)) segs 0.
  (** persistence.rs:327-384: the files kept *)
  Definition retain (age : option (N -> bool)) (maxb : option N) (segs : list (N * bytes)) : list (N * bytes) :=
    match segs with
    | _ :: _ :: _ =>
      let s1 := match age with Some old => retain_age old segs | None => segs end in
      match maxb with Some m => retain_size m (total_size s1) s1 | None => s1 end
    | _ => segs
    end.
  Definition head_of {A} (segs : list (N * A)) : N := match segs with (n, _) :: _ => n | [] => 1 end.
  Definition apply_retention (vis : N -> N) (age : option (N -> bool)) (maxb : option N) (st : store) : store * N :=
    let kept := akeys (retain age maxb (seen vis st)) in
    let segs := filter (fun nf => nmem (fst nf) kept) (d_segs st) in
    (mkStore segs (d_groups st) (d_ctx st) (d_dirty st) (d_pers st), head_of segs).
  (** persistence.rs:491-506: written to a temporary file, flushed and renamed *)
  Definition save_groups (gs : list (bytes * N)) (st : store) : store :=
    mkStore (d_segs st) (Some (enc_groups gs)) (d_ctx st) (d_dirty st) (d_pers st).

  (** The process dies; [vis] says how far each file got. *)
  Definition crash (vis : N -> N) (st : store) : disk := mkDisk (seen vis st) (d_groups st).
  (** A new process: every file as found; [pers]: manager.rs:494 next_seq - 1. *)
  Definition store_open (d : disk) (pers : N) : store :=
    mkStore (map (fun s => (fst s, mkFile (snd s) (lenN (snd s)))) (k_segs d)) (k_groups d) None false pers.
  Definition store_new : store := mkStore [] None None false 0.
End Codec.
