(** A stream subscription of the SDK together with the server: the client of
    SdkStreamModel, the topic of StreamSysModel, and between them the requests written
    but not yet executed and the answers not yet taken in. Requests of one connection
    are executed in any order (transport/tcp/connection.rs:141-161 spawns one task for
    each). All other clients and all background work of the server are operations of
    StreamSysModel. *)
From Verif Require Import LibBase LibMap StreamTopicModel StreamGroupModel StreamStoreModel StreamSysModel StreamWake SdkLoopModel SdkStreamModel.

(** the requests of the SDK; [QFetch i true]: the fetch waits for its disk read *)
Inductive yreq := QJoin | QFetch (i : ident) (cold : bool) | QLeave (i : ident) | QAck (i : ident) (seq : N).
Inductive yans := AJoined (i : ident) | AMsgs (ms : list msg) | AErr (recov : bool) | ADone.
(** [y_conn]: the SDK's last connection, as the server names it (a UUID, here a number);
    [y_conns]: all it has had; [y_gone]: those the server has seen end; [y_n]: number of
    the next request; [y_cur]: the request the loop awaits; [y_wire], [y_ans]: number,
    connection, content; [y_used]: consumer ids given out; [y_mine]: those given to this
    subscription *)
Record ysys := mkY { y_k : cli; y_log : list tev; y_conn : N; y_conns : list N; y_gone : list N; y_n : N; y_cur : N;
  y_wire : list (N * (N * yreq)); y_ans : list (N * (N * yans)); y_used : list N; y_mine : list N; y_s : sys }.

Definition y_set_srv s y := mkY (y_k y) (y_log y) (y_conn y) (y_conns y) (y_gone y) (y_n y) (y_cur y) (y_wire y) (y_ans y) (y_used y) (y_mine y) s.
Definition y_set_wire w y := mkY (y_k y) (y_log y) (y_conn y) (y_conns y) (y_gone y) (y_n y) (y_cur y) w (y_ans y) (y_used y) (y_mine y) (y_s y).
Definition y_set_ans a y := mkY (y_k y) (y_log y) (y_conn y) (y_conns y) (y_gone y) (y_n y) (y_cur y) (y_wire y) a (y_used y) (y_mine y) (y_s y).
Definition y_set_gone g y := mkY (y_k y) (y_log y) (y_conn y) (y_conns y) g (y_n y) (y_cur y) (y_wire y) (y_ans y) (y_used y) (y_mine y) (y_s y).

Section Y.
  Variable crc : bytes -> N.
  Variable cfg : gcfg.
  Variable smax : N.
  (** the subscription's options: concurrency, group, batch size *)
  Variable conc : N.
  Variable gid : bytes.
  Variable limit : N.
  Notation sstep := (sstep crc cfg smax).

  (** connection.ts:210-268: what the client's step writes goes out on its connection *)
  Definition y_put (loop : bool) (r : yreq) (y : ysys) : ysys :=
    mkY (y_k y) (y_log y) (y_conn y) (y_conns y) (y_gone y) (y_n y + 1) (if loop then y_n y else y_cur y)
        (y_wire y ++ [(y_n y, (y_conn y, r))]) (y_ans y) (y_used y) (y_mine y) (y_s y).
  Definition y_write (y : ysys) (e : tev) : ysys :=
    match e with
    | VJoin => y_put true QJoin y
    | VFetch i => y_put true (QFetch i false) y
    | VLeave i => y_put false (QLeave i) y
    | VDo (EAck _ (i, m)) => y_put false (QAck i (m_seq m)) y
    | _ => y
    end.
  Definition y_cli (o : cop) (y : ysys) : ysys :=
    let (k, es) := cstep conc (y_k y) o in
    fold_left y_write es (mkY k (y_log y ++ es) (y_conn y) (y_conns y) (y_gone y) (y_n y) (y_cur y) (y_wire y) (y_ans y) (y_used y) (y_mine y) (y_s y)).

  (** stream.ts:42-45 *)
  Definition recov (e : serr) : bool := match e with Group Fenced | Group NotMember => true | _ => false end.
  Definition y_done (n conn : N) (a : yans) (y : ysys) : ysys :=
    y_set_ans (y_ans y ++ [(n, (conn, a))]) (y_set_wire (adel N.eqb n (y_wire y)) y).
  (** Request [n] gets a turn at the server, unless the server has seen its connection
      end (connection.rs:99). [c]: the id a join gives out; [ord]: iteration order;
      [now]: the time; [tok]: the cancellation token a fetch took at its start. *)
  Definition y_serve (n c now tok : N) (ord : list N) (y : ysys) : ysys :=
    match aget N.eqb n (y_wire y) with
    | None => y
    | Some (conn, r) =>
      if nmem conn (y_gone y) then y
      else match r with
      | QJoin =>
        if nmem c (y_used y) then y
        else match sstep (y_s y) (SJoin gid c conn) with
             | (s', RJoin _ gen) =>
               y_done n conn (AJoined (c, gen))
                 (mkY (y_k y) (y_log y) (y_conn y) (y_conns y) (y_gone y) (y_n y) (y_cur y) (y_wire y) (y_ans y) (c :: y_used y) (c :: y_mine y) s')
             | _ => y
             end
      | QFetch i true => y
      | QFetch i false =>                                    (* manager.rs:205-251 with wait_ms > 0 *)
        let (s', r) := sstep (y_s y) (STry gid (fst i) (snd i) limit now tok) in
        let y' := y_set_srv s' y in
        match s_said r with
        | RMsgs ms => y_done n conn (AMsgs ms) y'
        | RErr e => y_done n conn (AErr (recov e)) y'
        | RCold _ => y_set_wire (aset N.eqb n (conn, QFetch i true) (y_wire y)) y'
        | _ => y'
        end
      | QLeave i => y_done n conn ADone (y_set_srv (fst (sstep (y_s y) (SLeave ord gid (fst i) (snd i)))) y)
      | QAck i q => y_set_wire (adel N.eqb n (y_wire y)) (y_set_srv (fst (sstep (y_s y) (SAck gid (fst i) (snd i) q))) y)
      end
    end.
  (** manager.rs:240-249: the fetch's time is up or its group's token was cancelled *)
  Definition y_expire (n : N) (y : ysys) : ysys :=
    match aget N.eqb n (y_wire y) with
    | Some (conn, QFetch _ false) => if nmem conn (y_gone y) then y else y_done n conn (AMsgs []) y
    | _ => y
    end.
  (** manager.rs:745-762: the disk read of fetch [n], the [j]-th in progress, is used *)
  Definition y_cold (n : N) (j : nat) (now : N) (y : ysys) : ysys :=
    match aget N.eqb n (y_wire y), nth_error (s_colds (y_s y)) j with
    | Some (conn, QFetch i true), Some k =>
      if nmem conn (y_gone y) || negb (beqb (StreamSysModel.k_gid k) gid && (k_c k =? fst i) && (k_gen k =? snd i)) then y
      else let (s', r) := sstep (y_s y) (SColdDone j now) in
           let y' := y_set_srv s' y in
           match r with
           | RMsgs ms => y_done n conn (AMsgs ms) y'
           | RErr e => y_done n conn (AErr (recov e)) y'
           | _ => y'
           end
    | _, _ => y
    end.
  (** connection.ts:187-195: an answer arrives; [bad]: see CFetched *)
  Definition y_take (n : N) (bad : bool) (y : ysys) : ysys :=
    match aget N.eqb n (y_ans y) with
    | None => y
    | Some (conn, a) =>
      let y' := y_set_ans (adel N.eqb n (y_ans y)) y in
      if negb (k_up (y_k y) && (conn =? y_conn y)) then y'
      else match a with
      | ADone => y_cli CLeft y'
      | AJoined i => if n =? y_cur y then y_cli (CJoined i) y' else y'
      | AMsgs ms => if n =? y_cur y then y_cli (CFetched ms bad) y' else y'
      | AErr r => if n =? y_cur y then y_cli (CRefused r) y' else y'
      end
    end.
  (** operations of other clients: ids and connections are their own *)
  Definition y_foreign (o : sop) (y : ysys) : bool :=
    match o with
    | SJoin _ c conn => negb (nmem c (y_used y)) && negb (nmem conn (y_conns y))
    | SLeave _ _ c _ | SAck _ c _ _ | STry _ c _ _ _ _ => negb (nmem c (y_mine y))
    | SDisc _ conn => negb (nmem conn (y_conns y))
    | SColdDone i _ => match nth_error (s_colds (y_s y)) i with Some k => negb (nmem (k_c k) (y_mine y)) | None => true end
    | _ => true
    end.
  Definition is_nil {A} (l : list A) : bool := match l with [] => true | _ => false end.
  (** a server just started: no members, no connections (manager.rs:444-514) *)
  Definition new_srv (s : sys) : bool :=
    forallb (fun e => is_nil (g_mem (snd e))) (s_groups s) && is_nil (s_clients s) && is_nil (s_colds s).

  Inductive yop :=
  | YServe (n c now tok : N) (ord : list N) | YExpire (n : N) | YCold (n : N) (j : nat) (now : N)
  | YTake (n : N) (bad : bool)
  | YTimeout                       (* the SDK's own time limit: connection.ts:56-62 *)
  | YWork (o : wop) | YNext | YWake | YStop | YStopped
  | YLeaveTimeout                  (* ... for the LEAVE of stop() *)
  | YLost | YUp (c : N)            (* the SDK sees its connection end, has a new one *)
  | YDisc (ord : N -> list N) (conn : N)   (* the server sees a connection of the SDK end *)
  | YOther (o : sop)               (* everything else at the server *)
  | YRestart (s : sys).            (* the server stops (or crashes) and starts as [s] *)

  Definition ystep (y : ysys) (o : yop) : ysys :=
    match o with
    | YServe n c now tok ord => y_serve n c now tok ord y
    | YExpire n => y_expire n y
    | YCold n j now => y_cold n j now y
    | YTake n bad => y_take n bad y
    | YTimeout => y_cli (CRefused false) y
    | YWork o => y_cli (CWork o) y
    | YNext => y_cli CNext y
    | YWake => y_cli CWake y
    | YStop => y_cli CStop y
    | YStopped => y_cli CStopped y
    | YLeaveTimeout => y_cli CLeft y
    | YLost => y_cli CLost y
    | YUp c =>
      if k_up (y_k y) || nmem c (y_conns y) then y
      else y_cli (CUp c) (mkY (y_k y) (y_log y) c (c :: y_conns y) (y_gone y) (y_n y) (y_cur y) (y_wire y) (y_ans y) (y_used y) (y_mine y) (y_s y))
    | YDisc ord conn =>
      if nmem conn (y_conns y) && negb (nmem conn (y_gone y)) then y_set_gone (conn :: y_gone y) (y_set_srv (fst (sstep (y_s y) (SDisc ord conn))) y) else y
    | YOther o =>
      if y_foreign o y then
        let y' := y_set_srv (fst (sstep (y_s y) o)) y in
        match o with
        | SJoin _ c _ => mkY (y_k y) (y_log y) (y_conn y) (y_conns y) (y_gone y) (y_n y) (y_cur y) (y_wire y) (y_ans y) (c :: y_used y) (y_mine y) (y_s y')
        | _ => y'
        end
      else y
    | YRestart s => if new_srv s then y_set_gone (y_conns y) (y_set_srv s y) else y
    end.
  (** subscribe() is called on connection [c], the server's state is [s] *)
  Definition y0 (c : N) (s : sys) : ysys :=
    mkY cli0 (clog0 c) c [c] [] 1 0 [(0, (c, QJoin))] [] [] [] s.
  Definition yrun (c : N) (s : sys) (xs : list yop) : ysys := fold_left ystep xs (y0 c s).
End Y.
