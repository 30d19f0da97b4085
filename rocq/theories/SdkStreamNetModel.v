(** Stream consumers end to end: any number of stream subscriptions of the SDK
    (SdkStreamModel) of any groups of one topic, the server (StreamSysModel) with its
    restarts, and the network between them. *)
From Verif Require Import LibBase LibMap StreamTopicModel StreamGroupModel StreamStoreModel StreamSysModel StreamWake SdkLoopModel SdkStreamModel SdkStreamSys.

Section Net.
  Variable crc : bytes -> N.
  Variable cfg : gcfg.
  Variable smax : N.
  (** the options of subscription number [c]: concurrency, group, batch size (sdk/ts/src/brokers/stream.ts:51-70) *)
  Variable conc : nat -> N.
  Variable grp : nat -> bytes.
  Variable lim : nat -> N.
  Notation sstep := (sstep crc cfg smax).

  (** requests under way; [n]: the request of the loop it is, counted from 1 (request ids
      are used once: sdk/ts/src/connection.ts:215-216, C84); [NCold]: a fetch whose disk
      read is in progress (src/brokers/stream/manager.rs:721-763) *)
  Inductive nreq := NJoin (n : nat) | NFetch (n : nat) (i : ident) | NCold (n : nat) (i : ident) | NLeave (i : ident) | NAck (i : ident) (seq : N).
  (** an answer under way to subscription [a_c], to its [a_n]-th request *)
  Record answer := mkA { a_c : nat; a_n : nat; a_v : yans }.
  (** What can be observed: what the subscriptions do; the requests the server executes
      with their results (by whom: a subscription, or anyone else and the background
      tasks); restarts of the server. *)
  Inductive nev := OClient (c : nat) (e : tev) | OServer (who : option nat) (o : sop) (r : sout) | OBoot (soft : N) (vis : N -> N).
  (** [n_cl]: each subscription, once made, with its own log *)
  Record net := mkN { n_cl : nat -> option (cli * list tev); n_s : sys; n_up : list (nat * nreq); n_down : list answer; n_log : list nev }.
  Definition net0 (soft : N) : net := mkN (fun _ => None) (sys_new soft) [] [] [].

  (** the requests of the loop written so far: stream.ts:94-101, 130-137 *)
  Definition asks (l : list tev) : nat := length (filter (fun e => match e with VJoin | VFetch _ => true | _ => false end) l).
  (** what an observation puts on the wire ([l]: the log with it): stream.ts:94-101, 130-137, 82, 157 *)
  Definition frame (l : list tev) (e : tev) : list nreq :=
    match e with
    | VJoin => [NJoin (asks l)]
    | VFetch i => [NFetch (asks l) i]
    | VLeave i => [NLeave i]
    | VDo (EAck _ (i, m)) => [NAck i (m_seq m)]
    | _ => []
    end.
  Definition setc (c : nat) (x : cli * list tev) (f : nat -> option (cli * list tev)) : nat -> option (cli * list tev) := fun d => if Nat.eqb d c then Some x else f d.
  (** subscription [c] goes over to [x], [es] being observed of it. (The loop writes at
      most one request of its own in a step, the last thing it does.) *)
  Definition client (c : nat) (x : cli * list tev) (es : list tev) (y : net) : net :=
    mkN (setc c x (n_cl y)) (n_s y) (n_up y ++ map (pair c) (flat_map (frame (snd x)) es)) (n_down y) (n_log y ++ map (OClient c) es).
  Definition cact (c : nat) (o : cop) (y : net) : net :=
    match n_cl y c with
    | Some (k, l) => let (k', es) := cstep (conc c) k o in client c (k', l ++ es) es y
    | None => y
    end.
  (** the server executes an operation *)
  Definition server (who : option nat) (o : sop) (y : net) : net :=
    mkN (n_cl y) (fst (sstep (n_s y) o)) (n_up y) (n_down y) (n_log y ++ [OServer who o (snd (sstep (n_s y) o))]).
  Definition drop {B} (i : nat) (l : list B) : list B := firstn i l ++ skipn (S i) l.
  Definition swap {B} (i : nat) (x : B) (l : list B) : list B := firstn i l ++ x :: skipn (S i) l.
  Definition with_up u y := mkN (n_cl y) (n_s y) u (n_down y) (n_log y).
  Definition with_down d y := mkN (n_cl y) (n_s y) (n_up y) d (n_log y).
  Definition reply (c n : nat) (v : yans) (y : net) : net := with_down (n_down y ++ [mkA c n v]) y.

  (** Requests are executed in any order (transport/tcp/connection.rs:141-161 spawns a task
      for each), each at most once; requests and answers can be lost, and a request may
      also be executed after a restart. (More than can happen: the connection loses only
      the last of what was sent, and everything when the server restarts.) *)
  Inductive nop :=
  | YSub (c : nat) (conn : N)                   (* subscribe() is called on connection conn: stream.ts:68-72 *)
  | YClient (c : nat) (o : cop)                 (* anything else the subscription does; answers come by YTake *)
  | YServe (i : nat) (cid conn now tok : N) (ord : list N)  (* the [i]-th request under way is executed; see y_serve in SdkStreamSys *)
  | YExpire (i : nat)                           (* a waiting fetch ends empty: manager.rs:240-249 *)
  | YCold (i j : nat) (now : N)                 (* the disk read [j] of fetch [i] is used: manager.rs:745-762 *)
  | YLose (i : nat) | YLoseA (j : nat)          (* a request, an answer is lost *)
  | YTake (j : nat) (bad : bool)                (* the [j]-th answer arrives: connection.ts:187-195; bad: see CFetched *)
  | YOther (o : sop)                            (* operations of everyone else and the background tasks *)
  | YBoot (soft : N) (vis : N -> N).            (* the server stops and starts again: manager.rs:444-514 *)

  Definition nstep (y : net) (o : nop) : net :=
    match o with
    | YSub c conn => match n_cl y c with None => client c (cli0, clog0 conn) (clog0 conn) y | Some _ => y end
    | YClient c (CJoined _) | YClient c (CFetched _ _) => y
    | YClient c o => cact c o y
    | YServe i cid conn now tok ord =>
      match nth_error (n_up y) i with
      | Some (c, NJoin n) =>
        let o := SJoin (grp c) cid conn in
        let y' := server (Some c) o (with_up (drop i (n_up y)) y) in
        match snd (sstep (n_s y) o) with RJoin _ gen => reply c n (AJoined (cid, gen)) y' | _ => y' end
      | Some (c, NFetch n id) =>
        let o := STry (grp c) (fst id) (snd id) (lim c) now tok in
        match s_said (snd (sstep (n_s y) o)) with
        | RMsgs ms => reply c n (AMsgs ms) (server (Some c) o (with_up (drop i (n_up y)) y))
        | RErr e => reply c n (AErr (recov e)) (server (Some c) o (with_up (drop i (n_up y)) y))
        | RCold _ => server (Some c) o (with_up (swap i (c, NCold n id) (n_up y)) y)
        | _ => server (Some c) o y
        end
      | Some (c, NLeave id) => reply c 0 ADone (server (Some c) (SLeave ord (grp c) (fst id) (snd id)) (with_up (drop i (n_up y)) y))
      | Some (c, NAck id q) => server (Some c) (SAck (grp c) (fst id) (snd id) q) (with_up (drop i (n_up y)) y)
      | _ => y
      end
    | YExpire i => match nth_error (n_up y) i with
                   | Some (c, NFetch n _) => reply c n (AMsgs []) (with_up (drop i (n_up y)) y)
                   | _ => y
                   end
    | YCold i j now =>
      match nth_error (n_up y) i, nth_error (s_colds (n_s y)) j with
      | Some (c, NCold n id), Some k =>
        if beqb (StreamSysModel.k_gid k) (grp c) && (k_c k =? fst id) && (k_gen k =? snd id) then
          let y' := server (Some c) (SColdDone j now) in
          match snd (sstep (n_s y) (SColdDone j now)) with
          | RMsgs ms => reply c n (AMsgs ms) (y' (with_up (drop i (n_up y)) y))
          | RErr e => reply c n (AErr (recov e)) (y' (with_up (drop i (n_up y)) y))
          | _ => y' y
          end
        else y
      | _, _ => y
      end
    | YLose i => with_up (drop i (n_up y)) y
    | YLoseA j => with_down (drop j (n_down y)) y
    | YTake j bad =>
      match nth_error (n_down y) j with
      | Some a =>
        let y' := with_down (drop j (n_down y)) y in
        match n_cl y (a_c a), a_v a with
        | Some _, ADone => cact (a_c a) CLeft y'
        | Some (k, l), v => if k_up k && Nat.eqb (a_n a) (asks l) then
                              match v with
                              | AJoined id => cact (a_c a) (CJoined id) y'
                              | AMsgs ms => cact (a_c a) (CFetched ms bad) y'
                              | AErr r => cact (a_c a) (CRefused r) y'
                              | ADone => y'
                              end
                            else y'
        | None, _ => y'
        end
      | None => y
      end
    | YOther o => server None o y
    | YBoot soft vis => mkN (n_cl y) (boot crc soft (crash vis (s_store (n_s y)))) (n_up y) (n_down y) (n_log y ++ [OBoot soft vis])
    end.
  Definition nrun (soft : N) (os : list nop) : net := fold_left nstep os (net0 soft).
End Net.
