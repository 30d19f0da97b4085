(** A stream subscription of the SDK (sdk/ts/src/brokers/stream.ts:51-167): start, stop,
    join, the loop and its polls. What the server answers, when, and whether it answers
    is left open here; SdkStreamSys puts the server of StreamSysModel behind it. *)
From Verif Require Import LibBase StreamTopicModel SdkLoopModel.

(** stream.ts:54-55: consumerId (a UUID, here a number) and generation *)
Definition ident : Type := (N * N)%type.
(** a message handed to runConcurrent (stream.ts:139-146) with the identity its callback
    acknowledges it under (stream.ts:127-128, captured by 149-166) *)
Definition item : Type := (ident * msg)%type.

(** Where the subscription stands. [PStart]: start() awaits its first join (72);
    [PRefused]: that join failed, so subscribe() rejected and there is no loop;
    [PJoin]: the loop awaits a join (107); [PFetch i]: it awaits the answer to a FETCH
    (130-137); [PRun i b]: it awaits runConcurrent (149); [PSleep]: it backs off (116,
    121); [PEnd]: it has returned. *)
Inductive tpc := PStart | PRefused | PJoin | PFetch (i : ident) | PRun (i : ident) (b : batch item) | PSleep | PEnd.
(** [k_id]: consumerId with its generation; [k_leave]: a LEAVE of stop() awaits its
    answer (82); [k_stop]: stop() has been called and has not returned *)
Record cli := mkCli { k_active : bool; k_up : bool; k_id : option ident; k_pc : tpc; k_leave : bool; k_stop : bool }.

(** What can be observed: requests written, answers taken in, failures seen by the
    loop, the callback and acknowledgements ([VDo], see SdkLoopModel), the calls of
    stop(), and the connection. *)
Inductive tev :=
| VJoin | VJoined (i : ident)                 (* JOIN written; its answer *)
| VReady | VRefused                           (* subscribe() resolves, rejects *)
| VFetch (i : ident) | VGot (i : ident) (ms : list msg)  (* FETCH written; its answer *)
| VErr                                        (* a join, fetch or decoding failed: 109 *)
| VDo (e : ev item)
| VStop | VLeave (i : ident) | VStopped       (* stop() called; LEAVE written; stop() returns *)
| VEnd                                        (* the loop returns *)
| VUp (c : N) | VLost.                        (* the connection is there (c: as the server names it), is lost *)

Section Cli.
  (** stream.ts: the concurrency option *)
  Variable conc : N.

  Definition to_pc (p : tpc) (k : cli) : cli := mkCli (k_active k) (k_up k) (k_id k) p (k_leave k) (k_stop k).
  Definition with_id (i : option ident) (k : cli) : cli := mkCli (k_active k) (k_up k) i (k_pc k) (k_leave k) (k_stop k).

  (** stream.ts:109-122, and on to the next round where that follows without a wait (113:
      105-107 with consumerId null; join throws when there is no connection, 94, which
      ends here again and sleeps). [recov]: the error text contains FENCED or NOT_MEMBER *)
  Definition failed (recov : bool) (k : cli) : cli * list tev :=
    if k_active k then
      if recov && k_up k then (to_pc PJoin (with_id None k), [VErr; VJoin])
      else (to_pc PSleep (with_id None k), [VErr])
    else (to_pc PEnd k, [VErr; VEnd]).
  (** stream.ts:126-137: FETCH is sent, or send rejects *)
  Definition poll (i : ident) (k : cli) : cli * list tev :=
    if k_up k then (to_pc (PFetch i) k, [VFetch i]) else failed false k.
  (** stream.ts:105-108 *)
  Definition head (k : cli) : cli * list tev :=
    if k_active k then
      match k_id k with
      | Some i => poll i k
      | None => if k_up k then (to_pc PJoin k, [VJoin]) else failed false k
      end
    else (to_pc PEnd k, [VEnd]).
  Definition also (es : list tev) (r : cli * list tev) : cli * list tev := (fst r, es ++ snd r).

  Inductive cop :=
  | CJoined (i : ident)                     (* the answer to JOIN *)
  | CFetched (ms : list msg) (bad : bool)   (* the answer to FETCH; bad: decodeAny throws on one of the payloads (145) *)
  | CRefused (recov : bool)                 (* the answer is an error, or there is none in time *)
  | CWork (o : wop)                         (* a worker of runConcurrent *)
  | CNext                                   (* runConcurrent resolves *)
  | CWake                                   (* the sleep is over *)
  | CStop | CLeft | CStopped                (* stop() is called, its LEAVE is settled, it returns *)
  | CLost | CUp (c : N).

  (** An answer and the code that runs on it up to the next await are one step. *)
  Definition cstep (k : cli) (o : cop) : cli * list tev :=
    match o with
    | CJoined i =>
      match k_pc k with
      | PStart => also [VJoined i; VReady] (head (with_id (Some i) k))           (* 72-73, 99-101, 105 *)
      | PJoin => also [VJoined i] (poll i (with_id (Some i) k))                  (* 107-108: active is not looked at *)
      | _ => (k, [])
      end
    | CFetched ms bad =>
      match k_pc k with
      | PFetch i =>
        match ms with
        | [] => also [VGot i []] (head k)                                        (* 140 *)
        | _ => if bad then also [VGot i ms] (failed false k)
               else (to_pc (PRun i (batch_new item conc (map (pair i) ms))) k, [VGot i ms])
        end
      | _ => (k, [])
      end
    | CRefused recov =>
      match k_pc k with
      | PStart => (to_pc PRefused k, [VErr; VRefused])
      | PJoin | PFetch _ => failed recov k
      | _ => (k, [])
      end
    | CWork o =>
      match k_pc k with
      | PRun i b => let (b', es) := wstep item false (k_active k) (k_up k) b o in (to_pc (PRun i b') k, map VDo es)
      | _ => (k, [])
      end
    | CNext => match k_pc k with PRun _ b => if forallb (is_done item) (b_ws item b) then head k else (k, []) | _ => (k, []) end
    | CWake => match k_pc k with PSleep => head k | _ => (k, []) end
    | CStop =>                                                                    (* 79-88 *)
      match k_pc k with
      | PStart | PRefused => (k, [])
      | _ => let k' := mkCli false (k_up k) (k_id k) (k_pc k) (k_leave k) true in
             match k_id k with
             | Some i => if k_up k then (mkCli false (k_up k) (k_id k) (k_pc k) true true, [VStop; VLeave i]) else (k', [VStop])
             | None => (k', [VStop])
             end
      end
    | CLeft => (mkCli (k_active k) (k_up k) (k_id k) (k_pc k) false (k_stop k), [])
    | CStopped =>                                                                 (* 90 *)
      match k_pc k with
      | PEnd => if k_stop k && negb (k_leave k) then (mkCli (k_active k) (k_up k) (k_id k) PEnd false false, [VStopped]) else (k, [])
      | _ => (k, [])
      end
    | CLost =>                                                                    (* connection.ts:108-121 *)
      if k_up k then
        let k' := mkCli (k_active k) false (k_id k) (k_pc k) false (k_stop k) in
        match k_pc k with
        | PStart => (to_pc PRefused k', [VLost; VErr; VRefused])
        | PJoin | PFetch _ => also [VLost] (failed false k')
        | _ => (k', [VLost])
        end
      else (k, [])
    | CUp c => if k_up k then (k, []) else (mkCli (k_active k) true (k_id k) (k_pc k) (k_leave k) (k_stop k), [VUp c])
    end.

  (** stream.ts:68-72 on a connection: the subscription starts by writing JOIN *)
  Definition cli0 : cli := mkCli true true None PStart false false.
  Definition clog0 (c : N) : list tev := [VUp c; VJoin].
  Definition cnext (s : cli * list tev) (o : cop) : cli * list tev := let (k, es) := cstep (fst s) o in (k, snd s ++ es).
  Definition crun (c : N) (os : list cop) : cli * list tev := fold_left cnext os (cli0, clog0 c).
  Definition kst (c : N) (os : list cop) : cli := fst (crun c os).
  Definition klog (c : N) (os : list cop) : list tev := snd (crun c os).
End Cli.
