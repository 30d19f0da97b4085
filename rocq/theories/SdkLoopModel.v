(** The consuming loops of the SDK: runConcurrent (sdk/ts/src/utils/concurrent.ts:11-28)
    under queue.subscribe (sdk/ts/src/brokers/queue.ts:231-305) and the stream
    subscription (sdk/ts/src/brokers/stream.ts:104-166). *)
From Verif Require Import LibBase.

Section Loop.
  (** [A]: a delivered message. [conc]: the concurrency option (a whole number; what is
      below 1 counts as 1; NaN and fractions, which make Array() throw, are not
      modelled). [isq]: queue subscription, otherwise stream. *)
  Variable A : Type.
  Variable conc : N.
  Variable isq : bool.

  (** a worker of runConcurrent (concurrent.ts:24-26; the for loop of 18 is one worker):
      about to look at the queue, awaiting the handler, returned, rejected *)
  Inductive worker := Ready | Busy (x : A) | Done | Dead.
  (** one call of runConcurrent *)
  Record batch := mkB { b_q : list A; b_ws : list worker }.
  (** what can be observed: a handler starts, it ends well or throws, an ack or a nack
      is sent, a message is passed over because the subscription was stopped *)
  Inductive ev := EStart (x : A) | EEnd (x : A) (ok : bool) | EAck (x : A) | ENack (x : A) | ESkip (x : A).
  (** [l_cur]: the batch the loop awaits; [l_old]: batches it no longer awaits *)
  Record loop := mkL { l_active : bool; l_up : bool; l_wait : bool; l_cur : option batch; l_old : list batch; l_got : list A; l_log : list ev }.
  Definition loop0 : loop := mkL true true false None [] [] [].

  (** concurrent.ts:17-22 *)
  Definition workers (n : N) : nat := N.to_nat (if conc <=? 1 then 1 else N.min conc n).
  Definition batch_new (items : list A) : batch := mkB items (repeat Ready (workers (lenN items))).

  Inductive wop :=
  | WTake (i : nat) (bad : bool)      (* concurrent.ts:25 / 18, fn starts: queue.ts:262-267, stream.ts:152 *)
  | WEnd (i : nat) (ok bad : bool).   (* the user's handler settles: queue.ts:268-276, stream.ts:154-164 *)
  (** [bad]: sending the ack or nack throws (the id has outgrown the frame writer, C11).
      Result: the batch and what is observed. *)
  Definition setw (i : nat) (w : worker) (l : list worker) : list worker := firstn i l ++ w :: skipn (S i) l.
  Definition wstep (active up : bool) (b : batch) (o : wop) : batch * list ev :=
    match o with
    | WTake i bad =>
      match nth_error (b_ws b) i with
      | Some Ready =>
        match b_q b with
        | [] => (mkB [] (setw i Done (b_ws b)), [])
        | x :: q =>
          if active then (mkB q (setw i (Busy x) (b_ws b)), [EStart x])
          else if isq && up then
            if bad then (mkB q (setw i Dead (b_ws b)), [ESkip x]) else (mkB q (setw i Ready (b_ws b)), [ESkip x; ENack x])
          else (mkB q (setw i Ready (b_ws b)), [ESkip x])
        end
      | _ => (b, [])
      end
    | WEnd i ok bad =>
      match nth_error (b_ws b) i with
      | Some (Busy x) =>
        if negb up then (mkB (b_q b) (setw i Ready (b_ws b)), [EEnd x ok])
        else if bad then (mkB (b_q b) (setw i (if isq then Dead else Ready) (b_ws b)), [EEnd x ok])
        else (mkB (b_q b) (setw i Ready (b_ws b)), EEnd x ok :: (if ok then [EAck x] else if isq then [ENack x] else []))
      | _ => (b, [])
      end
    end.

  Definition is_done (w : worker) : bool := match w with Done => true | _ => false end.
  Definition is_dead (w : worker) : bool := match w with Dead => true | _ => false end.
  Inductive lop :=
  | LAsk                       (* the loop sends a consume / fetch: queue.ts:252-258, stream.ts:105-130 *)
  | LBatch (items : list A)    (* its answer: queue.ts:260-262, stream.ts:139-151 *)
  | LFail                      (* ... or its failure *)
  | LWork (o : wop)            (* a worker of the awaited batch *)
  | LOld (k : nat) (o : wop)   (* a worker of an abandoned batch *)
  | LNext                      (* runConcurrent resolves or rejects: concurrent.ts:27 (Promise.all), queue.ts:279-290 *)
  | LStop                      (* stop(): queue.ts:300, stream.ts:79 *)
  | LConn (up : bool).         (* the connection is lost or restored *)
  Definition lstep (s : loop) (o : lop) : loop :=
    match o with
    | LAsk => match l_cur s with
              | None => if l_active s && negb (l_wait s) then mkL (l_active s) (l_up s) true None (l_old s) (l_got s) (l_log s) else s
              | Some _ => s
              end
    | LBatch items => if l_wait s then mkL (l_active s) (l_up s) false (match items with [] => None | _ => Some (batch_new items) end) (l_old s) (l_got s ++ items) (l_log s) else s
    | LFail => mkL (l_active s) (l_up s) false (l_cur s) (l_old s) (l_got s) (l_log s)
    | LWork o => match l_cur s with
                 | Some b => let (b', e) := wstep (l_active s) (l_up s) b o in mkL (l_active s) (l_up s) (l_wait s) (Some b') (l_old s) (l_got s) (l_log s ++ e)
                 | None => s
                 end
    | LOld k o => match nth_error (l_old s) k with
                  | Some b => let (b', e) := wstep (l_active s) (l_up s) b o in
                              mkL (l_active s) (l_up s) (l_wait s) (l_cur s) (firstn k (l_old s) ++ b' :: skipn (S k) (l_old s)) (l_got s) (l_log s ++ e)
                  | None => s
                  end
    | LNext => match l_cur s with
               | Some b => if forallb is_done (b_ws b) then mkL (l_active s) (l_up s) (l_wait s) None (l_old s) (l_got s) (l_log s)
                           else if existsb is_dead (b_ws b) then mkL (l_active s) (l_up s) (l_wait s) None (l_old s ++ [b]) (l_got s) (l_log s) else s
               | None => s
               end
    | LStop => mkL false (l_up s) (l_wait s) (l_cur s) (l_old s) (l_got s) (l_log s)
    | LConn up => mkL (l_active s) up (l_wait s) (l_cur s) (l_old s) (l_got s) (l_log s)
    end.
  Definition lrun (os : list lop) : loop := fold_left lstep os loop0.

  (** ** Specification, on what is observed *)
  Definition starts (l : list ev) : list A := flat_map (fun e => match e with EStart x => [x] | _ => [] end) l.
  Definition ends (l : list ev) : list A := flat_map (fun e => match e with EEnd x _ => [x] | _ => [] end) l.
  Definition ended (r : bool) (l : list ev) : list A := flat_map (fun e => match e with EEnd x ok => if Bool.eqb ok r then [x] else [] | _ => [] end) l.
  Definition acks (l : list ev) : list A := flat_map (fun e => match e with EAck x => [x] | _ => [] end) l.
  Definition nacks (l : list ev) : list A := flat_map (fun e => match e with ENack x => [x] | _ => [] end) l.
  Definition skips (l : list ev) : list A := flat_map (fun e => match e with ESkip x => [x] | _ => [] end) l.
  Definition taken (l : list ev) : list A := flat_map (fun e => match e with EStart x | ESkip x => [x] | _ => [] end) l.
  (** sending never throws *)
  Definition sends_ok (o : lop) : Prop :=
    match o with LWork (WTake _ bad) | LWork (WEnd _ _ bad) | LOld _ (WTake _ bad) | LOld _ (WEnd _ _ bad) => bad = false | _ => True end.
End Loop.
