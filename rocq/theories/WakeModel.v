(** Long polling: the wait loop shared by queue consumes and stream fetches, over
    tokio's Notify. Any number of waiting requests, any number of other requests. *)
From Verif Require Import LibBase LibMap.

(** Where a waiting request stands in its loop (queue/manager.rs:401-423,
    stream/manager.rs:226-251): before taking a [notified()] future, holding one
    that was created when the notification count was [n], or suspended in select!. *)
Inductive phase := Idle | Armed (n : N) | Blocked (n : N).

Section Wake.
  (** The state behind the lock, the operations on it (each one critical section),
      the parameters of a waiting request and its answers. *)
  Variables St Op Par Ans Tm : Type.
  Variable step : St -> Op -> St.
  (** the operation calls notify_waiters after leaving the lock *)
  Variable rings : St -> Op -> bool.
  (** one turn of the loop, at time [now], is the operation [attempt p now];
      [answer]: what it finds; None: nothing, the request goes on waiting *)
  Variable attempt : Par -> Tm -> Op.
  Variable answer : St -> Op -> option Ans.
  (** the request tries once before it enters the loop (queue/manager.rs:380-390) *)
  Variable eager : bool.

  Record waiter := mkWaiter { v_par : Par; v_phase : phase }.
  (** [w_cnt]: how often notify_waiters ran (tokio counts its calls; a [notified()]
      future completes if the count has changed since its creation). [w_owed]:
      operations that have left the lock and not yet called notify_waiters. *)
  Record wst := mkWst { w_st : St; w_cnt : N; w_owed : N; w_tab : list (N * waiter); w_done : list (N * Ans) }.

  Inductive wop :=
  | WOp (o : Op)                  (* any other request or task under the lock *)
  | WRing                         (* a notify_waiters call that was owed *)
  | WCall (id : N) (p : Par) (now : Tm)   (* a waiting request arrives *)
  | WArm (id : N)                 (* queue/manager.rs:402, stream/manager.rs:227 *)
  | WTry (id : N) (now : Tm)       (* queue/manager.rs:404-415, stream/manager.rs:229-239 *)
  | WWake (id : N)                (* the future is complete: next turn of the loop *)
  | WEnd (id : N).                (* deadline, cancellation or abort *)

  Definition do_op (o : Op) (w : wst) : wst :=
    mkWst (step (w_st w) o) (w_cnt w) (w_owed w + (if rings (w_st w) o then 1 else 0)) (w_tab w) (w_done w).
  Definition set_tab t w := mkWst (w_st w) (w_cnt w) (w_owed w) t (w_done w).
  Definition put (id : N) (v : waiter) (w : wst) : wst := set_tab (aset N.eqb id v (w_tab w)) w.
  Definition gone (id : N) (w : wst) : wst := set_tab (adel N.eqb id (w_tab w)) w.
  Definition answered (id : N) (a : Ans) (w : wst) : wst :=
    mkWst (w_st w) (w_cnt w) (w_owed w) (adel N.eqb id (w_tab w)) ((id, a) :: w_done w).
  Definition waiting (id : N) (w : wst) : option waiter := aget N.eqb id (w_tab w).

  (** Steps that do not apply change nothing. *)
  Definition wstep (w : wst) (x : wop) : wst :=
    match x with
    | WOp o => do_op o w
    | WRing => if w_owed w =? 0 then w
               else mkWst (w_st w) (w_cnt w + 1) (w_owed w - 1) (w_tab w) (w_done w)
    | WCall id p now =>
        match waiting id w with
        | Some _ => w
        | None =>
          if eager then
            match answer (w_st w) (attempt p now) with
            | Some a => answered id a (do_op (attempt p now) w)
            | None => put id (mkWaiter p Idle) (do_op (attempt p now) w)
            end
          else put id (mkWaiter p Idle) w
        end
    | WArm id =>
        match waiting id w with
        | Some (mkWaiter p Idle) => put id (mkWaiter p (Armed (w_cnt w))) w
        | _ => w
        end
    | WTry id now =>
        match waiting id w with
        | Some (mkWaiter p (Armed n)) =>
            match answer (w_st w) (attempt p now) with
            | Some a => answered id a (do_op (attempt p now) w)
            | None => put id (mkWaiter p (Blocked n)) (do_op (attempt p now) w)
            end
        | _ => w
        end
    | WWake id =>
        match waiting id w with
        | Some (mkWaiter p (Blocked n)) => if n =? w_cnt w then w else put id (mkWaiter p Idle) w
        | _ => w
        end
    | WEnd id => gone id w
    end.
  Fixpoint wrun (w : wst) (xs : list wop) : wst :=
    match xs with [] => w | x :: r => wrun (wstep w x) r end.
  Definition wake0 (s : St) : wst := mkWst s 0 0 [] [].

  (** Suspended with nothing under way to wake it. *)
  Definition asleep (id : N) (p : Par) (w : wst) : Prop :=
    waiting id w = Some (mkWaiter p (Blocked (w_cnt w))) /\ w_owed w = 0.
End Wake.
