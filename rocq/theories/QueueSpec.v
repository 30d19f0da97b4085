(** Abstract specification of one queue: three plain lists. *)
From Verif Require Import LibBase LibMap QueueModel.

(** [s_wait]: waiting messages in the order they became waiting;
    [s_fly]: in-flight messages by deadline, then delivery order;
    [s_dead]: dead letters in the order they died. *)
Record qspec := mkSpec { s_wait : list message; s_fly : list message; s_dead : list dlqmsg }.
Definition spec0 : qspec := mkSpec [] [] [].

(** the waiting message to deliver: highest priority, longest waiting *)
Fixpoint best (l : list message) : option message :=
  match l with
  | [] => None
  | m :: l' =>
      match best l' with
      | Some b => if m_prio m <? m_prio b then Some b else Some m
      | None => Some m
      end
  end.
Definition without (id : N) (l : list message) : list message := filter (fun m => negb (m_id m =? id)) l.
Definition find_id (id : N) (l : list message) : option message := find (fun m => m_id m =? id) l.
Definition dl (m : message) : N := match m_state m with InFlight t => t | Ready => 0 end.
(** insert behind everything with an earlier or equal deadline *)
Fixpoint ins_dl (m : message) (l : list message) : list message :=
  match l with
  | [] => [m]
  | x :: l' => if dl x <=? dl m then x :: ins_dl m l' else m :: x :: l'
  end.
(** The forms a message takes, field by field (id, payload, priority, attempts,
    creation time, visible-at, last reason, state): as pushed; as delivered with
    deadline [t]; as returned to the waiting list; with a nack reason noted. *)
Definition msg_pushed (id : N) (payload : bytes) (prio now : N) : message :=
  mkMsg id payload prio 0 now 0 None Ready.
Definition delivered (t : N) (m : message) : message :=
  mkMsg (m_id m) (m_payload m) (m_prio m) (m_att m + 1) (m_created m) t (m_reason m) (InFlight t).
Definition requeued (m : message) : message :=
  mkMsg (m_id m) (m_payload m) (m_prio m) (m_att m) (m_created m) 0 (m_reason m) Ready.
Definition noted (reason : bytes) (m : message) : message :=
  mkMsg (m_id m) (m_payload m) (m_prio m) (m_att m) (m_created m) (m_vis m) (Some reason) (m_state m).
(** a dead letter keeps everything and adds the time and reason of its death; a
    message moved back starts over with its payload, priority and creation time *)
Definition dead_letter (m : message) (reason : bytes) (now : N) : dlqmsg :=
  mkDlq (m_id m) (m_payload m) (m_prio m) (m_att m) (m_created m) now reason.
Definition revived (d : dlqmsg) : message := msg_pushed (d_id d) (d_payload d) (d_prio d) (d_created d).
(** the reason given for a timeout: "Timeout" *)
Definition timed_out : bytes := [84; 105; 109; 101; 111; 117; 116].
(** 64-bit unsigned addition wraps *)
Definition due_at (now vt : N) : N := (now + vt) mod 2 ^ 64.
Definition dead_del (id : N) (l : list dlqmsg) : list dlqmsg := filter (fun d => negb (d_id d =? id)) l.

Section Spec.
  Variable cfg : qconfig.
  Definition a_pop (now : N) (s : qspec) : qspec * option message :=
    match best (s_wait s) with
    | None => (s, None)
    | Some m =>
        let m' := delivered (due_at now (c_vt cfg)) m in
        (mkSpec (without (m_id m) (s_wait s)) (ins_dl m' (s_fly s)) (s_dead s), Some m')
    end.
  (** take up to [n] more, [i] already taken *)
  Fixpoint a_take (n i : nat) (clk : nat -> N) (s : qspec) : qspec * list message :=
    match n with
    | O => (s, [])
    | S n' =>
        match a_pop (clk i) s with
        | (s', Some m) => let (s'', ms) := a_take n' (S i) clk s' in (s'', m :: ms)
        | (s', None) => (s', [])
        end
    end.
  Definition overdue (now : N) (m : message) : bool := dl m <=? now.
  Definition exhausted (m : message) : bool := c_max cfg <=? m_att m.
  Definition a_step (s : qspec) (o : qop) : qspec * qout :=
    match o with
    | QoPush id payload prio now =>
        (mkSpec (s_wait s ++ [msg_pushed id payload prio now]) (s_fly s) (s_dead s), ROkay)
    | QoPop now => let (s', r) := a_pop now s in (s', RMsg r)
    | QoConsume max clk =>
        let (s', ms) := a_take (N.to_nat (N.min max (lenN (s_wait s)))) 0 clk s in (s', RMsgs ms)
    | QoAck id =>
        match find_id id (s_wait s ++ s_fly s) with
        | Some _ => (mkSpec (without id (s_wait s)) (without id (s_fly s)) (s_dead s), RBool true)
        | None => (s, RBool false)
        end
    | QoNack id reason now =>
        match find_id id (s_wait s ++ s_fly s) with
        | Some m =>
            if exhausted m then
              (mkSpec (without id (s_wait s)) (without id (s_fly s))
                      (s_dead s ++ [dead_letter m reason now]), RBool true)
            else
              match m_state m with
              | Ready => (* already waiting: keeps its place *)
                  (mkSpec (map (fun x => if m_id x =? id then requeued (noted reason x) else x) (s_wait s))
                          (s_fly s) (s_dead s), RBool true)
              | InFlight _ =>
                  (mkSpec (s_wait s ++ [requeued (noted reason m)]) (without id (s_fly s))
                          (s_dead s), RBool true)
              end
        | None => (s, RBool false)
        end
    | QoExpire now1 now2 =>
        if existsb (overdue now1) (s_fly s) then
          let due := filter (overdue now2) (s_fly s) in
          let back := map requeued (filter (fun m => negb (exhausted m)) due) in
          let died := map (fun m => dead_letter m timed_out now2) (filter exhausted due) in
          (mkSpec (s_wait s ++ back) (filter (fun m => negb (overdue now2 m)) (s_fly s)) (s_dead s ++ died),
           RExpired back died)
        else (s, RExpired [] [])
    | QoMove id =>
        match find (fun d => d_id d =? id) (s_dead s) with
        | Some d => (mkSpec (s_wait s ++ [revived d]) (s_fly s) (dead_del id (s_dead s)), RBool true)
        | None => (s, RBool false)
        end
    | QoDelDlq id =>
        match find (fun d => d_id d =? id) (s_dead s) with
        | Some _ => (mkSpec (s_wait s) (s_fly s) (dead_del id (s_dead s)), RBool true)
        | None => (s, RBool false)
        end
    | QoPurge => (mkSpec (s_wait s) (s_fly s) [], RCount (lenN (s_dead s)))
    end.
  Definition a_next (s : qspec) (o : qop) : qspec := fst (a_step s o).
  Definition a_out (s : qspec) (o : qop) : qout := snd (a_step s o).
  Definition a_run (s : qspec) (h : list qop) : qspec := fold_left a_next h s.
End Spec.
