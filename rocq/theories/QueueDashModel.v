(** The queue page of the dashboard (src/brokers/queue/http.rs): GET
    /api/queue/{name}/messages?state=…&offset=…&limit=…&search=… *)
From Verif Require Import LibBase LibMap ValueModel QueueModel.

(** `String::contains` (queue.rs:281): texts are lists of scalar values *)
Fixpoint starts (s t : list N) : bool :=
  match s, t with
  | [], _ => true
  | a :: s', b :: t' => (a =? b) && starts s' t'
  | _ :: _, [] => false
  end.
Fixpoint contains (s t : list N) : bool :=
  starts s t || match t with [] => false | _ :: t' => contains s t' end.
(** queue.rs:280-283 *)
Definition matches_search (search : option (list N)) (p : bytes) : bool :=
  match search with Some s => contains s (utf8_lossy p) | None => true end.
(** `to_lowercase` (http.rs:123, queue.rs:266), for ASCII letters; no other letter has a
    lower case that occurs in the three words *)
Definition lower (t : list N) : list N := map (fun c => if (65 <=? c) && (c <=? 90) then c + 32 else c) t.
Definition w_pending : list N := [112; 101; 110; 100; 105; 110; 103].
Definition w_inflight : list N := [105; 110; 102; 108; 105; 103; 104; 116].
Definition w_dlq : list N := [100; 108; 113].

Section Page.
  (** [show]: payload_to_json_value (transport/http/payload.rs, ValueModel) *)
  Variable V : Type.
  Variable show : bytes -> V.
  (** http.rs:45-66: [r_fly]: state "inflight" (else "pending"), from the message's own state (queue.rs:296-299) *)
  Record row := mkRow { r_id : N; r_payload : V; r_fly : bool; r_prio : N; r_att : N }.
  Definition row_of (m : message) : row := mkRow (m_id m) (show (m_payload m)) (match m_state m with Ready => false | InFlight _ => true end) (m_prio m) (m_att m).
  (** http.rs:68-89; failure_reason is always there *)
  Record drow := mkDrow { w_id : N; w_payload : V; w_att : N; w_reason : bytes; w_created : N }.
  Definition drow_of (d : dlqmsg) : drow := mkDrow (d_id d) (show (d_payload d)) (d_att d) (d_reason d) (d_created d).
  Inductive page := PMsgs (total : N) (rows : list row) | PDead (total : N) (rows : list drow).
  (** http.rs:117-146, queue.rs:265-311, manager.rs:445-449,458-464, for a queue that exists *)
  Definition queue_page (st : list N) (offset limit : option N) (search : option (list N)) (i : inner) : page :=
    let lim := N.min (match limit with Some n => n | None => 50 end) 1000 in
    let off := match offset with Some n => n | None => 0 end in
    let f := lower st in
    if beqb f w_dlq then let (t, l) := dlq_peek off lim (i_dlq i) in PDead t (map drow_of l)
    else let f := lower f in
         if beqb f w_pending then let (t, l) := get_messages false off lim (matches_search search) (i_state i) in PMsgs t (map row_of l)
         else if beqb f w_inflight then let (t, l) := get_messages true off lim (matches_search search) (i_state i) in PMsgs t (map row_of l)
         else PMsgs 0 [].
End Page.
