(** A stream topic in memory (stream/domain/topic.rs). *)
From Verif Require Import LibBase.

(** domain/message.rs:4-9 *)
Record msg := mkMsg { m_seq : N; m_ts : N; m_pay : bytes }.

(** topic.rs:62-71. The name is kept by the manager. *)
Record topic := mkTopic { t_log : list msg; t_next : N; t_head : N; t_ram : N; t_soft : N }.

(** topic.rs:74-83 *)
Definition topic_new (soft : N) : topic := mkTopic [] 1 1 1 soft.

Fixpoint last_msg (l : list msg) : option msg :=
  match l with [] => None | [m] => Some m | _ :: r => last_msg r end.

(** topic.rs:85-97 *)
Definition topic_restore (soft head : N) (ms : list msg) : topic :=
  let next := match last_msg ms with Some m => m_seq m + 1 | None => N.max head 1 end in
  let ram := match ms with m :: _ => m_seq m | [] => N.max next head end in
  mkTopic ms next head ram soft.

(** topic.rs:99-118; [ts]: the clock. Returns the sequence number. *)
Definition append (ts : N) (pay : bytes) (t : topic) : topic * N :=
  let seq := t_next t in
  (mkTopic (t_log t ++ [mkMsg seq ts pay]) (seq + 1) (t_head t)
     (match t_log t with [] => seq | _ => t_ram t end) (t_soft t), seq).

(** topic.rs:120-131 *)
Definition read (from limit : N) (t : topic) : list msg :=
  let from := N.max (N.max from (t_head t)) 1 in
  if (t_ram t <=? from) && negb (match t_log t with [] => true | _ => false end) then
    if from - t_ram t <? lenN (t_log t) then takeN limit (dropN (from - t_ram t) (t_log t)) else []
  else [].

(** topic.rs:134-148. Each round removes a message, so the log bounds the rounds. *)
Fixpoint evict_loop (persisted head soft : N) (log : list msg) (ram : N) : list msg * N :=
  match log with
  | [] => ([], ram)
  | m :: r =>
    if soft <? lenN log then
      if m_seq m <=? persisted then evict_loop persisted head soft r (N.max (m_seq m + 1) head) else (log, ram)
    else (log, ram)
  end.
Definition evict (persisted : N) (t : topic) : topic :=
  let (log, ram) := evict_loop persisted (t_head t) (t_soft t) (t_log t) (t_ram t) in
  mkTopic log (t_next t) (t_head t) ram (t_soft t).

Fixpoint drop_below (h : N) (l : list msg) : list msg :=
  match l with m :: r => if m_seq m <? h then drop_below h r else l | [] => [] end.
(** topic.rs:150-164 *)
Definition apply_head (head : N) (t : topic) : topic :=
  let h := N.max head 1 in
  let log := drop_below h (t_log t) in
  mkTopic log (t_next t) h (match log with m :: _ => m_seq m | [] => N.max (t_next t) h end) (t_soft t).

(** group.rs:359-365 *)
Definition read_from_log (log : list msg) (ram seq : N) : option msg :=
  if (seq <? ram) || match log with [] => true | _ => false end then None
  else nth_error log (N.to_nat (seq - ram)).
