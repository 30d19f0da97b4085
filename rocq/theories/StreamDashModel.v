(** The stream pages of the dashboard: GET /api/stream and GET /api/stream/{topic}/messages
    (src/brokers/stream/http.rs:91-129), for one topic. *)
From Verif Require Import LibBase StreamTopicModel StreamGroupModel StreamStoreModel StreamSysModel.

(** manager.rs:389-413 get_snapshot, one topic: last_seq, and for each group its id,
    ack_floor and number of pending messages. The configuration is copied as it is and
    left out here. *)
Record tsum := mkSum { su_last : N; su_groups : list (bytes * (N * N)) }.
Definition topic_summary (s : sys) : tsum :=
  mkSum (t_next (s_top s) - 1) (map (fun e => (fst e, (g_floor (snd e), lenN (g_pend (snd e))))) (s_groups s)).

(** http.rs:101 *)
Definition page_limit (limit : option N) : N := N.min (match limit with Some l => l | None => 50 end) 500.
(** http.rs:111-113 *)
Definition page_from (last limit : N) (from : option N) : N :=
  match from with Some f => f | None => N.max (last - (limit - 1)) 1 end.

(** http.rs:84-88 *)
Record mpage := mkPage { pg_msgs : list msg; pg_from : N; pg_limit : N; pg_last : N }.
(** http.rs:96-129: the snapshot is taken in [s1], the messages are read in [s2].
    Simplification: payloads and time stamps are shown as they are. *)
Definition messages_page (crc : bytes -> N) (vis : N -> N) (from limit : option N) (s1 s2 : sys) : mpage :=
  let l := page_limit limit in
  let last := su_last (topic_summary s1) in
  let f := page_from last l from in
  mkPage (rev (op_read crc vis f l s2)) f l last.
