(** What stream consumers promise end to end, on the common log of the subscriptions and
    the server. *)
From Verif Require Import LibBase LibMap StreamTopicModel StreamGroupModel StreamStoreModel StreamStoreFacts StreamSysModel StreamSysProofs StreamSysHist StreamSysFacts StreamSysLife StreamGroupSpec SdkLoopModel SdkStreamModel SdkStreamSys SdkStreamNetModel.

Section Spec.
  Variable crc : bytes -> N.
  Variable cfg : gcfg.
  Variable smax : N.
  Variable grp : nat -> bytes.
  Notation sstep := (sstep crc cfg smax).

  (** the records published *)
  Definition published (L : list nev) : list msg :=
    flat_map (fun e => match e with OServer _ (SPub ts pay) (RSeq n) => [mkMsg n ts pay] | _ => [] end) L.
  (** a callback of a subscription of group [gid] was started for record [m] and ended well *)
  Definition handled (gid : bytes) (m : msg) (L : list nev) : Prop :=
    exists c i, grp c = gid /\ In (OClient c (VDo (EStart item (i, m)))) L /\ In (OClient c (VDo (EEnd item (i, m) true))) L.
  (** someone who is not one of the subscriptions acknowledged number [q] *)
  Definition acked_elsewhere (gid : bytes) (q : N) (L : list nev) : Prop := exists c gen, In (OServer None (SAck gid c gen q) RUnit) L.

  (** the server's state after the operations of [L] *)
  Definition srv_step (s : sys) (e : nev) : sys :=
    match e with OClient _ _ => s | OServer _ o _ => fst (sstep s o) | OBoot soft vis => boot crc soft (crash vis (s_store s)) end.
  Definition srv (soft : N) (L : list nev) : sys := fold_left srv_step L (sys_new soft).
  (** operation [o] answers a fetch of group [gid] *)
  Definition fetch_of (gid : bytes) (s : sys) (o : sop) : bool :=
    match o with
    | STry g _ _ _ _ _ => beqb gid g
    | SColdDone j _ => match nth_error (s_colds s) j with Some k => beqb gid (k_gid k) | None => false end
    | _ => false
    end.
  (** event [e], at server state [s], gives number [q] out to the group *)
  Definition gives_out (gid : bytes) (q : N) (s : sys) (e : nev) : bool :=
    match e with OServer _ o (RMsgs ms) => fetch_of gid s o && in_out q ms | _ => false end.
  (** event [e] is a seek of the group or a restart of the server *)
  Definition resets (gid : bytes) (e : nev) : bool :=
    match e with OServer _ (SSeek _ g) _ => beqb gid g | OBoot _ _ => true | _ => false end.
  (** how often number [q] was given out to the group: altogether, and since the group's
      last seek or the server's last restart *)
  Definition count_step (gid : bytes) (q : N) (x : sys * (N * N)) (e : nev) : sys * (N * N) :=
    let '(s, (all, late)) := x in
    let d := if gives_out gid q s e then 1 else 0 in
    (srv_step s e, (all + d, if resets gid e then 0 else late + d)).
  Definition counts (soft : N) (gid : bytes) (q : N) (L : list nev) : N * N := snd (fold_left (count_step gid q) L (sys_new soft, (0, 0))).
  Definition given_out soft gid q L : N := fst (counts soft gid q L).
  Definition lately soft gid q L : N := snd (counts soft gid q L).
  (** it was given out as often as allowed, without a seek or restart in between *)
  Definition given_up (soft : N) (gid : bytes) (q : N) (L : list nev) : Prop :=
    exists a b, L = a ++ b /\ max_del cfg <= lately soft gid q a.
  (** the group was moved to the end of the topic when number [q] had been published *)
  Definition skipped (soft : N) (gid : bytes) (q : N) (L : list nev) : Prop :=
    exists a who r b, L = a ++ OServer who (SSeek false gid) r :: b /\ q < t_next (s_top (srv soft a)).
  (** retention has removed number [q] *)
  Definition removed (soft : N) (q : N) (L : list nev) : Prop := exists a b, L = a ++ b /\ q < t_head (s_top (srv soft a)).

  (** whom, and when, event [e] gives number [q] out to *)
  Definition holder_of (gid : bytes) (q : N) (s : sys) (e : nev) : option (N * N) :=
    match e with
    | OServer _ (STry g c _ _ now _) (RMsgs ms) => if beqb gid g && in_out q ms then Some (c, now) else None
    | OServer _ (SColdDone j now) (RMsgs ms) => match nth_error (s_colds s) j with Some k => if beqb gid (k_gid k) && in_out q ms then Some (k_c k, now) else None | None => None end
    | _ => None
    end.
  (** event [e] is an accepted acknowledgement of number [q] *)
  Definition acked_by (gid : bytes) (q : N) (e : nev) : bool := match e with OServer _ (SAck g _ _ n) RUnit => beqb gid g && (n =? q) | _ => false end.
  (** event [e] takes back what a member [fst x] of the group got at time [snd x]: it
      leaves, its connection ends, or a check finds the acknowledgement overdue *)
  Definition takes_from (gid : bytes) (s : sys) (e : nev) (x : N * N) : bool :=
    match e with
    | OServer _ (SLeave _ g c _) RUnit => beqb gid g && (c =? fst x)
    | OServer _ (SDisc _ conn) _ => match aget N.eqb conn (s_clients s) with Some l => existsb (fun b => beqb gid (fst b) && (snd b =? fst x)) l | None => false end
    | OServer _ (STick _ now) _ => ack_wait cfg <? now - snd x
    | _ => false
    end.
  (** how often number [q] was taken back, or everything was by a seek of the group or a
      restart; with the one who has it *)
  Definition back_step (gid : bytes) (q : N) (x : sys * (option (N * N) * N)) (e : nev) : sys * (option (N * N) * N) :=
    let '(s, (h, n)) := x in
    let b := resets gid e || match h with Some x => takes_from gid s e x | None => false end in
    (srv_step s e, (match holder_of gid q s e with Some x => Some x | None => if b || acked_by gid q e then None else h end, if b then n + 1 else n)).
  Definition backs (soft : N) (gid : bytes) (q : N) (L : list nev) : option (N * N) * N := snd (fold_left (back_step gid q) L (sys_new soft, (None, 0))).
  Definition taken_back soft gid q L : N := snd (backs soft gid q L).

  (** how often callbacks of the group were started for number [q] *)
  Definition started (gid : bytes) (q : N) (L : list nev) : nat :=
    length (filter (fun e => match e with OClient c (VDo (EStart _ (_, m))) => beqb (grp c) gid && (m_seq m =? q) | _ => false end) L).

  (** What the server's environment guarantees (StreamSysProofs): numbers, clocks and sizes
      in range, messages handed to storage in order, group names below 64 KiB, restarts
      only when everything is written. *)
  Definition env_ok (y : net) (o : nop) : Prop :=
    match o with
    | YOther o => op_ok (n_s y) o /\ orderly o /\ short o
    | YBoot soft vis => vis_ok vis (s_store (n_s y)) /\ s_box (n_s y) = [] /\ flushed (n_s y)
    | _ => True
    end.
  Fixpoint envs_ok (conc : nat -> N) (lim : nat -> N) (y : net) (os : list nop) : Prop :=
    match os with [] => True | o :: os => env_ok y o /\ envs_ok conc lim (nstep crc cfg smax conc grp lim y o) os end.
End Spec.
