(** What a consumer group's history means for each message, computed from the
    operations and their visible results only. *)
From Verif Require Import LibBase LibMap StreamTopicModel StreamGroupModel.

(** The operations on one group, in the order in which the topic lock serialises
    them. [now]: the clock; [ord]: hash map iteration order; log, ram, head: the
    topic's memory window at that moment; [ms]: what a disk read returned. *)
Inductive gop :=
| GJoin (c conn : N)
| GLeave (ord : list N) (c : N)
| GFetch (c gen limit now : N) (log : list msg) (ram head : N)
| GCold (c gen now : N) (ms : list msg) (head : N)
| GAck (c gen s : N)
| GTick (ord : list N) (now : N)
| GSeekB (head : N)
| GSeekE (last : N)
| GClamp (head : N)
| GFlag (b : bool).

Inductive gout := OUnit | OErr (e : gerr) | OMsgs (ms : list msg).

Definition of_res (r : gerr + list msg) : gout := match r with inl e => OErr e | inr l => OMsgs l end.

Definition gstep (cfg : gcfg) (g : group) (op : gop) : group * gout :=
  match op with
  | GJoin c conn => (add_member c conn g, OUnit)
  | GLeave ord c => (fst (remove_member cfg ord c g), OUnit)
  | GFetch c gen limit now log ram head => let (g', r) := fetch cfg c gen limit now log ram head g in (g', of_res r)
  | GCold c gen now ms head => let (g', r) := register_cold cfg c gen now ms head g in (g', of_res r)
  | GAck c gen s => let (g', r) := ack c gen s g in (g', match r with Some e => OErr e | None => OUnit end)
  | GTick ord now => (fst (check_redelivery cfg ord now g), OUnit)
  | GSeekB head => (seek_beginning head g, OUnit)
  | GSeekE last => (seek_end last g, OUnit)
  | GClamp head => (fst (clamp_head head g), OUnit)
  | GFlag b => (set_cold b g, OUnit)
  end.

(** The memory window holds consecutive numbers starting at [ram]. *)
Definition log_ok (log : list msg) (ram : N) : Prop :=
  forall i m, nth_error log i = Some m -> m_seq m = ram + N.of_nat i.

Definition gop_ok (op : gop) : Prop :=
  match op with GFetch _ _ _ _ log ram _ => log_ok log ram | _ => True end.

Definition gev := (gop * gout)%type.

(** Histories, newest event first, of a group that started at number [st]. *)
Inductive hist (cfg : gcfg) (st : N) : list gev -> group -> Prop :=
| hist_new head : st = N.max head 1 -> hist cfg st [] (group_new head)
| hist_restore floor head : st = N.max (N.max floor (head - 1) + 1) (N.max head 1) -> hist cfg st [] (group_restore floor head)
| hist_step h g op g' o :
    hist cfg st h g -> gop_ok op -> gstep cfg g op = (g', o) -> hist cfg st ((op, o) :: h) g'.

(** What has become of a message, read off the history. *)
Inductive status :=
| Fresh                        (* not delivered yet *)
| Held (c at_ : N) (n : N)     (* delivered to c at that time, for the n-th time *)
| Waiting (n : N)              (* given back after n deliveries, to be delivered again *)
| Parked                       (* given up after the last allowed delivery *)
| Done.                        (* acknowledged, removed by retention, or before the start *)

Definition attempts (s : status) : N := match s with Held _ _ n | Waiting n => n | _ => 0 end.
Definition released (cfg : gcfg) (n : N) : status := if max_del cfg <=? n then Parked else Waiting n.
Definition in_out (s : N) (ms : list msg) : bool := existsb (fun m => m_seq m =? s) ms.
Definition below (h s : N) (x : status) : status := if s <? h then Done else x.
Definition given (s c now : N) (ms : list msg) (x : status) : status :=
  if in_out s ms then Held c now (attempts x + 1) else x.

Fixpoint status_of (cfg : gcfg) (st : N) (h : list gev) (s : N) : status :=
  match h with
  | [] => if s <? st then Done else Fresh
  | (op, o) :: h' =>
    let x := status_of cfg st h' s in
    match op, o with
    | GFetch c _ _ now _ _ head, OMsgs ms => given s c now ms (below head s x)
    | GCold c _ now ms' head, OMsgs ms => given s c now ms (below head s x)
    | GAck _ _ s', OUnit => if s =? s' then Done else x
    | GLeave _ c, _ => match x with Held c' _ n => if c' =? c then released cfg n else x | _ => x end
    | GTick _ now, _ => match x with Held _ t n => if ack_wait cfg <? now - t then released cfg n else x | _ => x end
    | GSeekB head, _ => if s <? N.max head 1 then Done else Fresh
    | GSeekE last, _ => if s <=? last then Done else Fresh
    | GClamp head, _ => below head s x
    | _, _ => x
    end
  end.

(** Number 0 is never used; a head of 0 and of 1 mean the same. *)

Definition is_seek (op : gop) : bool := match op with GSeekB _ | GSeekE _ => true | _ => false end.

(** The generation: one more than the number of seeks. *)
Fixpoint gen_of (h : list gev) : N :=
  match h with [] => 1 | (op, _) :: h' => if is_seek op then gen_of h' + 1 else gen_of h' end.
(** Members: joined since the last seek and not left since. *)
Fixpoint member_of (h : list gev) (c : N) : bool :=
  match h with
  | [] => false
  | (op, _) :: h' =>
    match op with
    | GSeekB _ | GSeekE _ => false
    | GJoin c' _ => (c =? c') || member_of h' c
    | GLeave _ c' => negb (c =? c') && member_of h' c
    | _ => member_of h' c
    end
  end.

(** Event [e] hands message [s] to consumer [c] at time [t]. *)
Definition delivers_to (e : gev) (s c t : N) : Prop :=
  exists ms, snd e = OMsgs ms /\ In s (map m_seq ms) /\
    ((exists gen lim log ram head, fst e = GFetch c gen lim t log ram head) \/ (exists gen ms' head, fst e = GCold c gen t ms' head)).
(** Event [e] hands out message [s]. *)
Definition delivers_msg (e : gev) (s : N) : bool := match snd e with OMsgs ms => in_out s ms | _ => false end.
(** Event [e] takes away what consumer [c] got at time [t]. *)
Definition takes_back (cfg : gcfg) (e : gev) (c t : N) : bool :=
  match fst e with
  | GLeave _ c' => c' =? c
  | GTick _ now => ack_wait cfg <? now - t
  | GSeekB _ | GSeekE _ => true
  | _ => false
  end.
(** How often [s] was handed out since the last seek. *)
Fixpoint handed (h : list gev) (s : N) : N :=
  match h with
  | [] => 0
  | e :: h' => if is_seek (fst e) then 0 else (if delivers_msg e s then 1 else 0) + handed h' s
  end.
(** Reasons for a message to be done with: acknowledged, removed by retention, skipped. *)
Definition settles (e : gev) (s : N) : bool :=
  match e with
  | (GAck _ _ s', OUnit) => s =? s'
  | (GFetch _ _ _ _ _ _ head, OMsgs _) => s <? head
  | (GCold _ _ _ _ head, OMsgs _) => s <? head
  | (GClamp head, _) => s <? head
  | (GSeekB head, _) => s <? N.max head 1
  | (GSeekE last, _) => s <=? last
  | _ => false
  end.
Fixpoint settled_by (h : list gev) (s : N) : bool :=
  match h with [] => false | e :: h' => settles e s || (negb (is_seek (fst e)) && settled_by h' s) end.
Fixpoint sought (h : list gev) : bool := match h with [] => false | e :: h' => is_seek (fst e) || sought h' end.
