(** The connection of ConnModel.v with the pub/sub broker and one stream topic behind
    it: what the end of a connection releases. *)
From Verif Require Import LibBase LibMap WireModel CmdModel PubSubModel PubSubSpec PubSubTree PubSubConcModel StreamTopicModel StreamGroupModel StreamStoreModel StreamSysModel ConnModel.

(** the pub/sub broker and the topic *)
Record reng := mkR { r_ps : shared; r_st : sys }.
(** what other connections and background tasks do: a section of a pub/sub request, an
    operation on the topic *)
Inductive rx := RXp (p : pc) | RXs (o : sop).
(** where one of our requests stands *)
Inductive rloc := LPub (p : pc) | LJoin (gid : bytes) (c : N) | LOther.

Section Release.
  Variable json_ok : N -> bytes -> bool.
  Variable crc : bytes -> N.
  Variable cfg : gcfg.
  Variables smax ticks inst_max default_ttl : N.
  (** [me]: the client id of this connection (connection.rs:24). [uuid f]: the consumer
      id drawn for a join. [clock f]: the instant a subscribe reads. *)
  Variable me : N.
  Variables uuid clock : inframe -> N.
  Variable ord : N -> list N.

  (** dispatcher.rs:22-43, pub-sub/tcp.rs, stream/tcp.rs:185-188. Only the requests that
      register something with this connection are spelt out; the others are steps of
      [rx], they do not look at the connection. *)
  Definition r_start (f : inframe) : rloc :=
    match dispatch json_ok (in_meta f) (in_payload f) with
    | DCmd (CmdModel.PSub p) => LPub (QSub0 me p (clock f))
    | DCmd (CmdModel.PUnsub p) => LPub (QUnsub0 me p)
    | DCmd (TJoin g t) => LJoin g (uuid f)
    | _ => LOther
    end.
  (** one section; the thread number of [exec1] only labels its log *)
  Definition r_hstep (e : reng) (l : rloc) : reng * hres rloc :=
    match l with
    | LPub p => let (sh, p') := exec1 ticks inst_max default_ttl 0 p (r_ps e) in
                (mkR sh (r_st e), match p' with QDone => Answer ROk | _ => Go (LPub p') end)
    | LJoin g c => match op_join g c me (r_st e) with
                   | (s, RJoin floor gen) => (mkR (r_ps e) s, Answer (RData (be 8 floor ++ be 8 gen)))
                   | (s, _) => (mkR (r_ps e) s, Answer ROk)
                   end
    | LOther => (e, Answer ROk)
    end.
  (** The others. The two locks of a disconnect (pub-sub/manager.rs:112-120), also of one
      that a publisher makes for a client it found dead (193-195), are one step here. *)
  Definition r_xstep (e : reng) (x : rx) : reng :=
    match x with
    | RXp p => let (s1, p1) := exec1 ticks inst_max default_ttl 0 p (r_ps e) in
               mkR (match p1 with QDisc1 _ _ | QPub4 _ _ _ => fst (exec1 ticks inst_max default_ttl 0 p1 s1) | _ => s1 end) (r_st e)
    | RXs o => mkR (r_ps e) (fst (sstep crc cfg smax (r_st e) o))
    end.
  (** pub-sub/manager.rs:112-120; its two locks are taken in one step here (the gap
      between them is part of C27) *)
  Definition r_bye1 (e : reng) : reng :=
    let (s1, p1) := exec1 ticks inst_max default_ttl 0 (QDisc0 me) (r_ps e) in
    mkR (fst (exec1 ticks inst_max default_ttl 0 p1 s1)) (r_st e).
  (** stream/manager.rs:366-387 *)
  Definition r_bye2 (e : reng) : reng := mkR (r_ps e) (op_disconnect cfg ord me (r_st e)).

  Definition rrun (cap maxp : N) := crun reng rloc rx r_start r_hstep r_xstep r_bye1 r_bye2 maxp cap.

  (** ** Specification *)
  (** the stream memberships and the registration the connection still has *)
  Definition member_of (e : reng) (gid : bytes) (c : N) : Prop :=
    exists g, gget gid (r_st e) = Some g /\ agetN c (g_mem g) = Some me.
  Definition registered (e : reng) : Prop := regget me (h_cl (r_ps e)) <> None.
  Definition released (e : reng) : Prop := (forall gid c, ~ member_of e gid c) /\ aget N.eqb me (s_clients (r_st e)) = None /\ ~ registered e.
  (** nobody else uses this client id: it is a fresh UUID *)
  Definition foreign (x : rx) : Prop :=
    match x with
    | RXp (QConn c) | RXp (QSub0 c _ _) | RXp (QSub1 c _ _) | RXp (QUnsub0 c _) => c <> me
    | RXs (SJoin _ _ conn) => conn <> me
    | _ => True
    end.
  (** the patterns the connection is registered with, and those under which a publish
      finds it *)
  Definition patterns (e : reng) : list bytes := match regget me (h_cl (r_ps e)) with Some ps => ps | None => [] end.
  Definition found_at (e : reng) (pat : bytes) : Prop := In me (subs_at (split pat) (h_tree (r_ps e))).
  Definition others_only (xs : list (cop rx)) : Prop := forall x, In (KExt rx x) xs -> foreign x.
End Release.
