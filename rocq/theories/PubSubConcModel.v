(** Pub/sub requests running concurrently: each critical section is one step.
    A request is a thread; the locks are the tree's RwLock and the per-entry lock of
    the client registry (DashMap). *)
From Verif Require Import LibBase LibMap PubSubModel PubSubSpec.

(** [h_cl]: registered clients and their patterns; [h_gone]: clients whose receiver
    was dropped; [h_log]: everything queued to clients so far, with the number of the
    thread that queued it. *)
Record shared := mkSh { h_tree : node; h_cl : list (N * list bytes); h_gone : list N; h_log : list (nat * (N * push)) }.

(** where a request is *)
Inductive pc :=
| QConn (c : N) | QClose (c : N) | QClean (now : N)
| QSub0 (c : N) (pat : bytes) (now : N)          (* manager.rs:123-128, registry *)
| QSub1 (c : N) (pat : bytes) (now : N)          (* manager.rs:130-141, tree *)
| QUnsub0 (c : N) (pat : bytes)                  (* manager.rs:145-147 *)
| QUnsub1 (c : N) (pat : bytes)                  (* manager.rs:148-150 *)
| QDisc0 (c : N)                                 (* manager.rs:113 *)
| QDisc1 (c : N) (pats : list bytes)             (* manager.rs:114-118 *)
| QPub0 (topic data : bytes) (rt : bool) (ttl : option N) (now : N)  (* manager.rs:157-166 *)
| QPub1 (topic data : bytes)                     (* manager.rs:168-175 *)
| QPub2 (topic data : bytes) (todo zombies : list N)   (* manager.rs:181-191, one client per step *)
| QPub3 (zombies : list N)                       (* manager.rs:193-195: disconnect, registry part *)
| QPub4 (c : N) (pats : list bytes) (zombies : list N) (* ... tree part *)
| QDone.

Definition regget (c : N) (m : list (N * list bytes)) : option (list bytes) := aget N.eqb c m.
Definition queue_to (i : nat) (c : N) (ms : list push) (s : shared) : list (nat * (N * push)) :=
  if nmem c (h_gone s) then h_log s else h_log s ++ map (fun m => (i, (c, m))) ms.

Section Exec.
  Variables (ticks inst_max default_ttl : N).
  (** one critical section of thread [i] *)
  Definition exec1 (i : nat) (p : pc) (s : shared) : shared * pc :=
    match p with
    | QConn c => (mkSh (h_tree s) (aset N.eqb c [] (h_cl s)) (h_gone s) (h_log s), QDone)
    | QClose c => (mkSh (h_tree s) (h_cl s) (nins c (h_gone s)) (h_log s), QDone)
    | QClean now => (mkSh (cleanup now (h_tree s)) (h_cl s) (h_gone s) (h_log s), QDone)
    | QSub0 c pat now =>
      match regget c (h_cl s) with
      | Some ps => (mkSh (h_tree s) (aset N.eqb c (bins pat ps) (h_cl s)) (h_gone s) (h_log s), QSub1 c pat now)
      | None => (s, QDone)
      end
    | QSub1 c pat now =>
      let t := insert_sub (split pat) c (h_tree s) in
      (mkSh t (h_cl s) (h_gone s) (queue_to i c (retained_pushes now pat t) s), QDone)
    | QUnsub0 c pat =>
      (match regget c (h_cl s) with
       | Some ps => mkSh (h_tree s) (aset N.eqb c (brem pat ps) (h_cl s)) (h_gone s) (h_log s)
       | None => s
       end, QUnsub1 c pat)
    | QUnsub1 c pat => (mkSh (fst (remove_sub (split pat) c (h_tree s))) (h_cl s) (h_gone s) (h_log s), QDone)
    | QDisc0 c =>
      match regget c (h_cl s) with
      | Some ps => (mkSh (h_tree s) (adel N.eqb c (h_cl s)) (h_gone s) (h_log s), QDisc1 c ps)
      | None => (s, QDone)
      end
    | QDisc1 c ps => (mkSh (unsub_all c ps (h_tree s)) (h_cl s) (h_gone s) (h_log s), QDone)
    | QPub0 topic data rt ttl now =>
      if rt then
        match data with
        | [] => (mkSh (set_ret (split topic) None (h_tree s)) (h_cl s) (h_gone s) (h_log s), QPub1 topic data)
        | _ =>
          match ret_new ticks inst_max now data (eff_ttl default_ttl ttl) with
          | Some r => (mkSh (set_ret (split topic) (Some r) (h_tree s)) (h_cl s) (h_gone s) (h_log s), QPub1 topic data)
          | None => (s, QDone)
          end
        end
      else (s, QPub1 topic data)
    | QPub1 topic data => (s, QPub2 topic data (dedup [] (match_subs (split topic) (h_tree s))) [])
    | QPub2 topic data [] z => (s, QPub3 z)
    | QPub2 topic data (c :: todo) z =>
      match regget c (h_cl s) with
      | Some _ =>
        if nmem c (h_gone s) then (s, QPub2 topic data todo (z ++ [c]))
        else (mkSh (h_tree s) (h_cl s) (h_gone s) (h_log s ++ [(i, (c, (topic, data)))]), QPub2 topic data todo z)
      | None => (s, QPub2 topic data todo (z ++ [c]))
      end
    | QPub3 [] => (s, QDone)
    | QPub3 (c :: z) =>
      match regget c (h_cl s) with
      | Some ps => (mkSh (h_tree s) (adel N.eqb c (h_cl s)) (h_gone s) (h_log s), QPub4 c ps z)
      | None => (s, QPub3 z)
      end
    | QPub4 c ps z => (mkSh (unsub_all c ps (h_tree s)) (h_cl s) (h_gone s) (h_log s), QPub3 z)
    | QDone => (s, QDone)
    end.

  (** a request arrives; thread [i] runs its next section *)
  Inductive xev := XSpawn (p : pc) | XRun (i : nat).
  Record xsys := mkX { x_sh : shared; x_th : list pc }.
  Fixpoint setn {A} (i : nat) (v : A) (l : list A) : list A :=
    match l, i with [], _ => [] | _ :: r, O => v :: r | x :: r, S i' => x :: setn i' v r end.
  Definition xstep (s : xsys) (e : xev) : xsys :=
    match e with
    | XSpawn p => mkX (x_sh s) (x_th s ++ [p])
    | XRun i =>
      match nth_error (x_th s) i with
      | Some p => let (sh, p') := exec1 i p (x_sh s) in mkX sh (setn i p' (x_th s))
      | None => s
      end
    end.
  Definition xrun (evs : list xev) (s : xsys) : xsys := fold_left xstep evs s.
End Exec.
Definition sh0 : shared := mkSh node0 [] [] [].
Definition x0 : xsys := mkX sh0 [].
(** requests start at their first section *)
Definition initial (p : pc) : bool :=
  match p with QConn _ | QClose _ | QClean _ | QSub0 _ _ _ | QUnsub0 _ _ | QDisc0 _ | QPub0 _ _ _ _ _ => true | _ => false end.
Definition starts (evs : list xev) : Prop := forall p, In (XSpawn p) evs -> initial p = true.
