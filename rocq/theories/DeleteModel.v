(** Creating and deleting one stream topic, and one queue, with everything of that name
    that may be under way at the same time: the map entry, the handles tasks still hold,
    the storage actor's channel, the directory or files. Messages are numbers here; what
    they carry and how they are laid out in files is modelled in StreamStoreModel and
    QueuePersistModel. A request whose connection is cut off half way (transport/tcp/
    connection.rs:108-145) is not modelled here: it stays a task that never takes its
    next step, except that in the code it also no longer counts as under way. *)
From Verif Require Import LibBase LibMap.

Definition nset {A} (i : nat) (x : A) (l : list A) : list A := firstn i l ++ x :: skipn (S i) l.

(** * Stream topics *)
(** src/brokers/stream/domain/persistence.rs:166-197, the commands that touch the
    directory of the topic (ColdRead and ApplyRetention never create anything and are
    left out); an Append of one message, SaveGroups with the groups of one incarnation,
    DropTopic with the id of the waiting delete *)
Inductive tcmd := TCAppend (p : N) | TCSave (h : nat) | TCDrop (d : N).

(** What is under way, between two points where other tasks may run. *)
Inductive ttask :=
| PGot (h : nat) (p : N)     (* stream/manager.rs:154: the publish holds the topic *)
| PSend (h : nat) (p : N)    (* manager.rs:160: appended in memory, Append not sent yet *)
| PSave (h : nat)            (* manager.rs:562: group data collected, SaveGroups not sent yet *)
| DMeta                      (* manager.rs:142: not in the map, the directory is looked up *)
| DSend                      (* manager.rs:144: DropTopic to be sent *)
| DWait                      (* manager.rs:148: waiting for the reply *)
| C1 (conf : N)              (* manager.rs:102: not in the map *)
| C2 (conf : N)              (* manager.rs:122: directory and configuration written *)
| C3 (h : nat).              (* manager.rs:127: topic built, not in the map yet *)

(** The directory: messages in its log files, the incarnation whose groups were saved
    last, the saved configuration. *)
Record tdir := mkDir { dr_msgs : list N; dr_saved : option nat; dr_conf : option N }.
(** A topic in memory (TopicShared): its messages, and its configuration. *)
Record tinst := mkInst { ti_msgs : list N; ti_conf : N }.
Record tcat := mkCat { tc_live : option nat; tc_insts : list tinst; tc_dir : option tdir; tc_chan : list tcmd; tc_tasks : list (N * ttask); tc_ids : N }.
Definition cat_new : tcat := mkCat None [] None [] [] 0.
(** the configuration used when none is given or saved: stream/manager.rs:440,467 *)
Definition default_conf : N := 0.

Inductive tcop :=
| TPub (p : N) | TApp (i : N) | TSnd (i : N) | TSav | TSavSnd (i : N)
| TDel | TMeta (i : N) | TDelSnd (i : N)
| TCre (conf : N) | TCre2 (i : N) | TCre3 (i : N) | TCre4 (i : N)
| TStor | TCrash (keep : nat).
Inductive tcout := TONone | TOErr | TOk | TODeleted.

Definition task_new (t : ttask) (s : tcat) : tcat :=
  mkCat (tc_live s) (tc_insts s) (tc_dir s) (tc_chan s) (tc_tasks s ++ [(tc_ids s, t)]) (tc_ids s + 1).
Definition task_set (i : N) (t : ttask) (s : tcat) : tcat :=
  mkCat (tc_live s) (tc_insts s) (tc_dir s) (tc_chan s) (aset N.eqb i t (tc_tasks s)) (tc_ids s).
Definition task_end (i : N) (s : tcat) : tcat :=
  mkCat (tc_live s) (tc_insts s) (tc_dir s) (tc_chan s) (adel N.eqb i (tc_tasks s)) (tc_ids s).
Definition set_live x s := mkCat x (tc_insts s) (tc_dir s) (tc_chan s) (tc_tasks s) (tc_ids s).
Definition set_insts x s := mkCat (tc_live s) x (tc_dir s) (tc_chan s) (tc_tasks s) (tc_ids s).
Definition set_dir x s := mkCat (tc_live s) (tc_insts s) x (tc_chan s) (tc_tasks s) (tc_ids s).
Definition set_chan x s := mkCat (tc_live s) (tc_insts s) (tc_dir s) x (tc_tasks s) (tc_ids s).
Definition task (i : N) (s : tcat) : option ttask := aget N.eqb i (tc_tasks s).

(** The directory as create_dir_all leaves it: stream/manager.rs:109,486; persistence.rs:210-215 *)
Definition dir_or_new (d : option tdir) : tdir := match d with Some x => x | None => mkDir [] None None end.
(** manager.rs:484-514 build_topic_shared: recovery from the directory (444-482 at
    start-up; message numbers and groups are in StreamSysModel) *)
Definition inst_of (d : tdir) (conf : N) : tinst := mkInst (dr_msgs d) conf.
(** manager.rs:435-442 load_topic_config: the saved configuration wins *)
Definition conf_of (d : option tdir) (conf : N) : N :=
  match d with Some x => match dr_conf x with Some c => c | None => conf end | None => conf end.

(** persistence.rs:166-197 on the first command of the channel *)
Definition storage_step (s : tcat) : tcat * tcout :=
  match tc_chan s with
  | [] => (s, TONone)
  | c :: r =>
    let s := set_chan r s in
    match c with
    | TCAppend p => (* 199-269; the directory is made anew if missing: 210-215 *)
      let d := dir_or_new (tc_dir s) in (set_dir (Some (mkDir (dr_msgs d ++ [p]) (dr_saved d) (dr_conf d))) s, TONone)
    | TCSave h => (* 175-180, 491-506: fails if the directory is missing *)
      match tc_dir s with
      | Some d => (set_dir (Some (mkDir (dr_msgs d) (Some h) (dr_conf d))) s, TONone)
      | None => (s, TONone)
      end
    | TCDrop i => (* 186-195; the reply lets the delete return *)
      (task_end i (set_dir None s), TODeleted)
    end
  end.

Definition tcstep (s : tcat) (o : tcop) : tcat * tcout :=
  match o with
  | TPub p => (* manager.rs:153-155 *)
    match tc_live s with Some h => (task_new (PGot h p) s, TONone) | None => (s, TOErr) end
  | TApp i => (* 158-161, under the topic's lock *)
    match task i s with
    | Some (PGot h p) =>
      match nth_error (tc_insts s) h with
      | Some x => (task_set i (PSend h p) (set_insts (nset h (mkInst (ti_msgs x ++ [p]) (ti_conf x)) (tc_insts s)) s), TONone)
      | None => (s, TONone)
      end
    | _ => (s, TONone)
    end
  | TSnd i => (* 163-173 *)
    match task i s with Some (PSend _ p) => (task_end i (set_chan (tc_chan s ++ [TCAppend p]) s), TOk) | _ => (s, TONone) end
  | TSav => (* 553-563 *)
    match tc_live s with Some h => (task_new (PSave h) s, TONone) | None => (s, TONone) end
  | TSavSnd i => (* 565-570 *)
    match task i s with Some (PSave h) => (task_end i (set_chan (tc_chan s ++ [TCSave h]) s), TONone) | _ => (s, TONone) end
  | TDel => (* 138-142; deleted_topics (139) is kept in memory only and read only at
               start-up (463), before any request: it has no effect *)
    match tc_live s with Some _ => (task_new DSend (set_live None s), TONone) | None => (task_new DMeta s, TONone) end
  | TMeta i =>
    match task i s with
    | Some DMeta => match tc_dir s with Some _ => (task_set i DSend s, TONone) | None => (task_end i s, TODeleted) end
    | _ => (s, TONone)
    end
  | TDelSnd i => (* 143-148 *)
    match task i s with Some DSend => (task_set i DWait (set_chan (tc_chan s ++ [TCDrop i]) s), TONone) | _ => (s, TONone) end
  | TCre conf => (* 95-100 *)
    match tc_live s with Some _ => (s, TOk) | None => (task_new (C1 conf) s, TONone) end
  | TCre2 i => (* 102-124: configuration written if there is none; reading and
                  writing it and making the directory are one step here (so a crash between
                  the directory and its configuration is left out) *)
    match task i s with
    | Some (C1 conf) =>
      let conf := conf_of (tc_dir s) conf in
      let d := dir_or_new (tc_dir s) in
      (task_set i (C2 conf) (set_dir (Some (mkDir (dr_msgs d) (dr_saved d) (match dr_conf d with Some c => Some c | None => Some conf end))) s), TONone)
    | _ => (s, TONone)
    end
  | TCre3 i => (* 126, 484-514 *)
    match task i s with
    | Some (C2 conf) =>
      let d := dir_or_new (tc_dir s) in
      (task_set i (C3 (length (tc_insts s))) (set_insts (tc_insts s ++ [inst_of d conf]) (set_dir (Some d) s)), TONone)
    | _ => (s, TONone)
    end
  | TCre4 i => (* 128-135 *)
    match task i s with
    | Some (C3 h) => (task_end i (match tc_live s with Some _ => s | None => set_live (Some h) s end), TOk)
    | _ => (s, TONone)
    end
  | TStor => storage_step s
  | TCrash keep => (* the process ends and starts again: what the files hold of the messages
                      (a part at the end may be lost) is recovered; 444-482 *)
    match tc_dir s with
    | Some d => let d := mkDir (firstn keep (dr_msgs d)) (dr_saved d) (dr_conf d) in
                (mkCat (Some 0%nat) [inst_of d (conf_of (Some d) default_conf)] (Some d) [] [] (tc_ids s), TONone)
    | None => (mkCat None [] None [] [] (tc_ids s), TONone)
    end
  end.
Fixpoint tcrun (s : tcat) (ops : list tcop) : tcat := match ops with [] => s | o :: r => tcrun (fst (tcstep s o)) r end.

(** * Queues *)
(** A database file: whether its tables exist, and its rows. *)
Record qfile := mkFile { qf_tables : bool; qf_rows : list N }.
(** src/brokers/queue/domain/persistence.rs:52-58 with the state of its writer task
    (128-200): not started, with an open file (which stays the same file even when its
    name is removed), or ended; ops in the channel and in the batch are one list *)
Inductive qwriter := WStart | WOpen (f : nat) | WDone.
Record qinst := mkQ { qi_msgs : list N; qi_chan : list N; qi_sender : bool; qi_writer : qwriter }.
Inductive qtask :=
| QGot (h : nat) (p : N)     (* queue/manager.rs:281: the push holds the queue *)
| QPut (h : nat) (p : N)     (* 288: in memory, not handed to the store yet *)
| QShut (h : nat)            (* 262: removed from the map *)
| QJoin (h : nat)            (* persistence.rs:116: sender dropped, waiting for the writer *)
| QRm                        (* manager.rs:265: files to be removed *)
| QRm2.                      (* 274: database files removed, configuration not yet *)
Record qcat := mkQCat { qc_live : option nat; qc_insts : list qinst; qc_files : list qfile; qc_path : option nat; qc_conf : option N; qc_tasks : list (N * qtask); qc_ids : N }.
Definition qcat_new : qcat := mkQCat None [] [] None None [] 0.

Inductive qcop :=
| QCre (conf : N) | QPush (p : N) | QPut1 (i : N) | QPut2 (i : N)
| QOpen (h : nat) | QWrite (h : nat) | QExit (h : nat)
| QDel | QDel2 (i : N) | QDel3 (i : N) | QDel4 (i : N) | QDel5 (i : N)
| QCrash (keep : nat).

Definition qtask_new (t : qtask) (s : qcat) : qcat :=
  mkQCat (qc_live s) (qc_insts s) (qc_files s) (qc_path s) (qc_conf s) (qc_tasks s ++ [(qc_ids s, t)]) (qc_ids s + 1).
Definition qtask_set (i : N) (t : qtask) (s : qcat) : qcat :=
  mkQCat (qc_live s) (qc_insts s) (qc_files s) (qc_path s) (qc_conf s) (aset N.eqb i t (qc_tasks s)) (qc_ids s).
Definition qtask_end (i : N) (s : qcat) : qcat :=
  mkQCat (qc_live s) (qc_insts s) (qc_files s) (qc_path s) (qc_conf s) (adel N.eqb i (qc_tasks s)) (qc_ids s).
Definition qset_live x s := mkQCat x (qc_insts s) (qc_files s) (qc_path s) (qc_conf s) (qc_tasks s) (qc_ids s).
Definition qset_insts x s := mkQCat (qc_live s) x (qc_files s) (qc_path s) (qc_conf s) (qc_tasks s) (qc_ids s).
Definition qset_files x s := mkQCat (qc_live s) (qc_insts s) x (qc_path s) (qc_conf s) (qc_tasks s) (qc_ids s).
Definition qset_path x s := mkQCat (qc_live s) (qc_insts s) (qc_files s) x (qc_conf s) (qc_tasks s) (qc_ids s).
Definition qset_conf x s := mkQCat (qc_live s) (qc_insts s) (qc_files s) (qc_path s) x (qc_tasks s) (qc_ids s).
Definition qtask_of (i : N) (s : qcat) : option qtask := aget N.eqb i (qc_tasks s).
Definition qput (h : nat) (x : qinst) (s : qcat) : qcat := qset_insts (nset h x (qc_insts s)) s.

(** Opening the database at the queue's path: a missing file is made, without tables *)
Definition open_path (s : qcat) : qcat * nat :=
  match qc_path s with
  | Some f => (s, f)
  | None => let f := length (qc_files s) in (qset_path (Some f) (qset_files (qc_files s ++ [mkFile false []]) s), f)
  end.
Definition rows (f : nat) (s : qcat) : list N := match nth_error (qc_files s) f with Some x => qf_rows x | None => [] end.
(** persistence.rs:60-87 and queue/manager.rs:103-143: tables made if missing, messages
    recovered, writer task spawned *)
Definition build (s : qcat) : qcat * nat :=
  let (s, f) := open_path s in
  let s := qset_files (nset f (mkFile true (rows f s)) (qc_files s)) s in
  (qset_insts (qc_insts s ++ [mkQ (rows f s) [] true WStart]) s, length (qc_insts s)).

Definition qcstep (s : qcat) (o : qcop) : qcat * tcout :=
  match o with
  | QCre conf => (* manager.rs:238-258; the map entry is locked all along, so this is one
                    step for every task that goes through the map *)
    match qc_live s with
    | Some _ => (s, TOk)
    | None => let (s1, h) := build (qset_conf (Some conf) s) in (qset_live (Some h) s1, TOk)
    end
  | QPush p => match qc_live s with Some h => (qtask_new (QGot h p) s, TONone) | None => (s, TOErr) end
  | QPut1 i => (* 284-288 *)
    match qtask_of i s with
    | Some (QGot h p) =>
      match nth_error (qc_insts s) h with
      | Some x => (qtask_set i (QPut h p) (qput h (mkQ (qi_msgs x ++ [p]) (qi_chan x) (qi_sender x) (qi_writer x)) s), TONone)
      | None => (s, TONone)
      end
    | _ => (s, TONone)
    end
  | QPut2 i => (* 290; persistence.rs:105-111: without a sender the op is dropped *)
    match qtask_of i s with
    | Some (QPut h p) =>
      match nth_error (qc_insts s) h with
      | Some x => (qtask_end i (if qi_sender x then qput h (mkQ (qi_msgs x) (qi_chan x ++ [p]) true (qi_writer x)) s else s), TOk)
      | None => (s, TONone)
      end
    | _ => (s, TONone)
    end
  | QOpen h => (* persistence.rs:134 *)
    match nth_error (qc_insts s) h with
    | Some x => match qi_writer x with
                | WStart => let (s1, f) := open_path s in (qput h (mkQ (qi_msgs x) (qi_chan x) (qi_sender x) (WOpen f)) s1, TONone)
                | _ => (s, TONone)
                end
    | None => (s, TONone)
    end
  | QWrite h => (* 202 ff., one op (Insert only); it fails without tables *)
    match nth_error (qc_insts s) h with
    | Some x => match qi_writer x, qi_chan x with
                | WOpen f, p :: r =>
                  let s1 := qput h (mkQ (qi_msgs x) r (qi_sender x) (WOpen f)) s in
                  (match nth_error (qc_files s) f with
                   | Some y => if qf_tables y then qset_files (nset f (mkFile true (qf_rows y ++ [p])) (qc_files s1)) s1 else s1
                   | None => s1
                   end, TONone)
                | _, _ => (s, TONone)
                end
    | None => (s, TONone)
    end
  | QExit h => (* 182-189 *)
    match nth_error (qc_insts s) h with
    | Some x => match qi_writer x, qi_chan x, qi_sender x with
                | WOpen f, [], false => (qput h (mkQ (qi_msgs x) [] false WDone) s, TONone)
                | _, _, _ => (s, TONone)
                end
    | None => (s, TONone)
    end
  | QDel => (* manager.rs:260-261 *)
    match qc_live s with Some h => (qtask_new (QShut h) (qset_live None s), TONone) | None => (qtask_new QRm s, TONone) end
  | QDel2 i => (* 262; persistence.rs:114-115 *)
    match qtask_of i s with
    | Some (QShut h) =>
      match nth_error (qc_insts s) h with
      | Some x => (qtask_set i (QJoin h) (qput h (mkQ (qi_msgs x) (qi_chan x) false (qi_writer x)) s), TONone)
      | None => (s, TONone)
      end
    | _ => (s, TONone)
    end
  | QDel3 i => (* persistence.rs:116-119 *)
    match qtask_of i s with
    | Some (QJoin h) =>
      match nth_error (qc_insts s) h with
      | Some x => match qi_writer x with WDone => (qtask_set i QRm s, TONone) | _ => (s, TONone) end
      | None => (s, TONone)
      end
    | _ => (s, TONone)
    end
  | QDel4 i => (* manager.rs:272 (273-274, the -wal and -shm files, with it) *)
    match qtask_of i s with Some QRm => (qtask_set i QRm2 (qset_path None s), TONone) | _ => (s, TONone) end
  | QDel5 i => (* 275-277 *)
    match qtask_of i s with Some QRm2 => (qtask_end i (qset_conf None s), TODeleted) | _ => (s, TONone) end
  | QCrash keep => (* the process ends and starts again; 68-93: a queue for every database file *)
    match qc_path s with
    | Some f =>
      let y := match nth_error (qc_files s) f with Some y => y | None => mkFile false [] end in
      let s1 := mkQCat None [] [mkFile (qf_tables y) (firstn keep (qf_rows y))] (Some 0%nat) (qc_conf s) [] (qc_ids s) in
      let (s2, h) := build s1 in (qset_live (Some h) s2, TONone)
    | None => (mkQCat None [] [] None (qc_conf s) [] (qc_ids s), TONone)
    end
  end.
Fixpoint qcrun (s : qcat) (ops : list qcop) : qcat := match ops with [] => s | o :: r => qcrun (fst (qcstep s o)) r end.
