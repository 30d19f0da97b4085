(** The life of one queue and of one stream as far as its settings go: created, deleted, the
    server stopped, crashing in the middle of a creation or deletion, and started again,
    with other defaults perhaps. Requests for the name are taken one at a time (races: C74),
    the directory of the data stays the same (otherwise C103_moved_refuted), writes that were
    made are not lost afterwards (no loss of power). *)
From Verif Require Import LibBase ValueModel JsonModel OptionsModel.

(** ** Queue *)
(** the files: [qd_db]: `<name>.db` is there, [qd_cfg]: the contents of `<name>.config.json` *)
Record qdisk := mkQD { qd_db : bool; qd_cfg : option bytes }.
(** [ql_up]: the defaults of the running server; [ql_mem]: the entry in QueueManager.queues *)
Record qlife := mkQL { ql_up : option sysconf; ql_mem : option (N * N); ql_disk : qdisk }.
(** how far a creation came: [n] bytes of the settings, or the database too *)
Inductive qpart := QPCfg (n : nat) | QPDb.
Inductive qev :=
| QStart (sys : sysconf) | QStop
| QCreate (o : option N * option N) | QDelete
| QCreateCrash (o : option N * option N) (p : qpart)
| QDeleteCrash (files : nat).
(** queue/manager.rs:272-275: the database goes first, the settings last (-wal and -shm not modelled) *)
Definition q_remove (files : nat) (d : qdisk) : qdisk :=
  match files with O => d | S O => mkQD false (qd_cfg d) | _ => mkQD false None end.
(** queue/manager.rs:244-254 up to where it came: the settings are written (250), then the database is made (253) *)
Definition q_written (sys : sysconf) (o : option N * option N) (p : qpart) (d : qdisk) : qdisk :=
  let f := queue_file (q_settings sys o) in
  match p with QPCfg n => mkQD (qd_db d) (Some (firstn n f)) | QPDb => mkQD true (Some f) end.
Definition qlife_step (x : qlife) (e : qev) : qlife :=
  match ql_up x, e with
  (* queue/manager.rs:68-94: every database file is restored *)
  | None, QStart sys => mkQL (Some sys) (if qd_db (ql_disk x) then Some (queue_load sys (qd_cfg (ql_disk x))) else None) (ql_disk x)
  | Some _, QStop => mkQL None None (ql_disk x)
  (* queue/manager.rs:238-258 *)
  | Some sys, QCreate o => match ql_mem x with Some _ => x | None => mkQL (Some sys) (Some (q_settings sys o)) (q_written sys o QPDb (ql_disk x)) end
  | Some sys, QCreateCrash o p => mkQL None None (match ql_mem x with Some _ => ql_disk x | None => q_written sys o p (ql_disk x) end)
  (* queue/manager.rs:260-278 *)
  | Some sys, QDelete => mkQL (Some sys) None (q_remove 2 (ql_disk x))
  | Some _, QDeleteCrash k => mkQL None None (q_remove k (ql_disk x))
  | _, _ => x
  end.
Definition qlife0 : qlife := mkQL None None (mkQD false None).
Definition qlife_run (h : list qev) : qlife := fold_left qlife_step h qlife0.

(** ** Stream *)
(** [sd_dir]: the directory of the topic is there; [sd_cfg]: its `config.json` *)
Record sdisk := mkSD { sd_dir : bool; sd_cfg : option bytes }.
Record slife := mkSL { sl_up : option (sysconf * tconf); sl_mem : option tconf; sl_disk : sdisk }.
(** how far a creation came: the directory, or also [n] bytes of the settings *)
Inductive spart := SPDir | SPCfg (n : nat).
(** how far a deletion came: files of the directory go in any order, the directory last *)
Inductive sgone := SGData | SGCfg | SGAll.
Inductive sev :=
| LStart (sys : sysconf) (env : tconf) | LStop
| LCreate (o : option (option N * option N)) | LDelete
| LCreateCrash (o : option (option N * option N)) (p : spart)
| LDeleteCrash (g : sgone).
(** tokio::fs::remove_dir_all: stream/domain/persistence.rs DropTopic *)
Definition s_remove (g : sgone) (d : sdisk) : sdisk :=
  match g with SGData => d | SGCfg => mkSD (sd_dir d) None | SGAll => mkSD false None end.
(** stream/manager.rs:108-124 up to where it came; a file that is there is not written again *)
Definition s_written (c : tconf) (p : spart) (d : sdisk) : sdisk :=
  let f := match p with SPDir => sd_cfg d | SPCfg n => Some (firstn n (topic_file c)) end in
  if sd_dir d then mkSD true (match sd_cfg d with Some b => Some b | None => f end) else mkSD true f.
Definition slife_step (x : slife) (e : sev) : slife :=
  match sl_up x, e with
  (* bootstrap_from_disk: stream/manager.rs:444-482 *)
  | None, LStart sys env => mkSL (Some (sys, env)) (if sd_dir (sl_disk x) then Some (topic_load sys env None (sd_cfg (sl_disk x))) else None) (sl_disk x)
  | Some _, LStop => mkSL None None (sl_disk x)
  (* create_topic: stream/manager.rs:95-136 *)
  | Some (sys, env), LCreate o =>
    match sl_mem x with
    | Some _ => x
    | None => let c := topic_load sys env o (sd_cfg (sl_disk x)) in mkSL (Some (sys, env)) (Some c) (s_written c (SPCfg (length (topic_file c))) (sl_disk x))
    end
  | Some (sys, env), LCreateCrash o p => mkSL None None (match sl_mem x with Some _ => sl_disk x | None => s_written (topic_load sys env o (sd_cfg (sl_disk x))) p (sl_disk x) end)
  (* delete_topic: stream/manager.rs:138-151 *)
  | Some u, LDelete => mkSL (Some u) None (match sl_mem x, sd_dir (sl_disk x) with None, false => sl_disk x | _, _ => s_remove SGAll (sl_disk x) end)
  | Some _, LDeleteCrash g => mkSL None None (s_remove g (sl_disk x))
  | _, _ => x
  end.
Definition slife0 : slife := mkSL None None (mkSD false None).
Definition slife_run (h : list sev) : slife := fold_left slife_step h slife0.
