(** Queue consumers end to end with a server that can crash: the clients and the network
    of SdkQueueSysModel, the queue with its storage of QueuePersistModel. *)
From Verif Require Import LibBase LibMap QueueModel QueueObs QueuePersistModel SdkLoopModel SdkQueueModel SdkQueueSysModel SdkQueueSysSpec.

Section Sys.
  Variable cfg : qconfig.
  Variables conc size : N.
  Variable V : Type.
  Variable dec : bytes -> option V.

  (** clients, network and the queue in memory; storage channel, the writer's batch, database
      (src/brokers/queue/domain/persistence.rs:144-221) *)
  Record zsys := mkZ { z_y : sys V; z_chan : list storeop; z_batch : list storeop; z_db : db }.
  Definition zsys0 : zsys := mkZ (sys0 V) [] [] db0.
  (** the request the queue executes in a step of SdkQueueSysModel, if any *)
  Definition executed (y : sys V) (o : yop V) : option qop :=
    match o with
    | YServe i now clk reason =>
      match nth_error (y_up V y) i with
      | Some (_, RAsk _ _) => Some (QoConsume size clk)
      | Some (_, RAck id) => Some (QoAck id)
      | Some (_, RNack id) => Some (QoNack id reason now)
      | None => None
      end
    | YOther q => Some q
    | _ => None
    end.
  (** [ZStep]: a step of SdkQueueSysModel; the storage operations of a request enter the
      channel before the next request runs (without that: C44). [ZRecv], [ZFlush]: the writer
      takes the first [n] operations, writes its batch (persistence.rs:166-196), at any moment. [ZCrash]: the
      server dies and is started again (manager.rs:52-148), loading the rows in any order [main], [dead]. Requests
      and answers under way may be lost with it (YLose, YLoseA) or not: this allows more. *)
  Inductive zev := ZStep (o : yop V) | ZRecv (n : nat) | ZFlush | ZCrash (clk : nat -> N) (main : list (N * row)) (dead : list (N * dlqmsg)).
  Inductive zstep : zsys -> zev -> zsys -> Prop :=
  | Z_step : forall y c b d o,
      zstep (mkZ y c b d) (ZStep o) (mkZ (ystep cfg conc size V dec y o) (c ++ match executed y o with Some q => qstore cfg (y_q y) q | None => [] end) b d)
  | Z_recv : forall y c b d n, zstep (mkZ y c b d) (ZRecv n) (mkZ y (skipn n c) (b ++ firstn n c) d)
  | Z_flush : forall y c b d, zstep (mkZ y c b d) ZFlush (mkZ y c [] (exec_all b d))
  | Z_crash : forall y c b d clk main dead, Permutation main (db_main d) -> Permutation dead (db_dead d) ->
      zstep (mkZ y c b d) (ZCrash clk main dead) (mkZ (mkY V (y_cl V y) (recover clk main dead) (y_up V y) (y_down V y) (y_log y)) [] [] d).
  Inductive zsteps : zsys -> list zev -> zsys -> Prop :=
  | zsteps_nil : forall z, zsteps z [] z
  | zsteps_snoc : forall z es z1 e z2, zsteps z es z1 -> zstep z1 e z2 -> zsteps z (es ++ [e]) z2.
End Sys.
