(** Histories of a stream subscription of the SDK together with the server. *)
From Verif Require Import LibBase StreamGroupModel StreamSysModel SdkStreamModel SdkStreamSpec SdkStreamSys.

Section Y.
  Variable crc : bytes -> N.
  Variable cfg : gcfg.
  Variable smax : N.
  Variable conc : N.
  Variable gid : bytes.
  Variable limit : N.
  Notation ystep := (ystep crc cfg smax conc gid limit).
  Notation yrun := (yrun crc cfg smax conc gid limit).
  (** the connection is never seen to be lost while callbacks run *)
  Definition calm_losses (c : N) (s : sys) (xs : list yop) : Prop :=
    forall a b, xs = a ++ YLost :: b -> handling (y_log (yrun c s a)) = false.
  (** what the story leaves out: the loss of the connection, an answer that does not come
      in time, a restart, and a seek of the group *)
  Definition usual (y : ysys) (o : yop) : Prop :=
    match o with
    | YLost | YTimeout | YRestart _ => False
    | YDisc _ conn => conn <> y_conn y
    | YOther (SSeek _ g) => g <> gid
    | _ => True
    end.
  Definition ysteps (y : ysys) (os : list yop) : ysys := fold_left ystep os y.
  Fixpoint usuals (y : ysys) (os : list yop) : Prop := match os with [] => True | o :: os => usual y o /\ usuals (ystep y o) os end.
End Y.
