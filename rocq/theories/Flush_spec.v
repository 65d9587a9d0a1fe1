(** What C107 says, in terms of whose steps complete a recording. *)
From Coq Require Import List Bool.
Import ListNotations.
From Verif Require Import EndToEnd_model Whole_model Whole_spec.

(** Steps of the library's own threads: of the sender of a traced process (but not its end), of the worker of a server that sends out broadcasts, of the
    worker of the recording program's client that takes what has come in, and of calls of [incoming] that are under way.
    No step of a traced thread, no request, no step of the program that records. *)
Definition background (l : xlabel) : Prop :=
  match l with
  | XProc _ (WSender a) => a <> R.RStop
  | XNet _ U.DispBcast => True
  | XNet _ (U.CliRecv 0 None) => True
  | XPrv (P.LLook _) => True
  | XPrv (P.LAdd _ _) => True
  | _ => False
  end.

(** Process [p] lives, its sender has not been ended, and the recording program is connected to it. *)
Definition able (p : nat) (s : xsys) : Prop :=
  U.s_up (x_net s p) = true /\ R.rs_pc (w_rings (x_proc s p)) <> R.RStopped /\ reached p s.
