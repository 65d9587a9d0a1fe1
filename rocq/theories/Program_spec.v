(** What C86 says. *)
From Coq Require Import List ZArith Ascii.
Import ListNotations.
From Verif Require Import Str_model Program_model.

(** The server listens on port [p]. *)
Definition serves_on (p : Z) (o : outcome) : Prop := exists a t, o = Runs a t (Some p).
(** The tool that is run gets [path] as an argument of its own. *)
Definition tool_gets (path : str) (o : outcome) : Prop := exists a t l, o = Runs a t l /\ In path (tl t).
