(** What C96 says, in terms of what the programs did; a history is read backwards, the latest event first. *)
From Coq Require Import String List Arith NArith ZArith Ascii Bool.
Import ListNotations.
From Verif Require Import Commands_model Expose_model.
Open Scope list_scope.

(** The name of the program that runs as process [pid]: the first of its arguments when it was started. *)
Fixpoint program (pid : Z) (h : list ev) : bytes :=
  match h with
  | [] => []
  | EStart q argv :: h' => if Z.eqb q pid then hd [] argv else program pid h'
  | _ :: h' => program pid h'
  end.
(** The name under which process [pid] is to be seen: it made an exposer, which is still there. *)
Fixpoint shown (pid : Z) (h : list ev) : option bytes :=
  match h with
  | [] => None
  | EExpose q n :: h' => if Z.eqb q pid then Some (match n with Some n => n | None => program pid h' end) else shown pid h'
  | EDrop q :: h' => if Z.eqb q pid then None else shown pid h'
  | EExit q :: h' => if Z.eqb q pid then None else shown pid h'
  | _ :: h' => shown pid h'
  end.
(** The name of a thread of the process. *)
Fixpoint called (pid : Z) (tid : nat) (h : list ev) : option bytes :=
  match h with
  | [] => None
  | EStart q _ :: h' => if Z.eqb q pid then None else called pid tid h'
  | ENamed q t n :: h' => if Z.eqb q pid && Nat.eqb t tid then Some n else called pid tid h'
  | _ :: h' => called pid tid h'
  end.
(** No process makes an exposer while it has one. *)
Fixpoint once (h : list ev) : Prop :=
  match h with
  | [] => True
  | EExpose q _ :: h' => shown q h' = None /\ once h'
  | _ :: h' => once h'
  end.
(** No program assigns to [sys.argv]. *)
Definition argv_kept (h : list ev) : Prop := forall pid argv, ~ In (EArgv pid argv) h.
(** Every exposer is given a name. *)
Definition all_named (h : list ev) : Prop := forall pid, ~ In (EExpose pid None) h.

Definition reached (h : list ev) (w : world) : Prop := run (rev h) world0 = Some w.

(** What the report shows of a process: its name, its named threads and the endpoints the exposer is there for. *)
Definition four : list bytes := [txt "introspect"; txt "native_trace_sender"; txt "process_info"; txt "scope_tracing"].
Definition listed_as (pid : Z) (name : bytes) (h : list ev) (d : data) : Prop :=
  let '((q, n, ts), es) := d in
  q = pid /\ n = name /\ es = four /\ forall t c, In (t, c) ts <-> called pid t h = Some c.
