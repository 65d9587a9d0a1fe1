(** What C94 says. *)
From Coq Require Import String List Arith NArith ZArith Ascii Bool Floats.SpecFloat.
Import ListNotations.
From Verif Require Import Str_model Ctf_model Ctf_spec Lttng_model Lttng_spec Flow_model.
From Verif Require Lines_spec.

(** What babeltrace printed in a history. *)
Fixpoint output (xs : list flabel) (closed : bool) : str :=
  match xs with
  | [] => []
  | FPrint bs :: xs' => (if closed then [] else bs) ++ output xs' closed
  | FClose :: xs' => output xs' true
  | _ :: xs' => output xs' closed
  end.

(** Nothing that was printed is waiting: not in the pipe, not in the buffer of the C library, not in the hands of the reading thread. *)
Definition caught_up {E} (s : flow E) : Prop :=
  Q.q_pipe (f_q s) = [] /\ Q.q_buf (f_q s) = [] /\ Q.q_part (f_q s) = None /\ f_wait s = None /\ D.d_phase (f_d s) = D.Idle.

(** Source [k] is neither started nor stopped. *)
Definition leaves (k : nat) (xs : list flabel) : Prop := forall at_, ~ In (FStart k at_) xs /\ ~ In (FDeact k) xs /\ ~ In (FNull k) xs.
(** Source [k] is not started. *)
Definition not_again (k : nat) (xs : list flabel) : Prop := forall at_, ~ In (FStart k at_) xs.

(** The parser of [Ctf_model.v]. *)
Definition parser (strtod : str -> real_result spec_float) (early : bool) (l : str) : option (event spec_float) :=
  match parse strtod early l with Done e => Some e | _ => None end.

(** A line: of a deed of a traced process, or of something else. *)
Definition line_of (strtod : str -> real_result spec_float) (early : bool) (l : str) (o : option deed) : Prop :=
  match o with
  | Some d => exists p, good p /\ prints d p /\ strtod (p_time p) = DValue (d_time d) /\ d_time d <> S754_nan /\ l = line_text p ++ [Q.nl]
  | None => forall e, parser strtod early l = Some e -> c_domain e <> scalopus_domain
  end.
Definition deeds (os : list (option deed)) : list deed := flat_map (fun o => match o with Some d => [d] | None => [] end) os.
