(** What C82, C83 and C84 say. *)
From Coq Require Import List Arith NArith Ascii Bool.
Import ListNotations.
From Verif Require Import Str_model Lines_model Tool_model.

(** Nothing but the library's own doing: no child is taken from the table by the program, and [fork] works. *)
Definition ordinary (x : label) : Prop := match x with Reap _ | Init ForkFails => False | _ => True end.
(** The present child is not in the middle of a line, or has ended. *)
Definition between_lines (t : tool) : Prop := t_said t = [] \/ (exists l, t_said t = l ++ [nl]) \/ q_closed (t_q t) = true.
(** [halt] has returned. *)
Definition halted (t : tool) : Prop := t_user t = UIdle /\ t_proc t = None /\ t_worker t = WNone.
(** Child [i] still has an entry in the table of processes. *)
Definition in_table (i : nat) (t : tool) : Prop := exists c, nth_error (t_children t) i = Some c /\ c_fate c <> Gone.
(** What a script prints on the standard output and writes as diagnostics. *)
Definition outs (l : list write) : str := flat_map (fun w => match w with Out bs => bs | Err _ => [] end) l.
Definition errs (l : list write) : N := fold_right (fun w n => match w with Out _ => n | Err m => (m + n)%N end) 0%N l.
(** What the process does itself, and how often a program makes a provider in vain. *)
Definition deeds (p : list action) : list nat := flat_map (fun a => match a with Do n => [n] | Provider _ => [] end) p.
Definition in_vain (p : list action) : nat := length (filter (fun a => match a with Provider false => true | _ => false end) p).
