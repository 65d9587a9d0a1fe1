(** What C24 and C25 say, in terms of the names set in each process and the text shown. *)
From Coq Require Import String List Arith NArith ZArith Ascii Bool.
Import ListNotations.

(** The names set so far in a process, oldest first; the last one for an id counts. *)
Inductive named (id : N) : list (N * list ascii) -> list ascii -> Prop :=
  | named_last : forall l n, named id (l ++ [(id, n)]) n
  | named_before : forall l id' n' n, id' <> id -> named id l n -> named id (l ++ [(id', n')]) n.
Definition unnamed (id : N) (l : list (N * list ascii)) : Prop := ~ In id (map fst l).

(** The value of a text of hexadecimal digits, lower case. *)
Definition digit_value (c : ascii) : option N :=
  let n := N_of_ascii c in
  if (48 <=? n)%N && (n <=? 57)%N then Some (n - 48)%N
  else if (97 <=? n)%N && (n <=? 102)%N then Some (n - 87)%N else None.
Fixpoint hex_value (acc : N) (s : list ascii) : option N :=
  match s with
  | [] => Some acc
  | c :: s' => match digit_value c with Some d => hex_value (16 * acc + d) s' | None => None end
  end.
(** The text is the usual one: digits, no zero in front unless it is the number zero. *)
Definition is_hex_of (s : list ascii) (n : N) : Prop :=
  s <> [] /\ hex_value 0 s = Some n /\ (hd_error s = Some "0"%char -> s = ["0"%char]).

(** The text shown for an id that has no name. *)
Definition unknown_text (s : list ascii) (id : N) : Prop :=
  exists h, s = (list_ascii_of_string "Unknown 0x"%string ++ h)%list /\ is_hex_of h id.

(** The names a process sets in a history: a trace site sets its name the first time control passes it. *)
From Verif Require Import Names_model.
Fixpoint settings (sites : list site) (passed : list nat) (ls : list plabel) : list (N * list ascii) :=
  match ls with
  | [] => []
  | PPass i :: ls' =>
      match nth_error sites i with
      | Some s => if existsb (Nat.eqb i) passed then settings sites passed ls'
                  else (si_id s, si_name s) :: settings sites (i :: passed) ls'
      | None => settings sites passed ls'
      end
  | PSetName id n :: ls' => (id, n) :: settings sites passed ls'
  end.

(** A traced process: its number, its trace sites and what it has done. *)
Record traced := { tr_pid : Z; tr_sites : list site; tr_past : list plabel }.
Definition tr_settings (t : traced) : list (N * list ascii) := settings (tr_sites t) [] (tr_past t).

(** Process [t] answers the request for its names on the transport. *)
Definition answers (t : traced) (a : option answer) : Prop :=
  exists m, a = Some (AMap m) /\ m_handle (prun (tr_sites t) (tr_past t) (proc0 (tr_sites t) (tr_pid t))) ["m"%char] = HReply m.

(** Each transport has no such endpoint, or does not answer in time, or is answered by one of the processes. *)
Definition transports_of (procs : list traced) (ts : list (option answer)) : Prop :=
  Forall (fun a => a = None \/ a = Some ASilent \/ exists t, In t procs /\ answers t a) ts.
