(** Finding servers, scalopus_transport/src/transport_unix.cpp lines 169-202 and 421-445. *)
From Coq Require Import String List Arith NArith Ascii Bool.
Import ListNotations.
From Verif Require Import Str_model.

Definition text (s : string) : str := list_ascii_of_string s.
Definition suffix : str := text "_scalopus".
Definition newline : ascii := ascii_of_N 10.
(** [std::getline] over a whole text: what is before each newline, and what follows the last one unless it is empty. *)
Fixpoint getlines_from (s : str) (line : str) : list str :=
  match s with
  | [] => match line with [] => [] | _ => [rev line] end
  | c :: s' => if Ascii.eqb c newline then rev line :: getlines_from s' [] else getlines_from s' (c :: line)
  end.
Definition getlines (s : str) : list str := getlines_from s [].
Fixpoint str_eqb (a b : str) : bool :=
  match a, b with [], [] => true | x :: a', y :: b' => Ascii.eqb x y && str_eqb a' b' | _, _ => false end.

(** One line, lines 176-198: nothing, a process id, or [std::out_of_range]. Positions: [space_before_path - 1] of position zero is the
    largest position, of [npos] behind the end as well. *)
Inductive line_result := LSkip | LPid (pid : N) | LThrows.
Definition pred_upto (p : pos) (s : str) : nat := match p with Some (S n) => n | _ => List.length s end.
Definition scan_line (line : str) : line_result :=
  if List.length line <? List.length suffix then LSkip
  else match substr line (List.length line - List.length suffix) None with
  | None => LThrows
  | Some e =>
      if str_eqb e suffix then
        let space_before_path := rfind_char " " line in
        match substr line (plus space_before_path 2) None with
        | None => LThrows
        | Some path =>
            match rfind_upto " " line (pred_upto space_before_path line) with
            | None => LThrows                                  (* substr at npos *)
            | Some space_before_inode =>
                let count := match space_before_path with Some p => minus p space_before_inode | None => None end in
                match substr line space_before_inode count with
                | None => LThrows
                | Some inode_str =>
                    if atoi_is_zero inode_str then LSkip
                    else match substr path 0 (minus (List.length path) (List.length suffix)) with
                         | None => LThrows
                         | Some p => LPid (strtoul p)
                         end
                end
            end
        end
      else LSkip
  end.
(** All lines; [None]: the exception leaves the function. *)
Fixpoint scan_lines (ls : list str) : option (list N) :=
  match ls with
  | [] => Some []
  | l :: ls' => match scan_line l, scan_lines ls' with
                | LThrows, _ | _, None => None
                | LSkip, Some r => Some r
                | LPid p, Some r => Some (p :: r)
                end
  end.
Definition get_servers (table : str) : option (list N) := scan_lines (getlines table).
(** [discover], lines 436-445: destinations hold the id as [unsigned int] (lines 421-423), which is their hash (lines 431-434). *)
Definition destination (pid : N) : N := pid mod 4294967296.
Definition discover (table : str) : option (list N) := option_map (map destination) (get_servers table).
