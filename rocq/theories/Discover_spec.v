(** What C37 says: the kernel's table of sockets as it is printed, and the servers in it. *)
From Coq Require Import String List Arith NArith Ascii Bool.
Import ListNotations.
From Verif Require Import Json_model Str_model Discover_model.
Local Notation length := List.length.
Local Notation text := Discover_model.text.
Local Notation newline := Discover_model.newline.

(** A socket in the table: the columns before the inode, how far the inode is indented, the inode, and the name if it has one, as
    printed: abstract names start with an at sign. *)
Record sock := { k_front : str; k_pad : nat; k_inode : N; k_name : option str }.
Definition spaces (n : nat) : str := repeat " "%char n.
Definition entry (s : sock) : str :=
  k_front s ++ spaces (S (k_pad s)) ++ dump_nat (k_inode s) ++ match k_name s with Some n => " "%char :: n | None => [] end.
Definition header : str := text "Num       RefCount Protocol Flags    Type St Inode Path".
Definition table (ss : list sock) : str := header ++ newline :: concat (map (fun s => entry s ++ [newline]) ss).

(** The name a server of a process binds its socket to. *)
Definition server_name (pid : N) : str := "@"%char :: dump_nat pid ++ suffix.
(** A socket of the server of a process: the one it listens on, or one of a connection it has accepted. *)
Definition of_server (pid : N) (s : sock) : Prop := k_name s = Some (server_name pid) /\ (0 < k_inode s < 4294967296)%N.
(** A connection to a server that is not accepted yet. *)
Definition pending (s : sock) : Prop := k_inode s = 0%N /\ exists pid, k_name s = Some (server_name pid).
(** Something else, whose name does not look like that of a server. *)
Definition other (s : sock) : Prop := match k_name s with None => True | Some n => ~ In newline n /\ forall a, " "%char :: n <> a ++ suffix end.
Definition decent (s : sock) : Prop := ~ In newline (k_front s) /\ (pending s \/ other s \/ exists pid, (pid < 4294967296)%N /\ of_server pid s).
(** The process ids of the sockets of servers, in the order of the table. *)
Inductive listed : list sock -> list N -> Prop :=
| listed_nil : listed [] []
| listed_server s pid ss ps : of_server pid s -> listed ss ps -> listed (s :: ss) (pid :: ps)
| listed_not s ss ps : (forall pid, ~ of_server pid s) -> listed ss ps -> listed (s :: ss) ps.
