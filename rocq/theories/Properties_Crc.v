(** Properties of the identifiers of tracepoints: C22, C23. Concrete cases are at the end of [Crc_proofs.v]. *)
From Coq Require Import String List NArith Ascii.
Import ListNotations.
From Verif Require Import Crc_model Crc_spec Crc_proofs.
Open Scope N_scope.

(** The checksum with the table is the CRC-32 defined bit by bit, for every string. *)
Theorem C22_standard : forall s,
  crc32_str s = crc32 s.
Proof. exact crc_is_standard. Qed.
Print Assumptions C22_standard.

(** The polynomial of the definition is the one of the standards, bits reversed. *)
Theorem C22_polynomial :
  poly = reversed 32 standard_poly 0.
Proof. exact poly_is_standard. Qed.
Print Assumptions C22_polynomial.

(** The checksum of a concatenation is the checksum of the first part, continued over the second. *)
Theorem C22_continues : forall a b crc,
  compute (a ++ b) crc = compute b (compute a crc).
Proof. exact crc_continues. Qed.
Print Assumptions C22_continues.

(** Different lines of one file have different ids. Missing for C23: names, names against lines, files; these are refuted below. *)
Theorem C23_lines_partial : forall file l1 l2,
  l1 < 0x100000000 -> l2 < 0x100000000 -> l1 <> l2 -> id_of_line file l1 <> id_of_line file l2.
Proof. exact lines_distinct. Qed.
Print Assumptions C23_lines_partial.

(** Names of the same length which differ only within four consecutive bytes have different ids. Missing: other names. *)
Theorem C23_names_partial : forall file pre s t post,
  length s = length t -> (length s <= 4)%nat -> s <> t -> id_of_name file (pre ++ s ++ post) <> id_of_name file (pre ++ t ++ post).
Proof. exact names_distinct. Qed.
Print Assumptions C23_names_partial.

(** Two names with the same id in every file. *)
Theorem C23_names_refuted :
  forall file, str "testdraw_check" <> str "workmakestate" /\ id_of_name file (str "testdraw_check") = id_of_name file (str "workmakestate").
Proof. exact names_collide. Qed.
Print Assumptions C23_names_refuted.

(** A name that has the id of a line, in every file. *)
Theorem C23_line_name_refuted :
  forall file, id_of_line file 4540 = id_of_name file (str "clearpointmap").
Proof. exact line_name_collide. Qed.
Print Assumptions C23_line_name_refuted.

(** Lines of two files with the same id. *)
Theorem C23_files_refuted :
  str "src/open_save.cpp" <> str "src/exec/move.cpp" /\ id_of_line (str "src/open_save.cpp") 19 = id_of_line (str "src/exec/move.cpp") 10.
Proof. exact files_collide. Qed.
Print Assumptions C23_files_refuted.
