(** C74: data races. *)
From Coq Require Import List Arith Bool.
Import ListNotations.
From Verif Require Import Races_model Races_spec Races_proofs Races_witness.

(** Any threads of any kind, any objects, any callbacks that do what user code can do, any schedule: the variables that are not listed in [careless] have no races.
    Missing for C74: those that are listed, see below; and accesses in construction and after the end of the object's thread. *)
Theorem C74_partial : forall x s, of_library x = true -> careless x = false -> possible s -> ~ race x s.
Proof. exact library_races. Qed.
Print Assumptions C74_partial.
Example C74_case : (exists s, possible s /\ touches s 0 (VTable 2) /\ touches s 1 (VTable 2)) /\
  (exists s, possible s /\ writes s 0 (VBroadcasts 4) /\ todo s 1 <> [] /\ step 1 s = None) /\ forall roles, user_callbacks roles (busy roles).
Proof. exact (conj two_readers (conj one_waits busy_user)). Qed.

(** Each of those listed has one. *)
Theorem C74_refuted : forall x, careless x = true -> exists s, possible s /\ race x s.
Proof. exact careless_races. Qed.
Print Assumptions C74_refuted.
