(** C48: ids and names of trace contexts in Python. *)
From Coq Require Import String List Arith NArith Ascii Bool.
Import ListNotations.
From Verif Require Import OMap_model Json_model PyIds_model PyIds_spec PyIds_proofs PyIds_witness.

(** Whatever the threads do: each context made has an id of its own, the table of names has its name, and what a caller gets is a context made with the
    name asked for. Missing for C48: contexts asked for with an id, names that are attributes of the helper (see below). *)
Theorem C48_unique_partial : forall prefix ls s es, Forall no_id ls -> run prefix ls start = Some (s, es) ->
  NoDup (map fst (made es)) /\ (forall id nm, In (id, nm) (made es) -> mfind N.ltb id (i_names s) = Some nm) /\
  (forall t h nm id, In (Got t h nm id) es -> In (id, full_name prefix h nm) (made es)).
Proof. exact own_ids. Qed.
Print Assumptions C48_unique_partial.

(** One helper, one name, one id. Missing for C48: a helper that several threads ask (see below). *)
Theorem C48_same_partial : forall prefix h t ls s es u1 u2 nm id1 id2, Forall (one_thread h t) ls -> run prefix ls start = Some (s, es) ->
  In (Got u1 (Some h) nm id1) es -> In (Got u2 (Some h) nm id2) es -> id1 = id2.
Proof. exact same_id. Qed.
Print Assumptions C48_same_partial.
Example C48_case : Forall no_id usual /\ Forall (one_thread 0 0) usual /\ exists s es, run bare usual start = Some (s, es) /\ made es = [(1, a); (0, a); (2, b)]%N /\
  filter (fun e => match e with Got 0 _ _ _ => true | _ => false end) es = [Got 0 (Some 0) a 1%N; Got 0 (Some 0) a 1%N].
Proof. exact usual_run. Qed.

Theorem C48_same_refuted : exists ls s es, Forall no_id ls /\ run bare ls start = Some (s, es) /\ In (Got 0 (Some 0) a 0%N) es /\ In (Got 1 (Some 0) a 1%N) es.
Proof. exact both_make. Qed.
Print Assumptions C48_same_refuted.
Theorem C48_attribute_refuted : exists ls s es, run bare ls start = Some (s, es) /\ es = [NoContext 0 0 (text "prefix")].
Proof. exact prefix_asked. Qed.
Print Assumptions C48_attribute_refuted.
Theorem C48_id_refuted : exists ls s es, run bare ls start = Some (s, es) /\ In (Got 0 None a 0%N) es /\ In (Got 0 None b 0%N) es /\ mfind N.ltb 0%N (i_names s) = Some b.
Proof. exact explicit_id. Qed.
Print Assumptions C48_id_refuted.
