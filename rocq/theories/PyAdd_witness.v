(** Concrete endpoints written in Python (C117). *)
From Coq Require Import List Arith Bool Ascii String NArith.
Import ListNotations.
From Verif Require Import Json_model PyJson_model PyJson_spec PyAdd_model PyAdd_spec.

Definition text (s : string) : bytes := list_ascii_of_string s.
Definition plain (n : string) : py unit := PBytes (text n).
(** An endpoint that counts the requests and answers with its own letter and the payload; it has the name "e". *)
Definition good (a : string) : cls unit nat :=
  {| c_name := Some (fun q => (q, Some (plain "e"))); c_set := None; c_handle := Some (fun q b => (S q, Some (PBytes (text a ++ b)))); c_unsol := None |}.
(** The same with a [setTransport] of its own, which returns or raises. *)
Definition own (a : string) (ok : bool) : cls unit nat :=
  {| c_name := Some (fun q => (q, Some (plain "e"))); c_set := Some (fun q => (q, ok)); c_handle := Some (fun q b => (S q, Some (PBytes (text a ++ b)))); c_unsol := None |}.
(** One that raises at the second request; one without a name. *)
Definition tired : cls unit nat :=
  {| c_name := Some (fun q => (q, Some (plain "e"))); c_set := None; c_handle := Some (fun q b => (S q, if q =? 0 then Some PNone else None)); c_unsol := None |}.
Definition nameless : cls unit nat := {| c_name := None; c_set := None; c_handle := None; c_unsol := None |}.

(** Two endpoints of the same name, one after the other, at two transports; one without a name. *)
Definition usual : list (op unit nat) :=
  [New (good "a") 0; New (good "b") 0; New nameless 0; Add 7 0; Message Request 7 (text "e") (text "x"); Add 7 1; Message Request 7 (text "e") (text "y"); Add 8 0; Add 7 2; Where 0; Where 1; Where 2;
   Message Unsolicited 8 (text "e") (text "z"); Message Request 8 (text "f") []].
Example usual_run : snd (run usual start) =
  [OMade (good "a") 0; OMade (good "b") 0; OMade nameless 0; OName 7 0 (Some (text "e")); OReturned; OCall Request 7 (text "e") (text "x") 0; OReply 7 (text "e") (text "ax");
   OName 7 1 (Some (text "e")); OReturned; OCall Request 7 (text "e") (text "y") 1; OReply 7 (text "e") (text "by"); OName 8 0 (Some (text "e")); OReturned; OName 7 2 None; ORaised;
   OWhere 0 (Some 8); OWhere 1 (Some 7); OWhere 2 None] /\
  serving (snd (run usual start)) 7 (text "e") = Some 1 /\ serving (snd (run usual start)) 8 (text "e") = Some 0 /\ now (snd (run usual start)) 0 (good "a") 0 = 1 /\ existsb (fun e => match e with ODied => true | _ => false end) (snd (run usual start)) = false.
Proof. vm_compute. auto. Qed.

(** [addEndpoint] raises, and the endpoint has taken the place of the one before. *)
Definition half : list (op unit nat) := [New (good "a") 0; New (own "b" false) 0; Add 7 0; Add 7 1].
Lemma half_added : exists s, run half start =
  (s, [OMade (good "a") 0; OMade (own "b" false) 0; OName 7 0 (Some (text "e")); OReturned; OName 7 1 (Some (text "e")); OSet 7 1 false; ORaised]) /\
  snd (step (Message Request 7 (text "e") (text "x")) s) = [OCall Request 7 (text "e") (text "x") 1; OReply 7 (text "e") (text "bx")].
Proof. eexists. split; [vm_compute; reflexivity|]. reflexivity. Qed.
(** It returns, and the endpoint has no transport. *)
Lemma own_set : exists s, run [New (own "b" true) 0; Add 7 0] start = (s, [OMade (own "b" true) 0; OName 7 0 (Some (text "e")); OSet 7 0 true; OReturned]) /\
  snd (step (Where 0) s) = [OWhere 0 None] /\ snd (step (Message Request 7 (text "e") []) s) = [OCall Request 7 (text "e") [] 0; OReply 7 (text "e") (text "b")].
Proof. eexists. split; [vm_compute; reflexivity|]. split; reflexivity. Qed.
(** The second request ends the process. *)
Lemma tired_dies : snd (run [New tired 0; Add 7 0; Message Request 7 (text "e") []; Message Request 7 (text "e") []; Where 0] start) =
  [OMade tired 0; OName 7 0 (Some (text "e")); OReturned; OCall Request 7 (text "e") [] 0; OCall Request 7 (text "e") [] 0; ODied].
Proof. reflexivity. Qed.
