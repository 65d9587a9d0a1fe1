(** Endpoints written in Python and the transports they are added to (C117).

    Modelled: scalopus_python/scalopus/interface.py 39-65 (the class [Endpoint], from which those of a program are derived), scalopus_python/lib/scalopus_interface.cpp
    81-121 (how the library calls the methods of the class), 182 (the binding of [addEndpoint]) and 191-196 (those of endpoints), scalopus_interface/src/transport.cpp 57-62 ([addEndpoint]),
    endpoint.cpp 35-56 (the methods that are not written in Python), transport_unix.cpp 286-302 and 391-405 (who calls [unsolicited] and [handle]).

    The rules of pybind11 (a dependency, not in /repo) which are used: [PYBIND11_OVERLOAD] and [get_overload] call the method of the class if there is one; an exception raised
    in Python becomes a C++ exception and, back in Python, the same exception again; text and bytes are accepted for a [std::string], text without surrogates in UTF-8; everything
    else is an exception.

    Simplifications: each method runs while holding the interpreter lock and returns or raises; methods do not add endpoints themselves; the transports are servers which the program
    keeps (see PyLife_model for what happens otherwise); the endpoints are numbered as they are made. *)
From Coq Require Import List Arith Bool Ascii.
Import ListNotations.
From Verif Require Import OMap_model Json_model PyJson_model.

Section Endpoints.
(** [F]: floating point numbers; [Q]: the states of the Python objects. *)
Context {F Q : Type}.
Notation py := (py F).

(** A class; [None]: the method is not there. [getName] returns a value or raises ([None]), [setTransport] returns ([true]) or raises ([false]), [handle] and [unsolicited] are
    given the payload and return a value or raise ([None]). *)
Record cls := {
  c_name : option (Q -> Q * option py);
  c_set : option (Q -> Q * bool);
  c_handle : option (Q -> bytes -> Q * option py);
  c_unsol : option (Q -> bytes -> Q * option py)
}.
(** An object: its class, its state, and [transport_] of its C++ part (endpoint.h 91). *)
Record obj := { o_cls : cls; o_state : Q; o_at : option nat }.
(** [s_ends t]: [endpoints_] of transport [t] (transport.h 123). *)
Record state := { s_objs : list obj; s_ends : nat -> list (bytes * nat); s_dead : bool }.
Definition start : state := {| s_objs := []; s_ends := fun _ => []; s_dead := false |}.

(** A request for an endpoint, or a message nobody asked for. *)
Inductive kind := Request | Unsolicited.
Definition method (k : kind) (c : cls) : option (Q -> bytes -> Q * option py) := match k with Request => c_handle c | Unsolicited => c_unsol c end.

Inductive op :=
| New (c : cls) (q : Q)                       (* the program makes an endpoint *)
| Add (t o : nat)                             (* t.addEndpoint(o) *)
| Message (k : kind) (t : nat) (n b : bytes)  (* a message for the name [n] comes in at [t] *)
| Where (o : nat).                            (* o.getTransport() *)

(** What can be seen: calls of the methods, and what the program and the other side get. *)
Inductive obs :=
| OMade (c : cls) (q : Q)
| OName (t o : nat) (r : option bytes)        (* [getName] during [addEndpoint]: a name or an exception *)
| OSet (t o : nat) (ok : bool)                (* [setTransport] of the class during [addEndpoint] *)
| OReturned | ORaised                         (* how [addEndpoint] ends *)
| OCall (k : kind) (t : nat) (n b : bytes) (o : nat)
| OReply (t : nat) (n d : bytes)
| OWhere (o : nat) (t : option nat)
| ODied.                                      (* an exception nobody catches in the thread of the transport: std::terminate *)

(** The conversion of what [getName] returned, scalopus_interface.cpp 83. *)
Definition name_of (p : py) : option bytes := match p with PStr s => to_utf8 s | PBytes b => Some b | _ => None end.

Definition set_obj (o : nat) (x : obj) (s : state) : state :=
  {| s_objs := firstn o (s_objs s) ++ x :: skipn (S o) (s_objs s); s_ends := s_ends s; s_dead := s_dead s |}.
Definition with_state (q : Q) (x : obj) : obj := {| o_cls := o_cls x; o_state := q; o_at := o_at x |}.
Definition with_at (t : nat) (x : obj) : obj := {| o_cls := o_cls x; o_state := o_state x; o_at := Some t |}.
(** [endpoints_[n] = o]. *)
Definition put (t : nat) (n : bytes) (o : nat) (s : state) : state :=
  {| s_objs := s_objs s; s_ends := fun u => if u =? t then minsert str_ltb n o (s_ends s u) else s_ends s u; s_dead := s_dead s |}.
Definition die (s : state) : state := {| s_objs := s_objs s; s_ends := s_ends s; s_dead := true |}.

(** [addEndpoint], transport.cpp 57-62: the name is asked for first, then the entry is made, then [setTransport] is called: that of the class if it has one
    (scalopus_interface.cpp 118-121), which cannot call the one of the library as that has no binding (191-196). *)
Definition add (t o : nat) (x : obj) (s : state) : state * list obs :=
  match c_name (o_cls x) with
  | None => (s, [OName t o None; ORaised])    (* interface.py 65: [NotImplemented] cannot be called, a TypeError *)
  | Some f =>
      let (q, r) := f (o_state x) in
      let x := with_state q x in
      match match r with Some p => name_of p | None => None end with
      | None => (set_obj o x s, [OName t o None; ORaised])
      | Some n =>
          let s := put t n o s in
          match c_set (o_cls x) with
          | None => (set_obj o (with_at t x) s, [OName t o (Some n); OReturned])
          | Some g => let (q, ok) := g q in
                      (set_obj o (with_state q x) s, [OName t o (Some n); OSet t o ok; if ok then OReturned else ORaised])
          end
      end
  end.

Definition step (a : op) (s : state) : state * list obs :=
  if s_dead s then (s, []) else
  match a with
  | New c q => ({| s_objs := s_objs s ++ [{| o_cls := c; o_state := q; o_at := None |}]; s_ends := s_ends s; s_dead := s_dead s |}, [OMade c q])
  | Add t o => match nth_error (s_objs s) o with Some x => add t o x s | None => (s, [ORaised]) end
  | Message k t n b =>
      match mfind str_ltb n (s_ends s t) with
      | None => (s, [])
      | Some o =>
          match nth_error (s_objs s) o with
          | None => (s, [])
          | Some x =>
              match method k (o_cls x) with
              | None => (s, [])                (* interface.py 47-57 returns None; endpoint.cpp 35-42 returns false *)
              | Some f =>
                  let (q, r) := f (o_state x) b in
                  let s := set_obj o (with_state q x) s in
                  match match r with Some p => to_data p | None => PRaise end with
                  | PRaise => (die s, [OCall k t n b o; ODied])
                  | PNothing => (s, [OCall k t n b o])
                  | PData d => (s, [OCall k t n b o; OReply t n d])
                  end
              end
          end
      end
  | Where o => match nth_error (s_objs s) o with Some x => (s, [OWhere o (o_at x)]) | None => (s, [ORaised]) end
  end.

Fixpoint run (h : list op) (s : state) : state * list obs :=
  match h with [] => (s, []) | a :: r => let (s1, o1) := step a s in let (s2, o2) := run r s1 in (s2, o1 ++ o2) end.
End Endpoints.
Arguments cls : clear implicits. Arguments op : clear implicits. Arguments obs : clear implicits. Arguments state : clear implicits.
