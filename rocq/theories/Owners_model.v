(** Who keeps whom in a program that watches others: managers, providers, sources, recorders, servers and their viewers (C115).

    Modelled, as to which of their members own what they point to: scalopus_general/include_consumer/scalopus_general/endpoint_manager_poll.h lines 101-110 (the manager owns the functions
    given to [addEndpointFactory] and [setLogger]), scalopus_interface/include_consumer/scalopus_interface/endpoint_manager.h lines 77-93 (for a provider such a function holds a weak pointer only),
    scalopus_general/include_consumer/scalopus_general/general_provider.h line 66 ([manager_] owns), scalopus_tracing/include_consumer/scalopus_tracing/scope_tracing_provider.h line 80
    ([manager_] of the native and the LTTng provider does not), native_trace_provider.h line 87 and native_trace_provider.cpp lines 44-50 (the provider owns its sources),
    native_trace_source.h line 73 (these do not own it), general_provider.cpp line 43 and lttng_source.h line 65 (the other sources own their provider),
    scalopus_catapult/include/scalopus_catapult/catapult_recorder.h lines 101-102, catapult_recorder.cpp lines 78-99, catapult_backend.h lines 95-96 and catapult_backend.cpp lines 134-176 (recorders and servers own
    the providers; a viewer's session, or a started recorder, owns one source of each), scalopus_python/lib/scalopus_interface.cpp lines 213-230 (a function from Python is owned as it is),
    scalopus_python/scalopus/general.py lines 39-54 ([weak_provider_endpoint_factory]: [weakref] is not imported in this file, so a call raises a NameError).

    Simplified: reference counts are given as the lists of the references themselves, and what is no longer referred to is destroyed at once; transports and their endpoints are left out (see C97);
    a started recorder has a session, like a viewer of a server; providers and sources written in Python are left out; Python's collector of cycles is left out, as it does not see the references which are
    held in C++ (pybind11 gives no [tp_traverse] for these types) and cannot find a circle with one of them. An operation with objects it is not made for changes nothing. *)
From Coq Require Import List Arith Bool.
Import ListNotations.

Inductive kind := Manager | Native | General | Lttng
  | NSource                      (* of a native provider *)
  | PSource                      (* of another provider *)
  | Recorder | Server | Session
  | Py.                          (* an object of the program in Python, or a function with what it has captured *)
Definition kind_eq (a b : kind) : bool :=
  match a, b with
  | Manager, Manager | Native, Native | General, General | Lttng, Lttng | NSource, NSource | PSource, PSource | Recorder, Recorder | Server, Server | Session, Session | Py, Py => true
  | _, _ => false
  end.

(** The objects that exist; [(a, b)]: a reference of [a] that keeps [b]; those the program itself has. *)
Record state := { next : nat; live : list (nat * kind); refs : list (nat * nat); vars : list nat }.
Definition start : state := {| next := 0; live := []; refs := []; vars := [] |}.
Inductive obs := OMade (n : nat) (k : kind) | OGone (n : nat) | ORaised.

Definition mem (n : nat) (l : list nat) : bool := existsb (Nat.eqb n) l.
Definition is (s : state) (n : nat) (k : kind) : bool := existsb (fun o => Nat.eqb (fst o) n && kind_eq (snd o) k) (live s).
Definition has (s : state) (n : nat) (k : kind) : bool := mem n (vars s) && is s n k.
Definition provider (s : state) (n : nat) : bool := is s n Native || is s n General || is s n Lttng.
Fixpoint drop (n : nat) (l : list nat) : list nat := match l with [] => [] | x :: l' => if Nat.eqb x n then l' else x :: drop n l' end.
Fixpoint cut (a b : nat) (l : list (nat * nat)) : list (nat * nat) :=
  match l with [] => [] | e :: l' => if Nat.eqb (fst e) a && Nat.eqb (snd e) b then l' else e :: cut a b l' end.

(** Reference counting: what nothing refers to goes, with its own references; then what only these referred to. *)
Definition wanted (s : state) (n : nat) : bool := mem n (vars s) || mem n (map snd (refs s)).
Definition sweep (s : state) : state :=
  let l := filter (fun o => wanted s (fst o)) (live s) in
  {| next := next s; live := l; refs := filter (fun e => mem (fst e) (map fst l)) (refs s); vars := vars s |}.
Fixpoint settle (fuel : nat) (s : state) : state :=
  match fuel with 0 => s | S f => if forallb (fun o => wanted s (fst o)) (live s) then s else settle f (sweep s) end.
Definition gone (a b : state) : list obs := map OGone (filter (fun n => negb (mem n (map fst (live b)))) (map fst (live a))).
Definition settled (s : state) (o : list obs) : state * list obs :=
  let s' := settle (length (live s)) s in (s', o ++ gone s s').

(** A new object which keeps [rs] and is kept by [by_]; the program gets it, or not. *)
Definition make (k : kind) (rs by_ : list nat) (mine : bool) (s : state) : state :=
  {| next := S (next s); live := (next s, k) :: live s; refs := map (pair (next s)) rs ++ map (fun a => (a, next s)) by_ ++ refs s;
     vars := if mine then next s :: vars s else vars s |}.
(** [makeSource] of provider [p], for [holder] or for the program. *)
Definition source (p : nat) (holder : list nat) (mine : bool) (s : state) : state :=
  if is s p Native then make NSource [] (p :: holder) mine s else make PSource [p] holder mine s.
Definition source_kind (s : state) (p : nat) : kind := if is s p Native then NSource else PSource.
(** A session of [r], and a source for it of each provider in [ps]. *)
Fixpoint sources (n : nat) (ps : list nat) (s : state) : state * list obs :=
  match ps with
  | [] => (s, [])
  | p :: ps' => let (s', o) := sources n ps' (source p [n] false s) in (s', OMade (next s) (source_kind s p) :: o)
  end.
Definition providers (s : state) (r : nat) : list nat := filter (provider s) (map snd (filter (fun e => Nat.eqb (fst e) r) (refs s))).

Inductive op :=
| MakeManager
| MakeNative (m : nat) | MakeGeneral (m : nat) | MakeLttng (m : nat)     (* a provider for manager [m] *)
| MakeRecorder | MakeServer
| MakeSource (p : nat)           (* [makeSource] called by the program *)
| AddProvider (r p : nat)        (* [addProvider] of a recorder or server *)
| Open (r : nat)                 (* [start] of a recorder; a viewer comes to a server *)
| Close (r n : nat)              (* the session [n] ends *)
| AddFactory (m p : nat)         (* [addEndpointFactory] with a provider, in C++ *)
| Dup (n : nat) | Drop (n : nat) (* the program copies, or lets go of, a reference *)
| PyNew                          (* a Python object, or a function *)
| PySet (o n : nat)              (* it gets a reference: an attribute, a captured variable *)
| PyDel (o n : nat)
| PyGet (o n : nat)              (* the program takes what the object refers to *)
| PyFactory (m o : nat)          (* [addEndpointFactory], [setLogger] with function [o] *)
| PyWeak (m o : nat).            (* [addEndpointFactory] with [weak_provider_endpoint_factory(o)] *)

Definition put (a b : nat) (s : state) : state := {| next := next s; live := live s; refs := (a, b) :: refs s; vars := vars s |}.
Definition take (a b : nat) (s : state) : state := {| next := next s; live := live s; refs := cut a b (refs s); vars := vars s |}.
Definition hold (n : nat) (s : state) : state := {| next := next s; live := live s; refs := refs s; vars := n :: vars s |}.
Definition release (n : nat) (s : state) : state := {| next := next s; live := live s; refs := refs s; vars := drop n (vars s) |}.
Definition made (k : kind) (rs : list nat) (s : state) : state * list obs := (make k rs [] true s, [OMade (next s) k]).

Definition act (a : op) (s : state) : state * list obs :=
  match a with
  | MakeManager => made Manager [] s
  | MakeNative m => if has s m Manager then made Native [] s else (s, [])
  | MakeGeneral m => if has s m Manager then made General [m] s else (s, [])
  | MakeLttng m => if has s m Manager then made Lttng [] s else (s, [])
  | MakeRecorder => made Recorder [] s
  | MakeServer => made Server [] s
  | MakeSource p => if mem p (vars s) && provider s p then (source p [] true s, [OMade (next s) (source_kind s p)]) else (s, [])
  | AddProvider r p => if (has s r Recorder || has s r Server) && mem p (vars s) && provider s p then (put r p s, []) else (s, [])
  | Open r => if is s r Recorder || is s r Server then
                let (s', o) := sources (next s) (providers s r) (make Session [] [r] false s) in (s', OMade (next s) Session :: o)
              else (s, [])
  | Close r n => if (is s r Recorder || is s r Server) && is s n Session then (take r n s, []) else (s, [])
  | AddFactory m p => (s, [])
  | Dup n => if mem n (vars s) then (hold n s, []) else (s, [])
  | Drop n => (release n s, [])
  | PyNew => made Py [] s
  | PySet o n => if has s o Py && mem n (vars s) then (put o n s, []) else (s, [])
  | PyDel o n => if has s o Py then (take o n s, []) else (s, [])
  | PyGet o n => if has s o Py && existsb (fun e => Nat.eqb (fst e) o && Nat.eqb (snd e) n) (refs s) then (hold n s, []) else (s, [])
  | PyFactory m o => if has s m Manager && mem o (vars s) then (put m o s, []) else (s, [])
  | PyWeak m o => (s, [ORaised])
  end.
Definition step (a : op) (s : state) : state * list obs := let (s', o) := act a s in settled s' o.
Fixpoint run (h : list op) (s : state) : state * list obs :=
  match h with [] => (s, []) | a :: h' => let (s1, o1) := step a s in let (s2, o2) := run h' s1 in (s2, o1 ++ o2) end.
