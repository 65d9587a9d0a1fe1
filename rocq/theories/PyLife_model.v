(** Objects on both sides of the Python bindings: who keeps whom (C97).

    Modelled: scalopus_python/lib/pybind_fix.h 40-166 (an endpoint, provider or source that is handed to the library is held there by a
    pointer which owns a reference to the Python object), scalopus_python/lib/scalopus_interface.cpp 79-126 (the overloads), 190-206 (the
    bindings of transports and endpoints), 221-238 (factories), scalopus_interface/src/transport.cpp 57-62 (addEndpoint), endpoint.cpp 45-57,
    scalopus_general/src/endpoint_manager_poll.cpp 53-111 (what the manager holds).

    The rules of pybind11 (a dependency, not in /repo) which are used: a Python object of a subclass and its C++ part are one instance and go
    together; an instance is found again by its address ("registered") as long as it exists; a transport that is passed to Python by a
    shared pointer gets a wrapper that owns such a pointer; passed by a plain pointer with the policy [reference] it gets a wrapper that owns
    nothing; passed by a reference as an argument it has to be copied, which fails with an exception for a type without copies; [keep_alive<1,2>]
    makes the wrapper of the transport hold the endpoint; none of these references are seen by Python's collector of cycles.

    Simplifications: reference counts are given as the list of the references themselves, and what is no longer referred to is destroyed at
    once; the addresses of destroyed objects are not given to new ones; each connection of a manager has one endpoint, made by a factory written in
    Python for it; the result of [getName] is given with the operation; what a handler does is given as further operations. *)
From Coq Require Import List Arith Bool.
Import ListNotations.

(** A variable of the Python program, the manager (kept by the program as long as it likes), a Python object of a subclass of Endpoint, the
    wrapper of a transport in Python, and the transport itself. *)
Inductive node := Var (v : nat) | Mgr | Py (o : nat) | Wrap (t : nat) | Cxx (t : nat).
Inductive label :=
| Bind              (* a variable and its value *)
| Attr (k : nat)    (* an attribute of a Python object *)
| Holder            (* the pointer in a wrapper *)
| Keep              (* keep_alive *)
| Slot (n : nat)    (* [endpoints_[n]] of a transport, transport.h 123 *)
| Conn (t : nat)    (* [transports_], [transport_endpoints_] of the manager *)
| Made (t : nat).   (* its endpoints *)
Definition edge := (node * label * node)%type.
Definition src (e : edge) : node := fst (fst e).
Definition lbl (e : edge) : label := snd (fst e).
Definition dst (e : edge) : node := snd e.

Definition node_eq (a b : node) : {a = b} + {a <> b}.
Proof. decide equality; apply Nat.eq_dec. Defined.
Definition label_eq (a b : label) : {a = b} + {a <> b}.
Proof. decide equality; apply Nat.eq_dec. Defined.
Definition is (a b : node) : bool := if node_eq a b then true else false.
Definition isl (a b : label) : bool := if label_eq a b then true else false.
Definition root (n : node) : bool := match n with Var _ | Mgr => true | _ => false end.
Definition mem (n : node) (l : list node) : bool := existsb (is n) l.

Record state := { s_next : nat; s_live : list node; s_refs : list edge; s_raw : nat -> option nat; s_over : bool }.
Definition start : state := {| s_next := 0; s_live := []; s_refs := []; s_raw := fun _ => None; s_over := false |}.

(** What can be seen of a run. *)
Inductive obs :=
| OMade (n : node)                    (* constructed *)
| OGone (n : node)                    (* destroyed: [__del__], the destructor *)
| OAdded (t n o : nat)                (* [addEndpoint] *)
| OHandled (t n o : nat)              (* a message for [n] was handed to the method of the Python object *)
| OUsed (t : nat)                     (* a call of a method of the transport *)
| ORaised                             (* an exception in the Python program *)
| ODied                               (* an exception nobody catches in a thread of the library: std::terminate *)
| OUB.                                (* a destroyed object is used *)

Definition refs (s : state) (l : list edge) : state := {| s_next := s_next s; s_live := s_live s; s_refs := l; s_raw := s_raw s; s_over := s_over s |}.
Definition live (s : state) (l : list node) : state := {| s_next := s_next s; s_live := l; s_refs := s_refs s; s_raw := s_raw s; s_over := s_over s |}.
Definition over (s : state) : state := {| s_next := s_next s; s_live := s_live s; s_refs := s_refs s; s_raw := s_raw s; s_over := true |}.
Definition raw (o t : nat) (s : state) : state :=
  {| s_next := s_next s; s_live := s_live s; s_refs := s_refs s; s_raw := fun x => if Nat.eqb x o then Some t else s_raw s x; s_over := s_over s |}.
Definition upto (k : nat) (s : state) : state := {| s_next := k; s_live := s_live s; s_refs := s_refs s; s_raw := s_raw s; s_over := s_over s |}.

(** Reference counting: what nothing refers to goes, with its own references; then what only these referred to. *)
Definition wanted (s : state) (n : node) : bool := existsb (fun e => is (dst e) n) (s_refs s).
Definition sweep (s : state) : state :=
  let l := filter (wanted s) (s_live s) in
  live (refs s (filter (fun e => root (src e) || mem (src e) l) (s_refs s))) l.
Fixpoint settle (fuel : nat) (s : state) : state :=
  match fuel with
  | 0 => s
  | S f => if forallb (wanted s) (s_live s) then s else settle f (sweep s)
  end.
Definition gone (a b : state) : list obs := map OGone (filter (fun n => negb (mem n (s_live b))) (s_live a)).
Definition settled (s : state) (o : list obs) : state * list obs :=
  let s' := settle (length (s_live s)) s in (s', o ++ gone s s').

Definition find_ref (a : node) (x : label) (l : list edge) : option node := option_map dst (find (fun e => is (src e) a && isl (lbl e) x) l).
Definition unbind (a : node) (x : label) (l : list edge) : list edge := filter (fun e => negb (is (src e) a && isl (lbl e) x)) l.
Definition bind (a : node) (x : label) (b : node) (l : list edge) : list edge := (a, x, b) :: unbind a x l.
Definition var (v : nat) (s : state) : option node := find_ref (Var v) Bind (s_refs s).

Inductive op :=
| New (v : nat)                    (* v = MyEndpoint() *)
| Serve (v : nat)                  (* v = factory.serve() *)
| Copy (v w : nat)                 (* v = w *)
| Del (v : nat)
| SetAttr (v k w : nat)            (* v.k = w *)
| GetAttr (v w k : nat)            (* v = w.k *)
| DelAttr (v k : nat)
| Add (v n w : nat)                (* v.addEndpoint(w), w.getName() being n *)
| GetT (v w : nat)                 (* v = w.getTransport() *)
| Peek (v t : nat)                 (* v = the key of transport t in manager.endpoints() *)
| PeekE (v t : nat)                (* v = the endpoint of transport t in manager.endpoints() *)
| Use (v : nat)                    (* v.isConnected(), v.request(...) *)
| Connect (n : nat) (keep : option nat)   (* the manager connects; the factory keeps the transport in an attribute, or does not *)
| Lose (t : nat)                   (* the manager drops the connection *)
| Message (t n v : nat)            (* a message for endpoint n; the handler has the transport in its variable v *)
| Gc (l : list nat).               (* Python's collector finds the cycle l *)

Definition raised (s : state) : state * list obs := (s, [ORaised]).

(** What Python's collector of cycles may take: objects to which only attributes of each other refer. *)
Definition cycle (s : state) (l : list nat) : bool :=
  forallb (fun o => forallb (fun e => negb (is (dst e) (Py o)) ||
                                      (match lbl e with Attr _ => true | _ => false end && existsb (fun o' => is (src e) (Py o')) l)) (s_refs s)) l.

Definition step (a : op) (s : state) : state * list obs :=
  if s_over s then (s, []) else
  match a with
  | New v =>
      let o := s_next s in
      settled (upto (S o) (live (refs s (bind (Var v) Bind (Py o) (s_refs s))) (Py o :: s_live s))) [OMade (Py o)]
  | Serve v =>
      let t := s_next s in
      settled (upto (S t) (live (refs s ((Wrap t, Holder, Cxx t) :: bind (Var v) Bind (Wrap t) (s_refs s))) (Cxx t :: Wrap t :: s_live s)))
              [OMade (Cxx t)]
  | Copy v w => match var w s with Some n => settled (refs s (bind (Var v) Bind n (s_refs s))) [] | None => raised s end
  | Del v => settled (refs s (unbind (Var v) Bind (s_refs s))) []
  | SetAttr v k w =>
      match var v s, var w s with
      | Some (Py o), Some n => settled (refs s (bind (Py o) (Attr k) n (s_refs s))) []
      | _, _ => raised s
      end
  | GetAttr v w k =>
      match var w s with
      | Some (Py o) => match find_ref (Py o) (Attr k) (s_refs s) with
                       | Some n => settled (refs s (bind (Var v) Bind n (s_refs s))) []
                       | None => raised s
                       end
      | _ => raised s
      end
  | DelAttr v k =>
      match var v s with Some (Py o) => settled (refs s (unbind (Py o) (Attr k) (s_refs s))) [] | _ => raised s end
  | Add v n w =>                                              (* scalopus_interface.cpp 190, transport.cpp 57-62, pybind_fix.h 52-74 *)
      match var v s, var w s with
      | Some (Wrap t), Some (Py o) =>
          if mem (Cxx t) (s_live s)
          then settled (raw o t (refs s ((Wrap t, Keep, Py o) :: bind (Cxx t) (Slot n) (Py o) (s_refs s)))) [OAdded t n o]
          else (over s, [OUB])
      | _, _ => raised s
      end
  | GetT v w =>                                               (* 204: the policy [reference]; endpoint.cpp 54-57 *)
      match var w s with
      | Some (Py o) =>
          match s_raw s o with
          | None => settled (refs s (unbind (Var v) Bind (s_refs s))) []            (* None *)
          | Some t =>
              if mem (Cxx t) (s_live s)
              then settled (live (refs s (bind (Var v) Bind (Wrap t) (s_refs s))) (if mem (Wrap t) (s_live s) then s_live s else Wrap t :: s_live s)) []
              else (over s, [OUB])
          end
      | _ => raised s
      end
  | Peek v t =>                                               (* scalopus_general.cpp 81, endpoint_manager_poll.cpp 139-143 *)
      match find_ref Mgr (Conn t) (s_refs s) with
      | Some (Cxx t') =>
          if mem (Wrap t') (s_live s)
          then settled (refs s (bind (Var v) Bind (Wrap t') (s_refs s))) []
          else settled (live (refs s ((Wrap t', Holder, Cxx t') :: bind (Var v) Bind (Wrap t') (s_refs s))) (Wrap t' :: s_live s)) []
      | _ => raised s
      end
  | PeekE v t =>
      match find_ref Mgr (Made t) (s_refs s) with Some n => settled (refs s (bind (Var v) Bind n (s_refs s))) [] | None => raised s end
  | Use v =>
      match var v s with
      | Some (Wrap t) => if mem (Cxx t) (s_live s) then (s, [OUsed t]) else (over s, [OUB])
      | _ => raised s
      end
  | Connect n keep =>                                         (* endpoint_manager_poll.cpp 77-111, scalopus_interface.cpp 221-238 *)
      let t := s_next s in
      let l := (Mgr, Conn t, Cxx t) :: (Mgr, Made t, Py t) :: (Cxx t, Slot n, Py t) :: s_refs s in
      let s' := upto (S t) (raw t t s) in
      match keep with
      | Some k => settled (live (refs s' ((Wrap t, Holder, Cxx t) :: (Py t, Attr k, Wrap t) :: l)) (Cxx t :: Py t :: Wrap t :: s_live s))
                          [OMade (Cxx t); OMade (Py t); OAdded t n t]
      | None => settled (live (refs s' l) (Cxx t :: Py t :: s_live s)) [OMade (Cxx t); OMade (Py t); OAdded t n t]
      end
  | Lose t =>                                                 (* 60-68 *)
      settled (refs s (unbind Mgr (Made t) (unbind Mgr (Conn t) (s_refs s)))) []
  | Message t n v =>                                          (* 84-117: [overload(transport, my_bytes)]; transport_unix.cpp 286-300, 397-403 *)
      if mem (Cxx t) (s_live s)
      then match find_ref (Cxx t) (Slot n) (s_refs s) with
           | Some (Py o) =>
               if mem (Wrap t) (s_live s)
               then settled (refs s (bind (Var v) Bind (Wrap t) (s_refs s))) [OHandled t n o]
               else (over s, [ODied])                         (* not registered: it would have to be copied *)
           | _ => (s, [])
           end
      else (s, [])
  | Gc l =>
      if cycle s l
      then let d n := existsb (fun o => is n (Py o)) l in
           settled (live (refs s (filter (fun e => negb (d (src e)) && negb (d (dst e))) (s_refs s)))
                         (filter (fun n => negb (d n)) (s_live s)))
                   (map OGone (filter d (s_live s)))
      else (s, [])
  end.

Fixpoint run (h : list op) (s : state) : state * list obs :=
  match h with [] => (s, []) | a :: r => let (s1, o1) := step a s in let (s2, o2) := run r s1 in (s2, o1 ++ o2) end.
