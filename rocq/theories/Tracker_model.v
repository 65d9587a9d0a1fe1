(** [MapTracker<Key, Value>] (scalopus_general/include/scalopus_general/map_tracker.h, lines 43-109), the table behind the trace names
    ([StaticStringTracker]), the thread names ([ThreadNameTracker]) and the buffers of the recording endpoint, used by any number of
    threads at once.

    An operation is broken into the steps another thread can see: it takes the lock, touches the table in one or more steps, releases
    the lock, returns. Writing [mapping_[key] = value] is two steps (make the entry, assign the value); copying the table takes one step
    per entry, and so does emptying it. Any thread may run between any two steps.

    Simplifications: keys are natural numbers (the code has [unsigned int] and [unsigned long]); the table is kept in the order of its keys
    where [std::unordered_map] promises no order; [std::shared_timed_mutex] is modelled by its contract: one holder in unique mode and no other,
    or any number of holders in shared mode; running out of memory is not modelled. *)
From Coq Require Import List Arith NArith Bool.
From Verif Require Import OMap_model UnixSystem_model.
Import ListNotations.

Section Tracker.
Context {V : Type}.
(** The value [mapping_[key]] makes for a key that is not there. *)
Variable blank : V.

Inductive op :=
| Insert (k : N) (v : V)       (* lines 53-57 *)
| GetMap                       (* lines 63-67 *)
| GetValue (k : N)             (* lines 73-77 *)
| Exists (k : N)               (* lines 82-86 *)
| Erase (k : N)                (* lines 91-95 *)
| Clear.                       (* lines 100-104 *)

(** What an operation gives its caller. [at] throws [std::out_of_range] for an absent key: [Threw]. *)
Inductive result :=
| Unit
| Table (m : list (N * V))
| Value (v : V)
| Threw
| Answer (b : bool).

(** [std::unique_lock] (lines 55, 93, 102) or [std::shared_lock] (lines 65, 75, 84). *)
Definition exclusive (o : op) : bool :=
  match o with
  | Insert _ _ | Erase _ | Clear => true
  | GetMap | GetValue _ | Exists _ => false
  end.

(** How far the body of an operation is. *)
Inductive progress :=
| Start
| Made                                  (* [Insert]: the entry is there, its value is not assigned yet *)
| Copied (m : list (N * V))             (* [GetMap]: the entries copied so far *)
| Done (r : result).

(** Where a thread is; the number is the identity of the call. *)
Inductive pc :=
| Outside
| Waiting (i : nat) (o : op)
| Inside (i : nat) (o : op) (p : progress)
| Leaving (i : nat) (o : op) (r : result).

Record state := {
  s_table : list (N * V);               (* line 107: [mapping_] *)
  s_unique : bool;                      (* line 108: [mutex_] is held in unique mode *)
  s_shared : nat;                       (* ... and by how many in shared mode *)
  s_threads : list pc;
  s_calls : nat                         (* the number of calls made: the identity of the next *)
}.

Definition start (n : nat) : state :=
  {| s_table := []; s_unique := false; s_shared := 0; s_threads := repeat Outside n; s_calls := 0 |}.

Definition find (k : N) (m : list (N * V)) : option V := mfind N.ltb k m.

(** One step of the body of an operation: the next progress and the table. *)
Definition body (o : op) (p : progress) (m : list (N * V)) : option (progress * list (N * V)) :=
  match o, p with
  | Insert k v, Start =>                 (* line 56: [mapping_[key]] *)
      Some (Made, match find k m with Some _ => m | None => minsert N.ltb k blank m end)
  | Insert k v, Made => Some (Done Unit, minsert N.ltb k v m)          (* line 56: [= value] *)
  | GetMap, Start => Some (Copied [], m)
  | GetMap, Copied c =>                  (* line 66 *)
      match nth_error m (length c) with
      | Some e => Some (Copied (c ++ [e]), m)
      | None => Some (Done (Table c), m)
      end
  | GetValue k, Start => Some (Done (match find k m with Some v => Value v | None => Threw end), m)                 (* line 76 *)
  | Exists k, Start => Some (Done (Answer (match find k m with Some _ => true | None => false end)), m)             (* line 85 *)
  | Erase k, Start => Some (Done Unit, merase N.ltb k m)               (* line 94 *)
  | Clear, Start =>                      (* line 103 *)
      match m with
      | [] => Some (Done Unit, [])
      | _ :: m' => Some (Start, m')
      end
  | _, _ => None
  end.

(** What happens next. *)
Inductive label :=
| Call (t : nat) (o : op)
| Acquire (t : nat)
| Touch (t : nat)
| Release (t : nat)
| Return (t : nat).

(** What a caller sees. *)
Inductive event :=
| Called (i t : nat) (o : op)
| Returned (i t : nat) (r : result).

Definition put (s : state) (t : nat) (c : pc) : list pc := set_nth t c (s_threads s).

Definition step (x : label) (s : state) : option (state * list event) :=
  match x with
  | Call t o =>
      match nth_error (s_threads s) t with
      | Some Outside => Some ({| s_table := s_table s; s_unique := s_unique s; s_shared := s_shared s;
                                 s_threads := put s t (Waiting (s_calls s) o); s_calls := S (s_calls s) |}, [Called (s_calls s) t o])
      | _ => None
      end
  | Acquire t =>
      match nth_error (s_threads s) t with
      | Some (Waiting i o) =>
          if s_unique s then None
          else if exclusive o then
            match s_shared s with
            | 0 => Some ({| s_table := s_table s; s_unique := true; s_shared := 0;
                            s_threads := put s t (Inside i o Start); s_calls := s_calls s |}, [])
            | S _ => None
            end
          else Some ({| s_table := s_table s; s_unique := false; s_shared := S (s_shared s);
                        s_threads := put s t (Inside i o Start); s_calls := s_calls s |}, [])
      | _ => None
      end
  | Touch t =>
      match nth_error (s_threads s) t with
      | Some (Inside i o p) =>
          match body o p (s_table s) with
          | Some (p', m) => Some ({| s_table := m; s_unique := s_unique s; s_shared := s_shared s;
                                     s_threads := put s t (Inside i o p'); s_calls := s_calls s |}, [])
          | None => None
          end
      | _ => None
      end
  | Release t =>
      match nth_error (s_threads s) t with
      | Some (Inside i o (Done r)) =>
          Some ({| s_table := s_table s; s_unique := if exclusive o then false else s_unique s;
                   s_shared := if exclusive o then s_shared s else pred (s_shared s);
                   s_threads := put s t (Leaving i o r); s_calls := s_calls s |}, [])
      | _ => None
      end
  | Return t =>
      match nth_error (s_threads s) t with
      | Some (Leaving i o r) => Some ({| s_table := s_table s; s_unique := s_unique s; s_shared := s_shared s;
                                         s_threads := put s t Outside; s_calls := s_calls s |}, [Returned i t r])
      | _ => None
      end
  end.

(** A run: the steps in the order they happen, and all that the callers see. *)
Fixpoint run (xs : list label) (s : state) : option (state * list event) :=
  match xs with
  | [] => Some (s, [])
  | x :: xs' =>
      match step x s with
      | Some (s', e) => match run xs' s' with Some (s'', e') => Some (s'', e ++ e') | None => None end
      | None => None
      end
  end.
End Tracker.

Arguments op : clear implicits.
Arguments result : clear implicits.
Arguments progress : clear implicits.
Arguments pc : clear implicits.
Arguments state : clear implicits.
Arguments label : clear implicits.
Arguments event : clear implicits.
