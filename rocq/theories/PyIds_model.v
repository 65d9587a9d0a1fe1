(** Trace contexts in Python: [TraceContext] and [TraceContextHelper] (scalopus_python/scalopus/tracing.py lines 71-130), [uniqueTraceId] and
    [setTraceName] (scalopus_python/lib/scalopus_tracing.cpp lines 46-50 and 114-116). Any number of threads; they take turns between the steps.
    Simplifications: names are given in UTF-8 (PyJson_model has the conversion); the counter does not wrap (it has 64 bits); the attributes every
    Python object has (those with two underscores at both ends) are listed only as far as the class in question defines them. *)
From Coq Require Import String List Arith NArith Ascii Bool.
Import ListNotations.
From Verif Require Import OMap_model UnixSystem_model Json_model.

(** Lines 105-130: [__getattr__] is called only for attributes that are not found in the usual way; these are. *)
Definition attributes : list bytes := map text ["prefix"; "ctx_type"; "__init__"; "__getattr__"; "__call__"; "__doc__"; "__dict__"; "__module__"; "__class__"]%string.
Definition is_attribute (nm : bytes) : bool := existsb (bytes_eqb nm) attributes.

(** Where a thread is: not in a request, or on the way to a context, for a helper ([Some h]) or on its own. *)
Inductive pc :=
| Idle
| Making (h : option nat) (nm : bytes)
| Taken (h : option nat) (nm : bytes) (id : N)
| Named (h : option nat) (nm : bytes) (id : N).

Record state := {
  i_next : N;                                     (* the counter of [uniqueTraceId] *)
  i_names : list (N * bytes);                     (* the table of trace names *)
  i_ctx : nat -> list (bytes * N);                (* by helper: the contexts it has, as attributes *)
  i_pc : nat -> pc
}.
Definition start : state := {| i_next := 0; i_names := []; i_ctx := fun _ => []; i_pc := fun _ => Idle |}.

Inductive label :=
| Ask (t h : nat) (nm : bytes)                    (* [helper(nm)] or [helper.nm], line 130 *)
| New (t : nat) (nm : bytes) (id : option N)      (* [TraceContext(nm, id)], line 74 *)
| Take (t : nat)                                  (* line 82: [uniqueTraceId()] *)
| Register (t : nat)                              (* line 84 *)
| Put (t : nat).                                  (* line 121, and the context is there *)

(** What the caller gets: a context with an id, something that is no context, an exception. [Made]: a context with this name and id exists now. *)
Inductive event :=
| Made (id : N) (nm : bytes)
| Got (t : nat) (h : option nat) (nm : bytes) (id : N)
| NoContext (t h : nat) (nm : bytes)
| Raised (t : nat).

Section Ids.
Variable prefix : nat -> bytes.                   (* of the helpers *)
(** Line 120. *)
Definition full (h : option nat) (nm : bytes) : bytes := match h with Some h => prefix h ++ nm | None => nm end.

Definition step (l : label) (s : state) : option (state * list event) :=
  match l with
  | Ask t h nm =>
      match i_pc s t with
      | Idle =>
          if is_attribute nm then Some (s, [NoContext t h nm])
          else match mfind str_ltb nm (i_ctx s h) with
               | Some id => Some (s, [Got t (Some h) nm id])
               | None => Some ({| i_next := i_next s; i_names := i_names s; i_ctx := i_ctx s; i_pc := upd (i_pc s) t (Making (Some h) nm) |}, [])
               end
      | _ => None
      end
  | New t nm o =>
      match i_pc s t with
      | Idle => Some ({| i_next := i_next s; i_names := i_names s; i_ctx := i_ctx s;
                         i_pc := upd (i_pc s) t (match o with Some id => Taken None nm id | None => Making None nm end) |}, [])
      | _ => None
      end
  | Take t =>
      match i_pc s t with
      | Making h nm => Some ({| i_next := (i_next s + 1)%N; i_names := i_names s; i_ctx := i_ctx s; i_pc := upd (i_pc s) t (Taken h nm (i_next s)) |}, [])
      | _ => None
      end
  | Register t =>
      match i_pc s t with
      | Taken h nm id =>
          if (id <? 4294967296)%N                 (* [unsigned int]: anything else is a [TypeError] *)
          then Some ({| i_next := i_next s; i_names := minsert N.ltb id (full h nm) (i_names s); i_ctx := i_ctx s; i_pc := upd (i_pc s) t (Named h nm id) |},
                     [Made id (full h nm)])
          else Some ({| i_next := i_next s; i_names := i_names s; i_ctx := i_ctx s; i_pc := upd (i_pc s) t Idle |}, [Raised t])
      | _ => None
      end
  | Put t =>
      match i_pc s t with
      | Named h nm id =>
          Some ({| i_next := i_next s; i_names := i_names s;
                   i_ctx := match h with Some h => upd (i_ctx s) h (minsert str_ltb nm id (i_ctx s h)) | None => i_ctx s end;
                   i_pc := upd (i_pc s) t Idle |}, [Got t h nm id])
      | _ => None
      end
  end.
Fixpoint run (ls : list label) (s : state) : option (state * list event) :=
  match ls with
  | [] => Some (s, [])
  | l :: ls' =>
      match step l s with
      | Some (s', e) => match run ls' s' with Some (s'', e') => Some (s'', e ++ e') | None => None end
      | None => None
      end
  end.
End Ids.
