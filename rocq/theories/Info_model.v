(** Names of threads and processes: where they are kept, and how they get into the trace.
    scalopus_general/src/thread_name_tracker.cpp, internal/thread_naming.h, src/endpoint_process_info.cpp,
    src/general_provider.cpp, src/general_source.cpp.
    The table of the process is the [MapTracker] of Tracker_model; here its operations are whole (C44 says they may be taken so).
    The messages are those of Wire_model.
    Simplifications: a thread that ends runs the destructor of its thread-local object at that moment, and names nothing afterwards;
    [DestructorCallback] returns its object without a copy (the compilers' usual elision: with a copy, its destructor would erase the name at once). *)
From Coq Require Import String List Arith NArith ZArith Ascii Bool.
Import ListNotations.
From Verif Require Import OMap_model Json_model Bson_model Wire_model.
Local Notation length := List.length.

(** ** In the traced process *)
Inductive act :=
| Begin (t : N)                          (* a thread with this id starts; ids of threads that have ended may be used again *)
| NameSelf (t : N) (nm : bytes)          (* the thread calls [setCurrentName] *)
| NameSite (t : N) (i : nat) (nm : bytes)  (* the thread passes the [TRACE_THREAD_NAME] numbered [i] *)
| NameOther (t : N) (nm : bytes)         (* some thread calls [setThreadName(t, nm)] *)
| End (t : N).                           (* the thread ends *)

Record threads := {
  th_live : list N;
  th_hooked : list N;                    (* the thread-local [cleanup] of [setCurrentName] exists *)
  th_sites : list (N * nat);             (* the thread-local flags of the macro that are set *)
  th_table : list (N * bytes)
}.
Definition threads0 : threads := {| th_live := []; th_hooked := []; th_sites := []; th_table := [] |}.

Definition has (t : N) (l : list N) : bool := existsb (N.eqb t) l.
Definition without (t : N) (l : list N) : list N := filter (fun x => negb (N.eqb t x)) l.

(** [setCurrentName], thread_name_tracker.cpp lines 41-47. *)
Definition name_self (t : N) (nm : bytes) (s : threads) : threads :=
  {| th_live := th_live s; th_hooked := if has t (th_hooked s) then th_hooked s else t :: th_hooked s; th_sites := th_sites s;
     th_table := minsert N.ltb t nm (th_table s) |}.

Definition passed (t : N) (i : nat) (s : threads) : bool := existsb (fun e => N.eqb t (fst e) && Nat.eqb i (snd e)) (th_sites s).

(** [None]: this cannot happen (a thread that does not run does nothing; the id of a running thread is not given again). *)
Definition act_step (a : act) (s : threads) : option threads :=
  match a with
  | Begin t => if has t (th_live s) then None
               else Some {| th_live := t :: th_live s; th_hooked := th_hooked s; th_sites := th_sites s; th_table := th_table s |}
  | NameSelf t nm => if has t (th_live s) then Some (name_self t nm s) else None
  | NameSite t i nm =>                   (* thread_naming.h lines 37-49 *)
      if has t (th_live s) then
        if passed t i s then Some s
        else let s' := name_self t nm s in
             Some {| th_live := th_live s'; th_hooked := th_hooked s'; th_sites := (t, i) :: th_sites s'; th_table := th_table s' |}
      else None
  | NameOther t nm => Some {| th_live := th_live s; th_hooked := th_hooked s; th_sites := th_sites s; th_table := minsert N.ltb t nm (th_table s) |}   (* lines 49-52 *)
  | End t =>
      if has t (th_live s) then
        Some {| th_live := without t (th_live s); th_hooked := without t (th_hooked s);
                th_sites := filter (fun e => negb (N.eqb t (fst e))) (th_sites s);
                th_table := if has t (th_hooked s) then merase N.ltb t (th_table s) else th_table s |}    (* line 45 *)
      else None
  end.

Fixpoint acts (l : list act) (s : threads) : option threads :=
  match l with
  | [] => Some s
  | a :: l' => match act_step a s with Some s' => acts l' s' | None => None end
  end.

(** ** In the process that shows the trace *)
Definition info := (Z * bytes * list (N * bytes))%type.
(** What comes of the request to one process within the 200 ms: there is no such endpoint; no transport; the
    connection is lost and the request could not be sent (then [get()] throws, transport_unix.cpp lines 151-155); nothing; a response. *)
Inductive heard := NoEndpoint | NoTransport | Lost | Silence (junk : Z) | Response (b : bytes).
(** [junk] is what is in [info.pid], which is not initialised (endpoint_process_info.cpp line 85, endpoint_process_info.h line 54). *)

Section Info.
Context {F : Type} (unf64 : bytes -> F) (trunc : F -> Z).

(** [processInfo], lines 77-99. [None]: an exception. *)
Definition process_info (h : heard) : option info :=
  match h with
  | NoEndpoint | NoTransport | Lost => None
  | Silence junk => Some (junk, [], [])
  | Response b => info_client unf64 trunc b
  end.

(** [GeneralProvider::updateMapping], general_provider.cpp lines 52-68, the loop; [None]: an exception leaves it. *)
Fixpoint update (hs : list heard) (m : list (Z * (bytes * list (N * bytes)))) : option (list (Z * (bytes * list (N * bytes)))) :=
  match hs with
  | [] => Some m
  | NoEndpoint :: hs' => update hs' m
  | h :: hs' => match process_info h with Some (pid, nm, ts) => update hs' (minsert Z.ltb pid (nm, ts) m) | None => None end
  end.

(** The entries, general_source.cpp lines 50-57 and 62-68: JSON objects, members in the order of the keys. *)
Definition meta (kind : string) (pid tid : Z) (nm : bytes) : json F :=
  JObj [(text "args", JObj [(text "name", JStr nm)]); (text "name", JStr (text kind)); (text "ph", JStr (text "M"));
        (text "pid", JInt pid); (text "tid", JInt tid)].
Definition process_entry (pid : Z) (nm : bytes) : json F := meta "process_name" pid 0 nm.
Definition thread_entry (pid : Z) (t : N) (nm : bytes) : json F := meta "thread_name" pid (Z.of_N t) nm.

(** [finishInterval], lines 40-73. [None]: the exception passes through. *)
Definition finish_interval (hs : list heard) : option (list (json F)) :=
  match update hs [] with
  | Some m => Some (flat_map (fun p => process_entry (fst p) (fst (snd p)) :: map (fun t => thread_entry (fst p) (fst t) (snd t)) (snd (snd p))) m)
  | None => None
  end.
End Info.
