(** The provider of native recordings and its sources: scalopus_tracing/src/native/native_trace_provider.cpp and the parts of
    native_trace_source.cpp that are not the conversion (that is [Native_model.v]).
    Sources are numbered in order of creation. [sources_] is a set ordered by address; here all sources are in the list of the
    provider, and the order in which one chunk is handed to them is left open where steps interleave ([LAdd]).
    The type of the received data is left open. *)
From Coq Require Import List Arith Bool.
Import ListNotations.
From Verif Require Import UnixSystem_model.

Section Provider.
Context {D : Type}.

(** [in_interval_], [recorded_data_], and whether anybody but the provider holds the source. *)
Record src := { s_rec : bool; s_data : list D; s_held : bool }.
(** A call of [incoming] under way: the data, the sources it has still to look at, the sources it has still to serve. *)
Record call := { c_data : D; c_look : list nat; c_todo : list nat }.
(** [sources_]; whether the provider is still there; the calls of [incoming] so far. *)
Record prov := { p_srcs : list src; p_alive : bool; p_inc : list call }.

Definition prov0 : prov := {| p_srcs := []; p_alive := true; p_inc := [] |}.

Definition set_src (i : nat) (f : src -> src) (p : prov) : prov :=
  match nth_error (p_srcs p) i with
  | Some s => {| p_srcs := set_nth i (f s) (p_srcs p); p_alive := p_alive p; p_inc := p_inc p |}
  | None => p
  end.

(** The atomic pieces. [in_interval_.store(b)], native_trace_source.cpp lines 53, 58. *)
Definition store (i : nat) (b : bool) : prov -> prov := set_src i (fun s => {| s_rec := b; s_data := s_data s; s_held := s_held s |}).
(** [recorded_data_.clear()] under the lock, lines 49-52; the clearing half of the swap, lines 85-89. *)
Definition clear (i : nat) : prov -> prov := set_src i (fun s => {| s_rec := s_rec s; s_data := []; s_held := s_held s |}).
(** [addData] under the lock, lines 209-213. *)
Definition add (i : nat) (d : D) : prov -> prov := set_src i (fun s => {| s_rec := s_rec s; s_data := s_data s ++ [d]; s_held := s_held s |}).
Definition data_of (i : nat) (p : prov) : list D := match nth_error (p_srcs p) i with Some s => s_data s | None => [] end.
(** The first half of [incoming] under the lock, native_trace_provider.cpp lines 66-77: the sources that are recording. *)
Fixpoint recording (k : nat) (l : list src) : list nat :=
  match l with
  | [] => []
  | s :: l' => if s_rec s then k :: recording (S k) l' else recording (S k) l'
  end.
Definition snapshot (p : prov) : list nat := recording 0 (p_srcs p).

(** The functions, each as if nothing else happened meanwhile. [makeSource], native_trace_provider.cpp lines 44-50. *)
Definition make_source (p : prov) : prov :=
  {| p_srcs := p_srcs p ++ [{| s_rec := false; s_data := []; s_held := true |}]; p_alive := p_alive p; p_inc := p_inc p |}.
(** [startInterval], native_trace_source.cpp lines 46-54, and [stopInterval], lines 56-59. *)
Definition start (i : nat) (p : prov) : prov := store i true (clear i (store i false p)).
Definition stop (i : nat) (p : prov) : prov := store i false p.
(** [finishInterval], lines 70-89, up to the conversion: without the provider line 82 follows a null pointer. *)
Inductive fin := FinUB | Fin (ds : list D) (p : prov).
Definition finish_src (i : nat) (p : prov) : fin :=
  let p1 := stop i p in
  if p_alive p1 then Fin (data_of i p1) (clear i p1) else FinUB.
(** [incoming], native_trace_provider.cpp lines 64-91, reached through the weak pointer of [receiveEndpoint], lines 52-62. *)
Definition incoming (d : D) (p : prov) : prov :=
  if p_alive p then fold_left (fun q i => add i d q) (snapshot p) p else p.
(** The user lets go of the source; [sources_] keeps it. *)
Definition release (i : nat) : prov -> prov := set_src i (fun s => {| s_rec := s_rec s; s_data := s_data s; s_held := false |}).
(** The last owner of the provider lets go of it: sources nobody else holds are destroyed, the others are left to their users. *)
Definition drop (p : prov) : prov := {| p_srcs := p_srcs p; p_alive := false; p_inc := p_inc p |}.

(** One call after the other. *)
Inductive op := OMake | OStart (i : nat) | OStop (i : nat) | OFinish (i : nat) | OReceive (d : D) | ORelease (i : nat) | ODrop.
Inductive ores := OUB | ODone (p : prov) (out : option (list D)).
Definition op_step (o : op) (p : prov) : ores :=
  match o with
  | OMake => ODone (make_source p) None
  | OStart i => ODone (start i p) None
  | OStop i => ODone (stop i p) None
  | OFinish i => match finish_src i p with Fin ds p' => ODone p' (Some ds) | FinUB => OUB end
  | OReceive d => ODone (incoming d p) None
  | ORelease i => ODone (release i p) None
  | ODrop => ODone (drop p) None
  end.
Fixpoint op_run (h : list op) (p : prov) : option prov :=
  match h with
  | [] => Some p
  | o :: h' => match op_step o p with ODone p' _ => op_run h' p' | OUB => None end
  end.

(** The same in pieces: any thread may go on between any two of them. The [r]-th call of [incoming] begins ([LBegin]), looks at
    one source after the other ([LLook]), and then hands its data to those that were recording when it looked, in any order
    ([LAdd r i]). Making a source waits for the lock held while looking; here it need not, but a call looks only at the sources
    that were there when it began. *)
Inductive label := LMake | LStore (i : nat) (b : bool) | LClear (i : nat) | LBegin (d : D) | LLook (r : nat) | LAdd (r i : nat).
Definition rec_of (i : nat) (p : prov) : bool := match nth_error (p_srcs p) i with Some s => s_rec s | None => false end.
Definition with_inc (p : prov) (l : list call) : prov := {| p_srcs := p_srcs p; p_alive := p_alive p; p_inc := l |}.
Definition lstep (l : label) (p : prov) : option prov :=
  match l with
  | LMake => Some (make_source p)
  | LStore i b => if i <? length (p_srcs p) then Some (store i b p) else None
  | LClear i => if i <? length (p_srcs p) then Some (clear i p) else None
  | LBegin d => Some (with_inc p (p_inc p ++ [{| c_data := d; c_look := seq 0 (length (p_srcs p)); c_todo := [] |}]))
  | LLook r =>
      match nth_error (p_inc p) r with
      | Some c => match c_look c with
                  | i :: l' => Some (with_inc p (set_nth r {| c_data := c_data c; c_look := l';
                                                              c_todo := if rec_of i p then i :: c_todo c else c_todo c |} (p_inc p)))
                  | [] => None
                  end
      | None => None
      end
  | LAdd r i =>
      match nth_error (p_inc p) r with
      | Some c => match c_look c with
                  | [] => if existsb (Nat.eqb i) (c_todo c)
                          then Some (add i (c_data c)
                                      (with_inc p (set_nth r {| c_data := c_data c; c_look := [];
                                                                c_todo := filter (fun j => negb (Nat.eqb i j)) (c_todo c) |} (p_inc p))))
                          else None
                  | _ => None
                  end
      | None => None
      end
  end.
Fixpoint lrun (ls : list label) (p : prov) : option prov :=
  match ls with
  | [] => Some p
  | l :: ls' => match lstep l p with Some p' => lrun ls' p' | None => None end
  end.
End Provider.
Arguments prov : clear implicits.
Arguments src : clear implicits.
Arguments call : clear implicits.
Arguments op : clear implicits.
Arguments label : clear implicits.
Arguments fin : clear implicits.
Arguments ores : clear implicits.
