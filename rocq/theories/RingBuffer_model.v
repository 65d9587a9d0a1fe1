(** Model of [scalopus_tracing/src/spsc_ringbuffer.h], class [SPSCRingBuffer].

    One producer thread calls [push]; one consumer thread calls [pop], [pop_into] and [size].
    The model is an interleaving of the single memory accesses of the two threads, with a
    release/acquire memory model for the two index variables:

    - [write_index_] and [read_index_] (lines 152-153) each have a modification order (a list of
      all values ever stored).  A load by the other thread may return any value that is not older
      than what that thread has already seen (coherence); it need not be the newest one.
    - A release store carries the clock of the storing thread; an acquire load that reads it makes
      that clock known to the loading thread (this is the happens-before edge of C++11).
    - The elements of [container_] (line 154) are ordinary memory.  Every access is checked against
      the clocks: an access to an element which the other thread accessed without a happens-before
      edge in between sets [raced].  An access outside the container sets [oob].

    Simplifications:
    - a relaxed load of an index by the only thread which stores that index yields that thread's
      latest store, so it is folded in the neighbouring step;
    - [std::size_t] is modelled as [nat]; indices stay below [max_size_];
    - an element from which was moved ([std::move], lines 113 and 136) or that was never assigned has
      the content [None];
    - [empty] (lines 146-149) is [size() == 0] with relaxed loads; it is not used in the code base. *)

From Coq Require Import List Arith Bool.
Import ListNotations.

Section Ring.
Context {A : Type}.

(** Calls the consumer thread can make: [pop] (lines 104-119), [pop_into(output, max_count)]
    (lines 128-141), [size] (lines 70-76). *)
Inductive cop := OPop | OPopInto (max_count : nat) | OSize.

(** What an observer of the API sees: calls and returns of the two threads, in real-time order. *)
Inductive event :=
| EPushCall (v : A)
| EPushRet (v : A) (accepted : bool)
| ECall (o : cop)
| ERetPop (r : option (option A))      (* [None]: pop returned false *)
| ERetInto (vs : list (option A))
| ERetSize (n : nat).

(** Producer program counter inside [push] (lines 82-97). *)
Inductive ppc :=
| PIdle
| PChk (v : A) (w next : nat)          (* lines 84-85 done, about to load read_index_ (line 87) *)
| PWr (v : A) (w next : nat)           (* not full, about to write container_[write_index] (line 92) *)
| PSt (v : A) (next : nat).            (* about to store write_index_ (line 94) *)

(** Consumer program counter inside [pop], [pop_into] and [size]. *)
Inductive cpc :=
| CIdle
| CLd (o : cop)                        (* about to load write_index_ (lines 106, 130, 72) *)
| CPopMv (r : nat)                     (* about to move container_[read_index] (line 114) *)
| CPopSt (r : nat) (x : option A)      (* about to store read_index_ (line 117) *)
| CInto (r cnt k : nat) (out : list (option A)). (* loop of lines 134-137, [k] elements moved *)

(** Memory and threads.  [whist]/[rhist]: modification order of the index, oldest first, each entry
    with the clock attached by the release store. *)
Record st := {
  maxs : nat;                          (* max_size_, line 155 *)
  slot : nat -> option A;              (* container_ *)
  slotP : nat -> nat;                  (* producer clock at its last access of the element *)
  slotC : nat -> nat;                  (* consumer clock at its last access of the element *)
  whist : list (nat * nat);
  rhist : list (nat * nat);
  pview : nat;                         (* newest entry of rhist the producer has read *)
  cview : nat;                         (* newest entry of whist the consumer has read *)
  pclk : nat; cclk : nat;              (* clocks of the threads *)
  pknows : nat;                        (* consumer clock known to the producer *)
  cknows : nat;                        (* producer clock known to the consumer *)
  pp : ppc; cp : cpc;
  raced : bool; oob : bool;
  trace : list event }.

(** Constructor (lines 53-59): indices 0; a container of size zero throws (= [None]). *)
Definition init (n : nat) : option st :=
  if n =? 0 then None else
  Some {| maxs := n; slot := fun _ => None; slotP := fun _ => 0; slotC := fun _ => 0;
          whist := [(0, 0)]; rhist := [(0, 0)]; pview := 0; cview := 0;
          pclk := 1; cclk := 1; pknows := 0; cknows := 0;
          pp := PIdle; cp := CIdle; raced := false; oob := false; trace := [] |}.

(** [available] (lines 61-68). *)
Definition available (m w r : nat) : nat := if r <=? w then w - r else w + m - r.

Definition upd {B} (f : nat -> B) (i : nat) (b : B) : nat -> B :=
  fun j => if j =? i then b else f j.

(** Latest own store of an index. *)
Definition latest (h : list (nat * nat)) : nat := fst (last h (0, 0)).

(** Setters. *)
Definition set_pp s p := {| maxs := maxs s; slot := slot s; slotP := slotP s; slotC := slotC s;
  whist := whist s; rhist := rhist s; pview := pview s; cview := cview s; pclk := pclk s; cclk := cclk s;
  pknows := pknows s; cknows := cknows s; pp := p; cp := cp s; raced := raced s; oob := oob s; trace := trace s |}.
Definition set_cp s c := {| maxs := maxs s; slot := slot s; slotP := slotP s; slotC := slotC s;
  whist := whist s; rhist := rhist s; pview := pview s; cview := cview s; pclk := pclk s; cclk := cclk s;
  pknows := pknows s; cknows := cknows s; pp := pp s; cp := c; raced := raced s; oob := oob s; trace := trace s |}.
Definition emit s e := {| maxs := maxs s; slot := slot s; slotP := slotP s; slotC := slotC s;
  whist := whist s; rhist := rhist s; pview := pview s; cview := cview s; pclk := pclk s; cclk := cclk s;
  pknows := pknows s; cknows := cknows s; pp := pp s; cp := cp s; raced := raced s; oob := oob s; trace := trace s ++ [e] |}.

(** Acquire load of [read_index_] by the producer reading entry [i] of the modification order. *)
Definition p_load s i (rv rc : nat) := {| maxs := maxs s; slot := slot s; slotP := slotP s; slotC := slotC s;
  whist := whist s; rhist := rhist s; pview := i; cview := cview s; pclk := pclk s; cclk := cclk s;
  pknows := Nat.max (pknows s) rc; cknows := cknows s; pp := pp s; cp := cp s; raced := raced s; oob := oob s; trace := trace s |}.
(** Acquire load of [write_index_] by the consumer reading entry [i]. *)
Definition c_load s i (wv wc : nat) := {| maxs := maxs s; slot := slot s; slotP := slotP s; slotC := slotC s;
  whist := whist s; rhist := rhist s; pview := pview s; cview := i; pclk := pclk s; cclk := cclk s;
  pknows := pknows s; cknows := Nat.max (cknows s) wc; pp := pp s; cp := cp s; raced := raced s; oob := oob s; trace := trace s |}.

(** Release stores. *)
Definition p_store s (next : nat) := {| maxs := maxs s; slot := slot s; slotP := slotP s; slotC := slotC s;
  whist := whist s ++ [(next, pclk s)]; rhist := rhist s; pview := pview s; cview := cview s; pclk := S (pclk s); cclk := cclk s;
  pknows := pknows s; cknows := cknows s; pp := pp s; cp := cp s; raced := raced s; oob := oob s; trace := trace s |}.
Definition c_store s (next : nat) := {| maxs := maxs s; slot := slot s; slotP := slotP s; slotC := slotC s;
  whist := whist s; rhist := rhist s ++ [(next, cclk s)]; pview := pview s; cview := cview s; pclk := pclk s; cclk := S (cclk s);
  pknows := pknows s; cknows := cknows s; pp := pp s; cp := cp s; raced := raced s; oob := oob s; trace := trace s |}.

(** Accesses of [container_] elements, with race and bounds detection. *)
Definition p_access s (i : nat) (v : A) := {| maxs := maxs s; slot := upd (slot s) i (Some v);
  slotP := upd (slotP s) i (pclk s); slotC := slotC s;
  whist := whist s; rhist := rhist s; pview := pview s; cview := cview s; pclk := pclk s; cclk := cclk s;
  pknows := pknows s; cknows := cknows s; pp := pp s; cp := cp s;
  raced := raced s || (pknows s <? slotC s i); oob := oob s || (maxs s <=? i); trace := trace s |}.
Definition c_access s (i : nat) := {| maxs := maxs s; slot := upd (slot s) i None;
  slotP := slotP s; slotC := upd (slotC s) i (cclk s);
  whist := whist s; rhist := rhist s; pview := pview s; cview := cview s; pclk := pclk s; cclk := cclk s;
  pknows := pknows s; cknows := cknows s; pp := pp s; cp := cp s;
  raced := raced s || (cknows s <? slotP s i); oob := oob s || (maxs s <=? i); trace := trace s |}.

(** Scheduler choices: the producer is called with a value, the consumer is called with an
    operation, or one of them executes its next access; the number selects which (possibly stale)
    entry of the modification order an acquire load returns. *)
Inductive action := APush (v : A) | AProd (i : nat) | ACons (o : cop) | AStep (i : nat).

(** A load may read entry [i] when it exists and is not older than the thread's view. *)
Definition readable (view i : nat) (h : list (nat * nat)) : bool := (view <=? i) && (i <? length h).

(** Next access of the producer, [push] lines 82-97. *)
Definition pstep (s : st) (i : nat) : option st :=
  match pp s with
  | PIdle => None
  | PChk v w next =>
      if readable (pview s) i (rhist s) then
        let '(rv, rc) := nth i (rhist s) (0, 0) in
        let s1 := p_load s i rv rc in
        if next =? rv then Some (emit (set_pp s1 PIdle) (EPushRet v false))    (* lines 87-90 *)
        else Some (set_pp s1 (PWr v w next))
      else None
  | PWr v w next => Some (set_pp (p_access s w v) (PSt v next))                (* line 92 *)
  | PSt v next => Some (emit (set_pp (p_store s next) PIdle) (EPushRet v true)) (* lines 94-96 *)
  end.

(** Next access of the consumer. *)
Definition cstep (s : st) (i : nat) : option st :=
  match cp s with
  | CIdle => None
  | CLd o =>
      if readable (cview s) i (whist s) then
        let '(wv, wc) := nth i (whist s) (0, 0) in
        let s1 := c_load s i wv wc in
        let r := latest (rhist s) in
        match o with
        | OPop => if wv =? r then Some (emit (set_cp s1 CIdle) (ERetPop None))        (* lines 109-112 *)
                  else Some (set_cp s1 (CPopMv r))
        | OPopInto mc => Some (set_cp s1 (CInto r (Nat.min (available (maxs s) wv r) mc) 0 [])) (* line 133 *)
        | OSize => Some (emit (set_cp s1 CIdle) (ERetSize (available (maxs s) wv r))) (* line 75 *)
        end
      else None
  | CPopMv r => Some (set_cp (c_access s r) (CPopSt r (slot s r)))                    (* line 114 *)
  | CPopSt r x =>                                                                     (* lines 116-118 *)
      Some (emit (set_cp (c_store s ((r + 1) mod maxs s)) CIdle) (ERetPop (Some x)))
  | CInto r cnt k out =>
      if k <? cnt then                                                                (* lines 134-137 *)
        let j := (r + k) mod maxs s in
        Some (set_cp (c_access s j) (CInto r cnt (S k) (out ++ [slot s j])))
      else                                                                            (* lines 138-140 *)
        Some (emit (set_cp (c_store s ((r + cnt) mod maxs s)) CIdle) (ERetInto out))
  end.

(** One scheduler choice; [None] when the choice is not enabled. *)
Definition step (s : st) (a : action) : option st :=
  match a with
  | APush v => match pp s with
               | PIdle => let w := latest (whist s) in                                (* lines 84-85 *)
                          Some (emit (set_pp s (PChk v w ((w + 1) mod maxs s))) (EPushCall v))
               | _ => None
               end
  | AProd i => pstep s i
  | ACons o => match cp s with
               | CIdle => Some (emit (set_cp s (CLd o)) (ECall o))
               | _ => None
               end
  | AStep i => cstep s i
  end.

(** Run a schedule; choices that are not enabled are skipped. *)
Fixpoint run (s : st) (sched : list action) : st :=
  match sched with
  | [] => s
  | a :: rest => run (match step s a with Some s' => s' | None => s end) rest
  end.

End Ring.

Arguments event : clear implicits.
Arguments st : clear implicits.
Arguments action : clear implicits.
Arguments ppc : clear implicits.
Arguments cpc : clear implicits.
