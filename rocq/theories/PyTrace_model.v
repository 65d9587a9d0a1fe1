(** Traced blocks and functions in Python: [TraceContext] and [traced], scalopus_python/scalopus/tracing.py lines 60-100 and 160-192, used by
    programs with calls, exceptions, handlers, generators and any number of threads.
    [with c:] calls [c.__enter__()], then runs the body, then calls [c.__exit__()] however the body ended; [@traced] makes a function whose body
    is [with tracer: return f(...)] (lines 186-188). The trace points go to the backend of the moment (lines 95 and 100).
    The interpreter switches threads between any two of the steps below. An interrupt (a [KeyboardInterrupt] of a signal handler) is an exception
    which comes between any two of them; [__enter__] and [__exit__] are Python functions, so it may come inside them.
    Simplifications: data, arguments and conditions are left out; exceptions are not told apart, and a handler takes all of them; an exception
    with which a generator ends while it is closed is taken for the [GeneratorExit]; binding a name to a new generator closes the one it had, if
    that is suspended. Interrupts inside the C functions are noticed when these have returned, as the interpreter does it. *)
From Coq Require Import List Arith Bool.
Import ListNotations.
From Verif Require Import UnixSystem_model.

(** Contexts, functions and generator variables are numbered. *)
Inductive stmt :=
| SWith (c : nat) (body : list stmt)
| SCall (f : nat)
| SRaise
| SReturn
| STry (body handler : list stmt)
| SYield
| SMake (g f : nat)                               (* [g = f()], [f] being a generator function *)
| SNext (g : nat)                                 (* [next(g)] *)
| SClose (g : nat)                                (* [g.close()], or the last reference to it is gone *)
| SBackend (b : nat).                             (* line 69, [setBackend] *)

(** [traced] (lines 183-189): the body of the function it makes of the function [f]. *)
Definition traced (c f : nat) : list stmt := [SWith c [SCall f; SReturn]].
(** The same for a generator function, the result of which is kept in [g]. *)
Definition traced_make (c g f : nat) : list stmt := [SWith c [SMake g f; SReturn]].

(** A function with a [yield] in its body is a generator function. *)
Fixpoint has_yield (s : stmt) : bool :=
  match s with
  | SYield => true
  | SWith _ b => existsb has_yield b
  | STry b h => existsb has_yield b || existsb has_yield h
  | _ => false
  end.

Inductive outcome := Falls | Raises | Returns.    (* off its end, with an exception, by [return] *)
(** What is still to be done, innermost first. *)
Inductive item :=
| KDo (ss : list stmt)
| KMid (c : nat) (body : list stmt)               (* inside [__enter__], after the trace point (line 95) *)
| KExit (c : nat)                                 (* [__exit__] is to be called *)
| KOut (c : nat)                                  (* inside [__exit__], before the trace point (line 100) *)
| KCatch (handler : list stmt)
| KFrame                                          (* the end of a function *)
| KGen (g : nat)                                  (* the end of generator [g], which [next] runs *)
| KShut (g : nat).                                (* the end of generator [g], which is being closed *)

Inductive gen := Suspended (k : list item) | Running | Over.
Record event := { e_thread : nat; e_backend : nat; e_ctx : nat; e_entry : bool }.
Record state := {
  p_stack : nat -> list item;                     (* by thread *)
  p_mode : nat -> outcome;                        (* by thread: how what was done last ended *)
  p_gens : nat -> option gen;
  p_backend : nat;                                (* line 60, [tracing_backend] *)
  p_log : list event
}.
Inductive label := Go (t : nat) | Interrupt (t : nat).

(** A [yield]: what is kept in the generator, which one it is, whether it is being closed, and what its caller does. *)
Fixpoint split_gen (r : list item) : option (list item * nat * bool * list item) :=
  match r with
  | [] => None
  | KGen g :: r' => Some ([], g, false, r')
  | KShut g :: r' => Some ([], g, true, r')
  | KFrame :: _ => None
  | it :: r' => match split_gen r' with Some (seg, g, sh, rest) => Some (it :: seg, g, sh, rest) | None => None end
  end.

Section Machine.
Variable fn : nat -> list stmt.                   (* the bodies of the functions *)

Definition sets (t : nat) (st : list item) (m : outcome) (s : state) : state :=
  {| p_stack := upd (p_stack s) t st; p_mode := upd (p_mode s) t m; p_gens := p_gens s; p_backend := p_backend s; p_log := p_log s |}.
Definition set_gen (g : nat) (x : gen) (s : state) : state :=
  {| p_stack := p_stack s; p_mode := p_mode s; p_gens := upd (p_gens s) g (Some x); p_backend := p_backend s; p_log := p_log s |}.
Definition emits (t c : nat) (entry : bool) (s : state) : state :=
  {| p_stack := p_stack s; p_mode := p_mode s; p_gens := p_gens s; p_backend := p_backend s;
     p_log := p_log s ++ [{| e_thread := t; e_backend := p_backend s; e_ctx := c; e_entry := entry |}] |}.

(** A statement [x], with [r] to be done after it. [None]: not covered. *)
Definition does (t : nat) (x : stmt) (r : list item) (s : state) : option state :=
  match x with
  | SWith c b => Some (sets t (KMid c b :: r) Falls (emits t c true s))                          (* 92-95 *)
  | SCall f => Some (if existsb has_yield (fn f) then sets t r Falls s else sets t (KDo (fn f) :: KFrame :: r) Falls s)
  | SRaise => Some (sets t r Raises s)
  | SReturn => Some (sets t r Returns s)
  | STry b h => Some (sets t (KDo b :: KCatch h :: r) Falls s)
  | SYield =>
      match split_gen r with
      | Some (seg, g, false, rest) => Some (sets t rest Falls (set_gen g (Suspended seg) s))
      | Some (seg, g, true, rest) => Some (sets t rest Raises (set_gen g (Suspended seg) s))     (* it ignores that it is closed: [RuntimeError] *)
      | None => None
      end
  | SMake g f =>
      match p_gens s g with
      | Some (Suspended _) => Some (sets t (KDo [SClose g; SMake g f] :: r) Falls s)
      | Some Running => None
      | _ => Some (sets t r Falls (set_gen g (Suspended [KDo (fn f)]) s))
      end
  | SNext g =>
      match p_gens s g with
      | Some (Suspended k) => Some (sets t (k ++ KGen g :: r) Falls (set_gen g Running s))
      | _ => Some (sets t r Raises s)
      end
  | SClose g =>
      match p_gens s g with
      | Some (Suspended k) => Some (sets t (k ++ KShut g :: r) Raises (set_gen g Running s))
      | Some Running => Some (sets t r Raises s)
      | _ => Some (sets t r Falls s)
      end
  | SBackend b => Some (sets t r Falls {| p_stack := p_stack s; p_mode := p_mode s; p_gens := p_gens s; p_backend := b; p_log := p_log s |})
  end.

Definition step (x : label) (s : state) : option state :=
  match x with
  | Go t =>
      match p_stack s t with
      | [] => None
      | KDo ss :: r =>
          match p_mode s t, ss with
          | Falls, x :: ss' => does t x (KDo ss' :: r) s
          | m, _ => Some (sets t r m s)
          end
      | KMid c b :: r => Some (sets t (KDo b :: KExit c :: r) Falls s)
      | KExit c :: r => Some (sets t (KOut c :: r) (p_mode s t) s)
      | KOut c :: r => Some (sets t r (p_mode s t) (emits t c false s))                           (* 97-100 *)
      | KCatch h :: r => match p_mode s t with
                         | Raises => Some (sets t (KDo h :: r) Falls s)
                         | m => Some (sets t r m s)
                         end
      | KFrame :: r => Some (sets t r (match p_mode s t with Raises => Raises | _ => Falls end) s)
      | KGen g :: r => Some (sets t r Raises (set_gen g Over s))                                  (* [StopIteration], or its exception *)
      | KShut g :: r => Some (sets t r Falls (set_gen g Over s))
      end
  | Interrupt t =>
      match p_stack s t with
      | [] => None
      | KMid _ _ :: r | KOut _ :: r => Some (sets t r Raises s)
      | r => Some (sets t r Raises s)
      end
  end.
Fixpoint run (xs : list label) (s : state) : option state :=
  match xs with
  | [] => Some s
  | x :: xs' => match step x s with Some s' => run xs' s' | None => None end
  end.
Definition start (main : nat -> list stmt) (b : nat) : state :=
  {| p_stack := fun t => [KDo (main t)]; p_mode := fun _ => Falls; p_gens := fun _ => None; p_backend := b; p_log := [] |}.
End Machine.
