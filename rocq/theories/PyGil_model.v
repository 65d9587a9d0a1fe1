(** The interpreter lock of Python: which code of the bindings (scalopus_python/lib) uses objects of Python, and whether the thread has the lock then.
    Kept of the functions: [gil_scoped_acquire] ([With]), [gil_scoped_release] ([Without]), uses of the interpreter and of its objects, reference
    counts among them ([Use]); conditions, loops and the number of times are open. pybind11 and CPython are as documented: a function of the module is called
    with the lock held, arguments and results are converted with the lock held; [PYBIND11_OVERLOAD] takes the lock for the call and the conversions;
    [gil_scoped_acquire] does nothing for a thread that has the lock; the interpreter gives the lock away now and then while it runs code.
    A callable that [pybind11/functional.h] wrapped is copied and dropped with the lock taken. Other mutexes are in Locks_model. *)
From Coq Require Import List Arith Bool.
Import ListNotations.

Inductive op := Acq | Rel | Use.
Record state := { todo : nat -> list op; owner : option nat }.
Definition next (f : nat -> list op) (t : nat) (r : list op) : nat -> list op := fun u => if Nat.eq_dec u t then r else f u.
Definition step (t : nat) (s : state) : option state :=
  match todo s t with
  | [] => None
  | Acq :: r => match owner s with None => Some {| todo := next (todo s) t r; owner := Some t |} | Some _ => None end
  | Rel :: r => Some {| todo := next (todo s) t r; owner := None |}
  | Use :: r => Some {| todo := next (todo s) t r; owner := owner s |}
  end.
Fixpoint run (ts : list nat) (s : state) : option state :=
  match ts with [] => Some s | t :: ts' => match step t s with Some s' => run ts' s' | None => None end end.
Definition begin (prog : nat -> list op) : state := {| todo := prog; owner := None |}.

Inductive code := Nop | Seq (a b : code) | Either (a b : code) | Many (a : code) | With (a : code) | Without (a : code) | Touch.
Infix ";;" := Seq (at level 61, right associativity).
Definition maybe (a : code) : code := Either Nop a.
(** [trace has c x]: [x] is what [c] does on a thread that has the lock, or has it not. To release what one has not is not possible. *)
Inductive trace : bool -> code -> list op -> Prop :=
| tr_nop b : trace b Nop []
| tr_seq b a c x y : trace b a x -> trace b c y -> trace b (a ;; c) (x ++ y)
| tr_left b a c x : trace b a x -> trace b (Either a c) x
| tr_right b a c x : trace b c x -> trace b (Either a c) x
| tr_none b a : trace b (Many a) []
| tr_more b a x y : trace b a x -> trace b (Many a) y -> trace b (Many a) (x ++ y)
| tr_with a x : trace true a x -> trace false (With a) (Acq :: x ++ [Rel])
| tr_again a x : trace true a x -> trace true (With a) x
| tr_without a x : trace false a x -> trace true (Without a) (Rel :: x ++ [Acq])
| tr_touch b : trace b Touch [Use].

Section Bindings.
Variable waits : bool.     (* Python code calls [PendingResponse.wait_for] *)
Variable logger : bool.    (* Python code has given the web server a logger *)

(** ** Calls from C++ to Python, scalopus_interface.cpp unless said otherwise; [body]: what Python code does *)
Section Calls.
Variable body : code.
Definition get_name : code := With (Touch ;; body ;; Touch).              (* 81-84 *)
Definition handle : code := With (Touch ;; body ;; Touch).                (* 86-100 *)
Definition unsolicited : code := With (Touch ;; body ;; Touch).           (* 102-116 *)
Definition set_transport : code := With (Touch ;; body).                  (* 118-121 *)
Definition make_source : code := With (Touch ;; body ;; Touch).           (* 137-140 *)
Definition start_interval : code := With (Touch ;; body).                 (* 142-145; [stopInterval] 147-150 the same *)
Definition finish_interval : code := With (Touch ;; body ;; Touch).       (* 152-168 *)
Definition factory : code := With (Touch ;; body ;; Touch).               (* 214-228 *)
Definition manager_log : code := With (Touch ;; body).                    (* scalopus_general.cpp 80 *)
Definition server_log : code := if logger then With (Touch ;; body) else Nop.   (* scalopus_catapult.cpp 45-50 *)
(** The last reference to an endpoint, a provider or a source made in Python is dropped: pybind_fix.h 68-71, 108-111, 149-152; its finalizer runs. *)
Definition drop_object : code := With (Touch ;; body ;; Touch).

(** ** The threads of the library, as far as they call Python *)
Definition add_endpoint : code := get_name ;; maybe drop_object ;; set_transport.         (* transport.cpp 59-64 *)
Definition transport_thread : code := Many (Either handle unsolicited).                   (* transport_unix.cpp 295, 402, transport_loopback.cpp 110, 135-138 *)
Definition manage : code :=                                                               (* endpoint_manager_poll.cpp 53-122 *)
  Many (manager_log ;; Many drop_object) ;; Many (manager_log ;; Many (Either (factory ;; maybe add_endpoint) manager_log)).
Definition poll_thread : code := Many manage.
Definition session_thread : code := Many (Either server_log (Either start_interval finish_interval)).   (* trace_session.cpp 72-168 *)
(** catapult_backend.cpp 92-177. The session gets a copy of the logger (168): the [py::object] in it is copied, without the lock; and dropped with the session (134-142). *)
Definition copy_logger : code := if logger then Touch else Nop.
Definition server_thread : code :=
  Many (Either server_log (Either (copy_logger ;; Many make_source) (Many drop_object ;; copy_logger))).

(** ** Functions of the module, called from Python: the arguments, the function, the result *)
Definition bound (f : code) : code := Touch ;; f ;; Touch.
(** [PendingResponse.wait_for], 127-135: the result is made with the lock released. *)
Definition wait_for : code := if waits then Without Touch else Nop.
Definition module_function : code :=
  Either (bound Nop)                                                      (* functions that call nothing in Python *)
 (Either (bound wait_for)
 (Either (bound add_endpoint)
 (Either (bound manage)                                                   (* [manage] *)
 (Either (bound (Many drop_object))                                       (* [stopPolling], objects that go *)
 (Either (bound make_source)
 (Either (bound start_interval)
 (Either (bound finish_interval)
 (Either (bound (Either handle unsolicited))
 (bound (Touch ;; Touch)))))))))).                                        (* [setLogger], [addEndpointFactory]: callables are kept *)
End Calls.

(** Python code: uses of objects, the lock given away for a while, functions of the module, that may run Python code in turn; [d] bounds how deep that goes. *)
Fixpoint python (d : nat) : code :=
  match d with
  | 0 => Many (Either Touch (Without Nop))
  | S d' => Many (Either Touch (Either (Without Nop) (module_function (python d'))))
  end.

Inductive role := RPython | RTransport | RPoll | RSession | RServer.
Definition thread_code (d : nat) (r : role) : code :=
  match r with
  | RPython => With (python d)
  | RTransport => transport_thread (python d) | RPoll => poll_thread (python d) | RSession => session_thread (python d) | RServer => server_thread (python d)
  end.
End Bindings.
