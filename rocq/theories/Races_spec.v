(** What a data race is, and which variables of the library have none. *)
From Coq Require Import List Arith Bool.
Import ListNotations.
From Verif Require Locks_model.
Import Locks_model(lock(..), lock_dec).
From Verif Require Import Races_model.

(** Thread [t] is about to read or write [x]; to write [x]. *)
Definition touches (s : state) (t : nat) (x : loc) : Prop := exists r, todo s t = Get x :: r \/ todo s t = Put x :: r.
Definition writes (s : state) (t : nat) (x : loc) : Prop := exists r, todo s t = Put x :: r.
(** Two threads are about to access the variable, one of them to write it, and nothing makes one wait for the other. *)
Definition race (x : loc) (s : state) : Prop := exists t u, t <> u /\ writes s t x /\ touches s u x.

(** What the callbacks of the user may do: anything with the user's own variables and mutexes, and any calls of the library, with callbacks again. *)
Inductive user_code (roles : nat -> role) : code -> Prop :=
| uc_nop : user_code roles Nop
| uc_seq a b : user_code roles a -> user_code roles b -> user_code roles (Seq a b)
| uc_either a b : user_code roles a -> user_code roles b -> user_code roles (Either a b)
| uc_many a : user_code roles a -> user_code roles (Many a)
| uc_any f : (forall i, user_code roles (f i)) -> user_code roles (Any f)
| uc_locked m n a : user_code roles a -> user_code roles (Locked m (LUser n) a)
| uc_gil a : user_code roles a -> user_code roles (Locked Excl LGil a)
| uc_read n : user_code roles (Read (VUser n))
| uc_write n : user_code roles (Write (VUser n))
| uc_call cb : user_code roles (cb_log cb) -> user_code roles (cb_name cb) -> (forall t, user_code roles (cb_handle cb t)) ->
               (forall t, user_code roles (cb_unsolicited cb t)) -> user_code roles (cb_factory cb) -> user_code roles (cb_source cb) -> user_code roles (api roles cb).
Definition user_callbacks (roles : nat -> role) (cb : callbacks) : Prop :=
  user_code roles (cb_log cb) /\ user_code roles (cb_name cb) /\ (forall t, user_code roles (cb_handle cb t)) /\ (forall t, user_code roles (cb_unsolicited cb t)) /\
  user_code roles (cb_factory cb) /\ user_code roles (cb_source cb).

(** Each object has one thread at most. *)
Definition one_each (roles : nat -> role) : Prop := forall t u, roles t = roles u -> roles t = RUser \/ t = u.
(** Each thread does what threads of its kind do. *)
Definition program (roles : nat -> role) (cb : callbacks) (prog : nat -> list op) : Prop := forall t, prog t <> [] -> trace (thread_code roles cb t) (prog t).
Definition reachable (prog : nat -> list op) (s : state) : Prop := exists ts, run ts (begin prog) = Some s.
(** A state the library can get into, with callbacks of the user. *)
Definition possible (s : state) : Prop := exists roles cb prog, one_each roles /\ user_callbacks roles cb /\ program roles cb prog /\ reachable prog s.

(** The variables of the library that more than one thread may use at a time without care. *)
Definition careless (x : loc) : bool :=
  match x with
  | VEndpoints _ | VTransportLogger _ | VClientFd _ | VRunning _ | VClients _ | VServers _ | VTransport _ | VProcessName _ | VSenderRunning _
  | VPolling _ | VManagerLogger _ | VProviderLogger _ | VSessionSources _ | VSessionRunning _ | VProviders _ | VBackendLogger _ | VRegistered _
  | VParserLogger _ | VCallback _ | VEvents _ => true
  | _ => false
  end.
Definition of_library (x : loc) : bool := match x with VUser _ => false | _ => true end.
