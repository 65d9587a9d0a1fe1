(** The commands [discover] and [trace_configure] of the Python module: scalopus_python/scalopus/__main__.py lines 82-117 and 160-226, with what they use of
    the endpoint manager (scalopus_general/src/endpoint_manager_poll.cpp lines 53-122 and 149-153: one cycle), of the process information
    (endpoint_process_info.cpp lines 77-99), of the introspection (endpoint_introspect.cpp lines 49-86) and of the trace configuration
    (scalopus_tracing/src/endpoint_trace_configurator.cpp lines 60-147; the handling in the traced process is [Config_model.c_handle]).
    Simplifications: every server that is discovered accepts the connection; the endpoint of a request answers only if it is served; a request is
    answered in time, not in time (200 ms), or fails with an exception, as the server says for each of the requests a command sends it; a request that
    is not answered in time may be carried out nevertheless; numbers of threads are natural numbers; text is not limited (Python shows it as it is, C79 says when
    the conversion fails); colours and the padding of the printed lines are left out; no other program configures the same processes meanwhile. *)
From Coq Require Import String List Arith NArith ZArith Ascii Bool.
Import ListNotations.
From Verif Require Import OMap_model UnixSystem_model Config_model.

Definition bytes := list ascii.
Definition txt (s : string) : bytes := list_ascii_of_string s.

(** ** A traced process with a server *)
Inductive asking := InTime | Late | Fails.
(** For the information about the process: what is in the number that is not initialised when the answer does not come in time. *)
Inductive telling := Tells | TooLate (junk : Z) | TellFails.
(** For a change: not in time, but perhaps carried out. *)
Inductive obeying := Obeys | Slow (done : bool) | ObeyFails (done : bool).
Record server := {
  sv_first : asking;                        (* the introspection of the manager *)
  sv_second : asking;                       (* that of [discover] *)
  sv_tell : telling;
  sv_obey : obeying;
  sv_endpoints : list bytes;                (* what is served: names of endpoints, in ascending order ([std::map]) *)
  sv_pid : Z; sv_name : bytes; sv_threads : list (nat * bytes);     (* the named threads, ascending *)
  sv_cfg : cfg                              (* its configuration *)
}.

Definition introspect : bytes := txt "introspect".
Definition process_info : bytes := txt "process_info".
Definition trace_configurator : bytes := txt "trace_configurator".
Definition has (e : bytes) (l : list bytes) : bool := existsb (bytes_eqb e) l.

(** What [connect] learns of the endpoints; [None]: the exception leaves [manage], and with it the command. *)
Definition offered (s : server) : option (list bytes) :=
  match sv_first s with
  | Fails => None
  | Late => Some []
  | InTime => Some (if has introspect (sv_endpoints s) then sv_endpoints s else [])
  end.
(** [endpoints()]: for each transport the endpoints there is a factory for. The order of the transports is that of addresses, that is any;
    here it is that of the list. *)
Fixpoint manage (factories : list bytes) (l : list server) : option (list (server * list bytes)) :=
  match l with
  | [] => Some []
  | s :: l' => match offered s, manage factories l' with
               | Some es, Some r => Some ((s, filter (fun e => has e factories) es) :: r)
               | _, _ => None
               end
  end.

(** [processInfo()]. *)
Definition info := (Z * bytes * list (nat * bytes))%type.
Definition ask_info (s : server) : option info :=
  match sv_tell s with
  | Tells => Some (sv_pid s, sv_name s, sv_threads s)
  | TooLate junk => Some (junk, [], [])
  | TellFails => None
  end.
(** [supported()]. *)
Definition ask_supported (s : server) : option (list bytes) :=
  match sv_second s with InTime => Some (sv_endpoints s) | Late => Some [] | Fails => None end.

(** ** [entries.sort()] on pairs of a number and a dictionary: numbers first; for the same number and different dictionaries Python raises a
    [TypeError], as dictionaries have no order. *)
Section Sort.
Context {D : Type} (eqb : D -> D -> bool).
Fixpoint put (x : Z * D) (l : list (Z * D)) : option (list (Z * D)) :=
  match l with
  | [] => Some [x]
  | y :: l' => if Z.ltb (fst x) (fst y) then Some (x :: l)
               else if Z.eqb (fst x) (fst y) && negb (eqb (snd x) (snd y)) then None
               else option_map (cons y) (put x l')
  end.
Fixpoint py_sort (l : list (Z * D)) : option (list (Z * D)) :=
  match l with
  | [] => Some []
  | x :: l' => match py_sort l' with Some r => put x r | None => None end
  end.
End Sort.

Definition thread_eqb (a b : nat * bytes) : bool := Nat.eqb (fst a) (fst b) && bytes_eqb (snd a) (snd b).
Fixpoint list_eqb {A} (eqb : A -> A -> bool) (a b : list A) : bool :=
  match a, b with
  | [], [] => true
  | x :: a', y :: b' => eqb x y && list_eqb eqb a' b'
  | _, _ => false
  end.
Definition info_eqb (a b : info) : bool :=
  Z.eqb (fst (fst a)) (fst (fst b)) && bytes_eqb (snd (fst a)) (snd (fst b)) && list_eqb thread_eqb (snd a) (snd b).

(** ** [discover], lines 82-117. [None]: the program ends with a traceback, and nothing has been printed. *)
Definition data := (info * list bytes)%type.
Definition data_eqb (a b : data) : bool := info_eqb (fst a) (fst b) && list_eqb bytes_eqb (snd a) (snd b).
(** Lines 96-104 for one transport: [data["pid"]] and later [data["supported"]] are there only if there is such an endpoint. *)
Definition look (se : server * list bytes) : option (Z * data) :=
  let (s, es) := se in
  if has process_info es && has introspect es
  then match ask_supported s, ask_info s with
       | Some sup, Some i => Some (fst (fst i), (i, sup))
       | _, _ => None
       end
  else None.
Fixpoint look_all (l : list (server * list bytes)) : option (list (Z * data)) :=
  match l with
  | [] => Some []
  | se :: l' => match look se, look_all l' with Some e, Some r => Some (e :: r) | _, _ => None end
  end.
Definition discover (l : list server) : option (list data) :=
  match manage [introspect; process_info] l with
  | Some ses => match look_all ses with
                | Some es => option_map (map snd) (py_sort data_eqb es)
                | None => None
                end
  | None => None
  end.

(** ** [trace_configure], lines 160-226 *)
(** The arguments: the state for what is listed, that for processes that are not ([-u]), and what is listed. *)
Record args := { ar_state : bool; ar_unmatched : option bool; ar_ids : list Z }.
Definition listed (z : Z) (a : args) : bool := existsb (Z.eqb z) (ar_ids a).
(** The request for one process, lines 186-201. *)
Definition change (a : args) (i : info) : creq :=
  CChange (if listed (fst (fst i)) a then true else match ar_unmatched a with Some _ => true | None => false end)
          (if listed (fst (fst i)) a then ar_state a else match ar_unmatched a with Some b => b | None => false end)
          (map (fun t => (fst t, ar_state a)) (filter (fun t => listed (Z.of_nat (fst t)) a) (snd i))).
Definition with_cfg (s : server) (c : cfg) : server :=
  {| sv_first := sv_first s; sv_second := sv_second s; sv_tell := sv_tell s; sv_obey := sv_obey s; sv_endpoints := sv_endpoints s;
     sv_pid := sv_pid s; sv_name := sv_name s; sv_threads := sv_threads s; sv_cfg := c |}.
(** One transport: the server afterwards, and what is kept for the report. [CSkip]: [continue] in line 182; [CFailed]: lines 204-206. *)
Definition state := (info * creply)%type.
Inductive cres := CSkip | CAbort | CFailed | CDone (e : Z * state).
Definition configure1 (a : args) (se : server * list bytes) : server * cres :=
  let (s, es) := se in
  if has trace_configurator es then
    if has process_info es then
      match ask_info s with
      | None => (s, CAbort)
      | Some i =>
          let (c, r) := c_handle (change a i) (sv_cfg s) in
          match sv_obey s with
          | Obeys => (with_cfg s c, CDone (fst (fst i), (i, r)))
          | Slow done => (if done then with_cfg s c else s, CFailed)
          | ObeyFails done => (if done then with_cfg s c else s, CAbort)
          end
      end
    else (s, CAbort)                                                (* line 186: [KeyError] *)
  else (s, CSkip).
(** The loop: the servers afterwards, and the entries and the number of failures, or [None] after an exception. *)
Fixpoint configure (a : args) (l : list (server * list bytes)) : list server * option (list (Z * state) * nat) :=
  match l with
  | [] => ([], Some ([], 0))
  | se :: l' =>
      match configure1 a se with
      | (s, CAbort) => (s :: map fst l', None)
      | (s, r) =>
          let (ss, o) := configure a l' in
          (s :: ss, match o, r with
                    | Some (es, n), CDone e => Some (e :: es, n)
                    | Some (es, n), CFailed => Some (es, S n)
                    | o, _ => o
                    end)
      end
  end.
Definition state_eqb (a b : state) : bool :=
  info_eqb (fst a) (fst b) && Bool.eqb (fst (snd a)) (fst (snd b)) &&
  list_eqb (fun x y => Nat.eqb (fst x) (fst y) && Bool.eqb (snd x) (snd y)) (snd (snd a)) (snd (snd b)).
(** What is printed of one process, lines 217-226: its number and state, its name, its named threads, each with its state if that is known. *)
Record line := { ln_pid : Z; ln_on : bool; ln_name : bytes; ln_threads : list (nat * bytes * option bool) }.
Definition to_line (e : Z * state) : line :=
  let '(pid, (i, r)) := e in
  {| ln_pid := pid; ln_on := fst r; ln_name := snd (fst i); ln_threads := map (fun t => (fst t, snd t, mfind Nat.ltb (fst t) (snd r))) (snd i) |}.
(** The servers afterwards; the number of failures that were reported and the report, or [None] after a traceback. *)
Definition trace_configure (a : args) (l : list server) : list server * option (nat * list line) :=
  match manage [introspect; process_info; trace_configurator] l with
  | None => (l, None)
  | Some ses =>
      match configure a ses with
      | (ss, Some (es, n)) => (ss, option_map (fun r => (n, map to_line r)) (py_sort state_eqb es))
      | (ss, None) => (ss, None)
      end
  end.
