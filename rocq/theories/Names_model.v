(** Names of trace points: the table a traced process keeps, the way it reaches the viewer, and how an id is shown.
    Models scalopus_general/include/scalopus_general/map_tracker.h, scalopus_tracing/include/scalopus_tracing/internal/trace_macro.h,
    scalopus_tracing/include/scalopus_tracing/trace_macro.h, scalopus_tracing/src/endpoint_trace_mapping.cpp and
    scalopus_tracing/src/scope_tracing_provider.cpp.
    Not modelled: the BSON form of the answer (the answer is the mapping itself; a reply that is not a mapping is [AGarbled]);
    the data race on the flag of [TRACE_TRACKED_MAPPING_REGISTER_ONCE] (one thread at a time passes a trace point here). *)
From Coq Require Import String List Arith NArith ZArith Ascii Bool.
Import ListNotations.
From Verif Require Import OMap_model UnixSystem_model Crc_model.

Definition slash : ascii := "/"%char.

(** * The table of a process *)

(** [StaticStringTracker] is a [MapTracker<unsigned int, std::string>], map_tracker.h lines 43-109; an [unordered_map] there,
    ordered here (only [find] and iteration into other maps are used). *)
Definition names := list (N * list ascii).
(** [MapTracker::insert], map_tracker.h lines 54-58: overwrites. *)
Definition names_insert (id : N) (n : list ascii) (t : names) : names := minsert N.ltb id n t.

(** A place in the program text with a trace macro that registers: its id and its name, trace_macro.h (internal) lines 57-96. *)
Record site := { si_id : N; si_name : list ascii }.

(** The process: its number, which sites have run their registration ([have_done_setup_varname]), the table. *)
Record proc := { pr_pid : Z; pr_done : list bool; pr_names : names }.

(** What happens in the process: control passes the site numbered [i] (lines 47-53), or a name is set by call
    ([setTraceName] of the python module, scalopus_python/lib/scalopus_tracing.cpp lines 114-116). *)
Inductive plabel := PPass (i : nat) | PSetName (id : N) (n : list ascii).

Definition pstep (sites : list site) (l : plabel) (p : proc) : proc :=
  match l with
  | PPass i =>
      match nth_error sites i, nth_error (pr_done p) i with
      | Some s, Some false => {| pr_pid := pr_pid p; pr_done := set_nth i true (pr_done p);
                                 pr_names := names_insert (si_id s) (si_name s) (pr_names p) |}
      | _, _ => p
      end
  | PSetName id n => {| pr_pid := pr_pid p; pr_done := pr_done p; pr_names := names_insert id n (pr_names p) |}
  end.

Definition proc0 (sites : list site) (pid : Z) : proc := {| pr_pid := pid; pr_done := repeat false (length sites); pr_names := [] |}.

Definition prun (sites : list site) (ls : list plabel) (p : proc) : proc := fold_left (fun p l => pstep sites l p) ls p.

(** * The macros' ids and names (trace_macro.h lines 50-72, internal lines 40-43, 93-94) *)

(** [TRACE_SCOPE_RAII(name)] on a line of a file. *)
Definition site_scope (file : list ascii) (line : N) (n : list ascii) : site := {| si_id := id_of_line file line; si_name := n |}.
(** [TRACE_SCOPE_START(name)], [TRACE_MARK_EVENT_*(name)]. *)
Definition site_named (file n : list ascii) : site := {| si_id := id_of_name file n; si_name := n |}.
(** [TRACE_COUNT_SERIES(name, series_name, value)], line 69: [name "/" series_name]. *)
Definition site_series (file n series : list ascii) : site := site_named file (n ++ slash :: series).
(** [TRACE_COUNT(name, value)], line 72. *)
Definition site_count (file n : list ascii) : site := site_series file n [].

(** * The mapping endpoint (endpoint_trace_mapping.cpp) *)

Definition mapping := list (Z * names).

(** [handle], lines 49-62: [front()] of an empty request is undefined behaviour. *)
Inductive hres := HUB | HFalse | HReply (m : mapping).
Definition m_handle (p : proc) (request : list ascii) : hres :=
  match request with
  | [] => HUB
  | c :: _ => if Ascii.eqb c "m"%char then HReply [(pr_pid p, pr_names p)] else HFalse
  end.

(** What comes of the request of [mapping()], lines 64-82, within the 200 ms: nothing, the mapping, or bytes that are no
    mapping (then [from_bson] or [get_to] throws). A client without a transport throws as well, and so does [get()] when the request
    could not be sent because the connection is lost ([ALost], transport_unix.cpp lines 151-155). *)
Inductive answer := ANoTransport | ALost | ASilent | AGarbled | AMap (m : mapping).
Inductive mres := MThrows | MMap (m : mapping).
Definition m_mapping (a : answer) : mres :=
  match a with ANoTransport | ALost | AGarbled => MThrows | ASilent => MMap [] | AMap m => MMap m end.

(** * The viewer's side (scope_tracing_provider.cpp) *)

(** [std::map::insert] of a pair: a key that is there is kept. *)
Definition add_new (m : mapping) (e : Z * names) : mapping :=
  match mfind Z.ltb (fst e) m with Some _ => m | None => minsert Z.ltb (fst e) (snd e) m end.

(** The loop of [updateMapping], lines 57-72; a transport without the endpoint is [None]; an exception leaves the function. *)
Fixpoint gather (ts : list (option answer)) (m : mapping) : mres :=
  match ts with
  | [] => MMap m
  | None :: ts' => gather ts' m
  | Some a :: ts' => match m_mapping a with
                     | MThrows => MThrows
                     | MMap pm => gather ts' (fold_left add_new pm m)
                     end
  end.

(** [updateMapping], lines 46-79: the new [mapping_]; unchanged when the manager is gone or when an exception leaves
    ([manager_alive] and [old]). *)
Definition update_mapping (manager_alive : bool) (ts : list (option answer)) (old : mapping) : mapping :=
  if manager_alive then match gather ts [] with MMap m => m | MThrows => old end else old.

(** [std::hex <<]: lower case digits, no leading zeroes. *)
Definition hex_digit (d : N) : ascii := nth (N.to_nat d) (list_ascii_of_string "0123456789abcdef"%string) "0"%char.
Fixpoint hex_go (fuel : nat) (n : N) (acc : list ascii) : list ascii :=
  match fuel with
  | O => acc
  | S f => if (n <? 16)%N then hex_digit n :: acc else hex_go f (n / 16)%N (hex_digit (n mod 16)%N :: acc)
  end.
(** An [unsigned int] has at most eight digits; the bound on the steps here is the number of bits, so that any number is
    written out. *)
Definition hex (n : N) : list ascii := hex_go (S (N.to_nat (N.log2 n))) n [].

(** [getScopeName], lines 81-97. *)
Definition scope_name (m : mapping) (pid : Z) (id : N) : list ascii :=
  match mfind Z.ltb pid m with
  | Some t => match mfind N.ltb id t with Some n => n | None => list_ascii_of_string "Unknown 0x"%string ++ hex id end
  | None => list_ascii_of_string "Unknown 0x"%string ++ hex id
  end.

(** [find("/")], line 102: what is before the first separator and what is after it. *)
Fixpoint split_first (s : list ascii) : option (list ascii * list ascii) :=
  match s with
  | [] => None
  | c :: s' => if Ascii.eqb c slash then Some ([], s')
               else match split_first s' with Some (a, b) => Some (c :: a, b) | None => None end
  end.
(** [splitCounterSeriesName], lines 99-114 (the second condition of line 103 always holds). *)
Definition split_series (s : list ascii) : list ascii * list ascii :=
  match split_first s with Some r => r | None => (s, list_ascii_of_string "count"%string) end.
