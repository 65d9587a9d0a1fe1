(** What the endpoints of a traced process and their clients put into their messages, byte for byte:
    scalopus_tracing/src/endpoint_trace_mapping.cpp, scalopus_general/src/endpoint_process_info.cpp and
    scalopus_tracing/src/endpoint_trace_configurator.cpp. BSON is the model of Bson_model.
    Conversions of maps, numbers and booleans are those of the JSON library (documented behaviour): a map whose key is no string is an array of
    arrays of two. [trunc] stands for the conversion of a floating point number to an integer. *)
From Coq Require Import String List Arith NArith ZArith Ascii Bool.
Import ListNotations.
From Verif Require Import OMap_model UnixSystem_model Json_model Bson_model Names_model Config_model.
Local Notation length := List.length.

(** What a call of [handle] does: undefined behaviour, an exception leaves it, [false], or [true] with the response. *)
Inductive wres := WUB | WThrows | WFalse | WReply (b : bytes).

Section Wire.
Context {F : Type} (f64 : F -> bytes) (unf64 : bytes -> F) (trunc : F -> Z).
Notation json := (json F).

(** ** Conversions *)
Section Pairs.
Context {K V : Type} (ltb : K -> K -> bool).
Definition pairs (jk : K -> json) (jv : V -> json) (l : list (K * V)) : json := JArr (map (fun e => JArr [jk (fst e); jv (snd e)]) l).
(** Into a map: [emplace], the first one with a key counts; what is after the second item of a pair is not looked at. *)
Fixpoint get_pairs_go (gk : json -> option K) (gv : json -> option V) (l : list json) (m : list (K * V)) : option (list (K * V)) :=
  match l with
  | [] => Some m
  | JArr (a :: b :: _) :: l' =>
      match gk a, gv b with
      | Some k, Some v => get_pairs_go gk gv l' (match mfind ltb k m with Some _ => m | None => minsert ltb k v m end)
      | _, _ => None
      end
  | _ => None
  end.
Definition get_pairs (gk : json -> option K) (gv : json -> option V) (j : json) : option (list (K * V)) :=
  match j with JArr l => get_pairs_go gk gv l [] | _ => None end.
End Pairs.
(** Numbers: floating point numbers are converted; booleans are for [int] and [unsigned int], and are refused for [unsigned long], which is the
    library's own type of unsigned numbers and takes numbers only. *)
Definition get_num (j : json) : option Z :=
  match j with JInt z => Some z | JBool b => Some (if b then 1 else 0)%Z | JFloat f => Some (trunc f) | _ => None end.
Definition get_int (j : json) : option Z := option_map (fun z => signed 4 (le 4 z)) (get_num j).
Definition get_uint (j : json) : option N := option_map (fun z => Z.to_N (z mod 4294967296)) (get_num j).
Definition get_ulong (j : json) : option N :=
  match j with JBool _ => None | _ => option_map (fun z => Z.to_N (z mod 18446744073709551616)) (get_num j) end.
Definition get_bool (j : json) : option bool := match j with JBool b => Some b | _ => None end.
Definition uint (n : N) : json := JInt (Z.of_N n).
(** [at(k)] of an object: an exception if it is absent or if this is no object. *)
Definition at_key (k : string) (j : json) : option json := match j with JObj m => mfind str_ltb (text k) m | _ => None end.
Definition bind {A B} (o : option A) (f : A -> option B) : option B := match o with Some a => f a | None => None end.
Definition reply (j : json) : wres := match to_bson f64 j with Some b => WReply b | None => WThrows end.

(** ** The trace names (endpoint_trace_mapping.cpp) *)
Definition mapping_msg (m : mapping) : json := JObj [(text "mapping", pairs JInt (fun t => pairs uint JStr t) m)].
(** [handle], lines 49-62. [table] is the table in the order in which its [unordered_map] is walked. *)
Definition mapping_handle (pid : Z) (table : names) (request : bytes) : wres :=
  match request with
  | [] => WUB                                          (* line 54: [front()] of an empty vector *)
  | c :: _ => if Ascii.eqb c "m"%char then reply (mapping_msg [(pid, table)]) else WFalse
  end.
Definition mapping_request : bytes := ["m"%char].     (* line 72 *)
(** [mapping()], lines 75-78, with the response; [None]: an exception. *)
Definition mapping_client (b : bytes) : option mapping :=
  bind (from_bson unf64 b) (fun j =>
    match j with JObj m => get_pairs Z.ltb get_int (get_pairs N.ltb get_uint get_str) (member "mapping" m) | _ => None end).

(** ** The process and its threads (endpoint_process_info.cpp) *)
Definition info_msg (pid : Z) (nm : bytes) (threads : list (N * bytes)) : json :=
  JObj [(text "name", JStr nm); (text "pid", JInt pid); (text "threads", pairs uint JStr threads)].
(** [handle], lines 60-75: the request is parsed, then [req["cmd"].get<std::string>()]. *)
Definition info_handle (pid : Z) (nm : bytes) (threads : list (N * bytes)) (request : bytes) : wres :=
  match from_bson unf64 request with
  | Some (JObj m) =>
      match get_str (member "cmd" m) with
      | Some c => if bytes_eqb c (text "info") then reply (info_msg pid nm threads) else WFalse
      | None => WThrows
      end
  | _ => WThrows
  end.
Definition info_request : json := JObj [(text "cmd", JStr (text "info"))].      (* lines 86-88 *)
(** [processInfo], lines 92-95: name, threads, pid. *)
Definition info_client (b : bytes) : option (Z * bytes * list (N * bytes)) :=
  bind (from_bson unf64 b) (fun j =>
    match j with
    | JObj m => bind (get_str (member "name" m)) (fun nm => bind (get_pairs N.ltb get_ulong get_str (member "threads" m)) (fun ts =>
                bind (get_int (member "pid" m)) (fun pid => Some (pid, nm, ts))))
    | _ => None
    end).

(** ** The trace state (endpoint_trace_configurator.cpp) *)
Record conf := { cf_process : bool; cf_set : bool; cf_threads : list (N * bool) }.
(** Lines 46-51 and 53-58. *)
Definition conf_json (c : conf) : json :=
  JObj [(text "p", JBool (cf_process c)); (text "sp", JBool (cf_set c)); (text "t", pairs uint JBool (cf_threads c))].
Definition conf_of (j : json) : option conf :=
  bind (bind (at_key "p" j) get_bool) (fun p => bind (bind (at_key "sp" j) get_bool) (fun sp =>
  bind (bind (at_key "t" j) (get_pairs N.ltb get_ulong get_bool)) (fun t => Some {| cf_process := p; cf_set := sp; cf_threads := t |}))).
(** The requests of [setTraceState], lines 69-72, and [getTraceState], lines 92-94. *)
Definition conf_set_request (c : conf) : json := JObj [(text "cmd", JStr (text "set")); (text "state", conf_json c)].
Definition conf_get_request : json := JObj [(text "cmd", JStr (text "get"))].
(** What [handle], lines 106-131, takes the request for: nothing ([None], an exception leaves), a question, a change. *)
Inductive asked := Question | Change (c : conf).
Definition conf_asked (request : bytes) : option asked :=
  bind (from_bson unf64 request) (fun j => bind (bind (at_key "cmd" j) get_str) (fun c =>
    if bytes_eqb c (text "set") then option_map Change (bind (at_key "state" j) conf_of) else Some Question)).
(** The answer, lines 133-146; [set_process_state] of it stays [false]. *)
Definition conf_answer (process : bool) (threads : list (N * bool)) : wres :=
  reply (JObj [(text "state", conf_json {| cf_process := process; cf_set := false; cf_threads := threads |})]).
(** What the client takes from it, lines 76-79 and 98-101. *)
Definition conf_client (b : bytes) : option (bool * list (N * bool)) :=
  bind (from_bson unf64 b) (fun j => bind (bind (at_key "state" j) conf_of) (fun c => Some (cf_process c, cf_threads c))).
(** The whole [handle], lines 106-147, over the state of Config_model, where thread ids are natural numbers. *)
Definition nkeys (l : list (nat * bool)) : list (N * bool) := map (fun e => (N.of_nat (fst e), snd e)) l.
Definition creq_of (a : asked) : creq :=
  match a with
  | Question => CQuery
  | Change c => CChange (cf_set c) (cf_process c) (map (fun e => (N.to_nat (fst e), snd e)) (cf_threads c))
  end.
Definition conf_handle (s : cfg) (request : bytes) : cfg * wres :=
  match conf_asked request with
  | None => (s, WThrows)
  | Some a => let '(s', (p, ts)) := c_handle (creq_of a) s in (s', conf_answer p (nkeys ts))
  end.
End Wire.
