(** The command [record] of the Python module: scalopus_python/scalopus/__main__.py lines 119-158, and the JSON text it prints.
    What the two sources return is that of Ended_model (native_trace_source.cpp, general_source.cpp); here it is turned into JSON values
    (native_trace_source.cpp lines 108-160), those into Python values (PyJson_model), and those into text.
    [json.dumps] with its default arguments is part of Python, not of /repo: this is its documented behaviour ([ensure_ascii], separators ", "
    and ": ", lower case hexadecimal digits).
    Simplifications: how Python writes a floating point number is a parameter; keys of dictionaries that are not text are not
    written ([None]; [json.dumps] would turn numbers into text, but no entry has such keys); printing itself does not fail (all of it is ASCII). *)
From Coq Require Import String List Arith NArith ZArith Ascii Bool Floats.SpecFloat.
Import ListNotations.
From Verif Require Import OMap_model Json_model PyJson_model Names_model Native_model Ended_model.
From Verif Require Info_model.

(** ** [json.dumps] *)
Definition hex_at (n d : N) : ascii := hexdigit ((n / d) mod 16).
Definition unit_text (n : N) : bytes := [backslash; "u"%char; hex_at n 4096; hex_at n 256; hex_at n 16; hex_at n 1].
(** One character. *)
Definition py_escape (n : N) : bytes :=
  if (n =? 34)%N then [backslash; quote]
  else if (n =? 92)%N then [backslash; backslash]
  else if (n =? 8)%N then [backslash; "b"%char]
  else if (n =? 9)%N then [backslash; "t"%char]
  else if (n =? 10)%N then [backslash; "n"%char]
  else if (n =? 12)%N then [backslash; "f"%char]
  else if (n =? 13)%N then [backslash; "r"%char]
  else if ((32 <=? n) && (n <=? 126))%N then [ch n]
  else if (n <? 65536)%N then unit_text n
  else unit_text (55296 + (n - 65536) / 1024)%N ++ unit_text (56320 + (n - 65536) mod 1024)%N.
Definition py_quote (s : pystr) : bytes := quote :: flat_map py_escape s ++ [quote].

Fixpoint join (sep : bytes) (l : list bytes) : bytes :=
  match l with
  | [] => []
  | [t] => t
  | t :: l' => t ++ sep ++ join sep l'
  end.

Section Dumps.
Context {F : Type} (fw : F -> bytes).
(** [None]: a [TypeError]. *)
Fixpoint dumps (p : py F) : option bytes :=
  match p with
  | PNone => Some (text "null")
  | PBool true => Some (text "true")
  | PBool false => Some (text "false")
  | PInt z => Some (dump_int z)
  | PFloat f => Some (fw f)
  | PStr s => Some (py_quote s)
  | PList l | PTuple l => option_map (fun ts => "["%char :: join (text ", ") ts ++ ["]"%char]) (all dumps l)
  | PDict d =>
      option_map (fun ts => "{"%char :: join (text ", ") ts ++ ["}"%char])
        (all (fun kv => match fst kv with
                        | PStr k => option_map (fun t => py_quote k ++ text ": " ++ t) (dumps (snd kv))
                        | _ => None
                        end) d)
  | PBytes _ | PSet _ | POther => None
  end.

(** ** The command, lines 141-158: what is on the standard output in the end, and whether the program ends with a traceback.
    [native] and [general] are what the two [finishInterval] do: [None] is a [communication_error], which is a [RuntimeError] in Python
    (scalopus_interface/include/scalopus_interface/exceptions.h lines 37-51 and pybind11's translation of [std::runtime_error]). [decode_is_runtime]: text that is
    not UTF-8 is reported by pybind11 as a [RuntimeError] (older releases) or as Python's [UnicodeDecodeError]. *)
Inductive ending := Normal | Traceback.
Definition opening : bytes := text "[" ++ [ch 10].
Definition quiet : bytes * ending := (opening ++ text "]", Normal).                    (* lines 155-158 *)
Definition loud : bytes * ending := (opening, Traceback).
Definition undecodable (decode_is_runtime : bool) : bytes * ending := if decode_is_runtime then quiet else loud.
Definition record_output (decode_is_runtime : bool) (native general : option (list (json F))) : bytes * ending :=
  match native with
  | None => quiet
  | Some a =>
      match all to_py a with
      | None => undecodable decode_is_runtime
      | Some pa =>
          match general with
          | None => quiet
          | Some b =>
              match all to_py b with
              | None => undecodable decode_is_runtime
              | Some pb => match all dumps (pa ++ pb) with
                           | Some ts => (opening ++ join (text "," ++ [ch 10]) ts ++ text "]", Normal)      (* lines 151-154, 158 *)
                           | None => loud
                           end
              end
          end
      end
  end.
End Dumps.

(** ** The entries. A member is there if it was set. *)
Definition entry_json (e : entry) : json spec_float :=
  JObj (match en_args e with
        | Some a => [(text "args", JObj (map (fun kv => (fst kv, JInt (snd kv))) a))]
        | None => []
        end ++
        [(text "cat", JStr (text "PERF")); (text "name", JStr (en_name e)); (text "ph", JStr [en_ph e]); (text "pid", JInt (en_pid e))] ++
        match en_s e with Some s => [(text "s", JStr [s])] | None => [] end ++
        [(text "tid", JInt (Z.of_N (en_tid e))); (text "ts", JFloat (en_ts e))]).
(** general_source.cpp lines 46-70. *)
Definition general_json (m : imap) : list (json spec_float) :=
  flat_map (fun p => Info_model.process_entry (fst p) (fst (snd p)) ::
                     map (fun t => Info_model.thread_entry (fst p) (fst t) (snd t)) (snd (snd p))) m.

(** What is printed when the two sources of viewer [v] are done, or when an exception has come out of one of them. *)
Definition what_native (v : nat) (w : world) : option (list (json spec_float)) :=
  match nth_error (w_views w) v with
  | Some x => match vw_pc x with
              | WInfo _ _ es => Some (map entry_json es)
              | WIdle => match rev (vw_out x) with (es, _) :: _ => Some (map entry_json es) | [] => None end
              | _ => None
              end
  | None => None
  end.
Definition what_general (v : nat) (w : world) : option (list (json spec_float)) :=
  match nth_error (w_views w) v with
  | Some x => match vw_pc x with
              | WIdle => match rev (vw_out x) with (_, im) :: _ => Some (general_json im) | [] => None end
              | _ => None
              end
  | None => None
  end.
Definition printed (fw : spec_float -> bytes) (decode_is_runtime : bool) (v : nat) (w : world) : bytes * ending :=
  record_output fw decode_is_runtime (what_native v w) (what_general v w).
