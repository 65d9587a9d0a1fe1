(** Model of the command line of [scalopus_catapult/src/scalopus_catapult_server.cpp] (the program) and of the command
    [catapult_server] of [scalopus_python/scalopus/__main__.py]: on which port the server is asked to listen, and which
    LTTng tool is run.

    Simplifications: the parsing of options by Python's [argparse] is left out, its result is the input; what is printed is
    reduced to the port announced; the program is the one built with LTTng. What [startListening] of the web server library
    does with a port is left to the environment: it listens, or it returns false. *)
From Coq Require Import String List Arith NArith ZArith Ascii Bool.
Import ListNotations.
From Verif Require Import Str_model.

(** [std::atoi] of glibc: [strtol], which stays within 64 bit, cut to 32 bit. *)
Definition strtol (s : str) : Z :=
  match read_number s with
  | None => 0
  | Some (true, v) => Z.max (- 9223372036854775808) (- Z.of_N v)
  | Some (false, v) => Z.min 9223372036854775807 (Z.of_N v)
  end.
Definition to_int (z : Z) : Z := let m := (z mod 4294967296)%Z in if (m <? 2147483648)%Z then m else (m - 4294967296)%Z.
Definition atoi (s : str) : Z := to_int (strtol s).

Definition default_port : Z := 9222.
Definition default_path : str := list_ascii_of_string "scalopus_target_session".

(** [BabeltraceTool::init], babeltrace_tool.cpp lines 53-72: the program run and its arguments. *)
Definition viewer : str := list_ascii_of_string "babeltrace --clock-seconds --clock-gmt --no-delta --input-format=lttng-live".
Definition command (path : str) : list str :=
  if existsb (Ascii.eqb "/") path then
    map list_ascii_of_string ["babeltrace"; "--clock-seconds"; "--clock-gmt"; "--no-delta"; "--input-format=lttng-live"]%string ++ [path]
  else [list_ascii_of_string "lttng"; list_ascii_of_string "view"; path; list_ascii_of_string "-e"; viewer].

(** [CatapultServer::start], catapult_server.cpp lines 60-85: [startListening] (line 83) is called with the port, its result
    is not used, nothing is reported. [works]: whether the library can listen on a port. The result: where the server listens. *)
Definition server_start (works : Z -> bool) (port : Z) : option Z := if works port then Some port else None.

(** What the program does: it prints its usage and ends, or announces a port, runs a tool and serves. *)
Inductive outcome := Usage | Runs (announced : Z) (tool : list str) (listens : option Z).

(** [main] of the program, lines 57-101, 130 and 143; [args] are the arguments after the name of the program. *)
Definition main (works : Z -> bool) (args : list str) : outcome :=
  let port := match args with a :: _ => atoi a | [] => default_port end in            (* lines 62-67 *)
  let path := match args with _ :: b :: _ => b | _ => default_path end in             (* lines 63, 69-72 *)
  if (port =? 0)%Z then Usage                                                         (* lines 73-95 *)
  else Runs port (command path) (server_start works default_port).                    (* lines 97, 130, 143: [start()] without the port *)

(** [run_catapult_server] of __main__.py, lines 37-79, with LTTng: [port] and [session] as [argparse] gives them, with their
    defaults (lines 243-245, 257-259). *)
Definition py_main (works : Z -> bool) (port : option Z) (session : option str) : outcome :=
  let p := match port with Some p => p | None => default_port end in
  Runs p (command (match session with Some s => s | None => default_path end)) (server_start works p).
