(** Model of [DefaultExposer] (scalopus_python/scalopus/common.py lines 30-51), with which a Python program makes itself known, and of what the commands
    [discover] and [trace_configure] ([Commands_model]) see of the programs that use it.

    The defaults of a Python function are evaluated when the [def] is run, that is when the module is imported: the name that is used when none is given is what
    [sys.argv[0]] was then (line 36). [serve] binds the name of a socket that belongs to the process (transport_unix.cpp lines 64-78): it fails while an earlier exposer of the
    process is there; what happens then is [UnixLife_model.factory] (transport_unix.cpp lines 204-216 and 446-456).
    The number of the process is read when the [EndpointProcessInfo] is made (endpoint_process_info.cpp lines 50-53), its threads when a request comes (line 70).

    Simplifications: processes do not fork (C85 says what a child inherits); no other part of a process serves; the calls of the operating system other than [bind] succeed; an exposer is made and
    destroyed in one step (C87 is about the time in between, C57 and C75 are about the end); every process answers in time (C80 and C81 are about processes that are late); numbers of processes are integers. *)
From Coq Require Import String List Arith NArith ZArith Ascii Bool.
Import ListNotations.
From Verif Require Import OMap_model UnixSystem_model Registry_model UnixLife_model Config_model Commands_model.
Open Scope list_scope.

(** The names of the endpoints: endpoint_introspect.cpp line 38, endpoint_process_info.cpp line 43, endpoint_trace_mapping.cpp, endpoint_native_trace_sender.cpp. *)
Definition trace_mapping : bytes := txt "scope_tracing".
Definition native_sender : bytes := txt "native_trace_sender".

(** The object: [self.server] with its endpoints, and what was set in the process information. *)
Record exposer := { x_pid : Z; x_name : bytes; x_registry : registry }.
(** Lines 47-51, with a server: the endpoints are numbered in the order in which they are made. *)
Definition fill (pid : Z) (name : bytes) : exposer :=
  {| x_pid := pid; x_name := name;
     x_registry :=
       add_endpoint native_sender 3
         (add_endpoint trace_mapping 2
           (add_endpoint process_info 1
             (add_endpoint Commands_model.introspect 0 registry0))) |}.

(** A Python process: [sys.argv], the default of [process_name] once the module was imported, the exposer it has, its named threads and its configuration. *)
Record proc := {
  p_pid : Z; p_argv : list bytes; p_default : option bytes; p_exposer : option exposer;
  p_threads : list (nat * bytes); p_cfg : cfg }.
Definition proc0 (pid : Z) (argv : list bytes) : proc :=
  {| p_pid := pid; p_argv := argv; p_default := None; p_exposer := None; p_threads := []; p_cfg := cfg0 |}.
Definition world := list proc.

Inductive ev :=
  | EStart (pid : Z) (argv : list bytes)       (* a Python program is started *)
  | EArgv (pid : Z) (argv : list bytes)        (* it assigns to [sys.argv] *)
  | EImport (pid : Z)                          (* [import scalopus] *)
  | EExpose (pid : Z) (name : option bytes)    (* [DefaultExposer()] or [DefaultExposer(process_name=name)] *)
  | EDrop (pid : Z)                            (* the last reference to the exposer goes *)
  | ENamed (pid : Z) (tid : nat) (name : bytes)   (* [setThreadName] *)
  | EConfig (pid : Z) (l : cfg_label)          (* anything in the process that has to do with the configuration of tracing *)
  | EExit (pid : Z).                           (* the process ends *)

(** How the call ended for the program that made it. [Aborted]: [std::terminate] ends the process. *)
Inductive outcome := Fine | IndexError | AttributeError | Aborted.

Definition get (pid : Z) (w : world) : option proc := find (fun p => Z.eqb (p_pid p) pid) w.
Definition put (q : proc) (w : world) : world := map (fun p => if Z.eqb (p_pid p) (p_pid q) then q else p) w.
Definition gone (pid : Z) (w : world) : world := filter (fun p => negb (Z.eqb (p_pid p) pid)) w.

Definition set_argv (a : list bytes) (p : proc) : proc :=
  {| p_pid := p_pid p; p_argv := a; p_default := p_default p; p_exposer := p_exposer p; p_threads := p_threads p; p_cfg := p_cfg p |}.
Definition set_default (d : bytes) (p : proc) : proc :=
  {| p_pid := p_pid p; p_argv := p_argv p; p_default := Some d; p_exposer := p_exposer p; p_threads := p_threads p; p_cfg := p_cfg p |}.
Definition set_exposer (x : option exposer) (p : proc) : proc :=
  {| p_pid := p_pid p; p_argv := p_argv p; p_default := p_default p; p_exposer := x; p_threads := p_threads p; p_cfg := p_cfg p |}.
Definition set_threads (t : list (nat * bytes)) (p : proc) : proc :=
  {| p_pid := p_pid p; p_argv := p_argv p; p_default := p_default p; p_exposer := p_exposer p; p_threads := t; p_cfg := p_cfg p |}.
Definition set_cfg (c : cfg) (p : proc) : proc :=
  {| p_pid := p_pid p; p_argv := p_argv p; p_default := p_default p; p_exposer := p_exposer p; p_threads := p_threads p; p_cfg := c |}.

(** [TransportUnixFactory::serve()] in process [p]: [bind] succeeds if the name is free. *)
Definition serve (p : proc) : fres :=
  factory (u_serve {| c_socket := Some 3; c_bind := match p_exposer p with None => true | Some _ => false end; c_listen := true; c_connect := true |}).

(** One step; [None]: not possible in this state. A module whose import failed is not there: the next [import] runs it again. *)
Definition step (e : ev) (w : world) : option (world * outcome) :=
  let within pid (f : proc -> option (world * outcome)) := match get pid w with Some p => f p | None => None end in
  match e with
  | EStart pid argv => match get pid w with Some _ => None | None => Some (w ++ [proc0 pid argv], Fine) end
  | EArgv pid argv => within pid (fun p => Some (put (set_argv argv p) w, Fine))
  | EImport pid =>
      within pid (fun p =>
        match p_default p with
        | Some _ => Some (w, Fine)                                     (* already imported *)
        | None => match p_argv p with
                  | [] => Some (w, IndexError)
                  | a :: _ => Some (put (set_default a p) w, Fine)
                  end
        end)
  | EExpose pid name =>
      within pid (fun p =>
        match p_default p with
        | None => None
        | Some d =>
            match serve p with
            | Got _ => Some (put (set_exposer (Some (fill (p_pid p) (match name with Some n => n | None => d end))) p) w, Fine)
            | GotNull => Some (w, AttributeError)                      (* [None.addEndpoint] *)
            | FTerminate => Some (gone pid w, Aborted)
            | FHangs => None
            end
        end)
  | EDrop pid => within pid (fun p => match p_exposer p with Some _ => Some (put (set_exposer None p) w, Fine) | None => None end)
  | ENamed pid tid name => within pid (fun p => Some (put (set_threads (minsert Nat.ltb tid name (p_threads p)) p) w, Fine))
  | EConfig pid l => within pid (fun p => match gstep l (p_cfg p) with Some c => Some (put (set_cfg c p) w, Fine) | None => None end)
  | EExit pid => within pid (fun p => Some (gone pid w, Fine))
  end.
Fixpoint run (es : list ev) (w : world) : option world :=
  match es with
  | [] => Some w
  | e :: es' => match step e w with Some (w', _) => run es' w' | None => None end
  end.
Definition world0 : world := [].

(** What the commands meet: for each process that has an exposer a server that answers in time. *)
Definition to_server (p : proc) : option server :=
  match p_exposer p with
  | None => None
  | Some x => Some {| sv_first := InTime; sv_second := InTime; sv_tell := Tells; sv_obey := Obeys; sv_endpoints := Registry_model.introspect (x_registry x);
                      sv_pid := x_pid x; sv_name := x_name x; sv_threads := p_threads p; sv_cfg := p_cfg p |}
  end.
Fixpoint servers (w : world) : list server :=
  match w with
  | [] => []
  | p :: w' => match to_server p with Some s => s :: servers w' | None => servers w' end
  end.
