(** The sessions of the trace server, scalopus_catapult/src/catapult_backend.cpp lines 92-177. The web server calls [onConnect], [onData],
    [onDisconnect] with the address of its connection object, and runs the tasks given to the executor, all on its one thread; it uses an
    address for one connection at a time, but may use it again. A session answers from its own thread. *)
From Coq Require Import List Arith Bool.
Import ListNotations.
From Verif Require Import OMap_model.

Section Backend.
Context {Text : Type}.
(** [sessions_], ordered by address; a session knows the address its response function has captured (lines 153-165). Sessions are numbered
    in the order they are made. [b_tasks]: given to the executor, oldest first: the captured address and text. *)
Record session := { s_id : nat; s_ws : nat }.
Record backend := { b_sessions : list (nat * session); b_made : nat; b_tasks : list (nat * Text) }.
Definition backend0 : backend := {| b_sessions := []; b_made := 0; b_tasks := [] |}.

(** What happens: a connection opens under an address; text arrives; a session's thread answers; the server runs the oldest task; a
    connection closes, where [late] are the answers the session gives while its destructor waits for its thread. *)
Inductive blabel := Connect (ws : nat) | Data (ws : nat) (t : Text) | Answer (sid : nat) (t : Text) | RunTask | Disconnect (ws : nat) (late : list Text).
(** Visible: a text reaches a session; a text is sent to the connection at an address; a text for which no session is found. *)
Inductive bout := Incoming (sid : nat) (t : Text) | Send (ws : nat) (t : Text) | NoSession (ws : nat).

(** [makeSession], lines 144-177. *)
Definition make_session (ws : nat) (b : backend) : backend :=
  match mfind Nat.ltb ws (b_sessions b) with
  | Some _ => b
  | None => {| b_sessions := minsert Nat.ltb ws {| s_id := b_made b; s_ws := ws |} (b_sessions b); b_made := S (b_made b); b_tasks := b_tasks b |}
  end.
Definition with_id (sid : nat) (m : list (nat * session)) : option session :=
  option_map snd (find (fun kv => s_id (snd kv) =? sid) m).
Definition bstep (l : blabel) (b : backend) : option (backend * list bout) :=
  match l with
  | Connect ws => Some (make_session ws b, [])                                    (* 92-96 *)
  | Data ws t => match mfind Nat.ltb ws (b_sessions b) with                         (* 103-114, 122-132 *)
                 | Some s => Some (b, [Incoming (s_id s) t])
                 | None => Some (b, [NoSession ws])
                 end
  | Answer sid t => match with_id sid (b_sessions b) with                           (* 153, 164 *)
                    | Some s => Some ({| b_sessions := b_sessions b; b_made := b_made b; b_tasks := b_tasks b ++ [(s_ws s, t)] |}, [])
                    | None => None
                    end
  | RunTask => match b_tasks b with                                                (* 154-163 *)
               | [] => None
               | (ws, t) :: rest =>
                   let b' := {| b_sessions := b_sessions b; b_made := b_made b; b_tasks := rest |} in
                   match mfind Nat.ltb ws (b_sessions b) with
                   | Some _ => Some (b', [Send ws t])
                   | None => Some (b', [])
                   end
               end
  | Disconnect ws late =>                                                          (* 116-120, 134-142; trace_session.cpp 41-45 *)
      match mfind Nat.ltb ws (b_sessions b) with
      | Some s => Some ({| b_sessions := merase Nat.ltb ws (b_sessions b); b_made := b_made b; b_tasks := b_tasks b ++ map (fun t => (s_ws s, t)) late |}, [])
      | None => Some (b, [])
      end
  end.
Fixpoint brun (ls : list blabel) (b : backend) : option (backend * list (list bout)) :=
  match ls with
  | [] => Some (b, [])
  | l :: ls' => match bstep l b with
                | Some (b', o) => match brun ls' b' with Some (b'', os) => Some (b'', o :: os) | None => None end
                | None => None
                end
  end.
End Backend.
Arguments blabel Text : clear implicits.
Arguments bout Text : clear implicits.
Arguments backend Text : clear implicits.
