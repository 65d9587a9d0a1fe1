(** Vocabulary for C89. *)
From Coq Require Import String List NArith Ascii Bool.
Import ListNotations.
From Verif Require Import UnixSystem_model OMap_model Str_model Json_model Http_model.
Local Open Scope list_scope.

(** The member [k] of a JSON object. *)
Definition member (k : string) (j : value) : option value := match j with JObj m => mfind str_ltb (text k) m | _ => None end.

(** The web socket address in a link: host, port and path behind [ws=]. *)
Fixpoint until (c : ascii) (s : bytes) : bytes * bytes :=
  match s with
  | [] => ([], [])
  | x :: s' => if (x =? c)%char then ([], s') else let '(a, b) := until c s' in (x :: a, b)
  end.
Fixpoint after_ws (s : bytes) : option bytes :=
  match strip (text "ws=") s, s with
  | Some r, _ => Some r
  | None, _ :: s' => after_ws s'
  | None, [] => None
  end.
Definition target (url : bytes) : option (bytes * N * bytes) :=
  match after_ws url with
  | Some r =>
      let '(host, r1) := until ":" r in
      match span_digits r1 with
      | ([], _) => None
      | (ds, path) => Some (host, digits_value ds, path)
      end
  | None => None
  end.

(** Following the link leads to a server that listens on [port]. *)
Definition usable (port : N) (url : bytes) : Prop := exists host p path, target url = Some (host, p, path) /\ opens port p path = true.
