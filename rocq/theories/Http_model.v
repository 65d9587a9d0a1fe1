(** Model of the pages the server for viewers answers with ([scalopus_catapult/src/catapult_backend.cpp], lines 55-96) and of the
    addresses under which viewers can open a connection to it ([catapult_server.cpp], lines 62-66).

    Simplifications: the web server (seasocks) is not in /repo: it hands the request with its uri, query included, to [handle]
    and lets a viewer open a web socket exactly under the paths that were added; what it does with a request that is not
    handled (it looks for a file) is left out.  The floating point numbers of the JSON values do not occur. *)
From Coq Require Import String List NArith Ascii Bool.
Import ListNotations.
From Verif Require Import UnixSystem_model OMap_model Str_model Json_model.
Local Open Scope string_scope.
Local Open Scope list_scope.

Notation bytes := (list ascii).
Definition value := json Empty_set.
Definition write (e : Empty_set) : bytes := match e with end.
Definition dump_value (j : value) : option bytes := dump write j.

(** A JSON value given by a list in braces, as the library (nlohmann_json) makes it: an object if all its elements are lists
    of two with a text in front, of which the first with a key counts; an array otherwise. *)
Definition as_member (j : value) : option (bytes * value) :=
  match j with JArr [JStr k; v] => Some (k, v) | _ => None end.
Fixpoint all_members (l : list value) : option (list (bytes * value)) :=
  match l with
  | [] => Some []
  | j :: l' => match as_member j, all_members l' with Some m, Some ms => Some (m :: ms) | _, _ => None end
  end.
Definition emplace (m : list (bytes * value)) (kv : bytes * value) : list (bytes * value) :=
  match mfind str_ltb (fst kv) m with Some _ => m | None => minsert str_ltb (fst kv) (snd kv) m end.
Definition braces (l : list value) : value :=
  match all_members l with Some ms => JObj (fold_left emplace ms []) | None => JArr l end.
Definition str_value (s : string) : value := JStr (text s).
Definition entry (k v : string) : value := braces [str_value k; str_value v].

(** Lines 60-67. *)
Definition version_page : value := braces [
  entry "Browser" "Chrome/120.0.6099.129";
  entry "Protocol-Version" "1.3";
  entry "User-Agent" "Mozilla/5.0 (X11; Linux x86_64) AppleWebKit/537.36 (KHTML, like Gecko) Chrome/120.0.0.0 Safari/537.36";
  entry "V8-Version" "12.0.267.10";
  entry "WebKit-Version" "537.36 (@204016af461e03117aa3858b51ba4534c7cfda81)";
  entry "webSocketDebuggerUrl" "devtools/page/bar"
].

(** Lines 33-50, 76-90. *)
Definition icon : bytes :=
  text "data:image/x-icon;base64,AAABAAEAICAQAAEABADoAgAAFgAAACgAAAAgAAAAQAAAAAEABAAAAAAAAAAAAAAAAAAAAAAAAAA" ++
  text "AAAAAAADxL5sA5GG+AIJh/gAadfUA/o9hAK6EpAC5g+kANZ/eABu7+wCExO8A/860ANS+/gC80+sATuT9APv8/AAAAAAA7tm+7u7" ++
  text "u7u7u7u7u7u7u7sghG87u7u7u7u7u7u7u7u52AZ3Ynu7u7u7u7u7u7r7uwBiN3dic7u7u7u7u7utr7lF4iN2REa7u7u7u7u7ua+7" ++
  text "liIhxEbl3nu7u7u7u7u7u54eJABnd3Xeezuqu7uye7unYMAHZ3d3Yd8ykTu7nju7sdwAYiN3d2WAEyu7u6c7u7nEFeIiN3bths3n" ++
  text "O7u7uzuzACDiIiJERud2Hd87u6Xnu4Jh4iIYBHN3d2Id5nO6e7uXYiIhgAZ3d3d04iN2e7u7piIh2ABfY3d2Yg4md7u7rJXh4YAb" ++
  text "YjX3YiIiO7u7u7iJ4dQBoiI3YwMeI7u7u7u6+x3AGiIiIiEQEXK7u7u7u7udQGIiIjYjYpERKqq7u7u7lEXiIiIjd3dyqRERERO7" ++
  text "uRRl4iIM4jdie7u6qqkru7qBdiIgzKN2M5r7u7u7u7u7kWIiIgyiIzuJu7u7u7u7u6ljYhzMojO7mvu7O7u7kRESniIeDJ+ru4r7" ++
  text "Css7upO7u6Yg3My5ErsJrbiLu7upK7s6DN3IupO7mK+wi7u7uRE7dl5nibu7u7u7rLra+pEBO2esu4i7u7u7u7iZiJkSq7u7rYrJ" ++
  text "q7u7u7rvu7iJE7u7u7rsiRE7u7u4ivu5ipK7u7u4iK6ru7u7uu+7ra+6u7u7usr7u7u7u7u7u7r4AAAAAAAAAAAAAAAAAAAAAAAA" ++
  text "AAAAAAAAAAAAAAAAAAAAAAAAAAAAAAAAAAAAAAAAAAAAAAAAAAAAAAAAAAAAAAAAAAAAAAAAAAAAAAAAAAAAAAAAAAAAAAAAAAAA" ++
  text "AAAAAAAAAAAAAAAAAAAAAAAAAAAAAAAAAAAAAAAAAAAAAAA==".
Definition list_page : value := braces [braces [
  entry "description" "Scalopus Operational";
  entry "devtoolsFrontendUrl" "/devtools/inspector.html?ws=127.0.0.1:9222/devtools/p";
  entry "id" "fooo";
  entry "title" "Scalopus; click 'trace' --------------------------------------------------------------------------^";
  entry "type" "tab";
  entry "url" "scalopus://catapult_server";
  braces [str_value "faviconUrl"; JStr icon];
  entry "webSocketDebuggerUrl" "-"
]].

Inductive response := Page (body : option bytes) | Unhandled.

(** Lines 57-96. *)
Definition handle (uri : bytes) : response :=
  if bytes_eqb uri (text "/json/version") then Page (dump_value version_page)
  else if starts (text "/json/list") uri then Page (dump_value list_page)
  else Unhandled.

(** A server on a port: where a web socket can be opened ([catapult_server.cpp] lines 62-63, 79). *)
Definition socket_paths : list bytes := [text "/devtools/page/bar"; text "/devtools/browser"].
Definition opens (port : N) (at_port : N) (path : bytes) : bool := (port =? at_port)%N && existsb (bytes_eqb path) socket_paths.

(** ** Starting and destroying the server ([catapult_server.cpp], lines 57-81, 88-95)
    The thread of the first start uses the member [server_] (line 80, captured by reference); a second start replaces the
    server under it (line 60) and then assigns to a [std::thread] that is joinable, which calls [std::terminate] (line 80).
    Without a server, destroying does nothing.  Starting with a port that cannot be had changes none of this: the result of
    [startListening] is dropped (line 79) and the thread is made all the same. *)
Inductive server_call := Start | Destroy.
Inductive server_state := Fresh | Running | Gone | Terminated.
Definition server_step (s : server_state) (c : server_call) : option server_state :=
  match s, c with
  | Fresh, Start => Some Running
  | Running, Start => Some Terminated
  | Fresh, Destroy | Running, Destroy => Some Gone
  | Gone, _ | Terminated, _ => None
  end.
Fixpoint server_run (l : list server_call) (s : server_state) : option server_state :=
  match l with
  | [] => Some s
  | c :: l' => match server_step s c with Some s' => server_run l' s' | None => None end
  end.
