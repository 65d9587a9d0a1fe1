(** What a document says, for C106. *)
From Coq Require Import String List Arith NArith ZArith Ascii Bool.
Import ListNotations.
From Verif Require Import Json_model Bson_model Config_model Config_spec.

Section Spec.
Context {F : Type} (unf64 : bytes -> F) (trunc : F -> Z).
Notation json := (json F).

(** The bytes are a document with these members; one of them. *)
Definition document (b : bytes) (m : list (bytes * json)) : Prop := from_bson unf64 b = Some (JObj m).
Definition field (k : string) (m : list (bytes * json)) (j : json) : Prop := In (text k, j) m.

(** Numbers: integers, floating point numbers, and booleans. *)
Inductive number : json -> Z -> Prop :=
  | nu_int z : number (JInt z) z
  | nu_false : number (JBool false) 0
  | nu_true : number (JBool true) 1
  | nu_float f : number (JFloat f) (trunc f).
(** Thread ids: no booleans. *)
Inductive count : json -> Z -> Prop :=
  | co_int z : count (JInt z) z
  | co_float f : count (JFloat f) (trunc f).
Inductive truth : json -> bool -> Prop := tr b : truth (JBool b) b.
Inductive words : json -> bytes -> Prop := wo b : words (JStr b) b.
(** A list of lists that begin with a key and a value. *)
Inductive listed {A B} (key : json -> A -> Prop) (val : json -> B -> Prop) : json -> list (A * B) -> Prop :=
  | listed_ l es : Forall2 (fun j e => exists a b rest, j = JArr (a :: b :: rest) /\ key a (fst e) /\ val b (snd e)) l es -> listed key val (JArr l) es.
(** The first entry for [k]; numbers are taken as [wrap] says. *)
Definition first {A B K} (wrap : A -> K) (es : list (A * B)) (k : K) (v : B) : Prop :=
  exists x a y, es = x ++ (a, v) :: y /\ wrap a = k /\ Forall (fun e => wrap (fst e) <> k) x.
(** [unsigned int], [unsigned long], [int]. *)
Definition u32 (z : Z) : Z := (z mod 4294967296)%Z.
Definition u64 (z : Z) : Z := (z mod 18446744073709551616)%Z.
Definition i32 (z : Z) : Z := let u := u32 z in if (u <? 2147483648)%Z then u else (u - 4294967296)%Z.

(** ** The trace configurator *)
Inductive request := Ask | Set_ (sp p : bool) (es : list (Z * bool)).
Inductive reads (q : bytes) : request -> Prop :=
  | rd_ask m c : document q m -> field "cmd" m (JStr c) -> c <> text "set" -> reads q Ask
  | rd_set m st p sp t es : document q m -> field "cmd" m (JStr (text "set")) -> field "state" m (JObj st) ->
      field "p" st (JBool p) -> field "sp" st (JBool sp) -> field "t" st t -> listed count truth t es -> reads q (Set_ sp p es).
(** What it does: to the process, to the threads the configurator knows, and to the others. *)
Definition changes (r : request) (s s' : cfg) : Prop :=
  match r with
  | Ask => s' = s
  | Set_ sp p es =>
      g_process s' = (if sp then p else g_process s) /\
      forall i t b, nth_error (g_threads s) i = Some t -> thread_is s i b ->
        if t_cleanup t
        then (forall v, first u64 es (Z.of_nat (t_tid t)) v -> thread_is s' i v) /\ ((forall v, ~ first u64 es (Z.of_nat (t_tid t)) v) -> thread_is s' i b)
        else thread_is s' i b
  end.
(** The threads the configurator knows, with their states. *)
Definition all_states (s : cfg) (l : list (N * bool)) : Prop :=
  NoDup (map fst l) /\
  forall k v, In (k, v) l <-> exists i t, nth_error (g_threads s) i = Some t /\ t_live t = true /\ t_cleanup t = true /\ k = N.of_nat (t_tid t) /\ thread_is s i v.

(** ** The answers *)
Definition says_names (b : bytes) (es : list (Z * list (Z * bytes))) : Prop :=
  exists m j, document b m /\ field "mapping" m j /\ listed number (listed number words) j es.
Definition says_info (b : bytes) (pid : Z) (name : bytes) (es : list (Z * bytes)) : Prop :=
  exists m p t, document b m /\ field "name" m (JStr name) /\ field "pid" m p /\ number p pid /\ field "threads" m t /\ listed count words t es.
Definition says_state (b : bytes) (p : bool) (es : list (Z * bool)) : Prop :=
  exists m st sp t, document b m /\ field "state" m (JObj st) /\ field "p" st (JBool p) /\ field "sp" st (JBool sp) /\ field "t" st t /\ listed count truth t es.
(** A table has exactly these entries, each key once. *)
Definition table {K V} (m : list (K * V)) (P : K -> V -> Prop) : Prop := NoDup (map fst m) /\ forall k v, In (k, v) m <-> P k v.
End Spec.
