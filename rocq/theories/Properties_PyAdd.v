(** C117: endpoints written in Python and the transports they are added to. A concrete program is [usual_run] in [PyAdd_witness.v]. *)
From Coq Require Import List Arith Bool Ascii String.
Import ListNotations.
From Verif Require Import Json_model PyJson_model PyJson_spec PyAdd_model PyAdd_spec PyAdd_proofs PyAdd_witness.

(** Whatever happened before: a message is handed to the endpoint that was added last to this transport under this name, in the state the calls before have left it in, if its class
    has the method. Exactly the bytes the returned value says are sent back, nothing if it is no payload. A method that raises, or returns text or a list that are no bytes, ends the
    process (the part of C117 that is refuted). Without endpoint or method nothing happens. *)
Theorem C117_message_partial {F Q} : forall (h : list (op F Q)) s tr k t n b, run h start = (s, tr) -> ~ In ODied tr ->
  match serving tr t n with
  | None => step (Message k t n b) s = (s, [])
  | Some o => exists c q0, made tr o = Some (c, q0) /\
      match method k c with
      | None => step (Message k t n b) s = (s, [])
      | Some f =>
          match snd (f (now tr o c q0) b) with
          | None => snd (step (Message k t n b) s) = [OCall k t n b o; ODied]
          | Some p => proper p ->
              (forall d, says p d -> snd (step (Message k t n b) s) = [OCall k t n b o; OReply t n d]) /\
              (silent p -> snd (step (Message k t n b) s) = [OCall k t n b o]) /\
              (~ silent p -> (forall d, ~ says p d) -> snd (step (Message k t n b) s) = [OCall k t n b o; ODied])
          end
      end
  end.
Proof. exact message_to. Qed.
Print Assumptions C117_message_partial.

(** All or nothing, for classes that leave [setTransport] to the library: if [getName] is there and returns a name, [addEndpoint] returns, the endpoint is the one for this name at this
    transport and has this transport, and nothing else has changed; otherwise it raises and nothing has changed. Missing: classes with a [setTransport] of their own. *)
Theorem C117_partial {F Q} : forall (h : list (op F Q)) s tr t o c q0, run h start = (s, tr) -> ~ In ODied tr -> made tr o = Some (c, q0) -> c_set c = None ->
  (forall f p, c_name c = Some f -> snd (f (now tr o c q0)) = Some p -> proper p) ->
  forall s' l, step (Add t o) s = (s', l) ->
  ((exists n f p, c_name c = Some f /\ snd (f (now tr o c q0)) = Some p /\ named p n /\ In OReturned l /\ ~ In ORaised l /\ serving (tr ++ l) t n = Some o /\
     (forall t' n', (t', n') <> (t, n) -> serving (tr ++ l) t' n' = serving tr t' n') /\
     snd (step (Where o) s') = [OWhere o (Some t)] /\ (forall o', o' <> o -> snd (step (Where o') s') = snd (step (Where o') s)))
   \/ ((forall f p n, c_name c = Some f -> snd (f (now tr o c q0)) = Some p -> ~ named p n) /\ In ORaised l /\ ~ In OReturned l /\
       (forall t' n', serving (tr ++ l) t' n' = serving tr t' n') /\ (forall o', snd (step (Where o') s') = snd (step (Where o') s)))).
Proof. exact all_or_nothing. Qed.
Print Assumptions C117_partial.

(** [getTransport] gives the transport to which the endpoint was added last; but never any if its class has a [setTransport] of its own. *)
Theorem C117_where_refuted {F Q} : forall (h : list (op F Q)) s tr o c q0, run h start = (s, tr) -> ~ In ODied tr -> made tr o = Some (c, q0) ->
  step (Where o) s = (s, [OWhere o (match c_set c with None => place tr o | Some _ => None end)]).
Proof. exact where_is. Qed.
Print Assumptions C117_where_refuted.
Theorem C117_own_refuted : exists s, run [New (own "b" true) 0; Add 7 0] start = (s, [OMade (own "b" true) 0; OName 7 0 (Some (text "e")); OSet 7 0 true; OReturned]) /\
  snd (step (Where 0) s) = [OWhere 0 None] /\ snd (step (Message Request 7 (text "e") []) s) = [OCall Request 7 (text "e") [] 0; OReply 7 (text "e") (text "b")].
Proof. exact own_set. Qed.
Print Assumptions C117_own_refuted.

(** Refuted: [addEndpoint] raises, as [setTransport] of the class does, and yet the endpoint has taken the place of the one that had the name. *)
Theorem C117_refuted : exists s, run half start =
  (s, [OMade (good "a") 0; OMade (own "b" false) 0; OName 7 0 (Some (text "e")); OReturned; OName 7 1 (Some (text "e")); OSet 7 1 false; ORaised]) /\
  snd (step (Message Request 7 (text "e") (text "x")) s) = [OCall Request 7 (text "e") (text "x") 1; OReply 7 (text "e") (text "bx")].
Proof. exact half_added. Qed.
Print Assumptions C117_refuted.

(** Refuted: an exception in a handler ends the process. *)
Theorem C117_raise_refuted : snd (run [New tired 0; Add 7 0; Message Request 7 (text "e") []; Message Request 7 (text "e") []; Where 0] start) =
  [OMade tired 0; OName 7 0 (Some (text "e")); OReturned; OCall Request 7 (text "e") [] 0; OCall Request 7 (text "e") [] 0; ODied].
Proof. exact tired_dies. Qed.
Print Assumptions C117_raise_refuted.
