(** What a viewer still gets of a recording one text of which is not UTF-8 (C64). *)
From Coq Require Import String List Arith NArith ZArith Ascii Bool Lia.
Import ListNotations.
From Verif Require Import OMap_model OMap_proofs Json_model Json_spec Json_proofs JsonRead_proofs Session_model Session_spec Session_proofs Session_witness.
Local Open Scope nat_scope.
Local Opaque chunk_size.

Section S.
Context {F : Type} (fw : F -> bytes) (fr : bytes -> option F) (braces : json F).
Notation json := (json F). Notation wf := (wf fw fr).
Implicit Types (es : list json) (ev : list (list json)).
Hypothesis Hfloat : forall t f, fr t = Some f -> float_ok fw fr f.
Hypothesis Hbraces : wf braces.

Lemma slice_part i es (P : json -> Prop) : Forall P es -> Forall P (slice i es).
Proof.
  intro H. rewrite slice_eq. rewrite Forall_forall in *. intros x Hx. apply H.
  rewrite <- (firstn_skipn (i * chunk_size) es). apply in_or_app. right.
  rewrite <- (firstn_skipn chunk_size (skipn (i * chunk_size) es)). apply in_or_app. left. exact Hx.
Qed.
Lemma skipn_plus {A} a b (l : list A) : skipn (a + b) l = skipn b (skipn a l).
Proof. revert l. induction a as [|a IH]; intros [|x l]; cbn; auto. now rewrite skipn_nil. Qed.
Lemma slice_rest i es : slice i es ++ skipn (S i * chunk_size) es = skipn (i * chunk_size) es.
Proof. rewrite slice_eq. replace (S i * chunk_size) with (i * chunk_size + chunk_size) by lia. rewrite skipn_plus. apply firstn_skipn. Qed.
Lemma format_none es : format_events fw es = None -> ~ Forall in_utf8 es.
Proof. intros H U. apply (dump_all_iff fw) in U as (ts & E). unfold format_events in H. rewrite E in H. discriminate. Qed.
Lemma format_some es t : format_events fw es = Some t -> Forall in_utf8 es.
Proof. intros H. apply (dump_all_iff fw). unfold format_events in H. destruct (dump_all fw es); [eauto|discriminate]. Qed.

Lemma transmit_throws es : Forall (fun e => in_utf8 e -> wf e) es -> forall k i xs, transmit fw (seq i k) es = Throws xs ->
  exists ps groups bad rest, xs = map ESend ps /\ Forall2 (data_piece fr) ps groups /\ Forall (fun g => length g = chunk_size) groups /\
    skipn (i * chunk_size) es = concat groups ++ bad ++ rest /\ length bad <= chunk_size /\ ~ Forall in_utf8 bad.
Proof.
  intros W. induction k as [|k IH]; intros i xs H; [discriminate|]. cbn [seq transmit] in H. destruct (length es <? i * chunk_size) eqn:E; [discriminate|].
  destruct (format_events fw (slice i es)) as [t|] eqn:Ef.
  - destruct (transmit fw (seq (S i) k) es) as [ys|ys|] eqn:Et; try discriminate H. cbn [before app] in H. injection H as <-.
    destruct (IH (S i) ys Et) as (ps & groups & bad & rest & -> & Hp & Hg & Hc & Hl & Hb). exists (t :: ps), (slice i es :: groups), bad, rest.
    assert (Hs : Forall wf (slice i es)).
    { assert (A := slice_part i es _ W). assert (B := format_some _ _ Ef). rewrite Forall_forall in *. intros x Hx. apply A; auto. }
    destruct (format_ok fw fr (slice i es) Hs) as (t' & Et' & Ht'). rewrite Ef in Et'. injection Et' as <-.
    split; [reflexivity|]. split; [constructor; assumption|]. split; [|split; [|split; assumption]].
    + constructor; [|exact Hg]. destruct k as [|k]; [discriminate|]. cbn [seq transmit] in Et. destruct (length es <? S i * chunk_size) eqn:E2; [discriminate|]. apply Nat.ltb_ge in E2.
      rewrite slice_eq, firstn_length, skipn_length. lia.
    + cbn [concat]. rewrite <- app_assoc, <- Hc. symmetry. apply slice_rest.
  - injection H as <-. exists [], [], (slice i es), (skipn (S i * chunk_size) es). split; [reflexivity|]. split; [constructor|]. split; [constructor|]. split; [|split].
    + cbn [concat app]. symmetry. apply slice_rest.
    + apply slice_length.
    + now apply format_none.
Qed.

Lemma end_throws ev t id : Forall (Forall (fun e => in_utf8 e -> wf e)) ev -> ~ Forall (Forall in_utf8) ev -> message fr t "Tracing.end" id ->
  exists a ps groups bad rest,
    process fw fr braces ev t = Throws (each EStop (length ev) ++ [ESend a] ++ each EFinish (length ev) ++ map ESend ps) /\ answer fr a id JNull /\
    Forall2 (data_piece fr) ps groups /\ Forall (fun g => length g = 1000) groups /\ concat ev = concat groups ++ bad ++ rest /\ length bad <= 1000 /\ ~ Forall in_utf8 bad.
Proof.
  intros W N M. assert (NU := never_undefined fw fr braces ev t). assert (ND : forall xs, process fw fr braces ev t <> Done xs).
  { intros xs E. apply N. apply (end_iff fw fr braces Hfloat ev t id M). eauto. }
  destruct M as (m & Hm & Hmeth & Hid). pose proof (parse_wf fw fr Hfloat _ _ Hm) as Hw. pose proof (obj_facts fw fr m Hw) as Ha.
  destruct (member_obj m "method" Ha) as (method & Em & _ & Humeth). destruct (member_obj m "id" Ha) as (id' & Ei & Hid' & Huid).
  assert (Hwid : wf id') by (eapply member_wf; eauto). apply Humeth in Hmeth. subst method.
  assert (Eid : id' = id).
  { destruct Hid as [Hid|[-> Hid]]; [symmetry; now apply Huid|]. destruct Hid' as [Hid'|[-> _]]; [destruct (Hid _ Hid')|reflexivity]. }
  subst id'. revert NU ND. unfold process. rewrite Hm, Em, Ei. change (is_text (JStr (text "Tracing.end")) "Tracing.getCategories") with false.
  change (is_text (JStr (text "Tracing.end")) "Tracing.start") with false. change (is_text (JStr (text "Tracing.end")) "Tracing.end") with true.
  cbn match. destruct (send_ok fw fr _ (answer_wf fw fr id JNull Hwid (wf_null _ _))) as (a & -> & Hp).
  destruct (send_ok fw fr (JObj [pair_of "method" (jtext "Tracing.tracingComplete"); pair_of "params" (JArr [])])) as (c & -> & Hcp).
  { apply wf_obj; [apply ascending_two; reflexivity|]. constructor; [split; [reflexivity|constructor; reflexivity]|]. repeat constructor. }
  assert (Wc : Forall (fun e => in_utf8 e -> wf e) (concat ev)) by (apply Forall_concat; exact W).
  unfold chunked_transmit. destruct (transmit fw (seq 0 (chunks_needed (length (concat ev)))) (concat ev)) as [xs|xs|] eqn:Et; cbn [andthen before app]; intros NU ND.
  - destruct (ND _ eq_refl).
  - destruct (transmit_throws (concat ev) Wc _ _ _ Et) as (ps & groups & bad & rest & -> & H1 & H2 & H3 & H4 & H5). exists a, ps, groups, bad, rest.
    split; [unfold each, on_sources; reflexivity|]. split; [exact Hp|]. split; [exact H1|]. split; [exact H2|]. split; [exact H3|]. split; [exact H4|exact H5].
  - destruct (NU eq_refl).
Qed.
End S.

(** 1500 events, the one after them is named with a byte that is not UTF-8: the first thousand arrive, nothing else. *)
Definition half : list json0 := map (fun i => event0 (Z.of_nat i)) (seq 0 1500).
Example lost_case : match process fw0 fr0 braces0 [half; [event_bad; event0 5]] (request_text "Tracing.end" "7") with
  | Throws es => length es = 6 /\ match es with [EStop 0; EStop 1; ESend _; EFinish 0; EFinish 1; ESend t] => parse fr0 t = Some (piece_value (firstn 1000 half)) | _ => False end
  | _ => False end.
Proof. vm_compute. split; reflexivity. Qed.
