(** Concrete cases: a source of the library beside sources written in Python. *)
From Coq Require Import String List Arith NArith ZArith Ascii Bool Lia.
Import ListNotations.
From Verif Require Import OMap_model Json_model Json_spec Json_proofs Session_model Session_spec Session_proofs Session_witness PyJson_model PyJson_spec PyText_proofs PyJson_proofs
  PySource_model PySource_spec PySource_proofs.
Local Notation length := List.length.

Definition fcmp0 (a b : bytes) : comparison := str_cmp a b.
Definition of_int0 (z : Z) : bytes := dump_int z ++ text ".0".
Definition pystr0 (s : string) : pystr := map code (text s).
(** A source as in the example of the library: it counts its calls and returns one event with the count. *)
Definition event (n : nat) : py bytes := PDict [(PStr (pystr0 "name"), PStr (pystr0 "f")); (PStr (pystr0 "args"), PList [PInt (Z.of_nat (n mod 10)); PFloat (text "1.5")])].
Definition counting : cls bytes nat := {| c_start := Some (fun n => (S n, true)); c_stop := None; c_finish := Some (fun n => (S n, Some (PList [event n]))) |}.
(** One that does not return anything, one that raises when stopped, one with a number that is too big. *)
Definition forgetful : cls bytes nat := {| c_start := None; c_stop := None; c_finish := Some (fun n => (n, Some PNone)) |}.
Definition raising : cls bytes nat := {| c_start := None; c_stop := Some (fun n => (n, false)); c_finish := Some (fun n => (n, Some (PList []))) |}.
Definition too_big : cls bytes nat := {| c_start := None; c_stop := None; c_finish := Some (fun n => (n, Some (PList [PInt 9223372036854775808]))) |}.

Definition start_text : bytes := request_text "Tracing.start" "1".
Definition end_text : bytes := request_text "Tracing.end" "7".
Definition one_event (i : nat) : list json0 := match i with 0 => [event0 3] | _ => [] end.
Notation run0 := (run fw0 fr0 braces0 fcmp0 of_int0).
Definition ls0 : list (label bytes nat) := [Works; Arrives start_text; Handles one_event; Arrives end_text; Changes 1 5; Works; Handles one_event].

Lemma ascii_str s : forallb (fun c => (code c <? 128)%N) (text s) = true -> a_str (pystr0 s).
Proof.
  unfold a_str, pystr0. intros H. apply Forall_forall. intros n Hn. apply in_map_iff in Hn as (c & <- & Hc). rewrite forallb_forall in H. apply H in Hc. apply N.ltb_lt in Hc. lia.
Qed.
Lemma event_clean n : clean fw0 fr0 (event n).
Proof.
  split.
  - apply va_dict.
    + cbn. constructor; [intros [H|[]]; vm_compute in H; discriminate|]. constructor; [intros []|constructor].
    + constructor; [split; constructor; apply ascii_str; reflexivity|]. constructor; [|constructor]. split; [constructor; apply ascii_str; reflexivity|].
      constructor. constructor; [constructor|]. constructor; [constructor|constructor].
  - apply we_dict. constructor; [split; constructor; apply ascii_str; reflexivity|]. constructor; [|constructor]. split; [constructor; apply ascii_str; reflexivity|].
    cbn [snd]. apply we_list. constructor; [constructor|]. constructor; [|constructor]. constructor. apply (float0 (text "1.5")). reflexivity.
Qed.
Lemma counting_clean : returns (clean fw0 fr0) counting.
Proof.
  intros f s s' p E1 E2. injection E1 as <-. injection E2 as <- <-. destruct (event_clean s) as [H1 H2]. split; [apply va_list|apply we_list]; (constructor; [assumption|constructor]).
Qed.
Lemma class_two c c' s : class_in (F := bytes) (Q := nat) [Native; Python c s] c' -> c' = c.
Proof. intros (q & [H|[H|[]]]); [discriminate|]. now injection H as -> _. Qed.
Lemma native_case : native_events (Q := nat) (wf fw0 fr0) ls0.
Proof.
  intros ev Hev i. assert (ev = one_event) as ->.
  { unfold ls0 in Hev. cbn [In] in Hev. destruct Hev as [H|[H|[H|[H|[H|[H|[H|[]]]]]]]]; try discriminate; now injection H as <-. }
  destruct i; cbn [one_event]; [|constructor]. constructor; [|constructor]. apply event0_wf. unfold int_range. lia.
Qed.
(** The recording of a source of the library and one in Python: what is sent between the answer and the completion has both events. *)
Definition seen {A} (f : state bytes nat -> A) (xs : list (src bytes nat)) (ls : list (label bytes nat)) : option A := option_map f (run0 ls (state0 xs)).
Definition sent_at (i : nat) (s : state bytes nat) : option json0 := match nth_error (x_log s) i with Some (ASend t) => parse fr0 t | _ => None end.
Example session_case :
  seen (fun s => (x_end s, length (x_log s), nth_error (x_log s) 7, sent_at 8 s)) [Native; Python counting 0] ls0 =
  Some (Alive, 10, Some (AFinish 1 (GValue (PList [event 5]))),
        Some (JObj [(text "method", JStr (text "Tracing.dataCollected"));
                    (text "params", JObj [(text "value", JArr [event0 3; JObj [(text "args", JArr [JInt 5; JFloat (text "1.5")]); (text "name", JStr (text "f"))]])])])).
Proof. vm_compute. reflexivity. Qed.
Example session_hypotheses : (forall c, class_in [Native; Python counting 0] c -> returns (clean fw0 fr0) c) /\ native_events (Q := nat) (wf fw0 fr0) ls0.
Proof. split; [|exact native_case]. intros c Hc. apply class_two in Hc. subst c. exact counting_clean. Qed.
Lemma counting_sane : sane counting.
Proof.
  split.
  - split; [|split]; intros f s s' E; try discriminate E; injection E as <-; discriminate.
  - intros f s s' p E1 E2. injection E1 as <-. injection E2 as <- <-. split; [constructor|]. split.
    + apply fi_list. constructor; [|constructor]. apply fi_dict.
      assert (NS : forall t, forallb (fun c => (code c <? 128)%N) (text t) = true -> no_surrogate (pystr0 t)).
      { intros t H. unfold no_surrogate, pystr0. apply Forall_forall. intros n Hn. apply in_map_iff in Hn as (c & <- & Hc). rewrite forallb_forall in H. apply H in Hc. apply N.ltb_lt in Hc. lia. }
      constructor; [split; [eexists; split; [reflexivity|apply NS; reflexivity]|constructor; apply NS; reflexivity]|]. constructor; [|constructor].
      split; [eexists; split; [reflexivity|apply NS; reflexivity]|]. constructor. constructor; [|constructor; [constructor|constructor]]. constructor. unfold in_int64.
      pose proof (Nat.mod_upper_bound s 10). lia.
    + apply we_list. constructor; [|constructor]. apply we_dict.
      constructor; [split; cbn [fst snd]; constructor; apply ascii_str; reflexivity|]. constructor; [|constructor]. cbn [fst snd]. split; [constructor; apply ascii_str; reflexivity|].
      constructor. constructor; [constructor|]. constructor; [constructor; exact I|constructor].
Qed.
Example survive_case : (forall c, class_in [Native; Python counting 0] c -> sane c) /\ Forall (acceptable fr0) (texts ls0) /\ ~ In Null [Native; Python counting 0].
Proof.
  split; [intros c Hc; apply class_two in Hc; subst c; exact counting_sane|]. split.
  - constructor; [right; eexists; vm_compute; reflexivity|]. constructor; [right; eexists; vm_compute; reflexivity|constructor].
  - intros [H|[H|[]]]; discriminate.
Qed.
Lemma native_utf8 : native_events (Q := nat) in_utf8 ls0.
Proof.
  intros ev Hev i. apply Forall_forall. intros j Hj. pose proof (native_case ev Hev i) as H. rewrite Forall_forall in H. apply H in Hj.
  apply (dump_iff fw0). destruct (parse_dump fw0 fr0 j Hj) as (t & Ht & _). eauto.
Qed.

(** What a source does to the others. [log c]: an end request in a session with a source of the library and one of class [c]. *)
Definition ls1 : list (label bytes nat) := [Arrives end_text; Handles one_event].
Definition is_data (a : act bytes) : bool :=
  match a with ASend t => match parse fr0 t with Some (JObj m) => existsb (fun kv => beq (fst kv) (text "method")) m | _ => false end | _ => false end.
Lemma forgetful_ends :
  seen (fun s => (x_end s, length (x_log s), nth_error (x_log s) 3, nth_error (x_log s) 4, existsb is_data (x_log s))) [Native; Python forgetful 0] ls1 =
  Some (Terminated, 5, Some (AFinish 0 (GNative [event0 3])), Some (AFinish 1 (GValue PNone)), false).
Proof. vm_compute. reflexivity. Qed.
Lemma raising_ends : seen (fun s => (x_end s, x_log s)) [Native; Python raising 0] ls1 = Some (Terminated, [AStop 0 true; AStop 1 false]).
Proof. vm_compute. reflexivity. Qed.
Lemma too_big_ends : seen (fun s => (x_end s, existsb is_data (x_log s))) [Native; Python too_big 0] ls1 = Some (Terminated, false).
Proof. vm_compute. reflexivity. Qed.
Lemma none_made : exists xs s, make_sources [MakesPython counting 0; MakesNone] = Some xs /\ run0 [Works] (state0 xs) = Some s /\ texts [Works (F := bytes) (Q := nat)] = []
  /\ x_end s = UndefinedBehaviour.
Proof. eexists _, _. split; [reflexivity|]. split; [reflexivity|]. split; reflexivity. Qed.
(** The hypotheses of the theorems about faults are met by these. *)
Example broken_case : Forall (acceptable fr0) (texts ls1) /\ returns (clean fw0 fr0) forgetful /\ returns proper too_big.
Proof.
  split; [constructor; [right; eexists; vm_compute; reflexivity|constructor]|]. split.
  - intros f s s' p E1 E2. injection E1 as <-. injection E2 as <- <-. split; constructor.
  - intros f s s' p E1 E2. injection E1 as <-. injection E2 as <- <-. constructor. constructor; constructor.
Qed.
