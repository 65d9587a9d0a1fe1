(** Histories for C92 and C93: a thread with a block inside another; the same with tracing off when the inner one begins; a name that is not UTF-8. *)
From Coq Require Import String List Arith NArith ZArith Ascii Bool Lia Floats.SpecFloat Sorting.Sorted Sorting.Permutation.
Import ListNotations.
From Verif Require Import Protocol_model OMap_model Json_model Json_spec Session_model TraceEvent_model Names_model Native_model Native_spec Cbor_spec.
From Verif Require Import Record_model Record_spec Record_proofs EndToEnd_model EndToEnd_spec EndToEnd_proofs EndToEnd_witness File_spec File_proofs.
From Verif Require Config_model Config_spec Toggle_spec Toggle_proofs.
Local Notation length := List.length.

Definition at_time (n : N) : N := (1500000000000000000 + n)%N.
(** 1: block 5 begins, 2: block 6 begins, 3: block 6 ends, 4: block 5 ends. *)
Definition whaty (p x : nat) : tev :=
  match x with
  | 1 => {| te_time := at_time 10000; te_id := 5; te_type := SCOPE_ENTRY; te_value := None |}
  | 2 => {| te_time := at_time 20000; te_id := 6; te_type := SCOPE_ENTRY; te_value := None |}
  | 3 => {| te_time := at_time 30000; te_id := 6; te_type := SCOPE_EXIT; te_value := None |}
  | _ => {| te_time := at_time 40000; te_id := 5; te_type := SCOPE_EXIT; te_value := None |}
  end.
Definition inner_outer : Config_spec.sprog := Config_spec.SScope 5 (at_time 10000) (at_time 40000) (Config_spec.SScope 6 (at_time 20000) (at_time 30000) Config_spec.SSkip).
Definition namesy : mapping := [(100%Z, [(5%N, text "outer"); (6%N, text "inner")])].
Definition names_bad : mapping := [(100%Z, [(5%N, [ascii_of_nat 255]); (6%N, text "inner")])].

Definition fwy (f : spec_float) : bytes :=
  if SFeqb f (ts_of (at_time 10000)) then text "1500000000000010.0"
  else if SFeqb f (ts_of (at_time 20000)) then text "1500000000000020.0"
  else if SFeqb f (ts_of (at_time 30000)) then text "1500000000000030.0" else text "1500000000000040.0".
Definition fry (t : bytes) : option spec_float :=
  match nth 14 t " "%char with
  | "1"%char => Some (ts_of (at_time 10000)) | "2"%char => Some (ts_of (at_time 20000))
  | "3"%char => Some (ts_of (at_time 30000)) | _ => Some (ts_of (at_time 40000)) end.
Lemma times_y : times_written fwy fry whaty.
Proof.
  intros p x. do 5 (destruct x as [|x]; [split; [vm_compute; reflexivity|do 3 eexists; split; [vm_compute; reflexivity|discriminate]]|]).
  split; [vm_compute; reflexivity|do 3 eexists; split; [vm_compute; reflexivity|discriminate]].
Qed.
Lemma names_y : names_utf8 namesy.
Proof.
  intros q l id nm [E|[]] I. injection E as _ <-. destruct I as [E|[E|[]]]; injection E as _ <-; reflexivity.
Qed.

Definition starty : list elabel := joined 0 ++ [Prv P.LMake; Prv (P.LStore 0 true)].
Definition ally : list elabel :=
  [Col 0 (C.TStart 7); Col 0 (C.TEmit 0 1); Col 0 (C.TEmit 0 2)] ++ pass 0 [2] ++ [Col 0 (C.TEmit 0 3); Col 0 (C.TEmit 0 4)] ++ pass 0 [2] ++
  sent_on 0 ++ sent_on 0 ++ given_to 0 ++ given_to 1.
Definition somey : list elabel :=
  [Col 0 (C.TStart 7); Col 0 (C.TEmit 0 1)] ++ pass 0 [1] ++ [Col 0 (C.TEmit 0 3); Col 0 (C.TEmit 0 4)] ++ pass 0 [2] ++
  sent_on 0 ++ sent_on 0 ++ given_to 0 ++ given_to 1.
Definition aty (ls : list elabel) : esys := match erun pidx whaty 2 ls e0 with Some s => s | None => e0 end.

Lemma contents_y : contents_ok whaty.
Proof.
  intros p x. do 4 (destruct x as [|x]; [split; [split; [vm_compute; split; discriminate|discriminate]|constructor; cbn; try discriminate; vm_compute; reflexivity]|]).
  split; [split; [vm_compute; split; discriminate|discriminate]|constructor; cbn; try discriminate; vm_compute; reflexivity].
Qed.
Lemma sensible_y ls : small_ids ls = true -> (N.of_nat (length ls) <? 2 ^ 64)%N = true -> sensible pidx whaty ls.
Proof. intros H L. split; [exact pids_x|]. split; [exact contents_y|]. split; [now apply small_ids_ok|]. apply N.ltb_lt in L. eapply N.le_lt_trans; [|exact L]. pose proof (filter_le adds ls). lia. Qed.

(** What other sources say: the name of the thread. *)
Definition namey : json spec_float :=
  JObj [(text "args", JObj [(text "name", JStr (text "main"))]); (text "name", JStr (text "thread_name")); (text "ph", JStr (text "M")); (text "pid", JInt 100); (text "tid", JInt 7)].
Ltac asc := repeat (constructor; [|repeat (constructor; [reflexivity|]); constructor]); constructor.
Lemma namey_wf : wf fwy fry namey.
Proof.
  assert (I7 : int_range 7) by (unfold int_range; lia). assert (I100 : int_range 100) by (unfold int_range; lia).
  constructor; [asc|]. repeat (constructor; [split; [reflexivity|]|]); cbn [snd]; try (constructor; first [assumption|reflexivity]); try constructor.
  - repeat constructor.
  - repeat (constructor; [split; [reflexivity|constructor; reflexivity]|]). constructor.
Qed.

Lemma setting ls : small_ids (starty ++ ls) = true -> (N.of_nat (length (starty ++ ls)) <? 2 ^ 64)%N = true ->
  match erun pidx whaty 2 ls (aty starty) with
  | Some s => settledb s && connectedb 0 s && drainedb 0 s && undisturbedb 0 ls && roomyb 2 (steps_of 0 ls) (e_col (aty starty) 0)
  | None => false
  end = true ->
  exists s2, sensible pidx whaty (starty ++ ls) /\ erun pidx whaty 2 starty e0 = Some (aty starty) /\ erun pidx whaty 2 ls (aty starty) = Some s2 /\ recording 0 (aty starty) /\ undisturbed 0 ls /\ settled s2 /\
    (forall p, (p =? 0) = true -> connected p (aty starty) /\ connected p s2 /\ drained p s2 /\ roomy 2 (steps_of p ls) (e_col (aty starty) p)).
Proof.
  intros H1 H2 H. destruct (erun pidx whaty 2 ls (aty starty)) as [s|]; [|discriminate]. apply andb_prop in H as (H & R). apply andb_prop in H as (H & U). apply andb_prop in H as (H & D). apply andb_prop in H as (H & K).
  exists s. split; [now apply sensible_y|]. split; [vm_compute; reflexivity|]. split; [reflexivity|]. split; [vm_compute; reflexivity|]. split; [now apply undisturbedb_ok|]. split; [now apply settledb_ok|].
  intros p Hp. apply Nat.eqb_eq in Hp as ->. split; [apply connectedb_ok; vm_compute; reflexivity|]. split; [now apply connectedb_ok|]. split; [now apply drainedb_ok|now apply roomyb_ok].
Qed.

Definition distinctb (s : esys) : bool := match C.cs_threads (e_col s 0) with [t] => C.th_tid t =? 7 | _ => false end.
Lemma distinctb_ok s : distinctb s = true -> distinct pidx s 0 0 7.
Proof.
  unfold distinctb, distinct. destruct (C.cs_threads (e_col s 0)) as [|t [|]]; try discriminate. intros H. apply Nat.eqb_eq in H. split; [|split].
  - intros [|q] Q; [reflexivity|discriminate].
  - exists t. split; [reflexivity|exact H].
  - intros [|k] t' E _; [reflexivity|]. destruct k; discriminate.
Qed.

(** A case of [blocks_in_file]. *)
Lemma file_example : exists s1 s2, sensible pidx whaty (starty ++ ally) /\ times_written fwy fry whaty /\ names_utf8 namesy /\
  erun pidx whaty 2 starty e0 = Some s1 /\ erun pidx whaty 2 ally s1 = Some s2 /\ recording 0 s1 /\ undisturbed 0 ally /\ settled s2 /\
  (forall p, (p =? 0) = true -> connected p s1 /\ connected p s2 /\ drained p s2 /\ roomy 2 (steps_of p ally) (e_col s1 p)) /\
  Forall (wf fwy fry) [namey] /\ only_names [namey] /\ distinct pidx s2 0 0 7 /\ traced 0 0 starty = [] /\ increasing whaty 0 (traced 0 0 (starty ++ ally)) /\
  Config_spec.scoped_only inner_outer /\ Toggle_spec.one_stretch [true; true; true; true] /\ length (Toggle_spec.events_of inner_outer) = 4 /\
  map (fun c => whaty 0 (snd c)) (traced 0 0 ally) = map snd (Toggle_spec.recorded 0 [true; true; true; true] (Toggle_spec.events_of inner_outer)) /\
  exists res t, interval namesy 0 s2 = FEntries res /\ length res = 4 /\ collect_text fwy (map entry_json res ++ [namey]) = Some t /\
    match parse fry t with Some (JArr js) => length (pairs 100 7 [] js) = 2 | _ => False end.
Proof.
  destruct (setting ally) as (s2 & A & E1 & E2 & R & U & St & L); [vm_compute; reflexivity|vm_compute; reflexivity|vm_compute; reflexivity|].
  assert (E : s2 = aty (starty ++ ally)). { unfold aty. rewrite erun_app, E1. unfold aty in E2. rewrite E1 in E2. now rewrite E2. }
  exists (aty starty), s2. split; [exact A|]. split; [exact times_y|]. split; [exact names_y|]. split; [exact E1|]. split; [exact E2|]. split; [exact R|]. split; [exact U|]. split; [exact St|]. split; [exact L|].
  split; [constructor; [exact namey_wf|constructor]|]. split; [constructor; [reflexivity|constructor]|]. clear - E. subst s2. split; [apply distinctb_ok; vm_compute; reflexivity|].
  split; [vm_compute; reflexivity|]. split.
  { assert (Q : traced 0 0 (starty ++ ally) = [(0, 1); (0, 2); (0, 3); (0, 4)]) by (vm_compute; reflexivity). rewrite Q.
    repeat (constructor; [|repeat (constructor; [vm_compute; reflexivity|]); constructor]). constructor. }
  split; [cbn; auto|]. split; [exists 0, 4, 0; reflexivity|]. split; [reflexivity|]. split; [vm_compute; reflexivity|].
  eexists. eexists. split; [vm_compute; reflexivity|]. split; [reflexivity|]. split; [vm_compute; reflexivity|]. vm_compute. reflexivity.
Qed.

(** Tracing is off when the inner block begins: the outer one, of which both ends are in the file, seems to end when the inner one ended. *)
Lemma file_wrong : exists s1 s2 res t js b e, sensible pidx whaty (starty ++ somey) /\ times_written fwy fry whaty /\ names_utf8 namesy /\
  erun pidx whaty 2 starty e0 = Some s1 /\ erun pidx whaty 2 somey s1 = Some s2 /\ recording 0 s1 /\ undisturbed 0 somey /\ settled s2 /\
  (forall p, (p =? 0) = true -> connected p s1 /\ connected p s2 /\ drained p s2 /\ roomy 2 (steps_of p somey) (e_col s1 p)) /\
  distinct pidx s2 0 0 7 /\ traced 0 0 starty = [] /\ Config_spec.scoped_only inner_outer /\
  map (fun c => whaty 0 (snd c)) (traced 0 0 somey) = map snd (Toggle_spec.recorded 0 [true; false; true; true] (Toggle_spec.events_of inner_outer)) /\
  In (0, 3) (Toggle_spec.blocks inner_outer) /\ option_map te_time (nth_error (Toggle_spec.events_of inner_outer) 3) = Some (at_time 40000) /\
  interval namesy 0 s2 = FEntries res /\ collect_text fwy (map entry_json res) = Some t /\ parse fry t = Some (JArr js) /\
  pairs 100 7 [] js = [(b, e)] /\ member "name" b = Some (JStr (text "outer")) /\ member "ts" b = Some (JFloat (ts_of (at_time 10000))) /\ member "ts" e = Some (JFloat (ts_of (at_time 30000))) /\
  ts_of (at_time 30000) <> ts_of (at_time 40000).
Proof.
  destruct (setting somey) as (s2 & A & E1 & E2 & R & U & St & L); [vm_compute; reflexivity|vm_compute; reflexivity|vm_compute; reflexivity|].
  assert (E : s2 = aty (starty ++ somey)). { unfold aty. rewrite erun_app, E1. unfold aty in E2. rewrite E1 in E2. now rewrite E2. }
  exists (aty starty), s2. do 5 eexists. split; [exact A|]. split; [exact times_y|]. split; [exact names_y|]. split; [exact E1|]. split; [exact E2|]. split; [exact R|]. split; [exact U|]. split; [exact St|]. split; [exact L|].
  clear - E. subst s2. split; [apply distinctb_ok; vm_compute; reflexivity|].
  split; [vm_compute; reflexivity|]. split; [cbn; auto|]. split; [vm_compute; reflexivity|]. split; [vm_compute; auto|]. split; [vm_compute; reflexivity|].
  split; [vm_compute; reflexivity|]. split; [vm_compute; reflexivity|]. split; [vm_compute; reflexivity|]. split; [vm_compute; reflexivity|]. split; [vm_compute; reflexivity|]. split; [vm_compute; reflexivity|]. split; [vm_compute; reflexivity|].
  vm_compute. discriminate.
Qed.

(** One name that is not UTF-8: everything is there, and no file comes of it. *)
Lemma file_none : exists s1 s2 res, sensible pidx whaty (starty ++ ally) /\ times_written fwy fry whaty /\
  erun pidx whaty 2 starty e0 = Some s1 /\ erun pidx whaty 2 ally s1 = Some s2 /\ recording 0 s1 /\ undisturbed 0 ally /\ settled s2 /\
  (forall p, (p =? 0) = true -> connected p s1 /\ connected p s2 /\ drained p s2 /\ roomy 2 (steps_of p ally) (e_col s1 p)) /\
  interval names_bad 0 s2 = FEntries res /\ length res = 4 /\ forall fw before after, collect_text fw (before ++ map entry_json res ++ after) = None.
Proof.
  destruct (setting ally) as (s2 & A & E1 & E2 & R & U & St & L); [vm_compute; reflexivity|vm_compute; reflexivity|vm_compute; reflexivity|].
  assert (E : s2 = aty (starty ++ ally)). { unfold aty. rewrite erun_app, E1. unfold aty in E2. rewrite E1 in E2. now rewrite E2. }
  assert (X : exists res, interval names_bad 0 s2 = FEntries res /\ length res = 4 /\ forall fw, match map entry_json res with j :: _ => dump fw j = None | [] => False end).
  { subst s2. eexists. split; [vm_compute; reflexivity|]. split; [reflexivity|]. intros fw. vm_compute. reflexivity. }
  destruct X as (res & X1 & X2 & X3).
  exists (aty starty), s2, res. split; [exact A|]. split; [exact times_y|]. split; [exact E1|]. split; [exact E2|]. split; [exact R|]. split; [exact U|]. split; [exact St|]. split; [exact L|]. split; [exact X1|]. split; [exact X2|].
  intros fw bf af. specialize (X3 fw). destruct (map entry_json res) as [|j rest]; [contradiction|]. clear - X3. unfold collect_text.
  assert (Q : dump_all fw (bf ++ (j :: rest) ++ af) = None). { induction bf as [|x bf IH]; cbn [app]; [cbn [dump_all]; now rewrite X3|]. change (dump_all fw (x :: bf ++ (j :: rest) ++ af) = None). cbn [dump_all]. destruct (dump fw x); [|reflexivity]. cbn [app] in IH |- *. now rewrite IH. }
  rewrite Q. reflexivity.
Qed.
