(** The recorder of C114 with JSON texts, and concrete histories. *)
From Coq Require Import String List Arith NArith ZArith Ascii Bool Permutation Lia.
Import ListNotations.
From Verif Require Import OMap_model Json_model Json_spec Session_model Session_proofs Session_witness Dump_model Dump_spec Dump_proofs.
Local Open Scope nat_scope.
Local Notation length := List.length.

(** What a viewer that opens the file finds: the array in it, if it is one. *)
Definition array {F} (fr : bytes -> option F) (t : bytes) : option (list (json F)) := match parse fr t with Some (JArr l) => Some l | _ => None end.
Lemma kept_json (F : Type) (fw : F -> bytes) fr ks ls s : Forall (fun k => k = false) ks -> (forall i e, In (Arrive i e) ls -> wf fw fr e) ->
  smooth (collect_text fw) ls (state0 ks) -> run (collect_text fw) ls (state0 ks) = Some s ->
  exists ps, all_files ps s /\ Permutation (recorded (collect_text fw) ls (state0 ks)) (pending s ++ concat (map (found (array fr)) (texts (log s))) ++ concat (map (found (array fr)) (contents ps s))).
Proof.
  apply conserved. intros l H. destruct (collect_ok fw fr l H) as (t & E & P). exists t. split; [exact E|]. unfold array. now rewrite P.
Qed.

(** Two sources, two files, a text: all of it is there. *)
Definition plain : list (label json0) :=
  [Setup 9; Arrive 0 (event0 0); Begin; Arrive 0 (event0 1); Arrive 1 (event0 2); Halt; Arrive 0 (event0 3); Write 4 1000; Begin; Arrive 1 (event0 4); Collect; Begin; Arrive 0 (event0 5); Arrive 0 (event0 6); Destroy 1000].
Example plain_smooth : smooth (collect_text fw0) plain (state0 [false; false]).
Proof.
  vm_compute. repeat match goal with |- _ /\ _ => split | |- True => exact I | |- _ = _ => reflexivity end; intros t H; injection H as <-; apply Nat.leb_le; vm_compute; reflexivity.
Qed.
Example plain_run : match run (collect_text fw0) plain (state0 [false; false]) with
  | Some s => option_map (found (array fr0)) (files s 4) = Some [event0 1; event0 2] /\ option_map (found (array fr0)) (files s 9) = Some [event0 5; event0 6] /\
              map (found (array fr0)) (texts (log s)) = [[event0 4]] /\ pending s = []
  | None => False end.
Proof. vm_compute. auto. Qed.

(** A file with a recording is written again, and cut short: there is nothing to be read in it any more, and the call returns as always. *)
Lemma cut_json : exists s s1 s', run (collect_text fw0) [Begin; Arrive 0 (event0 1); Write 4 1000; Begin; Arrive 0 (event0 2)] (state0 [false]) = Some s /\
  option_map (array fr0) (files s 4) = Some (Some [event0 1]) /\ step (collect_text fw0) (Write 4 20) s = Some s1 /\ last (log s1) Died = Returned /\ option_map (array fr0) (files s1 4) = Some None /\
  step (collect_text fw0) (Dies 4 20) s = Some s' /\ option_map (array fr0) (files s' 4) = Some None.
Proof.
  destruct (run (collect_text fw0) [Begin; Arrive 0 (event0 1); Write 4 1000; Begin; Arrive 0 (event0 2)] (state0 [false])) as [s|] eqn:E; [|vm_compute in E; discriminate].
  destruct (step (collect_text fw0) (Write 4 20) s) as [s1|] eqn:E1; [|vm_compute in E; injection E as <-; vm_compute in E1; discriminate].
  destruct (step (collect_text fw0) (Dies 4 20) s) as [s2|] eqn:E2; [|vm_compute in E; injection E as <-; vm_compute in E2; discriminate].
  exists s, s1, s2. vm_compute in E. injection E as <-. vm_compute in E1. injection E1 as <-. vm_compute in E2. injection E2 as <-. repeat split; vm_compute; reflexivity.
Qed.

(** A small text format that meets what the theorems on what is lost ask of a reader. *)
Definition render1 (l : list nat) : option (list nat) := Some (map S l ++ [0]).
Fixpoint reads1 (t : list nat) : option (list nat) :=
  match t with [] => None | [0] => Some [] | 0 :: _ => None | S x :: t' => option_map (cons x) (reads1 t') end.
Example cut1 : forall l t n e, render1 l = Some t -> In e (found reads1 (firstn n t)) -> In e l.
Proof.
  unfold render1, found. intros l t n e H. injection H as <-. revert n. induction l as [|x l IH]; intros [|n]; cbn; try (intros []).
  - destruct n; cbn; intros [].
  - specialize (IH n). destruct (reads1 (firstn n (map S l ++ [0]))) as [r|] eqn:E; cbn; [|intros []]. intros [->|H]; auto.
Qed.
Definition recording : list (label nat) := [Begin; Arrive 0 7; Halt].
Example recording_only : match run render1 recording (state0 [false]) with Some s => only_pending reads1 7 s /\ Forall takes (sources s) | None => False end.
Proof. vm_compute. split; [|repeat constructor]. split; [now left|]. split; [discriminate|intros ? []]. Qed.
Example unopened_run : match run render1 (Allow 4 false :: recording ++ [Write 4 100; Collect]) (state0 [false]) with
  | Some s => log s = [Returned; Text [0]] /\ files s 4 = None | None => False end.
Proof. vm_compute. auto. Qed.
Example twice_run : match run render1 (Setup 4 :: recording ++ [Write 4 100]) (state0 [false]) with Some s => files s 4 = Some [8; 0] | None => False end /\
  match run render1 (Setup 4 :: recording ++ [Write 4 100; Destroy 100]) (state0 [false]) with Some s => files s 4 = Some [0] | None => False end.
Proof. vm_compute. auto. Qed.
Example kept_run : match run render1 (recording ++ [Collect; Collect]) (state0 [true]) with Some s => log s = [Text [8; 0]; Text [8; 0]] | None => False end.
Proof. vm_compute. reflexivity. Qed.
(** The second file asked for is the one written; a text that cannot be made ends the program. *)
Example destroyed_run : match run render1 (Setup 3 :: recording ++ [Setup 4]) (state0 [false]) with
  | Some s => asked (Setup 3 :: recording ++ [Setup 4]) = Some 4 /\ can s 4 = true /\ render1 (pending s) = Some [8; 0] /\
    match step render1 (Destroy 2) s with Some s' => files s' 4 = Some [8; 0] /\ files s' 3 = None | None => False end
  | None => False end.
Proof. vm_compute. auto. Qed.
Example terminated_run : match run (fun l : list nat => if Nat.ltb 6 (hd 0 l) then None else Some l) (Setup 4 :: recording ++ [Destroy 2]) (state0 [false]) with
  | Some s => log s = [Terminated] /\ files s 4 = None | None => False end.
Proof. vm_compute. auto. Qed.

(** In an interval after it was begun again, in none after the collection. *)
Example interval_case : in_interval (E := nat) [Begin; Halt; Begin; Arrive 0 7] = true /\ in_interval (E := nat) [Begin; Arrive 0 7; Collect; Arrive 0 8] = false.
Proof. split; reflexivity. Qed.
