(** Concrete histories: the cases in which C77 and C78 fail, and cases that meet the hypotheses of the theorems. *)
From Coq Require Import String List Arith NArith ZArith Ascii Bool Lia.
Import ListNotations.
From Verif Require Import OMap_model TraceEvent_model Names_model Native_model Ended_model Ended_spec Ended_proofs.
Local Open Scope nat_scope.

Definition txt (s : string) : list ascii := list_ascii_of_string s.
Definition scope (t id : N) : tev := {| te_time := t; te_id := id; te_type := SCOPE_ENTRY; te_value := None |}.
(** Process 7 has one name, for id 5, and one for its thread; process 8 the same id under another name. *)
Definition new7 : label := New 7 [(5%N, txt "work")] (txt "app") [(1%N, txt "main")].
Definition new8 : label := New 8 [(5%N, txt "play")] (txt "game") [(2%N, txt "loop")].
Definition data7 : chunk := CGood {| nc_pid := 7; nc_threads := [(1%N, [scope 10000 5])] |}.
Definition data8 : chunk := CGood {| nc_pid := 8; nc_threads := [(2%N, [scope 20000 5])] |}.

Definition fate_after (h : list label) : option fate := option_map w_fate (run h w0).
Lemma fate_run h f : fate_after h = Some f -> exists w, run h w0 = Some w /\ w_fate w = f.
Proof. unfold fate_after. destruct (run h w0) as [w|]; [|discriminate]. cbn. intros E. exists w. split; [reflexivity|congruence]. Qed.
(** The names the viewer saw, by process, and what it was told of processes. *)
Definition shown (v : nat) (h : list label) : option (list (Z * list ascii) * imap) :=
  match run h w0 with
  | Some w => match nth_error (w_views w) v with
              | Some x => match rev (vw_out x) with (es, im) :: _ => Some (map (fun e => (en_pid e, en_name e)) es, im) | [] => None end
              | None => None
              end
  | None => None
  end.
Lemma shown_run v h names im : shown v h = Some (names, im) -> exists w es, run h w0 = Some w /\ last_sent v w es im /\ map (fun e => (en_pid e, en_name e)) es = names.
Proof.
  unfold shown. destruct (run h w0) as [w|] eqn:E; [|discriminate]. destruct (nth_error (w_views w) v) as [x|] eqn:Ex; [|discriminate].
  destruct (rev (vw_out x)) as [|[es im'] l] eqn:Er; [discriminate|]. intros H. injection H as Hn <-. exists w, es. split; [reflexivity|]. split; [|exact Hn].
  exists x, (rev l). split; [exact Ex|]. rewrite <- (rev_involutive (vw_out x)), Er. reflexivity.
Qed.

(** Two processes are recorded; one ends, and the viewer stops the recording. *)
Definition start2 : list label := [new7; new8; Manage; Open; Start 0; Deliver 0 data7; Deliver 1 data8].
(** Nobody has seen it yet. *)
Definition unseen : list label := start2 ++ [End 0; Finish 0; Ask 0 None].
(** It was seen on the connection, but the manager has not been through a cycle since. *)
Definition unmanaged : list label := start2 ++ [End 0; Notice 0; Finish 0; Ask 0 None].
(** It ends between the request for its names and the one for its threads. *)
Definition between : list label := start2 ++ [Finish 0; Ask 0 None; Ask 0 None; Swap 0; End 0; Notice 0; Convert 0; Ask 0 None].
Theorem ends_the_recorder :
  (exists w, run unseen w0 = Some w /\ w_fate w = Terminated) /\ (exists w, run unmanaged w0 = Some w /\ w_fate w = Terminated) /\
  (exists w, run between w0 = Some w /\ w_fate w = Terminated).
Proof. split; [|split]; apply fate_run; vm_compute; reflexivity. Qed.

(** Dealt with in time, but the names are gone with the process. *)
Definition timely : list label := start2 ++ [End 0; Notice 0; Manage] ++ Finish 0 :: [Ask 0 None; Swap 0; Convert 0; Ask 0 None] ++ [Send 0].
Ltac ins := repeat (cbn in *; match goal with H : _ \/ _ |- _ => destruct H as [H|H]; try discriminate H | H : False |- _ => destruct H end).
Lemma split_at (l : label) : forall a b h, h = a ++ l :: b -> nth_error h (length a) = Some l /\ a = firstn (length a) h /\ b = skipn (S (length a)) h.
Proof.
  induction a as [|x a IH]; intros b h ->; cbn [List.length]; [repeat split|]. destruct (IH b (a ++ l :: b) eq_refl) as (H1 & H2 & H3). repeat split; [exact H1| |exact H3]. cbn [app firstn]. now f_equal.
Qed.
Lemma timely_well : well_timed timely.
Proof.
  intros v a b H. destruct (split_at _ _ _ _ H) as (Hn & Ha & Hb). clear H.
  assert (El : List.length a = 10 /\ v = 0).
  { remember (List.length a) as n eqn:En. clear Ha Hb En. do 16 (destruct n as [|n]; [cbn in Hn; first [discriminate Hn|split; [reflexivity|congruence]]|]). destruct n; discriminate. }
  destruct El as [El ->]. rewrite El in Ha, Hb. cbn in Ha, Hb. subst a b. split.
  - intros i Hi. ins. injection Hi as <-. exists (start2 ++ [End 0]), [], []. reflexivity.
  - intros i c d H. exfalso. assert (Hin : In (End i) [Ask 0 None; Swap 0; Convert 0; Ask 0 None; Send 0]) by (rewrite H; apply in_or_app; right; now left). ins.
Qed.
Theorem names_lost : exists h w es im, well_timed h /\ In new7 h /\ run h w0 = Some w /\ last_sent 0 w es im /\
  map (fun e => (en_pid e, en_name e)) es = [(7%Z, txt "Unknown 0x5"); (8%Z, txt "play")] /\ mfind Z.ltb 7%Z im = None.
Proof.
  destruct (shown_run 0 timely [(7%Z, txt "Unknown 0x5"); (8%Z, txt "play")] [(8%Z, (txt "game", [(2%N, txt "loop")]))]) as (w & es & H1 & H2 & H3); [vm_compute; reflexivity|].
  exists timely, w, es, [(8%Z, (txt "game", [(2%N, txt "loop")]))]. split; [exact timely_well|]. split; [now left|]. repeat split; auto.
Qed.

(** Two viewers: the second began to stop when no process was known yet, and puts its (empty) mapping in place after the first has collected the
    names. *)
Definition crossing : list label :=
  [new7; Open; Open; Start 1; Finish 1; Manage] ++ Start 0 :: [Deliver 0 data7] ++ Finish 0 :: [Ask 0 None; Swap 0; Swap 1; Convert 0; Ask 0 None] ++ [Send 0].
Theorem another_viewer : exists h w es im es' im' w', (forall l, In l h -> match l with End _ => False | Ask _ (Some _) => False | _ => True end) /\
  run h w0 = Some w /\ last_sent 0 w es im /\ map (fun e => (en_pid e, en_name e)) es = [(7%Z, txt "Unknown 0x5")] /\
  run (filter (fun l => match l with Swap 1 => false | _ => true end) h) w0 = Some w' /\ last_sent 0 w' es' im' /\ map (fun e => (en_pid e, en_name e)) es' = [(7%Z, txt "work")].
Proof.
  destruct (shown_run 0 crossing [(7%Z, txt "Unknown 0x5")] [(7%Z, (txt "app", [(1%N, txt "main")]))]) as (w & es & H1 & H2 & H3); [vm_compute; reflexivity|].
  destruct (shown_run 0 (filter (fun l => match l with Swap 1 => false | _ => true end) crossing) [(7%Z, txt "work")] [(7%Z, (txt "app", [(1%N, txt "main")]))]) as (w' & es' & H1' & H2' & H3'); [vm_compute; reflexivity|].
  exists crossing, w, es, [(7%Z, (txt "app", [(1%N, txt "main")]))], es', [(7%Z, (txt "app", [(1%N, txt "main")]))], w'.
  split; [|repeat split; auto]. intros l Hl. clear - Hl. unfold crossing in Hl. ins; subst l; exact Logic.I.
Qed.

(** A history that meets the hypotheses of [survives], [sent_data] and [sent_names]: process 7 has ended and that was dealt with, process 8 is
    still there and connected. *)
Example timely_sent : exists w1 w, run (([new7; new8; Manage; Open] ++ Start 0 :: ([Deliver 0 data7; Deliver 1 data8] ++ [End 0; Notice 0; Manage]))) w0 = Some w1 /\
  run (Finish 0 :: [Ask 0 None; Swap 0; Convert 0; Ask 0 None] ++ [Send 0]) w1 = Some w /\ keeps_recording 0 ([Deliver 0 data7; Deliver 1 data8] ++ [End 0; Notice 0; Manage]) /\
  undisturbed 0 [Ask 0 None; Swap 0; Convert 0; Ask 0 None] /\ in_time 0 [Ask 0 None; Swap 0; Convert 0; Ask 0 None] /\ connected 1 w1 /\ up 1 w = true /\
  delivered ([Deliver 0 data7; Deliver 1 data8] ++ [End 0; Notice 0; Manage]) = [data7; data8].
Proof.
  eexists. eexists. split; [vm_compute; reflexivity|]. split; [vm_compute; reflexivity|]. split; [split; intros H; ins|].
  split; [intros u H; ins; congruence|]. split; [intros late H; ins; congruence|]. split; [exists 1; split; [now left|reflexivity]|]. split; reflexivity.
Qed.
Example timely_shown : shown 0 timely = Some ([(7%Z, txt "Unknown 0x5"); (8%Z, txt "play")], [(8%Z, (txt "game", [(2%N, txt "loop")]))]).
Proof. vm_compute. reflexivity. Qed.
(** With the process still there, its names are shown. *)
Example all_there : shown 0 (start2 ++ [Finish 0; Ask 0 None; Ask 0 None; Swap 0; Convert 0; Ask 0 None; Ask 0 None; Send 0; End 0])
  = Some ([(7%Z, txt "work"); (8%Z, txt "play")], [(7%Z, (txt "app", [(1%N, txt "main")])); (8%Z, (txt "game", [(2%N, txt "loop")]))]).
Proof. vm_compute. reflexivity. Qed.
(** [never_sent]: the hypotheses hold after [unseen] up to the end of the process. *)
Example doomed_case : exists w w', run (start2 ++ [End 0]) w0 = Some w /\ connected 0 w /\ up 0 w = false /\ run (Finish 0 :: [Notice 0; Manage; Ask 0 None]) w = Some w' /\ w_fate w' = Terminated.
Proof. eexists. eexists. split; [vm_compute; reflexivity|]. split; [exists 0; split; [now left|reflexivity]|]. split; [reflexivity|]. split; vm_compute; reflexivity. Qed.
