(** Concrete recordings: one that is printed, one that is lost, one that ends in the middle. *)
From Coq Require Import String List Arith NArith ZArith Ascii Bool Lia Floats.SpecFloat.
Import ListNotations.
From Verif Require Import OMap_model Json_model Json_spec PyJson_model TraceEvent_model Names_model Native_model Ended_model Ended_spec Ended_proofs Ended_witness Record_model Record_spec Record_proofs.
Local Open Scope nat_scope.

(** Numbers are written "10.0" and "20.0" here. *)
Definition ten : spec_float := ts_of 10000.
Definition twenty : spec_float := ts_of 20000.
Definition fw1 (f : spec_float) : bytes := if SFeqb f ten then text "10.0" else text "20.0".
Definition fr1 (t : bytes) : option spec_float :=
  match t with c :: _ => if Ascii.eqb c "1"%char then Some ten else Some twenty | [] => None end.
Lemma ten_ok : float_ok fw1 fr1 (ts_of 10000).
Proof. split; [vm_compute; reflexivity|]. exists false, (text "10"), (text ".0"). split; [vm_compute; reflexivity|discriminate]. Qed.
Lemma twenty_ok : float_ok fw1 fr1 (ts_of 20000).
Proof. split; [vm_compute; reflexivity|]. exists false, (text "20"), (text ".0"). split; [vm_compute; reflexivity|discriminate]. Qed.
Lemma data7_fits : chunk_fits fw1 fr1 data7.
Proof. split; [unfold int32; cbn; lia|]. constructor; [|constructor]. split; [unfold word; cbn; lia|]. constructor; [|constructor]. split; [exact ten_ok|exact Logic.I]. Qed.
Lemma data8_fits : chunk_fits fw1 fr1 data8.
Proof. split; [unfold int32; cbn; lia|]. constructor; [|constructor]. split; [unfold word; cbn; lia|]. constructor; [|constructor]. split; [exact twenty_ok|exact Logic.I]. Qed.
Ltac each := repeat first [apply Forall_nil|apply Forall_cons].
Ltac fits := cbn [app]; each; cbn [label_fits]; first [exact Logic.I|exact data7_fits|exact data8_fits|
  split; [unfold int32; lia|]; split; [each; reflexivity|]; split; [reflexivity|]; each; split; [unfold word; cbn [fst]; lia|reflexivity]].

(** A name outside ASCII: e with an acute accent, U+00E9, and a character beyond the first 65536, U+1F600. *)
Definition cafe : bytes := text "caf" ++ [ch 195; ch 169] ++ [ch 240; ch 159; ch 152; ch 128].
Definition before : list label := [New 7 [(5%N, cafe)] (text "a""b") [(1%N, text "main")]; new8; Manage; Open].
Definition during : list label := [Deliver 0 data7; Deliver 1 data8].
Definition after : list label := [Ask 0 None; Ask 0 None; Swap 0; Convert 0; Ask 0 None; Ask 0 None].
Lemma before_fits : Forall (label_fits fw1 fr1) (before ++ Start 0 :: during).
Proof. unfold before, during, new8. fits. Qed.
Lemma after_fits : Forall (label_fits fw1 fr1) (Finish 0 :: after).
Proof. unfold after. fits. Qed.
Definition nl : bytes := [ch 10].
Definition file : bytes :=
  text "[" ++ nl ++
  text "{""cat"": ""PERF"", ""name"": ""caf\u00e9\ud83d\ude00"", ""ph"": ""B"", ""pid"": 7, ""tid"": 1, ""ts"": 10.0}," ++ nl ++
  text "{""cat"": ""PERF"", ""name"": ""play"", ""ph"": ""B"", ""pid"": 8, ""tid"": 2, ""ts"": 20.0}," ++ nl ++
  text "{""args"": {""name"": ""a\""b""}, ""name"": ""process_name"", ""ph"": ""M"", ""pid"": 7, ""tid"": 0}," ++ nl ++
  text "{""args"": {""name"": ""main""}, ""name"": ""thread_name"", ""ph"": ""M"", ""pid"": 7, ""tid"": 1}," ++ nl ++
  text "{""args"": {""name"": ""game""}, ""name"": ""process_name"", ""ph"": ""M"", ""pid"": 8, ""tid"": 0}," ++ nl ++
  text "{""args"": {""name"": ""loop""}, ""name"": ""thread_name"", ""ph"": ""M"", ""pid"": 8, ""tid"": 2}]".
Definition shown_file (fw : spec_float -> bytes) (b : bool) (v : nat) (h : list label) : option (bytes * ending) := option_map (printed fw b v) (run h w0).
Example printed_file : shown_file fw1 false 0 (before ++ Start 0 :: during ++ Finish 0 :: after ++ [Send 0]) = Some (file, Normal).
Proof. vm_compute. reflexivity. Qed.
(** The hypotheses of [recorded] are met by it. *)
Example recorded_case : exists w1 w, run (before ++ Start 0 :: during) w0 = Some w1 /\ run (Finish 0 :: after ++ [Send 0]) w1 = Some w /\
  keeps_recording 0 during /\ ~ In (Send 0) after /\ printed fw1 false 0 w = (file, Normal).
Proof.
  pose proof printed_file as H. unfold shown_file in H. change (before ++ Start 0 :: during ++ Finish 0 :: after ++ [Send 0]) with ((before ++ Start 0 :: during) ++ Finish 0 :: after ++ [Send 0]) in H.
  destruct (run ((before ++ Start 0 :: during) ++ Finish 0 :: after ++ [Send 0]) w0) as [w|] eqn:E; [|discriminate].
  destruct (run_app _ _ _ _ E) as (w1 & E1 & E2). exists w1, w. split; [exact E1|]. split; [exact E2|]. split; [split; cbn; intuition discriminate|]. split; [cbn; intuition discriminate|].
  cbn [option_map] in H. congruence.
Qed.

(** A process has ended just before: data of both had come in, and the file is an empty list. *)
Definition stopped : list label := start2 ++ [End 0].
Theorem record_lost : exists h h' w w', Forall (label_fits fw1 fr1) (h ++ h') /\ delivered h = [data7; data8] /\ run h w0 = Some w /\ run (Finish 0 :: h') w = Some w' /\
  w_fate w' = Terminated /\ forall fw b, printed fw b 0 w' = (text "[" ++ nl ++ text "]", Normal).
Proof.
  exists stopped, [Ask 0 None]. destruct (run stopped w0) as [w|] eqn:E; [|vm_compute in E; discriminate]. exists w.
  assert (G : exists w', run (Finish 0 :: [Ask 0 None]) w = Some w' /\ w_fate w' = Terminated /\ what_native 0 w' = None).
  { assert (K : match run stopped w0 with
                | Some w => match run (Finish 0 :: [Ask 0 None]) w with
                            | Some w' => match w_fate w', what_native 0 w' with Terminated, None => true | _, _ => false end
                            | None => false
                            end
                | None => false
                end = true) by (vm_compute; reflexivity).
    rewrite E in K. destruct (run (Finish 0 :: [Ask 0 None]) w) as [w'|]; [|discriminate]. exists w'. split; [reflexivity|].
    destruct (w_fate w'); [discriminate K| |discriminate K]. destruct (what_native 0 w'); [discriminate K|]. auto. }
  destruct G as (w' & G1 & G2 & G3). exists w'. split; [unfold stopped, start2, new7, new8; fits|]. split; [reflexivity|]. split; [reflexivity|]. split; [exact G1|]. split; [exact G2|].
  intros fw b. unfold printed. rewrite G3. reflexivity.
Qed.

(** A name that is not UTF-8, of one thing in one of the processes. *)
Definition latin : list label := [New 7 [(5%N, text "caf" ++ [ch 233])] (text "app") []; new8; Manage; Open; Start 0] ++ during ++ Finish 0 :: after ++ [Send 0].
Theorem record_cut : exists w, run latin w0 = Some w /\ w_fate w = Running /\ delivered latin = [data7; data8] /\
  forall fw, printed fw false 0 w = (text "[" ++ nl, Traceback) /\ (forall fr, parse fr (text "[" ++ nl) = @None (json spec_float)) /\
             printed fw true 0 w = (text "[" ++ nl ++ text "]", Normal).
Proof.
  assert (K : match run latin w0 with
              | Some w => match w_fate w, what_native 0 w with
                          | Running, Some l => match all to_py l with None => true | Some _ => false end
                          | _, _ => false
                          end
              | None => false
              end = true) by (vm_compute; reflexivity).
  destruct (run latin w0) as [w|] eqn:E; [|discriminate]. exists w. split; [reflexivity|]. destruct (w_fate w); [|discriminate K|discriminate K]. split; [reflexivity|]. split; [reflexivity|].
  destruct (what_native 0 w) as [l|] eqn:El; [|discriminate K]. destruct (all to_py l) as [ps|] eqn:Ep; [discriminate K|].
  intros fw. unfold printed. rewrite El. unfold record_output. rewrite Ep. repeat split.
Qed.
