(** C102: cases, and what is not so. *)
From Coq Require Import String List Arith NArith ZArith Ascii Bool Lia Reals Lra Floats.SpecFloat Sorting.Sorted Sorting.Permutation.
Import ListNotations.
From Flocq Require Import Core.Core IEEE754.BinarySingleNaN.
From Verif Require Import UnixSystem_model OMap_model TraceEvent_model Names_model Native_model Native_spec Native_proofs FloatTime_proofs.
From Verif Require Import Json_model Str_model Ctf_model Ctf_spec Ctf_proofs Lttng_model Lttng_spec Lttng_proofs LttngTime_proofs Config_model Tracers_model Tracers_spec Tracers_proofs TracersRec_proofs.
Local Open Scope nat_scope.
Local Open Scope list_scope.
Local Notation length := List.length.

Lemma double_one : double_of one 1%R.
Proof.
  assert (E : SF2R radix2 one = 1%R) by (unfold one; replace (to_double 1) with (S754_finite false 4503599627370496 (-52)) by (vm_compute; reflexivity); cbn; unfold F2R; cbn; lra).
  split; [vm_compute; reflexivity|]. split; [vm_compute; reflexivity|]. rewrite E. symmetry. apply round_generic; auto with typeclass_instances.
  change 1%R with (bpow radix2 0). apply generic_format_bpow. vm_compute. discriminate.
Qed.
Lemma double_two : double_of two 2%R.
Proof.
  assert (E : SF2R radix2 two = 2%R) by (unfold two; replace (to_double 2) with (S754_finite false 4503599627370496 (-51)) by (vm_compute; reflexivity); cbn; unfold F2R; cbn; lra).
  split; [vm_compute; reflexivity|]. split; [vm_compute; reflexivity|]. rewrite E. symmetry. apply round_generic; auto with typeclass_instances.
  change 2%R with (bpow radix2 1). apply generic_format_bpow. vm_compute. discriminate.
Qed.
Definition at_one (p : N) (x : tpoint) : happening := {| h_pid := p; h_tid := 40; h_time := 1000000000; h_point := x |}.
Definition at_two (p : N) (x : tpoint) : happening := {| h_pid := p; h_tid := 40; h_time := 2000000000; h_point := x |}.
Lemma told_one e p x : tells e (act one p (point_id x) (point_kind x)) -> told e (at_one p x).
Proof. intro T. exists (act one p (point_id x) (point_kind x)). split; [|exact T]. constructor; try reflexivity. cbn [act d_time h_time at_one]. replace (IZR (Z.of_N 1000000000) / 1000000000)%R with 1%R by (cbn; lra). exact double_one. Qed.
Lemma told_two e p x : tells e (act two p (point_id x) (point_kind x)) -> told e (at_two p x).
Proof. intro T. exists (act two p (point_id x) (point_kind x)). split; [|exact T]. constructor; try reflexivity. cbn [act d_time h_time at_two]. replace (IZR (Z.of_N 2000000000) / 1000000000)%R with 2%R by (cbn; lra). exact double_two. Qed.

(** Two processes, each with a counter of the same name. *)
Definition two_counters : list happening := [at_one 7 (TpCount 1 5); at_two 8 (TpCount 1 6)].
Definition two_chunks : list nchunk := [{| nc_pid := 7; nc_threads := [(40%N, [event_of (TpCount 1 5) 1000000000])] |}; {| nc_pid := 8; nc_threads := [(40%N, [event_of (TpCount 1 6) 2000000000])] |}].
Lemma two_told : Forall2 told (ours mixed) two_counters.
Proof. pose proof mixed_tells as M. inversion M as [|? ? ? ? M1 M2]; subst. inversion M2 as [|? ? ? ? M3 M4]; subst. inversion M4; subst. constructor; [exact (told_one _ 7 (TpCount 1 5) M1)|]. constructor; [exact (told_two _ 8 (TpCount 1 6) M3)|constructor]. Qed.
Lemma two_sensible : Forall sensible two_counters /\ apart two_counters /\ StronglySorted before two_counters.
Proof.
  split; [|split].
  - constructor; [split; [cbn; lia|intros id v E; injection E as <- <-; lia]|]. constructor; [split; [cbn; lia|intros id v E; injection E as <- <-; lia]|constructor].
  - constructor; [constructor; [left; cbn; lia|constructor]|]. constructor; [constructor|constructor].
  - constructor; [constructor; constructor|]. constructor; [unfold before; cbn; lia|constructor].
Qed.
Lemma counters_refuted : ~ forall m cs es hs, received cs = map natively hs -> Forall2 told (ours es) hs -> apart hs -> Forall sensible hs -> StronglySorted before hs ->
  forall res res', finish m (map CGood cs) = FEntries res -> lconvert m es = FDone res' -> Forall2 (fun e f => en_args e <> None -> same_values e f) res res'.
Proof.
  intro H. destruct two_sensible as (S1 & S2 & S3).
  assert (E1 : exists r1 r2, finish names_78 (map CGood two_chunks) = FEntries [r1; r2] /\ exists a, en_args r2 = Some a /\ mfind str_ltb (txt "a") a = None).
  { eexists _, _. split; [vm_compute; reflexivity|]. eexists. split; vm_compute; reflexivity. }
  assert (E2 : exists r1 r2, lconvert names_78 mixed = FDone [r1; r2] /\ exists a, en_args r2 = Some a /\ mfind str_ltb (txt "a") a = Some 5%Z).
  { eexists _, _. split; [vm_compute; reflexivity|]. eexists. split; vm_compute; reflexivity. }
  destruct E1 as (r1 & r2 & F1 & a & A1 & A2). destruct E2 as (q1 & q2 & F2 & b & B1 & B2).
  specialize (H names_78 two_chunks mixed two_counters eq_refl two_told S2 S1 S3 _ _ F1 F2). inversion H as [|? ? ? ? _ H2]; subst. inversion H2 as [|? ? ? ? H3 _]; subst.
  destruct H3 as (a' & b' & X & Y & Z); [rewrite A1; discriminate|]. rewrite A1 in X. rewrite B1 in Y. injection X as <-. injection Y as <-. specialize (Z (txt "a")). rewrite A2, B2 in Z. discriminate Z.
Qed.
(** For each of them alone the theorem tells everything, and the whole meets its hypotheses. *)
Example two_counters_case : exists res res' order, finish names_78 (map CGood two_chunks) = FEntries res /\ lconvert names_78 mixed = FDone res' /\ length res = 2 /\
  Permutation order two_counters /\ forall i e f, nth_error res i = Some e -> nth_error res' i = Some f -> alike e f.
Proof.
  destruct two_sensible as (S1 & S2 & S3). destruct (recording names_78 two_chunks mixed two_counters two_counters eq_refl two_told (Permutation_refl _) S2 S1) as (res & res' & order & E1 & E2 & P & _ & L1 & L2 & F).
  exists res, res', order. split; [exact E1|]. split; [exact E2|]. split; [rewrite L1, (Permutation_length P); reflexivity|]. split; [exact P|].
  intros i e f He Hf. assert (Hi : i < length order) by (rewrite <- L1; apply nth_error_Some; congruence).
  destruct (nth_error order i) as [h|] eqn:Eh; [|apply nth_error_None in Eh; lia]. exact (proj1 (F i h e f Eh He Hf)).
Qed.

(** One process: a scope, and a counter with two values; the events of LTTng arrive in another order. *)
Definition names_7 : mapping := [(7%Z, [(1%N, txt "load/a"); (3%N, txt "scope")])].
Definition one_process : list happening := [at_one 7 (TpEntry 3); at_two 7 (TpCount 1 (-5))].
Definition one_chunk : list nchunk := [{| nc_pid := 7; nc_threads := [(40%N, [event_of (TpEntry 3) 1000000000; event_of (TpCount 1 (-5)) 2000000000])] |}].
Definition one_events : list (event spec_float) := [ctf two 7 1 "count_event" (Some 18446744073709551611%N); event0 (txt "rubbish"); ctf one 7 3 "scope_entry" None].
Definition one_arrival : list happening := [at_two 7 (TpCount 1 (-5)); at_one 7 (TpEntry 3)].
Example one_process_case : received one_chunk = map natively one_process /\ Forall2 told (ours one_events) one_arrival /\ Permutation one_process one_arrival /\ apart one_process /\ Forall sensible one_process /\
  only_process names_7 7 (txt "load") one_process /\ in_time (native_counter names_7 7 (txt "load")) one_process /\ in_time (native_counter names_7 7 (txt "load")) one_arrival /\
  native_counter names_7 7 (txt "load") (at_two 7 (TpCount 1 (-5))) = true.
Proof.
  split; [reflexivity|]. split.
  { replace (ours one_events) with [ctf two 7 1 "count_event" (Some 18446744073709551611%N); ctf one 7 3 "scope_entry" None] by (vm_compute; reflexivity).
    constructor; [apply told_two; refine (ctf_tells two 7 1 (KCount (-5)) _ _ _ _); [vm_compute; discriminate|lia|lia|intros z E; injection E as <-; lia]|].
    constructor; [apply told_one; refine (ctf_tells one 7 3 KBegin _ _ _ _); [vm_compute; discriminate|lia|lia|intros z E; discriminate E]|constructor]. }
  split; [constructor|]. split; [constructor; [constructor; [left; cbn; lia|constructor]|constructor; constructor]|].
  split; [constructor; [split; [cbn; lia|intros id v E; discriminate E]|constructor; [split; [cbn; lia|intros id v E; injection E as <- <-; lia]|constructor]]|].
  split; [constructor; [intros _; reflexivity|constructor; [intros _; reflexivity|constructor]]|].
  unfold in_time.
  replace (filter (native_counter names_7 7 (txt "load")) one_process) with [at_two 7 (TpCount 1 (-5))] by (vm_compute; reflexivity).
  replace (filter (native_counter names_7 7 (txt "load")) one_arrival) with [at_two 7 (TpCount 1 (-5))] by (vm_compute; reflexivity).
  split; [repeat constructor|]. split; [repeat constructor|]. vm_compute; reflexivity.
Qed.

(** A line as it is printed, and read. *)
Definition reader (s : str) : real_result spec_float := if list_eq_dec ascii_dec s (txt "1.000000000") then DValue one else DValue two.
Example line_text_case : line_text (printed_of (txt "host") 2 7 40 (lttng_event_of (TpCount 1 (-5)) 1000000000)) =
  txt "[1.000000000] host scalopus_scope_id:count_event: { cpu_id = 2 }, { vpid = 7, pthread_id = 40 }, { id = 1, value = -5 }".
Proof. vm_compute. reflexivity. Qed.
Example line_case : exists e, parse reader true (line_text (printed_of (txt "host") 2 7 40 (lttng_event_of (TpCount 1 (-5)) 1000000000)) ++ [ascii_of_N 10]) = Done e /\
  told e (at_one 7 (TpCount 1 (-5))) /\ c_domain e = scalopus_domain.
Proof.
  apply (line_told reader true (txt "host") 2 (at_one 7 (TpCount 1 (-5))) one [ascii_of_N 10]).
  - split; [cbn; lia|]. intros id v E. injection E as <- <-. lia.
  - intros c [<-|[]] H. cbn in H. repeat (destruct H as [H|H]; [discriminate H|]). exact H.
  - lia.
  - vm_compute. reflexivity.
  - cbn [h_time at_one]. replace (IZR (Z.of_N 1000000000) / 1000000000)%R with 1%R by (cbn; lra). exact double_one.
  - now right.
Qed.
(** The time of a moment shortly after the start of a day. *)
Example clock_case : clock_text 1541030400000000042 = txt "1541030400.000000042".
Proof. vm_compute. reflexivity. Qed.

(** A thread that is switched off and on between trace points. *)
Definition some_run : list cfg_label :=
  [GStart 5; GTrace 0 (TpEntry 3) 10 true; GSetThread 0 false; GTrace 0 (TpCount 1 4) 11 true; GRemote (CChange false true [(5, true)]); GTrace 0 (TpMark LProcess 9) 12 true; GTrace 0 (TpExit 3) 13 true].
Example some_run_case : exists c s, grun some_run cfg0 = Some c /\ lttng_run some_run lprog0 = Some s /\
  recorded_natively c 0 [(TpEntry 3, 10%N); (TpMark LProcess 9, 12%N); (TpExit 3, 13%N)] /\ recorded_by_lttng s 0 [(TpEntry 3, 10%N); (TpMark LProcess 9, 12%N); (TpExit 3, 13%N)].
Proof.
  eexists _, _. split; [vm_compute; reflexivity|]. split; [vm_compute; reflexivity|]. split; [eexists; split; vm_compute; reflexivity|vm_compute; reflexivity].
Qed.
Example nop_case : exists c, nop_run some_run cfg0 = Some c /\ length (g_threads c) = 1 /\ Forall (fun t => t_events t = []) (g_threads c).
Proof. eexists. split; [vm_compute; reflexivity|]. split; [reflexivity|]. repeat constructor. Qed.
(** Without trace points a thread that only ran into them is not known to the configuration, and the answer does not list it. *)
Lemma nop_refuted : ~ forall ls c c' r, grun ls cfg0 = Some c -> nop_run ls cfg0 = Some c' -> snd (c_handle r c) = snd (c_handle r c').
Proof. intro H. specialize (H [GStart 5; GTrace 0 (TpEntry 3) 10 true] _ _ CQuery eq_refl eq_refl). vm_compute in H. discriminate H. Qed.

(** Two processes trace within a nanosecond, in 2018; the later event arrives first at the native source. *)
Definition big : spec_float := S754_finite false 6463549970841600 (-22).
Lemma nearby k : (0 <= k < 100)%Z -> double_of big (IZR (1541030400000000000 + k) / 1000000000)%R.
Proof.
  intro Hk. split; [vm_compute; reflexivity|]. split; [reflexivity|]. set (x := (IZR (1541030400000000000 + k) / 1000000000)%R).
  assert (B : (IZR 1541030400000000000 <= IZR (1541030400000000000 + k) <= IZR 1541030400000000000 + 100)%R).
  { rewrite plus_IZR. assert (0 <= IZR k <= 100)%R by (split; apply IZR_le; lia). lra. }
  assert (X : (1541030400 <= x <= 1541030400 + / 10000000)%R) by (unfold x; lra).
  assert (M : mag radix2 x = 31%Z :> Z). { apply mag_unique_pos. change (bpow radix2 (31 - 1)) with 1073741824%R. change (bpow radix2 31) with 2147483648%R. lra. }
  unfold round, scaled_mantissa, cexp. rewrite M. change (SpecFloat.fexp 53 1024 31) with (-22)%Z.
  assert (Z1 : ZnearestE (x * bpow radix2 (- -22)) = 6463549970841600%Z).
  { apply Znearest_imp. change (bpow radix2 (- -22)) with 4194304%R. apply Rabs_def1; lra. }
  rewrite Z1. reflexivity.
Qed.
Definition at_big (p : N) (k : N) (x : tpoint) : happening := {| h_pid := p; h_tid := 40; h_time := (1541030400000000000 + k)%N; h_point := x |}.
Lemma told_big e p k x : (k < 100)%N -> tells e (act big p (point_id x) (point_kind x)) -> told e (at_big p k x).
Proof.
  intros Hk T. exists (act big p (point_id x) (point_kind x)). split; [|exact T]. constructor; try reflexivity. cbn [act d_time h_time at_big].
  replace (Z.of_N (1541030400000000000 + k)) with (1541030400000000000 + Z.of_N k)%Z by lia. apply nearby. lia.
Qed.
Definition close_by : list happening := [at_big 8 1 (TpEntry 1); at_big 7 0 (TpEntry 3)].
Definition close_by' : list happening := [at_big 7 0 (TpEntry 3); at_big 8 1 (TpEntry 1)].
Definition close_chunks : list nchunk :=
  [{| nc_pid := 8; nc_threads := [(40%N, [event_of (TpEntry 1) 1541030400000000001])] |}; {| nc_pid := 7; nc_threads := [(40%N, [event_of (TpEntry 3) 1541030400000000000])] |}].
Definition close_events : list (event spec_float) := [ctf big 7 3 "scope_entry" None; ctf big 8 1 "scope_entry" None].
Lemma close_told : Forall2 told (ours close_events) close_by'.
Proof.
  replace (ours close_events) with close_events by (vm_compute; reflexivity).
  constructor; [apply told_big; [lia|]; refine (ctf_tells big 7 3 KBegin _ _ _ _); [vm_compute; discriminate|lia|lia|intros z E; discriminate E]|].
  constructor; [apply told_big; [lia|]; refine (ctf_tells big 8 1 KBegin _ _ _ _); [vm_compute; discriminate|lia|lia|intros z E; discriminate E]|constructor].
Qed.
Lemma order_refuted : ~ forall m cs es hs hs', received cs = map natively hs -> Forall2 told (ours es) hs' -> Permutation hs hs' -> NoDup (map h_time hs) -> Forall sensible hs ->
  forall res res', finish m (map CGood cs) = FEntries res -> lconvert m es = FDone res' -> Forall2 alike res res'.
Proof.
  intro H.
  assert (E1 : exists r1 r2, finish names_78 (map CGood close_chunks) = FEntries [r1; r2] /\ en_pid r1 = 8%Z) by (eexists _, _; split; vm_compute; reflexivity).
  assert (E2 : exists r1 r2, lconvert names_78 close_events = FDone [r1; r2] /\ en_pid r1 = 7%Z) by (eexists _, _; split; vm_compute; reflexivity).
  destruct E1 as (r1 & r2 & F1 & A1). destruct E2 as (q1 & q2 & F2 & A2).
  assert (X : Forall2 alike [r1; r2] [q1; q2]).
  { apply (H names_78 close_chunks close_events close_by close_by' eq_refl close_told); [constructor| | |exact F1|exact F2].
    - cbn. apply NoDup_cons; [intros [X|[]]; discriminate X|]. apply NoDup_cons; [exact (fun x => x)|constructor].
    - constructor; [split; [cbn; lia|intros id v E; discriminate E]|]. constructor; [split; [cbn; lia|intros id v E; discriminate E]|constructor]. }
  inversion X as [|? ? ? ? K _]; subst. pose proof (al_pid _ _ K). congruence.
Qed.
