(** Cases for C94. *)
From Coq Require Import String List Arith NArith ZArith Ascii Bool Lia Floats.SpecFloat.
Import ListNotations.
From Verif Require Import Native_spec Str_model Ctf_model Ctf_spec Ctf_proofs Names_model Native_model Lttng_model Lttng_spec Lttng_proofs Flow_model Flow_spec Flow_proofs.
From Verif Require Lines_spec Lines_proofs.
Local Notation length := List.length.

Definition strtod12 (t : str) : real_result spec_float := if str_eqb t (txt "1.0") then DValue one else DValue two.
Definition printed_begin : printed :=
  {| p_time := txt "1.0"; p_host := txt "eagle"; p_domain := txt "scalopus_scope_id"; p_name := txt "scope_entry"; p_stream := [(txt "cpu_id", FInt 2)];
     p_context := [(txt "vpid", FInt 7); (txt "pthread_id", FInt 40)]; p_data := [(txt "id", FInt 3)] |}.
Lemma printed_begin_ok : good printed_begin /\ prints (act one 7 3 KBegin) printed_begin.
Proof.
  split.
  - do 4 (split; [avoid|]).
    assert (G : forall fs, Forall good_field fs -> NoDup (map fst fs) -> good_fields fs) by (intros; split; assumption).
    split; [|split]; apply G; try (repeat (apply NoDup_cons; [cbn [map fst In]; intuition discriminate|]); apply NoDup_nil);
    repeat apply Forall_cons; try apply Forall_nil; (split; [discriminate|split; [avoid|cbn [snd]; first [split; [discriminate|reflexivity] | avoid]]]).
  - unfold prints. cbn [d_kind act kind_name p_domain p_name p_context p_data printed_begin d_pid d_tid d_id]. repeat split; cbn; auto; try lia; discriminate.
Qed.
Definition line_b : str := line_text printed_begin ++ [Q.nl].
Definition line_c : str := line_text printed_count ++ [Q.nl].
Definition line_o : str := txt "[1.0] eagle sched:switch: { }, { }, { next = 4 }" ++ [Q.nl].
Notation P := (parser strtod12 false).

Lemma line_b_of : line_of strtod12 false line_b (Some (act one 7 3 KBegin)).
Proof. exists printed_begin. destruct printed_begin_ok as (A & B). split; [exact A|]. split; [exact B|]. split; [reflexivity|]. split; [vm_compute; discriminate|reflexivity]. Qed.
Lemma line_c_of : line_of strtod12 false line_c (Some (act two 7 1 (KCount (-5)))).
Proof. exists printed_count. destruct printed_count_ok as (A & B). split; [exact A|]. split; [exact B|]. split; [reflexivity|]. split; [vm_compute; discriminate|reflexivity]. Qed.
Lemma line_o_of : line_of strtod12 false line_o None.
Proof. intros e H. vm_compute in H. injection H as <-. discriminate. Qed.
Definition whole_b (l : str) : bool :=
  negb (existsb (Ascii.eqb Q.nl) (removelast l)) && negb (existsb (Ascii.eqb (ascii_of_N 0)) (removelast l)) && (N.of_nat (length l) <=? 1023)%N && Ascii.eqb (last l "a"%char) Q.nl.
Lemma existsb_not c l : existsb (Ascii.eqb c) l = false -> ~ In c l.
Proof. intros H I. assert (existsb (Ascii.eqb c) l = true) by (apply existsb_exists; exists c; split; [exact I|apply Ascii.eqb_refl]). congruence. Qed.
Lemma whole_ok l : whole_b l = true -> Lines_spec.whole_line l.
Proof.
  unfold whole_b. rewrite !andb_true_iff, !negb_true_iff, N.leb_le. intros (((H1 & H2) & H3) & H4). apply Ascii.eqb_eq in H4. exists (removelast l). split; [|split; [now apply existsb_not|split; [|now apply existsb_not]]].
  - destruct l as [|a l]; [discriminate H4|]. rewrite <- H4. apply app_removelast_last. discriminate.
  - assert (R : N.of_nat Q.room = 1023%N) by (vm_compute; reflexivity). lia.
Qed.

Definition once : list flabel := [FLook; FTest; FCall; FReturn].
Definition got (n : nat) : list flabel := [FRead; FTake] ++ concat (repeat once n) ++ [FLook].
(** A line before anything is recorded; sources 0 and 5 record two lines of scalopus and one of something else; then only source 5. *)
Definition hist1 : list flabel := [FPrint line_c; FRead; FTake].
Definition hist2 : list flabel := [FStart 5 0; FPrint line_c] ++ got 2 ++ [FPrint line_o] ++ got 2 ++ [FPrint line_b] ++ got 2.
Definition hist3 : list flabel := [FPrint line_b] ++ [FRead; FTake; FLook; FTest; FNull 0; FCall; FReturn; FLook; FLook].
Definition state_of {E} (r : fresult E) : flow E := match r with FNext s => s | _ => flow0 end.
Definition fine {E} (r : fresult E) : bool := match r with FNext _ => true | _ => false end.
Lemma fine_ok {E} (r : fresult E) : fine r = true -> r = FNext (state_of r).
Proof. destruct r; cbn; congruence. Qed.
Definition st1 := state_of (frun P hist1 flow0).
Definition st2 := state_of (frun P (FStart 0 0 :: hist2) st1).
Definition st3 := state_of (frun P (FDeact 0 :: hist3) st2).
Definition caught {E} (s : flow E) : bool :=
  match Q.q_pipe (f_q s), Q.q_buf (f_q s), Q.q_part (f_q s), f_wait s, D.d_phase (f_d s) with [], [], None, None, D.Idle => true | _, _, _, _, _ => false end.
Lemma caught_ok {E} (s : flow E) : caught s = true -> caught_up s.
Proof.
  unfold caught, caught_up. destruct (Q.q_pipe (f_q s)); try discriminate. destruct (Q.q_buf (f_q s)); try discriminate. destruct (Q.q_part (f_q s)); try discriminate. destruct (f_wait s); try discriminate. destruct (D.d_phase (f_d s)); try discriminate. auto.
Qed.
Example flow_case :
  frun P hist1 flow0 = FNext st1 /\ frun P (FStart 0 0 :: hist2) st1 = FNext st2 /\ frun P (FDeact 0 :: hist3) st2 = FNext st3 /\
  leaves 0 hist2 /\ not_again 0 hist3 /\ caught_up st1 /\ caught_up st2 /\
  Forall Lines_spec.whole_line ([line_c] ++ [line_c; line_o; line_b]) /\ output hist1 false = concat [line_c] /\ output (hist1 ++ FStart 0 0 :: hist2) false = concat ([line_c] ++ [line_c; line_o; line_b]) /\
  Forall2 (line_of strtod12 false) [line_c; line_o; line_b] [Some (act two 7 1 (KCount (-5))); None; Some (act one 7 3 KBegin)] /\
  length (f_events st3 0) = 3 /\ length (f_events st3 5) = 4.
Proof.
  assert (NI : forall x : flabel, In x hist2 -> forall k, (exists a, x = FStart k a) \/ x = FDeact k \/ x = FNull k -> k = 5).
  { intros x Hx k Hk. revert Hx. cbn -[line_b line_c line_o]. intros Hx. repeat destruct Hx as [<-|Hx]; try contradiction; destruct Hk as [(a & Hk)|[Hk|Hk]]; try discriminate; injection Hk; auto. }
  split; [unfold st1; apply fine_ok; vm_compute; reflexivity|]. split; [unfold st2; apply fine_ok; vm_compute; reflexivity|]. split; [unfold st3; apply fine_ok; vm_compute; reflexivity|].
  split; [intros a; split; [|split]; intros I; assert (0 = 5) as Z by (apply (NI _ I 0); eauto); discriminate Z|].
  split. { intros a. cbn -[line_b]. intros I. repeat destruct I as [I|I]; try discriminate; contradiction. }
  split; [apply caught_ok; vm_compute; reflexivity|]. split; [apply caught_ok; vm_compute; reflexivity|].
  split. { repeat apply Forall_cons; try apply Forall_nil; apply whole_ok; vm_compute; reflexivity. }
  split; [vm_compute; reflexivity|]. split; [vm_compute; reflexivity|].
  split. { repeat apply Forall2_cons; try apply Forall2_nil; [exact line_c_of|exact line_o_of|exact line_b_of]. }
  split; vm_compute; reflexivity.
Qed.

(** Two lines printed at once. *)
Definition burst : list flabel := [FStart 0 0; FPrint (line_b ++ line_c)] ++ got 1.
Definition later : list flabel := [FDeact 0; FNull 0; FStart 0 0; FPrint line_b] ++ [FRead; FTake; FLook; FTest; FCall; FReturn; FLook; FLook].
Definition stb := state_of (frun P burst flow0).
Lemma reads_nothing n : frun P (repeat FRead n) stb = FNext stb.
Proof.
  assert (H : fstep P FRead stb = FNext stb) by (vm_compute; reflexivity). induction n as [|n IH]; [reflexivity|]. cbn [repeat frun]. rewrite H. exact IH.
Qed.
Lemma burst_lemma : exists b c db dc, line_of strtod12 false b (Some db) /\ line_of strtod12 false c (Some dc) /\ Forall Lines_spec.whole_line [b; c] /\ db <> dc /\
  forall n, exists s s', frun P (([FStart 0 0; FPrint (b ++ c)] ++ got 1) ++ repeat FRead n) flow0 = FNext s /\ frun P ([FDeact 0; FNull 0; FStart 0 0; FPrint b] ++ [FRead; FTake; FLook; FTest; FCall; FReturn; FLook; FLook]) s = FNext s' /\
    map P [b] = map Some (f_events s 0) /\ map P [c] = map Some (f_events s' 0).
Proof.
  exists line_b, line_c, (act one 7 3 KBegin), (act two 7 1 (KCount (-5))). split; [exact line_b_of|]. split; [exact line_c_of|]. split. { repeat apply Forall_cons; try apply Forall_nil; apply whole_ok; vm_compute; reflexivity. }
  split; [discriminate|]. intros n. exists stb, (state_of (frun P later stb)). split.
  - rewrite frun_app. change ([FStart 0 0; FPrint (line_b ++ line_c)] ++ got 1) with burst. assert (Hb : frun P burst flow0 = FNext stb) by (unfold stb; apply fine_ok; vm_compute; reflexivity). rewrite Hb. exact (reads_nothing n).
  - split; [apply (fine_ok (frun P later stb)); vm_compute; reflexivity|]. split; vm_compute; reflexivity.
Qed.
Lemma race_lemma : exists b d, line_of strtod12 false b (Some d) /\ Lines_spec.whole_line b /\
  frun P [FStart 0 0; FPrint b; FRead; FTake; FLook; FTest; FDeact 0; FNull 0; FCall] flow0 = FCrash /\ frun P [FStart 0 0; FPrint b; FRead; FTake; FLook; FTest; FCall; FDeact 0; FNull 0] flow0 = FCrash.
Proof.
  exists line_b, (act one 7 3 KBegin). split; [exact line_b_of|]. split; [apply whole_ok; vm_compute; reflexivity|]. split; vm_compute; reflexivity.
Qed.
(** A line which cannot be parsed ends the program, but only while something is recorded. *)
Lemma garbage_lemma : exists l, Lines_spec.whole_line l /\ fine (frun P [FPrint l; FRead; FTake] flow0) = true /\ frun P [FStart 0 0; FPrint l; FRead; FTake] flow0 = FCrash.
Proof. exists (txt "[1.0] eagle sched:switch: { }, { }, { next = 99999999999999999999 }" ++ [Q.nl]). split; [apply whole_ok; vm_compute; reflexivity|]. split; vm_compute; reflexivity. Qed.
