From Coq Require Import String List Arith NArith ZArith Ascii Bool Floats.SpecFloat.
Import ListNotations.
From Verif Require Import Native_spec Str_model Ctf_model Ctf_spec Names_model Native_model Lttng_model Lttng_spec Flow_model Flow_spec Flow_proofs Flow_witness.
From Verif Require Lines_spec.

(** C94. If the reading thread has caught up with what was printed both when source [k] is started and when it is stopped, and nothing crashed, the
    finished interval of the source has one entry for each deed whose line was printed between the two, none for anything else, and each entry
    portrays its deed; other sources may start and stop at any time, and later lines make no difference. *)
Theorem C94_partial : forall strtod early xs1 s1 k at_ xs2 s2 xs3 s3 ls1 ls2 os m,
  frun (parser strtod early) xs1 flow0 = FNext s1 -> frun (parser strtod early) (FStart k at_ :: xs2) s1 = FNext s2 -> frun (parser strtod early) (FDeact k :: xs3) s2 = FNext s3 ->
  leaves k xs2 -> not_again k xs3 -> caught_up s1 -> caught_up s2 ->
  Forall Lines_spec.whole_line (ls1 ++ ls2) -> output xs1 false = concat ls1 -> output (xs1 ++ FStart k at_ :: xs2) false = concat (ls1 ++ ls2) ->
  Forall2 (line_of strtod early) ls2 os ->
  exists res order, lconvert m (f_events s3 k) = FDone res /\ timely order (deeds os) /\ Forall2 (portrays m) order res.
Proof. exact flow_complete. Qed.
Print Assumptions C94_partial.
(** Whatever is still waiting, what the source has collected between two lines is a run of the printed lines, without gaps: those which the reading
    thread took after the start. *)
Theorem C94_sound : forall E (parse : str -> option E) xs1 s1 k at_ xs2 s2 ls,
  frun parse xs1 flow0 = FNext s1 -> frun parse (FStart k at_ :: xs2) s1 = FNext s2 -> leaves k xs2 -> D.d_phase (f_d s2) = D.Idle ->
  Forall Lines_spec.whole_line ls -> output (xs1 ++ FStart k at_ :: xs2) false = concat ls ->
  exists b c, ls = f_lines s1 ++ b ++ c /\ map parse b = map Some (f_events s2 k).
Proof. exact @flow_sound. Qed.
Print Assumptions C94_sound.
(** The reading thread need not catch up, however long one waits: of two lines printed at once the second is missing from the recording during which
    it was printed, and it is in the next one. *)
Theorem C94_refuted : exists b c db dc, line_of strtod12 false b (Some db) /\ line_of strtod12 false c (Some dc) /\ Forall Lines_spec.whole_line [b; c] /\ db <> dc /\
  forall n, exists s s', frun P (([FStart 0 0; FPrint (b ++ c)] ++ got 1) ++ repeat FRead n) flow0 = FNext s /\ frun P ([FDeact 0; FNull 0; FStart 0 0; FPrint b] ++ [FRead; FTake; FLook; FTest; FCall; FReturn; FLook; FLook]) s = FNext s' /\
    map P [b] = map Some (f_events s 0) /\ map P [c] = map Some (f_events s' 0).
Proof. exact burst_lemma. Qed.
Print Assumptions C94_refuted.
(** Stopping while a line is handed over can crash the program. *)
Theorem C94_race_refuted : exists b d, line_of strtod12 false b (Some d) /\ Lines_spec.whole_line b /\
  frun P [FStart 0 0; FPrint b; FRead; FTake; FLook; FTest; FDeact 0; FNull 0; FCall] flow0 = FCrash /\ frun P [FStart 0 0; FPrint b; FRead; FTake; FLook; FTest; FCall; FDeact 0; FNull 0] flow0 = FCrash.
Proof. exact race_lemma. Qed.
Print Assumptions C94_race_refuted.
(** So does a line with a number which is too big, of any trace point, while something is recorded. *)
Theorem C94_garbage_refuted : exists l, Lines_spec.whole_line l /\ fine (frun P [FPrint l; FRead; FTake] flow0) = true /\ frun P [FStart 0 0; FPrint l; FRead; FTake] flow0 = FCrash.
Proof. exact garbage_lemma. Qed.
Print Assumptions C94_garbage_refuted.
