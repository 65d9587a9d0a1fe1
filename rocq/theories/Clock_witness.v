(** Concrete cases for C110 and the counterexamples. *)
From Coq Require Import List Arith NArith ZArith Ascii Bool Floats.SpecFloat Lia.
Import ListNotations.
From Verif Require Import TraceEvent_model Names_model Native_model Native_spec Config_model Config_spec Toggle_spec Clock_model Clock_spec.
Local Open Scope Z_scope.

(** Each event in a message of its own. *)
Definition one_by_one (evs : list rev_t) : list nchunk := map (fun r => {| nc_pid := r_pid r; nc_threads := [(r_tid r, [r_ev r])] |}) evs.
Lemma one_by_one_arrived evs : arrived evs (one_by_one evs).
Proof.
  intros pid tid. f_equal. induction evs as [|[[p t] e] evs IH]; [reflexivity|]. unfold received, one_by_one in *. cbn [map flat_map]. rewrite IH. reflexivity.
Qed.

(** The conditions can be computed. *)
Definition sound_b (l : action) : bool :=
  match l with Trace _ _ type _ v => (1 <=? type)%N && (type <=? 6)%N && match v with None => negb (type =? COUNTER)%N | Some _ => true end | _ => true end.
Lemma sound_ok ls : forallb sound_b ls = true -> sound ls.
Proof.
  intros H pid tid type id v I. rewrite forallb_forall in H. specialize (H _ I). cbn in H. apply andb_true_iff in H as (H & V). apply andb_true_iff in H as (A & B).
  apply N.leb_le in A, B. split; [auto|]. intros -> ->. discriminate V.
Qed.
Fixpoint dated_b (c : Z) (ls : list action) : bool :=
  match ls with
  | [] => true
  | Pass d :: r => dated_b (c + Z.of_N d) r
  | Shift z :: r => dated_b (c + z) r
  | Trace _ _ _ _ _ :: r => (0 <=? c) && (c <? 2 ^ 61) && dated_b c r
  end.
Lemma dated_ok ls : forall c, dated_b c ls = true -> dated c ls.
Proof.
  induction ls as [|x ls IH]; intros c H [|y l1] a l2 E Pa; cbn [app] in E; try discriminate; injection E as -> E.
  - destruct a; try discriminate Pa. cbn [dated_b elapsed shifts] in *. apply andb_true_iff in H as (H & _). apply andb_true_iff in H as (A & B).
    apply Z.leb_le in A. apply Z.ltb_lt in B. lia.
  - destruct y as [d|z|pid tid type id v]; cbn [dated_b elapsed shifts] in *.
    + pose proof (IH _ H l1 a l2 E Pa). lia.
    + pose proof (IH _ H l1 a l2 E Pa). lia.
    + apply andb_true_iff in H as (_ & H). exact (IH _ H l1 a l2 E Pa).
Qed.
Fixpoint after_b (pid : Z) (tid : N) (acc : Z) (ls : list action) : bool :=
  match ls with
  | [] => true
  | x :: r => (negb (is_own pid tid x) || (0 <=? acc)) && after_b pid tid (acc + elapsed [x] + shifts [x]) r
  end.
Fixpoint never_b (pid : Z) (tid : N) (ls : list action) : bool :=
  match ls with [] => true | a :: r => (negb (is_own pid tid a) || after_b pid tid 0 r) && never_b pid tid r end.
Lemma after_ok pid tid b l3 : is_own pid tid b = true -> forall l2 acc, after_b pid tid acc (l2 ++ b :: l3) = true -> 0 <= acc + elapsed l2 + shifts l2.
Proof.
  intros Hb. induction l2 as [|x l2 IH]; intros acc H; cbn [app after_b] in H; apply andb_true_iff in H as (A & B).
  - rewrite Hb in A. apply Z.leb_le in A. cbn. lia.
  - apply IH in B. destruct x; cbn [elapsed shifts] in *; lia.
Qed.
Lemma never_ok pid tid ls : never_b pid tid ls = true -> never_back pid tid ls.
Proof.
  induction ls as [|x ls IH]; intros H [|y l1] a l2 b l3 E Ha Hb; cbn [app] in E; try discriminate; injection E as -> ->;
    cbn [never_b] in H; apply andb_true_iff in H as (A & B).
  - rewrite Ha in A. pose proof (after_ok pid tid b l3 Hb l2 0 A). lia.
  - exact (IH B l1 a l2 b l3 eq_refl Ha Hb).
Qed.

(** In the year 2020. *)
Definition start : Z := 1600000000000000000.
Definition enter (id : N) : action := Trace 100 7 SCOPE_ENTRY id None.
Definition leave (id : N) : action := Trace 100 7 SCOPE_EXIT id None.
Definition us (n : N) : action := Pass (n * 1000).
Definition set_by (n : Z) : action := Shift (n * 1000).

(** A block of 300 us; the clock is set back by a millisecond in it. *)
Definition block : sprog := SScope 1 0 0 SSkip.
Definition back : list action := [enter 1; us 100; set_by (-1000); us 200; leave 1].
Theorem set_back : exists res, sound back /\ dated start back /\ scoped_only block /\ runs 100 7 block back /\ elapsed back = 300000 /\
  arrived (record start back) (one_by_one (record start back)) /\
  finish [] (map CGood (one_by_one (record start back))) = FEntries res /\
  map en_ph res = ["E"%char; "B"%char] /\ blocks block = [(0, 1)%nat] /\ read [] 0 (filter (entry_of 100 7) res) = [].
Proof.
  eexists. split; [apply sound_ok; reflexivity|]. split; [apply dated_ok; vm_compute; reflexivity|]. split; [exact I|]. split; [reflexivity|]. split; [reflexivity|].
  split; [apply one_by_one_arrived|]. split; [vm_compute; reflexivity|]. repeat split.
Qed.

(** Two blocks of 100 us, one after the other; between them the clock is set back by 60 us. *)
Definition two_blocks : sprog := SSeq (SScope 1 0 0 SSkip) (SScope 2 0 0 SSkip).
Definition between_blocks : list action := [enter 1; us 100; leave 1; us 10; set_by (-60); enter 2; us 100; leave 2].
Theorem set_back_between : exists res, sound between_blocks /\ dated start between_blocks /\ scoped_only two_blocks /\ runs 100 7 two_blocks between_blocks /\
  arrived (record start between_blocks) (one_by_one (record start between_blocks)) /\
  (forall l1 a l2 b l3, between_blocks = l1 ++ a :: l2 ++ b :: l3 -> (a = enter 1 /\ b = leave 1) \/ (a = enter 2 /\ b = leave 2) ->
     elapsed l2 = 100000 /\ shifts l2 = 0) /\
  finish [(100, [(1%N, ["1"%char]); (2%N, ["2"%char])])] (map CGood (one_by_one (record start between_blocks))) = FEntries res /\
  map (fun e => (en_ph e, en_name e)) res = [("B", ["1"]); ("B", ["2"]); ("E", ["1"]); ("E", ["2"])]%char /\
  map en_ts res = map (fun t => ts_of (Z.to_N (start + t))) [0; 50000; 100000; 150000] /\
  read [] 0 (filter (entry_of 100 7) res) = [(1, 2); (0, 3)]%nat /\ blocks two_blocks = [(0, 1); (2, 3)]%nat.
Proof.
  eexists. split; [apply sound_ok; reflexivity|]. split; [apply dated_ok; vm_compute; reflexivity|]. split; [repeat constructor|]. split; [reflexivity|].
  split; [apply one_by_one_arrived|]. split.
  - intros l1 a l2 b l3 E H. unfold between_blocks in E.
    assert (Q : forall i j, nth_error between_blocks i = Some a -> nth_error between_blocks j = Some b -> (a = enter 1 /\ b = leave 1) \/ (a = enter 2 /\ b = leave 2) ->
      (i = 0 /\ j = 2)%nat \/ (i = 5 /\ j = 7)%nat).
    { intros i j Hi Hj [[-> ->]|[-> ->]];
      destruct i as [|[|[|[|[|[|[|[|i]]]]]]]]; try discriminate Hi; try (destruct i; discriminate Hi);
      destruct j as [|[|[|[|[|[|[|[|j]]]]]]]]; try discriminate Hj; try (destruct j; discriminate Hj); auto. }
    specialize (Q (length l1) (length l1 + 1 + length l2)%nat). unfold between_blocks in Q. rewrite E in Q.
    destruct Q as [[Q1 Q2]|[Q1 Q2]]; auto.
    + rewrite nth_error_app2, Nat.sub_diag by lia. reflexivity.
    + rewrite nth_error_app2 by lia. replace (length l1 + 1 + length l2 - length l1)%nat with (S (length l2)) by lia. cbn.
      rewrite nth_error_app2, Nat.sub_diag by lia. reflexivity.
    + destruct l1; [|discriminate Q1]. cbn in E. injection E as <- E. destruct l2 as [|x [|y l2]]; cbn in Q2; try lia. injection E as <- <- <-. split; reflexivity.
    + do 5 (destruct l1 as [|? l1]; [discriminate Q1|]). destruct l1; [|discriminate Q1]. cbn in E. injection E as <- <- <- <- <- <- E.
      destruct l2 as [|x [|y l2]]; cbn in Q2; try lia. injection E as <- <- <-. split; reflexivity.
  - split; [vm_compute; reflexivity|]. split; [reflexivity|]. split; [vm_compute; reflexivity|]. split; reflexivity.
Qed.

(** A block of 300 us; the clock is set ahead by an hour in it. *)
Definition ahead : list action := [enter 1; us 100; set_by 3600000000; us 200; leave 1].
Theorem set_ahead : exists res, sound ahead /\ dated start ahead /\ never_back 100 7 ahead /\ scoped_only block /\ runs 100 7 block ahead /\ elapsed ahead = 300000 /\
  arrived (record start ahead) (one_by_one (record start ahead)) /\
  finish [] (map CGood (one_by_one (record start ahead))) = FEntries res /\
  read [] 0 (filter (entry_of 100 7) res) = [(0, 1)%nat] /\
  map en_ts res = map (fun t => ts_of (Z.to_N (start + t))) [0; 3600000300000].
Proof.
  eexists. split; [apply sound_ok; reflexivity|]. split; [apply dated_ok; vm_compute; reflexivity|]. split; [apply never_ok; vm_compute; reflexivity|].
  split; [exact I|]. split; [reflexivity|]. split; [reflexivity|]. split; [apply one_by_one_arrived|].
  split; [vm_compute; reflexivity|]. split; [reflexivity|]. vm_compute. reflexivity.
Qed.

(** The theorems speak of: two threads, a clock that is set ahead in a block, and set back by less than what has passed since the last tracepoint. *)
Definition mixed : list action :=
  [enter 1; us 50; Trace 200 9 MARK_GLOBAL 5 None; set_by 700; us 50; leave 1; us 400; set_by (-300); Trace 200 9 COUNTER 6 (Some 4); enter 2; us 80; leave 2].
Example clock_example : sound mixed /\ dated start mixed /\ never_back 100 7 mixed /\ never_back 200 9 mixed /\ scoped_only two_blocks /\ runs 100 7 two_blocks mixed /\
  arrived (record start mixed) (one_by_one (record start mixed)) /\
  (exists l1 a l2 b l3, mixed = l1 ++ a :: l2 ++ b :: l3 /\ is_point a = true /\ is_point b = true /\ 1000 <= elapsed l2 + shifts l2) /\
  (exists l1 a l2 b l3, back = l1 ++ a :: l2 ++ b :: l3 /\ is_own 100 7 a = true /\ is_own 100 7 b = true /\ elapsed l2 + shifts l2 <= -1000).
Proof.
  split; [apply sound_ok; reflexivity|]. split; [apply dated_ok; vm_compute; reflexivity|]. split; [apply never_ok; vm_compute; reflexivity|].
  split; [apply never_ok; vm_compute; reflexivity|]. split; [repeat constructor|]. split; [reflexivity|]. split; [apply one_by_one_arrived|]. split.
  - exists [], (enter 1), [us 50; Trace 200 9 MARK_GLOBAL 5 None; set_by 700; us 50], (leave 1), [us 400; set_by (-300); Trace 200 9 COUNTER 6 (Some 4); enter 2; us 80; leave 2].
    repeat split; vm_compute; discriminate.
  - exists [], (enter 1), [us 100; set_by (-1000); us 200], (leave 1), []. repeat split; vm_compute; discriminate.
Qed.
