(** Whatever bytes are received: what is unpacked is well formed (C73). *)
From Coq Require Import String List Arith NArith ZArith Ascii Bool Lia Sorting.Sorted.
Import ListNotations.
From Verif Require Import Protocol_model Protocol_proofs OMap_model OMap_proofs TraceEvent_model Native_model Names_proofs Cbor_model Cbor_spec Cbor_proofs.
Local Notation length := List.length.

Lemma read_head_bound b m v r : read_head b = Some (m, v, r) -> (v < 2 ^ 64)%N.
Proof.
  unfold read_head. destruct b as [|c b]; [discriminate|].
  assert (HT : forall k x r', take k b = Some (x, r') -> (8 * N.of_nat k <= 64)%N -> (be_decode x < 2 ^ 64)%N).
  { intros k x r' H Hk. unfold take in H. destruct (Nat.leb_spec k (length b)) as [L|L]; [|discriminate H]. injection H as <- _. unfold be_decode.
    pose proof (le_decode_bound (rev (firstn k b))) as B. rewrite rev_length, firstn_length, Nat.min_l in B by exact L.
    eapply N.lt_le_trans; [exact B|]. apply N.pow_le_mono_r; lia. }
  cbv zeta. destruct (N.ltb_spec (N_of_ascii c mod 32) 24) as [L|L]; [intros H; injection H as _ <- _; lia|].
  repeat match goal with |- context [if ?x then _ else _] => destruct x end; try discriminate;
  match goal with |- context [take ?k b] => destruct (take k b) as [(x & r')|] eqn:E; [|discriminate]; intros H; injection H as _ <- _; apply (HT k x r' E); cbn; lia end.
Qed.
Lemma expect_bound m b v r : expect m b = Some (v, r) -> (v < 2 ^ 64)%N.
Proof.
  unfold expect. destruct (read_head b) as [((m' & v') & r')|] eqn:E; [|discriminate]. destruct (m' =? m)%N; [|discriminate]. intros H. injection H as <- _.
  eapply read_head_bound. exact E.
Qed.
Lemma read_uint_bound bits b v r : read_uint bits b = Some (v, r) -> (v < 2 ^ bits)%N.
Proof.
  unfold read_uint. destruct (expect 0 b) as [(v' & r')|]; [|discriminate]. destruct (N.ltb_spec v' (2 ^ bits)); [|discriminate]. intros E. injection E as <- _. assumption.
Qed.
Lemma read_int_bound b z r : read_int b = Some (z, r) -> (- 2 ^ 63 <= z < 2 ^ 63)%Z.
Proof.
  unfold read_int. destruct (read_head b) as [((m & v) & r')|]; [|discriminate]. destruct (N.leb_spec (2 ^ 63) v) as [L|L]; [discriminate|].
  change (2 ^ 63)%N with 9223372036854775808%N in L. change (2 ^ 63)%Z with 9223372036854775808%Z.
  destruct (m =? 0)%N; [intros H; assert (z = Z.of_N v) by congruence; lia|].
  destruct (m =? 1)%N; [intros H; assert (z = (-1 - Z.of_N v)%Z) by congruence; lia|discriminate].
Qed.
Lemma read_event_fits b e r : read_event b = Some (e, r) -> fits e.
Proof.
  unfold read_event. destruct (expect 4 b) as [(len & b0)|]; [|discriminate]. destruct (read_uint 64 b0) as [(t & b1)|] eqn:E1; [|discriminate].
  destruct (read_uint 32 b1) as [(i & b2)|] eqn:E2; [|discriminate]. destruct (read_uint 8 b2) as [(ty & b3)|] eqn:E3; [|discriminate].
  apply read_uint_bound in E1, E2, E3. destruct (4 <=? len)%N.
  - destruct (read_blob 2 b3) as [(d & b4)|]; [|discriminate]. destruct (read_int d) as [(z & r')|] eqn:E4; [|discriminate]. apply read_int_bound in E4.
    intros H. injection H as <- _. constructor; cbn [te_time te_id te_type te_value]; auto. intros z' Hz. injection Hz as <-. exact E4.
  - intros H. injection H as <- _. constructor; cbn [te_time te_id te_type te_value]; auto. discriminate.
Qed.
Lemma many_all {A} (rd : bytes -> option (A * bytes)) (P : A -> Prop) : (forall b x r, rd b = Some (x, r) -> P x) ->
  forall f n b l r, many rd f n b = Some (l, r) -> count l = n /\ Forall P l.
Proof.
  intros HP. induction f as [|f IH]; intros n b l r; cbn [many]; destruct (N.eqb_spec n 0) as [E|E].
  - intros H. injection H as <- _. auto.
  - discriminate.
  - intros H. injection H as <- _. auto.
  - destruct (rd b) as [(x & b1)|] eqn:E1; [|discriminate]. destruct (many rd f (n - 1) b1) as [(xs & b2)|] eqn:E2; [|discriminate].
    intros H. injection H as <- _. destruct (IH _ _ _ _ E2) as (C & F). split; [|constructor; eauto]. unfold count in *. cbn [length]. lia.
Qed.
Lemma read_many_all {A} (rd : bytes -> option (A * bytes)) (P : A -> Prop) m : (forall b x r, rd b = Some (x, r) -> P x) ->
  forall b l r, read_many rd m b = Some (l, r) -> (count l < 2 ^ 64)%N /\ Forall P l.
Proof.
  intros HP b l r. unfold read_many. destruct (expect m b) as [(n & b1)|] eqn:E; [|discriminate]. intros H.
  destruct (many_all rd P HP _ _ _ _ _ H) as (C & F). rewrite C. split; [eapply expect_bound; exact E|exact F].
Qed.
Definition thread_fits (p : N * list tev) : Prop := (fst p < 2 ^ 64)%N /\ (N.of_nat (length (snd p)) < 2 ^ 64)%N /\ Forall fits (snd p).
Lemma read_thread_fits b p r : read_thread b = Some (p, r) -> thread_fits p.
Proof.
  unfold read_thread. destruct (read_uint 64 b) as [(tid & b1)|] eqn:E1; [|discriminate]. destruct (read_many read_event 4 b1) as [(evs & b2)|] eqn:E2; [|discriminate].
  intros H. injection H as <- _. apply read_uint_bound in E1. destruct (read_many_all read_event fits 4 read_event_fits _ _ _ E2) as (C & F). split; auto.
Qed.
Lemma minsert_length {V} k (v : V) m : length (minsert N.ltb k v m) <= S (length m).
Proof. induction m as [|(k' & v') m IH]; cbn; auto. destruct (N.ltb k k'); cbn; [lia|]. destruct (N.ltb k' k); cbn; lia. Qed.
Lemma into_map_fits (P : N * list tev -> Prop) l : Forall P l ->
  ordered N.ltb (into_map l) /\ length (into_map l) <= length l /\ Forall P (into_map l).
Proof.
  intros HF. unfold into_map. assert (G : forall m, ordered N.ltb m -> Forall P m ->
    let r := fold_left (fun m p => minsert N.ltb (fst p) (snd p) m) l m in ordered N.ltb r /\ length r <= length m + length l /\ Forall P r).
  { induction HF as [|(k & v) l H HF IH]; intros m Ho Hm; cbn [fold_left fst snd]; cbv zeta; [repeat split; auto; cbn; lia|].
    destruct (IH (minsert N.ltb k v m)) as (I1 & I2 & I3).
    - apply ordered_insert; [exact N_order|exact Ho].
    - apply insert_Forall; auto.
    - split; auto. split; auto. pose proof (minsert_length k v m). cbn [length]. lia. }
  destruct (G [] (ordered_nil _)) as (G1 & G2 & G3); auto.
Qed.
Lemma ordered_ascending (l : list (N * list tev)) : forall lo, (forall p, In p l -> (lo <= fst p)%N) -> ordered N.ltb l -> ascending_from lo l.
Proof.
  induction l as [|(k & v) l IH]; intros lo Hl Ho; cbn; auto. inversion Ho as [|? ? H1 H2]; subst. split; [apply (Hl (k, v)); now left|].
  apply IH; auto. intros p Hp. rewrite Forall_forall in H2. specialize (H2 p Hp). unfold lt_keys in H2. cbn [fst] in H2. apply N.ltb_lt in H2. lia.
Qed.
Theorem unpack_sane b c : unpack b = CGood c -> (- 2 ^ 31 <= nc_pid c < 2 ^ 31)%Z /\ event_map (nc_threads c).
Proof.
  unfold unpack. destruct (read_message b) as [(m & r0)|]; [|discriminate]. destruct (mfind str_ltb (text "pid") m) as [p|]; [|discriminate].
  destruct (read_uint 64 p) as [(pid & r1)|]; [|discriminate]. destruct (mfind str_ltb (text "events") m) as [e|]; [|discriminate].
  destruct (read_threads e) as [(ths & r2)|] eqn:E; [|discriminate]. intros H. injection H as <-. cbn [nc_pid nc_threads]. split.
  - unfold to_int. cbv zeta. pose proof (Z.mod_pos_bound (Z.of_N pid) (2 ^ 32) ltac:(lia)). destruct (Z.ltb_spec (Z.of_N pid mod 2 ^ 32) (2 ^ 31)); lia.
  - unfold read_threads in E. destruct (read_many read_thread 5 e) as [(l & r3)|] eqn:E1; [|discriminate]. injection E as <- _.
    destruct (read_many_all read_thread thread_fits 5 read_thread_fits _ _ _ E1) as (C & F). destruct (into_map_fits thread_fits l F) as (O1 & O2 & O3).
    constructor.
    + apply ordered_ascending; auto. intros q _. lia.
    + unfold count in C. lia.
    + exact O3.
Qed.

(** A message with a process number above 2^31, and two entries for the same thread. *)
Example odd_message : exists c, unpack (head 5 2 ++ blob 3 (text "events") ++ head 5 2 ++ (uint 9 ++ head 4 0) ++ (uint 9 ++ head 4 1 ++ head 4 3 ++ uint 5 ++ uint 6 ++ uint 7) ++ blob 3 (text "pid") ++ uint 4294967295) = CGood c /\
  nc_pid c = (-1)%Z /\ nc_threads c = [(9%N, [{| te_time := 5; te_id := 6; te_type := 7; te_value := None |}])].
Proof. eexists. split; [vm_compute; reflexivity|]. split; reflexivity. Qed.
