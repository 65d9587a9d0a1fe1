(** Messages that arrive as others, or are made of two: a part that the kernel takes in pieces; a send that fails in the middle. And a run where all goes well. *)
From Coq Require Import List Arith NArith Ascii Bool Lia.
Import ListNotations.
From Verif Require Import Protocol_model Protocol_spec Protocol_proofs Framing_model Framing_spec Framing_proofs.
Local Open Scope nat_scope.

Lemma run_snoc limit os o : forall s s1 s2, run limit os s = Some s1 -> step limit o s1 = Some s2 -> run limit (os ++ [o]) s = Some s2.
Proof. induction os as [|x os IH]; intros s s1 s2 E1 E2; cbn [run app] in *; [injection E1 as ->; now rewrite E2|]. destruct (step limit x s); [eauto|discriminate]. Qed.

Lemma put_whole limit t s b r : lock s = Some t -> parts (ws s t) = b :: r -> exists s', w_put limit t (length b) s = Some s' /\
  parts (ws s' t) = r /\ lock s' = Some t /\ pipe s' = pipe s ++ b /\ begun s' = begun s /\ rd s' = rd s /\ out s' = out s /\ hp s' = hp s.
Proof. intros El Ep. unfold w_put, holds. rewrite El, Nat.eqb_refl, Ep, Nat.leb_refl. eexists. split; [reflexivity|]. cbn [ws lock pipe begun rd out hp]. rewrite set_w_same. auto 10. Qed.
Lemma put_piece limit t s b r k : lock s = Some t -> parts (ws s t) = b :: r -> limit <= k < length b -> exists s', w_put limit t k s = Some s' /\
  pipe s' = pipe s ++ firstn k b /\ begun s' = begun s /\ rd s' = rd s /\ out s' = out s /\ hp s' = hp s.
Proof.
  intros El Ep Hk. unfold w_put, holds. rewrite El, Nat.eqb_refl, Ep. rewrite (proj2 (Nat.leb_gt _ _)) by lia. rewrite (proj2 (Nat.leb_le _ _)) by lia. eexists. split; [reflexivity|]. cbn [ws lock pipe begun rd out hp]. auto 10.
Qed.
Lemma read_whole s b rest r' ms : hp s = Fine -> acc (rd s) = [] -> length b = need (rd s) -> 0 < need (rd s) <= chunk_size -> pipe s = b ++ rest -> got (rd s) b = Some (r', ms) ->
  exists s', w_read s = Some s' /\ hp s' = Fine /\ pipe s' = rest /\ rd s' = r' /\ out s' = out s ++ ms /\ begun s' = begun s.
Proof.
  intros Hf Ha Hl Hn Hp Hg. unfold w_read. rewrite Hf, Ha, Hp. cbn [length app]. rewrite Nat.sub_0_r, (Nat.min_l _ _ (proj2 Hn)), app_length, Hl.
  rewrite (proj2 (Nat.eqb_neq (need (rd s) + length rest) 0)) by lia. rewrite andb_false_r. rewrite <- Hl, firstn_app, firstn_all, Nat.sub_diag. cbn [firstn]. rewrite app_nil_r, Nat.eqb_refl. cbn [negb andb]. rewrite Hg.
  eexists. split; [reflexivity|]. cbn [ws lock pipe begun rd out hp]. rewrite skipn_app, skipn_all, Nat.sub_diag. auto 10.
Qed.
Lemma read_chunk s : hp s = Fine -> chunk_size <= length (pipe s) -> length (acc (rd s)) + chunk_size < need (rd s) ->
  exists s', w_read s = Some s' /\ hp s' = Fine /\ pipe s' = skipn chunk_size (pipe s) /\
    rd s' = {| field := field (rd s); need := need (rd s); acc := acc (rd s) ++ firstn chunk_size (pipe s); r_id := r_id (rd s); r_name := r_name (rd s) |} /\ out s' = out s /\ begun s' = begun s.
Proof.
  intros Hf Hp Hn. pose proof chunk_pos. unfold w_read. rewrite Hf. cbv zeta. rewrite (Nat.min_r _ chunk_size) by lia. rewrite (proj2 (Nat.eqb_neq (length (pipe s)) 0)) by lia. rewrite andb_false_r.
  assert (El : length (firstn chunk_size (pipe s)) = chunk_size) by (apply firstn_length_le; lia).
  rewrite app_length, El, Nat.eqb_refl. rewrite (proj2 (Nat.eqb_neq (length (acc (rd s)) + chunk_size) (need (rd s)))) by lia. cbn [negb andb]. eexists. split; [reflexivity|]. cbn [ws lock pipe begun rd out hp]. rewrite app_nil_r. auto 10.
Qed.
Lemma read_short s : hp s = Fine -> field (rd s) = 4 -> 0 < length (pipe s) < chunk_size -> length (acc (rd s)) + length (pipe s) < need (rd s) ->
  exists s', w_read s = Some s' /\ out s' = out s ++ [{| req_id := r_id (rd s); ep_name := r_name (rd s); payload := acc (rd s) ++ pipe s |}] /\ begun s' = begun s.
Proof.
  intros Hf Hd Hp Hn. unfold w_read. rewrite Hf. cbv zeta. rewrite (proj2 (Nat.eqb_neq (length (pipe s)) 0)) by lia. rewrite andb_false_r.
  rewrite (firstn_all2 (pipe s)) by lia. rewrite (proj2 (Nat.eqb_neq (length (pipe s)) chunk_size)) by lia. rewrite andb_false_r. unfold got. rewrite Hd. eexists. split; [reflexivity|]. cbn [ws lock pipe begun rd out hp]. auto.
Qed.
(** Chunk after chunk until what is there is used up in the middle. *)
Lemma read_chunks q : forall s, hp s = Fine -> field (rd s) = 4 -> q * chunk_size < length (pipe s) < (q + 1) * chunk_size -> length (acc (rd s)) + length (pipe s) < need (rd s) -> forall limit,
  exists os s', (forall o, In o os -> o = Read) /\ run limit os s = Some s' /\ out s' = out s ++ [{| req_id := r_id (rd s); ep_name := r_name (rd s); payload := acc (rd s) ++ pipe s |}] /\ begun s' = begun s.
Proof.
  induction q as [|q IH]; intros s Hf Hd Hp Hn limit.
  - destruct (read_short s Hf Hd) as (s' & E & Eo & Eb); [lia|exact Hn|]. exists [Read], s'. split; [intros o [<-|[]]; reflexivity|]. cbn [run step]. rewrite E. auto.
  - destruct (read_chunk s Hf) as (s1 & E & Hf1 & Ep & Er & Eo & Eb); [lia|lia|].
    assert (Hl : length (pipe s1) + chunk_size = length (pipe s)) by (rewrite Ep, skipn_length; lia).
    destruct (IH s1 Hf1) with (limit := limit) as (os & s' & Hos & E' & Eo' & Eb').
    + now rewrite Er.
    + lia.
    + rewrite Er. cbn [acc need]. rewrite app_length, firstn_length_le by lia. lia.
    + exists (Read :: os), s'. split; [intros o [<-|Hi]; [reflexivity|now apply Hos]|]. cbn [run step]. rewrite E. split; [exact E'|]. split; [|congruence]. rewrite Eo', Eo, Er. cbn [r_id r_name acc]. rewrite Ep, <- app_assoc, firstn_skipn. reflexivity.
Qed.
Lemma run_app limit os1 : forall os2 s s1 s2, run limit os1 s = Some s1 -> run limit os2 s1 = Some s2 -> run limit (os1 ++ os2) s = Some s2.
Proof. induction os1 as [|o os IH]; intros os2 s s1 s2 E1 E2; cbn [run app] in *; [congruence|]. destruct (step limit o s); [eauto|discriminate]. Qed.

Definition big (n : nat) : msg := {| req_id := 1; ep_name := ["e"%char]; payload := repeat "x"%char n |}.
Lemma big_fits n : (N.of_nat n < 2 ^ 32)%N -> fits (big n).
Proof. intros H. unfold fits, big. cbn [req_id ep_name payload]. rewrite repeat_length. repeat split; [reflexivity..|exact H]. Qed.
(** Whatever the kernel takes at once, a message of at most two bytes more can be received with an end of it missing. *)
Theorem split_refuted limit : 0 < limit -> (N.of_nat limit + 2 < 2 ^ 32)%N -> exists m prog os s m', fits m /\ length (payload m) <= limit + 2 /\
  (forall t, prog t = if t =? 0 then [m] else []) /\ run limit os (start prog) = Some s /\ uncut os /\ begun s = [(0, m)] /\ out s = [m'] /\ m' <> m.
Proof.
  intros H0 Hlim. set (k := if limit mod chunk_size =? 0 then limit + 1 else limit).
  assert (Hk : limit <= k <= limit + 1) by (unfold k; destruct (limit mod chunk_size =? 0); lia).
  assert (Hkm : k mod chunk_size <> 0).
  { pose proof chunk_pos. assert (chunk_size <> 0) by lia. unfold k. destruct (Nat.eqb_spec (limit mod chunk_size) 0) as [E|E]; [|exact E]. rewrite Nat.add_mod, E by lia.
    change (1 mod chunk_size) with 1. change ((0 + 1) mod chunk_size) with 1. discriminate. }
  set (m := big (k + 1)). assert (Hf : fits m) by (apply big_fits; lia). pose proof (parts_of m Hf) as Epm.
  set (prog := fun t => if t =? 0 then [m] else []).
  assert (E0 : exists s0, run limit [Begin 0] (start prog) = Some s0 /\ parts (ws s0 0) = send_buffers m /\ lock s0 = Some 0 /\ pipe s0 = [] /\ begun s0 = [(0, m)] /\ rd s0 = reader0 /\ out s0 = [] /\ hp s0 = Fine).
  { eexists. split; [reflexivity|]. cbn [ws lock pipe begun rd out hp start set_w Nat.eqb parts app]. auto 10. }
  destruct E0 as (s0 & R0 & P0 & L0 & Q0 & B0 & D0 & O0 & F0). rewrite Epm in P0.
  destruct (put_whole limit 0 s0 _ _ L0 P0) as (s1 & R1 & P1 & L1 & Q1 & B1 & D1 & O1 & F1).
  destruct (put_whole limit 0 s1 _ _ L1 P1) as (s2 & R2 & P2 & L2 & Q2 & B2 & D2 & O2 & F2).
  destruct (put_whole limit 0 s2 _ _ L2 P2) as (s3 & R3 & P3 & L3 & Q3 & B3 & D3 & O3 & F3).
  destruct (put_whole limit 0 s3 _ _ L3 P3) as (s4 & R4 & P4 & L4 & Q4 & B4 & D4 & O4 & F4).
  assert (Hpl : length (payload m) = k + 1) by (unfold m, big; cbn [payload]; apply repeat_length).
  destruct (put_piece limit 0 s4 _ _ k L4 P4) as (s5 & R5 & Q5 & B5 & D5 & O5 & F5); [lia|].
  assert (Q5' : pipe s5 = le_encode 8 (req_id m) ++ le_encode 2 (N.of_nat (length (ep_name m))) ++ ep_name m ++ le_encode 4 (N.of_nat (length (payload m))) ++ firstn k (payload m)).
  { rewrite Q5, Q4, Q3, Q2, Q1, Q0. cbn [app]. now rewrite <- !app_assoc. }
  assert (D5' : rd s5 = reader0) by congruence. assert (F5' : hp s5 = Fine) by congruence. pose proof chunk_ge8 as Hc8.
  clear D5 F5 Q5. rename D5' into D5. rename F5' into F5. rename Q5' into Q5.
  destruct (read_whole s5 (le_encode 8 (req_id m)) (le_encode 2 (N.of_nat (length (ep_name m))) ++ ep_name m ++ le_encode 4 (N.of_nat (length (payload m))) ++ firstn k (payload m)) {| field := 1; need := 2; acc := []; r_id := 1; r_name := [] |} []) as (s6 & R6 & F6 & Q6 & D6 & O6 & B6);
    [assumption|now rewrite D5|rewrite D5; apply le_encode_length|rewrite D5; cbn [need reader0]; lia|exact Q5|rewrite D5; unfold got; cbn [field reader0 need r_id r_name]; rewrite le_encode_length; reflexivity|].
  destruct (read_whole s6 (le_encode 2 (N.of_nat (length (ep_name m)))) (ep_name m ++ le_encode 4 (N.of_nat (length (payload m))) ++ firstn k (payload m)) {| field := 2; need := 1; acc := []; r_id := 1; r_name := [] |} []) as (s7 & R7 & F7 & Q7 & D7 & O7 & B7);
    [assumption|now rewrite D6|rewrite D6; apply le_encode_length|rewrite D6; cbn [need reader0]; lia|exact Q6|rewrite D6; unfold got; cbn [field reader0 need r_id r_name]; rewrite le_encode_length; reflexivity|].
  destruct (read_whole s7 (ep_name m) (le_encode 4 (N.of_nat (length (payload m))) ++ firstn k (payload m)) {| field := 3; need := 4; acc := []; r_id := 1; r_name := ep_name m |} []) as (s8 & R8 & F8 & Q8 & D8 & O8 & B8);
    [assumption|now rewrite D7|rewrite D7; reflexivity|rewrite D7; cbn [need reader0]; lia|exact Q7|rewrite D7; unfold got; cbn [field reader0 need r_id r_name]; reflexivity|].
  destruct (read_whole s8 (le_encode 4 (N.of_nat (length (payload m)))) (firstn k (payload m)) {| field := 4; need := length (payload m); acc := []; r_id := 1; r_name := ep_name m |} []) as (s9 & R9 & F9 & Q9 & D9 & O9 & B9);
    [assumption|now rewrite D8|rewrite D8; apply le_encode_length|rewrite D8; cbn [need reader0]; lia|exact Q8|rewrite D8; unfold got; cbn [field reader0 need r_id r_name]; rewrite le_encode_length; cbn [Nat.ltb Nat.leb]; now rewrite (decode4 m Hf)|].
  assert (Hq : length (pipe s9) = k) by (rewrite Q9; apply firstn_length_le; lia).
  assert (Hc : chunk_size <> 0) by lia.
  destruct (read_chunks (k / chunk_size) s9 F9) with (limit := limit) as (os & s' & Hos & R' & O' & B').
  + now rewrite D9.
  + rewrite Hq. pose proof (Nat.div_mod k chunk_size Hc). pose proof (Nat.mod_upper_bound k chunk_size Hc). rewrite (Nat.mul_comm _ chunk_size), (Nat.mul_comm _ chunk_size), Nat.mul_add_distr_l. lia.
  + rewrite D9. cbn [acc need length]. lia.
  + assert (Rall : run limit ([Begin 0; Put 0 (length (le_encode 8 (req_id m))); Put 0 (length (le_encode 2 (N.of_nat (length (ep_name m))))); Put 0 (length (ep_name m)); Put 0 (length (le_encode 4 (N.of_nat (length (payload m))))); Put 0 k; Read; Read; Read; Read] ++ os) (start prog) = Some s').
    { eapply run_app; [|exact R']. cbn [run] in R0. cbn [run]. destruct (step limit (Begin 0) (start prog)) as [z|]; [|discriminate]. injection R0 as ->. cbn [step].
      rewrite R1, R2, R3, R4, R5, R6, R7, R8, R9. reflexivity. }
    eexists m, prog, _, s', _. split; [exact Hf|]. split; [lia|]. split; [reflexivity|]. split; [exact Rall|]. split; [|split; [congruence|split]].
    * intros t kk Hin. apply in_app_or in Hin as [Hin|Hin]; [cbn [In] in Hin; repeat destruct Hin as [Hin|Hin]; try discriminate; destruct Hin|].
      apply Hos in Hin. discriminate.
    * rewrite O', O9, O8, O7, O6, O5, O4, O3, O2, O1, O0. reflexivity.
    * intros E. apply (f_equal (fun x => length (payload x))) in E. cbn [payload] in E. rewrite D9 in E. cbn [acc app] in E. lia.
Qed.

(** A request is cut off after the length of its payload (a signal arrives); the next message of the process, complete, is taken for that payload. *)
Definition first_msg : msg := {| req_id := 1; ep_name := ["a"%char]; payload := repeat "x"%char 16 |}.
Definition second_msg : msg := {| req_id := 2; ep_name := ["b"%char]; payload := ["y"%char] |}.
Definition mixed : msg := {| req_id := 1; ep_name := ["a"%char]; payload := wire second_msg |}.
Definition cut_prog (t : nat) : list msg := match t with 0 => [first_msg] | 1 => [second_msg] | _ => [] end.
Definition cut_run : list op :=
  [Begin 0; Put 0 8; Put 0 8; Put 0 8; Put 0 8; Cut 0 0; Begin 1; Put 1 8; Put 1 8; Put 1 8; Put 1 8; Put 1 8; Done 1; Read; Read; Read; Read; Read].
Definition seen (s : option state) : option (list msg * list (nat * msg) * bytes) := match s with Some s => Some (out s, told s, pipe s) | None => None end.
Lemma cut_seen : seen (run 100 cut_run (start cut_prog)) = Some ([mixed], [(1, second_msg)], []).
Proof. vm_compute. reflexivity. Qed.

Theorem cut_refuted : exists prog os s, (forall t m, In m (prog t) -> small 100 m) /\ run 100 os (start prog) = Some s /\
  told s = [(1, second_msg)] /\ out s = [mixed] /\ mixed <> first_msg /\ mixed <> second_msg /\ pipe s = [].
Proof.
  pose proof cut_seen as H. destruct (run 100 cut_run (start cut_prog)) as [s|] eqn:E; [|discriminate]. exists cut_prog, cut_run, s. cbn [seen] in H. injection H as H1 H2 H3.
  split; [|repeat split; try assumption; discriminate]. intros [|[|t]] m; cbn [cut_prog In]; intros Hi; [destruct Hi as [<-|[]]|destruct Hi as [<-|[]]|destruct Hi]; (split; [repeat split; reflexivity|cbn; lia]).
Qed.

(** Two threads at once; one of the sends fails before it began. *)
Definition fine_prog (t : nat) : list msg := match t with 0 => [first_msg; second_msg] | 1 => [second_msg] | _ => [] end.
Example fine_example : (forall t m, In m (fine_prog t) -> small 100 m) /\ exists os, uncut os /\ seen (run 100 os (start fine_prog)) = Some ([first_msg; second_msg], [(0, first_msg); (0, second_msg)], []).
Proof.
  split.
  - intros [|[|t]] m; cbn [fine_prog In]; intros Hi; [destruct Hi as [<-|[<-|[]]]|destruct Hi as [<-|[]]|destruct Hi]; (split; [repeat split; reflexivity|cbn; lia]).
  - exists [Begin 0; Put 0 8; Read; Put 0 8; Put 0 8; Read; Read; Put 0 8; Read; Put 0 16; Read; Done 0; Fail 1; Begin 0; Put 0 8; Put 0 8; Read; Put 0 8; Put 0 8; Put 0 8; Done 0; Read; Read; Read; Read].
    split; [|vm_compute; reflexivity]. intros t k Hi. cbn [In] in Hi. repeat (destruct Hi as [Hi|Hi]; [discriminate|]). destruct Hi.
Qed.
