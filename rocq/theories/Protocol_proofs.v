From Coq Require Import List Arith NArith Ascii Bool Lia ZifyBool ZifyNat ZifyN.
Import ListNotations.
From Verif Require Import Protocol_model Protocol_spec.

(** ** Integers *)
Lemma le_encode_length k v : length (le_encode k v) = k.
Proof. revert v; induction k as [|k IH]; intros v; cbn; [reflexivity|]. rewrite IH; reflexivity. Qed.

Lemma le_decode_encode k v : le_decode (le_encode k v) = (v mod 2 ^ (8 * N.of_nat k))%N.
Proof.
  revert v; induction k as [|k IH]; intros v.
  - cbn. rewrite N.mod_1_r. reflexivity.
  - cbn [le_encode le_decode]. rewrite IH.
    rewrite N_ascii_embedding by (apply N.mod_lt; lia).
    replace (8 * N.of_nat (S k))%N with (8 + 8 * N.of_nat k)%N by lia.
    rewrite N.pow_add_r. change (2 ^ 8)%N with 256%N.
    rewrite N.mod_mul_r; [reflexivity|lia|]. apply N.pow_nonzero; lia.
Qed.

Lemma le_encode_decode l : le_encode (length l) (le_decode l) = l.
Proof.
  induction l as [|b l IH]; [reflexivity|]. cbn [length le_encode le_decode].
  assert (Hb : (N_of_ascii b < 256)%N) by (apply N_ascii_bounded).
  replace ((N_of_ascii b + 256 * le_decode l) mod 256)%N with (N_of_ascii b).
  2:{ rewrite N.mul_comm, N.mod_add by lia. symmetry; apply N.mod_small; lia. }
  replace ((N_of_ascii b + 256 * le_decode l) / 256)%N with (le_decode l).
  2:{ rewrite N.mul_comm, N.div_add by lia. rewrite N.div_small by lia. lia. }
  rewrite IH, ascii_N_embedding. reflexivity.
Qed.

Lemma le_decode_bound l : (le_decode l < 2 ^ (8 * N.of_nat (length l)))%N.
Proof.
  induction l as [|b l IH]; [cbn; lia|]. cbn [le_decode length].
  replace (8 * N.of_nat (S (length l)))%N with (8 + 8 * N.of_nat (length l))%N by lia.
  rewrite N.pow_add_r. change (2 ^ 8)%N with 256%N.
  pose proof (N_ascii_bounded b). lia.
Qed.

(** ** One read with full results *)
Lemma full_tl r rs : full_reads (r :: rs) -> full_reads rs.
Proof. intros H x Hx. apply H. right; exact Hx. Qed.

Lemma chunk_pos : 0 < chunk_size.
Proof. unfold chunk_size; lia. Qed.
Lemma chunk_ge8 : 8 <= chunk_size.
Proof. unfold chunk_size; lia. Qed.
Opaque chunk_size.

Lemma sys_read_full s n : full_reads (reads s) -> n <= chunk_size ->
  exists rs', full_reads rs' /\
  sys_read s n = (Some (firstn (Nat.min n (length (stream s))) (stream s)),
                  {| stream := skipn (Nat.min n (length (stream s))) (stream s); reads := rs' |}).
Proof.
  intros H Hn. unfold sys_read. destruct (reads s) as [|r rs] eqn:Hr.
  - exists []. split; [intros x []|reflexivity].
  - destruct (H r (or_introl eq_refl)) as (k & -> & Hk). exists rs. split; [eapply full_tl; exact H|].
    replace (Nat.min (Nat.min n (length (stream s))) (Nat.max 1 k)) with (Nat.min n (length (stream s))) by lia.
    reflexivity.
Qed.

Lemma mod_sub_chunk a : chunk_size <= a -> (a - chunk_size) mod chunk_size = a mod chunk_size.
Proof.
  intros H. pose proof chunk_pos. replace a with ((a - chunk_size) + 1 * chunk_size) at 2 by lia.
  rewrite Nat.mod_add by lia. reflexivity.
Qed.

Lemma skipn_skipn' {B} (l : list B) a b : skipn a (skipn b l) = skipn (b + a) l.
Proof. revert l; induction b as [|b IH]; intros [|x l]; cbn; auto. destruct a; reflexivity. Qed.

Lemma firstn_split {B} (l : list B) a b : firstn (a + b) l = firstn a l ++ firstn b (skipn a l).
Proof. revert l; induction a as [|a IH]; intros [|x l]; cbn; auto. - destruct b; reflexivity. - rewrite IH; reflexivity. Qed.

(** The loop with full reads: complete characterisation. *)
Lemma read_loop_full : forall fuel s len acc, full_reads (reads s) -> length acc <= len ->
  len - length acc < fuel ->
  exists rs', full_reads rs' /\
  read_loop fuel s len acc =
   (if len - length acc <=? length (stream s) then
      (RdTrue (acc ++ firstn (len - length acc) (stream s)),
       {| stream := skipn (len - length acc) (stream s); reads := rs' |})
    else if length (stream s) mod chunk_size =? 0 then
      (RdFalse (acc ++ stream s), {| stream := []; reads := rs' |})
    else (RdTrue (acc ++ stream s), {| stream := []; reads := rs' |})).
Proof.
  pose proof chunk_pos as HC.
  induction fuel as [|fuel IH]; intros s len acc Hf Hacc Hfuel; [lia|].
  cbn [read_loop]. set (need := len - length acc) in *.
  destruct (sys_read_full s (Nat.min need chunk_size) Hf ltac:(lia)) as (rs & Hrs & ->).
  set (st := stream s) in *. set (c := Nat.min (Nat.min need chunk_size) (length st)) in *.
  assert (Hlc : length (firstn c st) = c) by (rewrite firstn_length; unfold c; lia).
  rewrite app_length, Hlc.
  destruct (Nat.eqb_spec (length acc + c) len) as [Heq|Hne].
  - (* complete *)
    assert (c = need) by lia.
    exists rs. split; [exact Hrs|]. destruct (Nat.leb_spec need (length st)); [|lia].
    rewrite H. reflexivity.
  - destruct (Nat.eqb_spec c chunk_size) as [Hcc|Hcc].
    + (* whole chunk, go on *)
      destruct (IH {| stream := skipn c st; reads := rs |} len (acc ++ firstn c st)) as (rs' & Hrs' & E).
      * exact Hrs.
      * rewrite app_length, Hlc. lia.
      * rewrite app_length, Hlc. lia.
      * exists rs'. split; [exact Hrs'|]. rewrite E. cbn [stream reads].
        rewrite app_length, Hlc, skipn_length.
        replace (len - (length acc + c)) with (need - c) by lia.
        destruct (Nat.leb_spec (need - c) (length st - c)) as [H1|H1]; destruct (Nat.leb_spec need (length st)) as [H2|H2]; try lia.
        -- f_equal.
           ++ rewrite <- app_assoc. f_equal. f_equal. replace need with (c + (need - c)) at 2 by lia.
              rewrite firstn_split. reflexivity.
           ++ f_equal. rewrite skipn_skipn'. f_equal. lia.
        -- rewrite <- app_assoc, firstn_skipn.
           replace ((length st - c) mod chunk_size) with (length st mod chunk_size); [reflexivity|].
           rewrite Hcc. rewrite mod_sub_chunk by lia. reflexivity.
    + (* short: the stream ended *)
      assert (Hc2 : c = length st) by lia. assert (Hst : length st < need) by lia.
      assert (Hlt : length st < chunk_size) by lia.
      exists rs. split; [exact Hrs|]. rewrite Hc2, firstn_all, skipn_all.
      destruct (Nat.leb_spec need (length st)); [lia|].
      rewrite (Nat.mod_small (length st)) by lia. destruct (length st =? 0); reflexivity.
Qed.

Lemma read_data_full s len : full_reads (reads s) ->
  exists rs', full_reads rs' /\
  read_data s len =
   (if len <=? length (stream s) then
      (RdTrue (firstn len (stream s)), {| stream := skipn len (stream s); reads := rs' |})
    else if length (stream s) mod chunk_size =? 0 then
      (RdFalse (stream s), {| stream := []; reads := rs' |})
    else (RdTrue (stream s), {| stream := []; reads := rs' |})).
Proof.
  intros Hf. unfold read_data. destruct (read_loop_full (S len) s len [] Hf) as (rs & H & E); cbn [length]; try lia.
  exists rs. split; [exact H|]. rewrite E. cbn [length app]. rewrite !Nat.sub_0_r. reflexivity.
Qed.

Lemma read_data_enough s len a b : full_reads (reads s) -> stream s = a ++ b -> length a = len ->
  exists rs', full_reads rs' /\ read_data s len = (RdTrue a, {| stream := b; reads := rs' |}).
Proof.
  intros Hf Hs Ha. destruct (read_data_full s len Hf) as (rs & H & E). exists rs. split; [exact H|].
  rewrite E, Hs, app_length. destruct (Nat.leb_spec len (length a + length b)); [|lia].
  rewrite <- Ha, firstn_app, Nat.sub_diag, firstn_all. cbn [firstn]. rewrite app_nil_r.
  rewrite skipn_app, Nat.sub_diag, skipn_all. reflexivity.
Qed.

(** ** The header *)
Lemma wire_header m : wire m = header m ++ payload m.
Proof. unfold wire, send, header, send_buffers. cbn [N.eqb send_bufs tl snd]. rewrite app_nil_r, <- !app_assoc. reflexivity. Qed.

(** After the header, reception continues with the payload. *)
Lemma receive_header m0 s m t : full_reads (reads s) -> stream s = header m ++ t ->
  exists rs', full_reads rs' /\
  receive_into m0 s =
  (let id' := (req_id m mod 2 ^ 64)%N in
   let nm := firstn (N.to_nat (N.of_nat (length (ep_name m)) mod 2 ^ 16)) (ep_name m) in
   match read_data {| stream := t; reads := rs' |} (N.to_nat (N.of_nat (length (payload m)) mod 2 ^ 32)) with
   | (RdFuel, s5) => (RxFuel, s5)
   | (RdFalse d, s5) => (RxFalse {| req_id := id'; ep_name := nm; payload := d |}, s5)
   | (RdTrue d, s5) => (RxTrue {| req_id := id'; ep_name := nm; payload := d |}, s5)
   end).
Proof.
  intros Hf Hs. unfold header in Hs. rewrite <- !app_assoc in Hs.
  set (ln := (N.of_nat (length (ep_name m)) mod 2 ^ 16)%N) in *.
  set (ld := (N.of_nat (length (payload m)) mod 2 ^ 32)%N) in *.
  assert (Hln : (ln < 2 ^ 16)%N) by (apply N.mod_lt; lia).
  assert (Hld : (ld < 2 ^ 32)%N) by (apply N.mod_lt; lia).
  unfold receive_into.
  destruct (read_data_enough s 8 _ _ Hf Hs (le_encode_length _ _)) as (r1 & F1 & ->).
  rewrite le_encode_length, Nat.ltb_irrefl.
  destruct (read_data_enough {| stream := le_encode 2 ln ++ firstn (N.to_nat ln) (ep_name m) ++ le_encode 4 ld ++ t; reads := r1 |}
              2 _ _ F1 eq_refl (le_encode_length _ _)) as (r2 & F2 & ->).
  rewrite le_encode_length, Nat.ltb_irrefl.
  rewrite (firstn_all2 (le_encode 2 ln)) by (rewrite le_encode_length; lia).
  rewrite le_decode_encode. change (8 * N.of_nat 2)%N with 16%N. rewrite (N.mod_small ln) by exact Hln.
  assert (Hfl : length (firstn (N.to_nat ln) (ep_name m)) = N.to_nat ln).
  { rewrite firstn_length. pose proof (N.mod_le (N.of_nat (length (ep_name m))) (2 ^ 16)). lia. }
  destruct (read_data_enough {| stream := firstn (N.to_nat ln) (ep_name m) ++ le_encode 4 ld ++ t; reads := r2 |}
              (N.to_nat ln) _ _ F2 eq_refl Hfl) as (r3 & F3 & ->).
  rewrite Hfl, Nat.ltb_irrefl.
  destruct (read_data_enough {| stream := le_encode 4 ld ++ t; reads := r3 |}
              4 _ _ F3 eq_refl (le_encode_length _ _)) as (r4 & F4 & ->).
  rewrite le_encode_length, Nat.ltb_irrefl.
  rewrite (firstn_all2 (le_encode 4 ld)) by (rewrite le_encode_length; lia).
  rewrite le_decode_encode. change (8 * N.of_nat 4)%N with 32%N. rewrite (N.mod_small ld) by exact Hld.
  exists r4. split; [exact F4|]. cbn [req_id ep_name payload].
  rewrite (firstn_all2 (le_encode 8 (req_id m))) by (rewrite le_encode_length; lia).
  rewrite le_decode_encode. change (8 * N.of_nat 8)%N with 64%N.
  rewrite (firstn_all2 (firstn (N.to_nat ln) (ep_name m))) by lia.
  reflexivity.
Qed.

(** What the receiver makes of one complete transmission, for any message whatsoever. *)
Lemma receive_wire_gen m0 s m rest : full_reads (reads s) -> stream s = wire m ++ rest ->
  let ld := N.to_nat (N.of_nat (length (payload m)) mod 2 ^ 32) in
  exists rs', full_reads rs' /\
  receive_into m0 s =
   (RxTrue {| req_id := req_id m mod 2 ^ 64;
              ep_name := firstn (N.to_nat (N.of_nat (length (ep_name m)) mod 2 ^ 16)) (ep_name m);
              payload := firstn ld (payload m) |},
    {| stream := skipn ld (payload m) ++ rest; reads := rs' |}).
Proof.
  intros Hf Hs ld. rewrite wire_header, <- app_assoc in Hs.
  destruct (receive_header m0 s m _ Hf Hs) as (rs & Hrs & ->). fold ld.
  assert (Hld : ld <= length (payload m)).
  { unfold ld. pose proof (N.mod_le (N.of_nat (length (payload m))) (2 ^ 32)). lia. }
  destruct (read_data_enough {| stream := payload m ++ rest; reads := rs |} ld (firstn ld (payload m)) (skipn ld (payload m) ++ rest) Hrs)
    as (rs' & Hrs' & ->).
  - cbn [stream]. rewrite app_assoc, firstn_skipn. reflexivity.
  - apply firstn_length_le. exact Hld.
  - exists rs'. split; [exact Hrs'|]. reflexivity.
Qed.

Lemma msg_eta m : {| req_id := req_id m; ep_name := ep_name m; payload := payload m |} = m.
Proof. destruct m; reflexivity. Qed.

Theorem receive_wire s m rest : fits m -> full_reads (reads s) -> stream s = wire m ++ rest ->
  exists rs', full_reads rs' /\ receive s = (RxTrue m, {| stream := rest; reads := rs' |}).
Proof.
  intros (H1 & H2 & H3) Hf Hs. destruct (receive_wire_gen msg0 s m rest Hf Hs) as (rs & Hrs & E).
  exists rs. split; [exact Hrs|]. unfold receive. rewrite E.
  rewrite (N.mod_small (req_id m)), (N.mod_small (N.of_nat (length (ep_name m)))), (N.mod_small (N.of_nat (length (payload m)))) by assumption.
  rewrite !Nat2N.id, !firstn_all, skipn_all, msg_eta. reflexivity.
Qed.

Theorem receive_sequence ms : forall s rest, Forall fits ms -> full_reads (reads s) ->
  stream s = concat (map wire ms) ++ rest ->
  exists rs', full_reads rs' /\ receive_n (length ms) s = (ms, {| stream := rest; reads := rs' |}).
Proof.
  induction ms as [|m ms IH]; intros s rest HF Hf Hs.
  - exists (reads s). split; [exact Hf|]. cbn in *. rewrite <- Hs. destruct s; reflexivity.
  - cbn [map concat] in Hs. rewrite <- app_assoc in Hs. inversion HF as [|? ? Hm Hms]; subst.
    destruct (receive_wire s m _ Hm Hf Hs) as (rs & Hrs & E).
    destruct (IH {| stream := concat (map wire ms) ++ rest; reads := rs |} rest Hms Hrs eq_refl) as (rs' & Hrs' & E').
    exists rs'. split; [exact Hrs'|]. cbn [length receive_n]. rewrite E, E'. reflexivity.
Qed.

(** ** Truncated transmissions *)
Lemma firstn_wire_header m j : firstn (length (header m) + j) (wire m) = header m ++ firstn j (payload m).
Proof. rewrite wire_header, firstn_app. rewrite (firstn_all2 (header m)) by lia. do 2 f_equal. lia. Qed.

Theorem truncated_payload m j : fits m -> j < length (payload m) ->
  fst (receive {| stream := firstn (length (header m) + j) (wire m); reads := [] |}) =
  if j mod chunk_size =? 0
  then RxFalse {| req_id := req_id m; ep_name := ep_name m; payload := firstn j (payload m) |}
  else RxTrue {| req_id := req_id m; ep_name := ep_name m; payload := firstn j (payload m) |}.
Proof.
  intros (H1 & H2 & H3) Hj. unfold receive.
  assert (Hf : full_reads []) by (intros x []).
  destruct (receive_header msg0 {| stream := firstn (length (header m) + j) (wire m); reads := [] |} m _ Hf (firstn_wire_header m j))
    as (rs & Hrs & ->).
  rewrite (N.mod_small (req_id m)), (N.mod_small (N.of_nat (length (ep_name m)))), (N.mod_small (N.of_nat (length (payload m)))) by assumption.
  rewrite !Nat2N.id, !firstn_all.
  destruct (read_data_full {| stream := firstn j (payload m); reads := rs |} (length (payload m)) Hrs) as (rs' & _ & ->).
  cbn [stream]. rewrite firstn_length_le by lia.
  destruct (Nat.leb_spec (length (payload m)) j); [lia|].
  destruct (j mod chunk_size =? 0); reflexivity.
Qed.

(** ** When no read is short, success means a complete message *)
Lemma read_data_true s len d s' : full_reads (reads s) -> read_data s len = (RdTrue d, s') -> stream s' <> [] ->
  stream s = d ++ stream s' /\ length d = len /\ full_reads (reads s').
Proof.
  intros Hf E Hne. destruct (read_data_full s len Hf) as (rs & Hrs & E'). rewrite E in E'.
  destruct (Nat.leb_spec len (length (stream s))).
  - injection E' as -> ->. cbn [stream reads]. rewrite firstn_skipn, firstn_length_le by lia. auto.
  - destruct (_ =? _); [discriminate|]. injection E' as -> ->. cbn in Hne. congruence.
Qed.

Lemma read_data_true_gen s len d s' : full_reads (reads s) -> read_data s len = (RdTrue d, s') ->
  stream s = d ++ stream s' /\ full_reads (reads s') /\ (length d = len \/ stream s' = []).
Proof.
  intros Hf E. destruct (read_data_full s len Hf) as (rs & Hrs & E'). rewrite E in E'.
  destruct (Nat.leb_spec len (length (stream s))).
  - injection E' as -> ->. cbn [stream reads]. rewrite firstn_skipn, firstn_length_le by lia. auto.
  - destruct (_ =? _); [discriminate|]. injection E' as -> ->. cbn. rewrite app_nil_r. auto.
Qed.

Theorem success_complete s m s' : full_reads (reads s) -> receive s = (RxTrue m, s') -> stream s' <> [] ->
  stream s = wire m ++ stream s' /\ fits m.
Proof.
  intros Hf E Hne. unfold receive, receive_into in E.
  destruct (read_data s 8) as [[t1|t1|] s1] eqn:E1; try discriminate.
  destruct (read_data_true_gen _ _ _ _ Hf E1) as (S1 & F1 & L1).
  destruct (Nat.ltb_spec (length t1) 8) as [?|L1']; [discriminate|].
  destruct (read_data s1 2) as [[t2|t2|] s2] eqn:E2; try discriminate.
  destruct (read_data_true_gen _ _ _ _ F1 E2) as (S2 & F2 & L2).
  destruct (Nat.ltb_spec (length t2) 2) as [?|L2']; [discriminate|].
  destruct (read_data s2 _) as [[t3|t3|] s3] eqn:E3; try discriminate.
  destruct (read_data_true_gen _ _ _ _ F2 E3) as (S3 & F3 & L3).
  destruct (Nat.ltb_spec (length t3) (N.to_nat (le_decode (firstn 2 t2)))) as [?|L3']; [discriminate|].
  destruct (read_data s3 4) as [[t4|t4|] s4] eqn:E4; try discriminate.
  destruct (read_data_true_gen _ _ _ _ F3 E4) as (S4 & F4 & L4).
  destruct (Nat.ltb_spec (length t4) 4) as [?|L4']; [discriminate|].
  destruct (read_data s4 _) as [[t5|t5|] s5] eqn:E5; try discriminate.
  apply pair_equal_spec in E. destruct E as [E Es]. subst s5.
  assert (Em : m = {| req_id := le_decode (firstn 8 t1); ep_name := firstn (N.to_nat (le_decode (firstn 2 t2))) t3;
                      payload := t5 |}).
  { cbn [req_id ep_name payload] in E. congruence. }
  clear E. subst m.
  destruct (read_data_true _ _ _ _ F4 E5 Hne) as (S5 & L5 & F5).
  assert (N4 : stream s4 <> []) by (rewrite S5; destruct t5; [exact Hne|discriminate]).
  assert (L4e : length t4 = 4) by tauto.
  assert (N3 : stream s3 <> []) by (rewrite S4; destruct t4; [exact N4|discriminate]).
  assert (L3e : length t3 = N.to_nat (le_decode (firstn 2 t2))) by tauto.
  assert (N2 : stream s2 <> []) by (rewrite S3; destruct t3; [exact N3|discriminate]).
  assert (L2e : length t2 = 2) by tauto.
  assert (N1 : stream s1 <> []) by (rewrite S2; destruct t2; [exact N2|discriminate]).
  assert (L1e : length t1 = 8) by tauto.
  assert (Q1 : firstn 8 t1 = t1) by (apply firstn_all2; lia).
  assert (Q2 : firstn 2 t2 = t2) by (apply firstn_all2; lia).
  assert (Q4 : firstn 4 t4 = t4) by (apply firstn_all2; lia).
  assert (Q3 : firstn (N.to_nat (le_decode (firstn 2 t2))) t3 = t3) by (apply firstn_all2; lia).
  cbn [req_id ep_name payload]. rewrite Q1, Q3. rewrite Q2 in *. rewrite Q4 in *.
  assert (B1 := le_decode_bound t1). rewrite L1e in B1. change (8 * N.of_nat 8)%N with 64%N in B1.
  assert (B2 := le_decode_bound t2). rewrite L2e in B2. change (8 * N.of_nat 2)%N with 16%N in B2.
  assert (B4 := le_decode_bound t4). rewrite L4e in B4. change (8 * N.of_nat 4)%N with 32%N in B4.
  split.
  - rewrite wire_header. unfold header. cbn [req_id ep_name payload].
    rewrite L3e, L5, !N2Nat.id, !N.mod_small by assumption.
    rewrite (firstn_all2 t3) by lia.
    pose proof (le_encode_decode t1) as D1. rewrite L1e in D1. rewrite D1.
    pose proof (le_encode_decode t2) as D2. rewrite L2e in D2. rewrite D2.
    pose proof (le_encode_decode t4) as D4. rewrite L4e in D4. rewrite D4.
    rewrite S1, S2, S3, S4, S5, <- !app_assoc. reflexivity.
  - unfold fits. cbn [req_id ep_name payload]. rewrite L3e, L5, !N2Nat.id. auto.
Qed.

(** ** Sending *)
Lemma send_bufs_true bufs : forall res out, send_bufs bufs res = (true, out) -> out = concat bufs.
Proof.
  induction bufs as [|b bufs IH]; intros res out E; cbn [send_bufs] in E; [cbn; congruence|].
  destruct res as [|[|k] res]; cbn [tl] in E.
  - destruct (send_bufs bufs []) as [ok o] eqn:Eo. injection E as -> <-. cbn. f_equal. eapply IH; exact Eo.
  - destruct (send_bufs bufs res) as [ok o] eqn:Eo. injection E as -> <-. cbn. f_equal. eapply IH; exact Eo.
  - destruct (k <? length b); [discriminate|].
    destruct (send_bufs bufs res) as [ok o] eqn:Eo. injection E as -> <-. cbn. f_equal. eapply IH; exact Eo.
Qed.

Lemma send_true fd m res out : send fd m res = (true, out) -> out = wire m.
Proof.
  unfold send. destruct (fd =? 0)%N; [discriminate|]. intros E. apply send_bufs_true in E. subst out.
  unfold wire, send. cbn [N.eqb]. destruct (send_bufs (send_buffers m) []) as [ok o] eqn:Eo. cbn [snd].
  cbn [send_buffers send_bufs tl] in Eo. injection Eo as _ <-. reflexivity.
Qed.

Lemma send_nil fd m : fd <> 0%N -> send fd m [] = (true, wire m).
Proof. intros H. unfold send, wire, send. cbn [N.eqb]. destruct (N.eqb_spec fd 0); [contradiction|]. reflexivity. Qed.

(** A failed send puts a proper prefix of the message on the wire. *)
Lemma send_bufs_prefix bufs : forall res ok out, send_bufs bufs res = (ok, out) ->
  exists rest, concat bufs = out ++ rest /\ (ok = false -> rest <> []).
Proof.
  induction bufs as [|b bufs IH]; intros res ok out E; cbn [send_bufs] in E.
  - injection E as <- <-. exists []. split; [reflexivity|discriminate].
  - assert (Hc : forall res', (let '(ok, out) := send_bufs bufs res' in (ok, b ++ out)) = (ok, out) ->
        exists rest, concat (b :: bufs) = out ++ rest /\ (ok = false -> rest <> [])).
    { intros res' E'. destruct (send_bufs bufs res') as [ok' o] eqn:Eo. injection E' as -> <-.
      destruct (IH _ _ _ Eo) as (rest & H1 & H2). exists rest. cbn. rewrite H1, app_assoc. auto. }
    destruct res as [|[|k] res]; cbn [tl] in E; try (apply Hc in E; exact E).
    destruct (Nat.ltb_spec k (length b)); [|apply Hc in E; exact E].
    injection E as <- <-. exists (skipn k b ++ concat bufs). cbn. rewrite app_assoc, firstn_skipn.
    split; [reflexivity|]. intros _ Hn. apply app_eq_nil in Hn. destruct Hn as [Hn _].
    apply (f_equal (@length _)) in Hn. rewrite skipn_length in Hn. cbn in Hn. lia.
Qed.

Lemma concat_send_buffers m : concat (send_buffers m) = wire m.
Proof. unfold wire, send. cbn [N.eqb send_bufs send_buffers tl snd concat]. reflexivity. Qed.

Theorem send_prefix fd m res ok out : send fd m res = (ok, out) ->
  exists rest, wire m = out ++ rest /\ (ok = false -> rest <> []).
Proof.
  unfold send. destruct (fd =? 0)%N.
  - intros E. injection E as <- <-. exists (wire m). split; [reflexivity|]. intros _. unfold wire. cbn. discriminate.
  - intros E. apply send_bufs_prefix in E. rewrite concat_send_buffers in E. exact E.
Qed.

Theorem sequence_via_send fd ms outs : forall s rest, Forall fits ms ->
  Forall2 (fun m out => exists res, send fd m res = (true, out)) ms outs ->
  full_reads (reads s) -> stream s = concat outs ++ rest ->
  exists rs', full_reads rs' /\ receive_n (length ms) s = (ms, {| stream := rest; reads := rs' |}).
Proof.
  intros s rest HF H2 Hf Hs. apply receive_sequence; auto. rewrite Hs. f_equal.
  f_equal. clear - H2. induction H2 as [|m o ms outs (res & E) H2 IH]; [reflexivity|].
  cbn. rewrite <- IH. f_equal. eapply send_true; exact E.
Qed.

(** ** Oversized messages *)
Theorem long_name_truncated m rest : (req_id m < 2 ^ 64)%N -> (2 ^ 16 <= N.of_nat (length (ep_name m)))%N ->
  (N.of_nat (length (payload m)) < 2 ^ 32)%N ->
  exists m', receive {| stream := wire m ++ rest; reads := [] |} = (RxTrue m', {| stream := rest; reads := [] |}) /\
    ep_name m' = firstn (N.to_nat (N.of_nat (length (ep_name m)) mod 2 ^ 16)) (ep_name m) /\ m' <> m.
Proof.
  intros H1 H2 H3.
  assert (Hf : full_reads []) by (intros x []).
  destruct (receive_wire_gen msg0 {| stream := wire m ++ rest; reads := [] |} m rest Hf eq_refl) as (rs & Hrs & E).
  rewrite (N.mod_small (req_id m)), (N.mod_small (N.of_nat (length (payload m)))) in E by assumption.
  rewrite !Nat2N.id, firstn_all, skipn_all in E. cbn [app] in E.
  assert (Hrs0 : reads (snd (receive {| stream := wire m ++ rest; reads := [] |})) = rs) by (unfold receive; rewrite E; reflexivity).
  assert (Hnil : forall s len, reads s = [] -> reads (snd (read_data s len)) = []).
  { intros s len Hr. unfold read_data. generalize (S len) as fuel, (@nil ascii) as acc. intros fuel. revert s Hr.
    induction fuel as [|fuel IH]; intros s Hr acc; cbn [read_loop]; [exact Hr|].
    unfold sys_read. rewrite Hr. cbn [fst snd].
    destruct (_ =? len); [reflexivity|]. destruct (_ =? chunk_size); [apply IH; reflexivity|].
    destruct (_ =? 0); reflexivity. }
  assert (Hrsnil : rs = []).
  { rewrite <- Hrs0. unfold receive, receive_into.
    repeat match goal with
    | |- context [read_data ?s ?n] =>
        let H := fresh in assert (H := Hnil s n); destruct (read_data s n) as [[?|?|] ?]; cbn [reads snd] in *;
        specialize (H ltac:(first [reflexivity|assumption]))
    | |- context [if ?b then _ else _] => destruct b
    end; cbn [reads snd]; auto. }
  clear Hrs0. subst rs. eexists. split; [exact E|]. cbn [ep_name]. split; [reflexivity|].
  intros Hm. apply (f_equal (fun x => length (ep_name x))) in Hm. cbn [ep_name] in Hm.
  rewrite firstn_length in Hm. pose proof (N.mod_lt (N.of_nat (length (ep_name m))) (2 ^ 16)). lia.
Qed.

Theorem long_payload_breaks_framing m rest : fits {| req_id := req_id m; ep_name := ep_name m; payload := [] |} ->
  (2 ^ 32 <= N.of_nat (length (payload m)))%N ->
  let k := N.to_nat (N.of_nat (length (payload m)) mod 2 ^ 32) in
  exists s', receive {| stream := wire m ++ rest; reads := [] |} =
      (RxTrue {| req_id := req_id m; ep_name := ep_name m; payload := firstn k (payload m) |}, s') /\
    stream s' = skipn k (payload m) ++ rest /\ skipn k (payload m) <> [] /\ firstn k (payload m) <> payload m.
Proof.
  intros (H1 & H2 & _) H3 k. cbn [req_id ep_name payload] in *.
  assert (Hf : full_reads []) by (intros x []).
  destruct (receive_wire_gen msg0 {| stream := wire m ++ rest; reads := [] |} m rest Hf eq_refl) as (rs & Hrs & E).
  rewrite (N.mod_small (req_id m)), (N.mod_small (N.of_nat (length (ep_name m)))) in E by assumption.
  rewrite !Nat2N.id, firstn_all in E. fold k in E. eexists. split; [exact E|]. cbn [stream]. split; [reflexivity|].
  pose proof (N.mod_lt (N.of_nat (length (payload m))) (2 ^ 32)) as Hlt.
  split; intros Hn; apply (f_equal (@length _)) in Hn; rewrite ?skipn_length, ?firstn_length in Hn; cbn in Hn; lia.
Qed.

(** ** Witnesses against C02 and C03 *)
Definition w_msg : msg := {| req_id := 1; ep_name := ["e"; "p"]%char; payload := ["a"; "b"; "c"; "d"]%char |}.

Lemma w_fits : fits w_msg.
Proof. repeat split. Qed.

(** The sender dies after three of the four payload bytes. *)
Lemma witness_crash : exists m p rest s', fits m /\ wire m = p ++ rest /\ rest <> [] /\
  receive {| stream := p; reads := [] |} = (RxTrue {| req_id := 1; ep_name := ["e"; "p"]; payload := ["a"; "b"; "c"] |}%char, s') /\
  payload m = ["a"; "b"; "c"; "d"]%char.
Proof.
  exists w_msg, (firstn 19 (wire w_msg)), (skipn 19 (wire w_msg)), {| stream := []; reads := [] |}.
  split; [exact w_fits|]. split; [now rewrite firstn_skipn|]. split; [discriminate|]. split; reflexivity.
Qed.

(** Everything was sent; one read returns less than it could. *)
Lemma witness_short_read : exists m rs m' s', fits m /\ no_read_error rs /\
  receive {| stream := wire m; reads := rs |} = (RxTrue m', s') /\ m' <> m /\ stream s' <> [].
Proof.
  exists w_msg, [RGot 8; RGot 2; RGot 2; RGot 4; RGot 1],
    {| req_id := 1; ep_name := ["e"; "p"]%char; payload := ["a"%char] |}, {| stream := ["b"; "c"; "d"]%char; reads := [] |}.
  split; [exact w_fits|]. split; [intros H; cbn in H; intuition discriminate|].
  split; [reflexivity|]. split; discriminate.
Qed.

(** The sender dies inside the request id: memory beyond the received bytes is used. *)
Lemma witness_ub : exists m p rest, fits m /\ wire m = p ++ rest /\ fst (receive {| stream := p; reads := [] |}) = RxUB.
Proof.
  exists w_msg, (firstn 3 (wire w_msg)), (skipn 3 (wire w_msg)). split; [exact w_fits|].
  split; [now rewrite firstn_skipn|]. reflexivity.
Qed.

(** A cut between two fields of the header is reported as failure, with the message partly filled. *)
Lemma oversize_witness : exists m m' , ~ fits m /\ send 3 m [] = (true, wire m) /\
  receive {| stream := wire m; reads := [] |} = (RxTrue m', {| stream := []; reads := [] |}) /\ m' <> m.
Proof.
  set (m := {| req_id := 5; ep_name := repeat "x"%char (N.to_nat 70000); payload := ["y"%char] |}).
  assert (Hn : N.of_nat (length (ep_name m)) = 70000%N) by (unfold m; cbn [ep_name]; rewrite repeat_length; apply N2Nat.id).
  exists m. destruct (long_name_truncated m []) as (m' & E & _ & Hne).
  - reflexivity.
  - rewrite Hn. discriminate.
  - reflexivity.
  - exists m'. rewrite app_nil_r in E. split; [|split; [|split; [exact E|exact Hne]]].
    + intros (_ & H & _). rewrite Hn in H. discriminate.
    + apply send_nil. discriminate.
Qed.
