From Coq Require Import String List Arith NArith ZArith Ascii Bool Lia ZifyN ZifyNat.
Import ListNotations.
From Verif Require Import Protocol_model Protocol_proofs OMap_model OMap_proofs TraceEvent_model Native_model Names_proofs Cbor_model Cbor_spec.
Local Notation length := List.length.
Local Open Scope nat_scope.

Lemma be_length k v : length (be_encode k v) = k.
Proof. unfold be_encode. rewrite rev_length. apply le_encode_length. Qed.
Lemma be_round k v : (v < 2 ^ (8 * N.of_nat k))%N -> be_decode (be_encode k v) = v.
Proof. intros H. unfold be_decode, be_encode. rewrite rev_involutive, le_decode_encode. apply N.mod_small. exact H. Qed.
Lemma take_app a t : take (length a) (a ++ t) = Some (a, t).
Proof.
  unfold take. rewrite app_length. destruct (Nat.leb_spec (length a) (length a + length t)) as [_|H]; [|lia].
  rewrite firstn_app, Nat.sub_diag, firstn_all, firstn_O, app_nil_r, skipn_app, skipn_all, Nat.sub_diag. reflexivity.
Qed.
Lemma take_be k v t : take k (be_encode k v ++ t) = Some (be_encode k v, t).
Proof. pose proof (take_app (be_encode k v) t) as H. rewrite be_length in H. exact H. Qed.
Lemma first_byte_back m a : (m < 8)%N -> (a < 32)%N ->
  (N_of_ascii (first_byte m a) / 32 = m)%N /\ (N_of_ascii (first_byte m a) mod 32 = a)%N.
Proof.
  intros Hm Ha. unfold first_byte. rewrite N_ascii_embedding by lia.
  replace (32 * m + a)%N with (a + m * 32)%N by lia.
  rewrite N.div_add, N.mod_add, N.div_small, N.mod_small by lia. split; lia.
Qed.
Lemma read_head_app m v t : (m < 8)%N -> (v < 2 ^ 64)%N -> read_head (head m v ++ t) = Some (m, v, t).
Proof.
  intros Hm Hv. unfold head.
  destruct (N.ltb_spec v 24) as [H|H].
  { cbn [app read_head]. destruct (first_byte_back m v Hm ltac:(lia)) as [-> ->]. destruct (N.ltb_spec v 24); [reflexivity|lia]. }
  destruct (N.ltb_spec v (2 ^ 8)) as [H1|H1].
  { cbn [app read_head]. destruct (first_byte_back m 24 Hm ltac:(lia)) as [-> ->]. cbn [N.ltb N.eqb N.compare Pos.compare Pos.compare_cont Pos.eqb].
    rewrite take_be, be_round; [reflexivity|exact H1]. }
  destruct (N.ltb_spec v (2 ^ 16)) as [H2|H2].
  { cbn [app read_head]. destruct (first_byte_back m 25 Hm ltac:(lia)) as [-> ->]. cbn [N.ltb N.eqb N.compare Pos.compare Pos.compare_cont Pos.eqb].
    rewrite take_be, be_round; [reflexivity|exact H2]. }
  destruct (N.ltb_spec v (2 ^ 32)) as [H3|H3].
  { cbn [app read_head]. destruct (first_byte_back m 26 Hm ltac:(lia)) as [-> ->]. cbn [N.ltb N.eqb N.compare Pos.compare Pos.compare_cont Pos.eqb].
    rewrite take_be, be_round; [reflexivity|exact H3]. }
  cbn [app read_head]. destruct (first_byte_back m 27 Hm ltac:(lia)) as [-> ->]. cbn [N.ltb N.eqb N.compare Pos.compare Pos.compare_cont Pos.eqb].
  rewrite take_be, be_round; [reflexivity|exact Hv].
Qed.
Lemma head_nonempty m v : 1 <= length (head m v).
Proof. unfold head. repeat match goal with |- context [if ?c then _ else _] => destruct c end; cbn [length]; lia. Qed.
Lemma expect_app m v t : (m < 8)%N -> (v < 2 ^ 64)%N -> expect m (head m v ++ t) = Some (v, t).
Proof. intros Hm Hv. unfold expect. rewrite read_head_app by assumption. rewrite N.eqb_refl. reflexivity. Qed.

Lemma uint_app bits v t : (v < 2 ^ 64)%N -> (v < 2 ^ bits)%N -> read_uint bits (uint v ++ t) = Some (v, t).
Proof. intros Hv Hb. unfold read_uint, uint. rewrite expect_app by lia. destruct (N.ltb_spec v (2 ^ bits)); [reflexivity|lia]. Qed.
Lemma int_app z t : (- 2 ^ 63 <= z < 2 ^ 63)%Z -> read_int (int z ++ t) = Some (z, t).
Proof.
  intros H. unfold read_int, int. destruct (Z.leb_spec 0 z) as [H0|H0].
  - rewrite read_head_app by lia. destruct (N.leb_spec (2 ^ 63) (Z.to_N z)) as [H1|H1]; [lia|]. cbn [N.eqb]. rewrite Z2N.id by lia. reflexivity.
  - rewrite read_head_app by lia. destruct (N.leb_spec (2 ^ 63) (Z.to_N (-1 - z))) as [H1|H1]; [lia|]. cbn [N.eqb Pos.eqb].
    rewrite Z2N.id by lia. do 2 f_equal. lia.
Qed.
Lemma blob_app m s t : (m < 8)%N -> (N.of_nat (length s) < 2 ^ 64)%N -> read_blob m (blob m s ++ t) = Some (s, t).
Proof.
  intros Hm Hs. unfold read_blob, blob. rewrite <- app_assoc, expect_app by assumption.
  destruct (N.leb_spec (N.of_nat (length s)) (N.of_nat (length (s ++ t)))) as [_|H]; [|rewrite app_length in H; lia].
  rewrite Nat2N.id. apply take_app.
Qed.
Lemma int_length z : (- 2 ^ 63 <= z < 2 ^ 63)%Z -> length (int z) <= 9.
Proof.
  intros H. unfold int, head. repeat match goal with |- context [if ?c then _ else _] => destruct c end; cbn [length]; rewrite ?be_length; lia.
Qed.

(** ** Arrays. *)
Section Many.
Context {A : Type} (rd : bytes -> option (A * bytes)) (wr : A -> bytes) (ok : A -> Prop).
Context (rd_wr : forall x t, ok x -> rd (wr x ++ t) = Some (x, t)) (wr_pos : forall x, 1 <= length (wr x)).
Lemma many_app l t fuel : Forall ok l -> length (flat_map wr l) <= fuel -> many rd fuel (count l) (flat_map wr l ++ t) = Some (l, t).
Proof.
  revert fuel. induction l as [|x l IH]; intros fuel H Hf.
  - destruct fuel; reflexivity.
  - inversion H; subst. cbn [flat_map] in *. rewrite app_length in Hf. pose proof (wr_pos x).
    destruct fuel as [|f]; [lia|]. cbn [many]. unfold count. cbn [length].
    destruct (N.eqb_spec (N.of_nat (S (length l))) 0) as [E|_]; [lia|].
    rewrite <- app_assoc, rd_wr by assumption.
    replace (N.of_nat (S (length l)) - 1)%N with (count l) by (unfold count; lia). rewrite IH; [reflexivity|assumption|lia].
Qed.
Lemma read_many_app m l t : (m < 8)%N -> (count l < 2 ^ 64)%N -> Forall ok l -> read_many rd m (head m (count l) ++ flat_map wr l ++ t) = Some (l, t).
Proof.
  intros Hm Hc H. unfold read_many. rewrite expect_app by assumption. apply many_app; [exact H|]. rewrite app_length. lia.
Qed.
End Many.

Lemma event_app e t : fits e -> read_event (event e ++ t) = Some (e, t).
Proof.
  intros [Ht Hi Hy Hv]. unfold read_event, event. destruct e as [ti i ty v]. cbn [te_time te_id te_type te_value] in *.
  destruct v as [z|].
  - rewrite <- !app_assoc, expect_app by lia. rewrite !uint_app by lia. cbn [N.leb N.compare Pos.compare Pos.compare_cont].
    specialize (Hv z eq_refl). pose proof (int_length z Hv). rewrite blob_app by lia.
    pose proof (int_app z [] Hv) as I. rewrite app_nil_r in I. rewrite I. reflexivity.
  - rewrite <- !app_assoc, expect_app by lia. rewrite !uint_app by lia. reflexivity.
Qed.
Lemma event_pos e : 1 <= length (event e).
Proof. unfold event. destruct (te_value e); rewrite app_length; cbn; lia. Qed.

Definition thread_ok (p : N * list tev) : Prop := (fst p < 2 ^ 64)%N /\ (N.of_nat (length (snd p)) < 2 ^ 64)%N /\ Forall fits (snd p).
Lemma thread_app p t : thread_ok p -> read_thread (thread p ++ t) = Some (p, t).
Proof.
  intros (Ht & Hc & Hf). destruct p as [tid evs]. cbn [fst snd] in *. unfold read_thread, thread. cbn [fst snd]. rewrite <- !app_assoc, uint_app by lia.
  rewrite (read_many_app read_event event fits); [reflexivity|exact event_app|exact event_pos|lia|exact Hc|exact Hf].
Qed.
Lemma thread_pos p : 1 <= length (thread p).
Proof. unfold thread. rewrite app_length. pose proof (head_nonempty 0 (fst p)). unfold uint. lia. Qed.

(** A map in ascending order comes back as it is. *)
Lemma insert_last {V} k (v : V) m : (forall k' v', In (k', v') m -> (k' < k)%N) -> minsert N.ltb k v m = m ++ [(k, v)].
Proof.
  induction m as [|[k' v'] m IH]; intros H; [reflexivity|]. cbn [minsert]. pose proof (H k' v' (or_introl eq_refl)).
  destruct (N.ltb_spec k k') as [H1|_]; [lia|]. destruct (N.ltb_spec k' k) as [_|H1]; [|lia]. cbn [app]. f_equal. apply IH.
  intros. eapply H. right. eassumption.
Qed.
Lemma into_map_from ths : forall lo m, ascending_from lo ths -> (forall k v, In (k, v) m -> (k < lo)%N) ->
  fold_left (fun m p => minsert N.ltb (fst p) (snd p) m) ths m = m ++ ths.
Proof.
  induction ths as [|[tid evs] ths IH]; intros lo m H Hm; [cbn; rewrite app_nil_r; reflexivity|].
  destruct H as [Hlo H]. cbn [fold_left fst snd]. rewrite insert_last by (intros k v I; specialize (Hm k v I); lia).
  rewrite (IH (tid + 1)%N); [rewrite <- app_assoc; reflexivity|exact H|].
  intros k v I. apply in_app_or in I. destruct I as [I|[I|[]]]; [specialize (Hm k v I); lia|]. assert (k = tid) by congruence. lia.
Qed.
Lemma threads_app ths t : event_map ths -> read_threads (threads ths ++ t) = Some (ths, t).
Proof.
  intros [Ho Hs Hf]. unfold read_threads, threads. rewrite <- app_assoc.
  rewrite (read_many_app read_thread thread thread_ok); [|exact thread_app|exact thread_pos|lia|exact Hs|exact Hf].
  unfold into_map. rewrite (into_map_from ths 0 []); [reflexivity|exact Ho|intros k v []].
Qed.

(** ** Passing over items. *)
Definition items (c : N) (x : bytes) : Prop := exists k, k <= length x /\ forall f n t, skip (k + f) (n + c) (x ++ t) = skip f n t.
Lemma items_nil : items 0 [].
Proof. exists 0. split; [lia|]. intros. rewrite N.add_0_r. reflexivity. Qed.
Lemma items_app c d x y : items c x -> items d y -> items (c + d) (x ++ y).
Proof.
  intros (k & Hk & H) (l & Hl & G). exists (k + l). rewrite app_length. split; [lia|]. intros f n t.
  rewrite <- app_assoc, <- Nat.add_assoc, (N.add_comm c d), N.add_assoc, H. apply G.
Qed.
Lemma items_one m v x c :
  (m < 8)%N -> (v < 2 ^ 64)%N ->
  (m = 0 /\ c = 0 \/ m = 1 /\ c = 0 \/ m = 4 /\ c = v \/ m = 5 /\ c = 2 * v)%N -> items c x -> items 1 (head m v ++ x).
Proof.
  intros Hm Hv D (k & Hk & H). exists (S k). rewrite app_length. pose proof (head_nonempty m v). split; [lia|]. intros f n t.
  cbn [skip plus]. destruct (N.eqb_spec (n + 1) 0) as [E|_]; [lia|]. rewrite <- app_assoc, read_head_app by assumption.
  replace (n + 1 - 1)%N with n by lia.
  destruct D as [[-> ->]|[[-> ->]|[[-> ->]|[-> ->]]]]; cbn [N.eqb Pos.eqb orb]; [rewrite <- (N.add_0_r n) at 1|rewrite <- (N.add_0_r n) at 1| |]; apply H.
Qed.
Lemma items_uint v : (v < 2 ^ 64)%N -> items 1 (uint v).
Proof. intros H. unfold uint. rewrite <- (app_nil_r (head 0 v)). apply (items_one 0 v [] 0%N); [lia|exact H|lia|apply items_nil]. Qed.
Lemma items_blob m s : (m = 2 \/ m = 3)%N -> (N.of_nat (length s) < 2 ^ 64)%N -> items 1 (blob m s).
Proof.
  intros D Hs. unfold blob. exists 1. rewrite app_length. pose proof (head_nonempty m (N.of_nat (length s))). split; [lia|]. intros f n t.
  cbn [skip plus]. destruct (N.eqb_spec (n + 1) 0) as [E|_]; [lia|]. rewrite <- app_assoc, read_head_app by (destruct D; subst; lia).
  replace (n + 1 - 1)%N with n by lia.
  assert (E : ((m =? 2) || (m =? 3))%N = true) by (destruct D as [-> | ->]; reflexivity). rewrite E.
  destruct (N.leb_spec (N.of_nat (length s)) (N.of_nat (length (s ++ t)))) as [_|G]; [|rewrite app_length in G; lia].
  rewrite Nat2N.id, skipn_app, skipn_all, Nat.sub_diag. reflexivity.
Qed.
Lemma items_flat {A} (wr : A -> bytes) c (l : list A) : Forall (fun x => items c (wr x)) l -> items (c * count l) (flat_map wr l).
Proof.
  induction l as [|x l IH]; intros H.
  - unfold count. cbn [length flat_map N.of_nat]. rewrite N.mul_0_r. apply items_nil.
  - inversion H; subst. cbn [flat_map]. replace (c * count (x :: l))%N with (c + c * count l)%N by (unfold count; cbn [length]; lia).
    apply items_app; [assumption|apply IH; assumption].
Qed.
Lemma items_event e : fits e -> items 1 (event e).
Proof.
  intros [Ht Hi Hy Hv]. unfold event. destruct (te_value e) as [z|].
  - apply (items_one 4 4 _ 4%N); [lia|lia|lia|].
    replace 4%N with (1 + (1 + (1 + 1)))%N by lia. specialize (Hv z eq_refl). pose proof (int_length z Hv).
    repeat apply items_app; try (apply items_uint; lia). apply items_blob; [left; reflexivity|lia].
  - apply (items_one 4 3 _ 3%N); [lia|lia|lia|].
    replace 3%N with (1 + (1 + 1))%N by lia. repeat apply items_app; apply items_uint; lia.
Qed.
Lemma items_thread p : thread_ok p -> items 2 (thread p).
Proof.
  intros (Ht & Hc & Hf). unfold thread. change 2%N with (1 + 1)%N. apply items_app; [apply items_uint; lia|].
  apply (items_one 4 (count (snd p)) _ (1 * count (snd p))); [lia|exact Hc|lia|]. apply items_flat.
  eapply Forall_impl; [|exact Hf]. intros e He. apply items_event. exact He.
Qed.
Lemma items_threads ths : event_map ths -> items 1 (threads ths).
Proof.
  intros [Ho Hs Hf]. unfold threads. apply (items_one 5 (count ths) _ (2 * count ths)); [lia|exact Hs|lia|]. apply items_flat.
  eapply Forall_impl; [|exact Hf]. intros p Hp. apply items_thread. exact Hp.
Qed.
Lemma item_app x t : items 1 x -> read_item (x ++ t) = Some (x, t).
Proof.
  intros (k & Hk & H). unfold read_item. rewrite app_length. replace (S (length x + length t)) with (k + S (length x - k + length t)) by lia.
  change 1%N with (0 + 1)%N. rewrite H. cbn [skip N.eqb].
  replace (length x + length t - length t) with (length x) by lia. rewrite firstn_app, Nat.sub_diag, firstn_all, firstn_O, app_nil_r. reflexivity.
Qed.

(** ** The message. *)
Definition field (p : bytes * bytes) : bytes := blob 3 (fst p) ++ snd p.
Definition field_ok (p : bytes * bytes) : Prop := (N.of_nat (length (fst p)) < 2 ^ 64)%N /\ items 1 (snd p).
Lemma field_app p t : field_ok p -> read_field (field p ++ t) = Some (p, t).
Proof.
  intros (Hk & Hi). destruct p as [k v]. cbn [fst snd] in *. unfold read_field, field. cbn [fst snd]. rewrite <- app_assoc, blob_app by lia.
  rewrite item_app by exact Hi. reflexivity.
Qed.
Lemma field_pos p : 1 <= length (field p).
Proof. unfold field, blob. rewrite !app_length. pose proof (head_nonempty 3 (N.of_nat (length (fst p)))). lia. Qed.
Lemma message_app pid ths t : process_number pid -> event_map ths ->
  read_message (pack pid ths ++ t) = Some ([(text "events", threads ths); (text "pid", uint (Z.to_N pid))], t).
Proof.
  intros Hp He. unfold process_number in Hp. unfold read_message.
  set (l := [(text "events", threads ths); (text "pid", uint (Z.to_N pid))]).
  assert (E : pack pid ths ++ t = head 5 (count l) ++ flat_map field l ++ t).
  { unfold pack, l, field. cbn [flat_map fst snd]. rewrite app_nil_r, <- !app_assoc. reflexivity. }
  rewrite E, (read_many_app read_field field field_ok); [reflexivity|exact field_app|exact field_pos|lia|unfold l, count; cbn [length]; lia|].
  unfold l. constructor; [|constructor; [|constructor]]; split; cbn [fst snd].
  - cbn. lia.
  - apply items_threads. exact He.
  - cbn. lia.
  - apply items_uint. lia.
Qed.
Lemma to_int_small z : process_number z -> to_int (Z.to_N z) = z.
Proof.
  intros H. unfold process_number in H. unfold to_int. rewrite Z2N.id by lia. rewrite Z.mod_small by lia. cbv zeta.
  destruct (Z.ltb_spec z (2 ^ 31)); [reflexivity|lia].
Qed.
Lemma unpack_pack_more pid ths t : process_number pid -> event_map ths -> unpack (pack pid ths ++ t) = CGood {| nc_pid := pid; nc_threads := ths |}.
Proof.
  intros Hp He. unfold unpack. rewrite message_app by assumption.
  assert (F1 : mfind str_ltb (text "pid") [(text "events", threads ths); (text "pid", uint (Z.to_N pid))] = Some (uint (Z.to_N pid))) by reflexivity.
  assert (F2 : mfind str_ltb (text "events") [(text "events", threads ths); (text "pid", uint (Z.to_N pid))] = Some (threads ths)) by reflexivity.
  rewrite F1, F2. pose proof (uint_app 64 (Z.to_N pid) []) as U. rewrite app_nil_r in U.
  unfold process_number in Hp. rewrite U by lia.
  pose proof (threads_app ths [] He) as T. rewrite app_nil_r in T. rewrite T, to_int_small by exact Hp. reflexivity.
Qed.
Lemma unpack_pack pid ths : process_number pid -> event_map ths -> unpack (pack pid ths) = CGood {| nc_pid := pid; nc_threads := ths |}.
Proof. intros Hp He. rewrite <- (app_nil_r (pack pid ths)). apply unpack_pack_more; assumption. Qed.

(** ** Reading more bytes than needed gives the same. *)
Definition ext {A} (rd : bytes -> option (A * bytes)) : Prop := forall b x r t, rd b = Some (x, r) -> rd (b ++ t) = Some (x, r ++ t).
Lemma take_ext k : ext (take k).
Proof.
  intros b x r t H. unfold take in *. destruct (Nat.leb_spec k (length b)) as [L|L]; [|discriminate].
  assert (x = firstn k b /\ r = skipn k b) as [-> ->] by (split; congruence).
  rewrite app_length. destruct (Nat.leb_spec k (length b + length t)) as [_|G]; [|lia].
  rewrite firstn_app, skipn_app. replace (k - length b) with 0 by lia. rewrite firstn_O, app_nil_r. reflexivity.
Qed.
Lemma read_head_ext b m v r t : read_head b = Some (m, v, r) -> read_head (b ++ t) = Some (m, v, r ++ t).
Proof.
  intros H. unfold read_head in *. destruct b as [|c b]; [discriminate|]. cbn [app]. cbv zeta in *.
  repeat match type of H with (if ?q then _ else _) = _ => destruct q end; try discriminate H; try congruence;
  match type of H with match take ?k b with _ => _ end = _ => destruct (take k b) as [[x r']|] eqn:E; [|discriminate];
    rewrite (take_ext k b x r' t E) end; inversion H; subst; reflexivity.
Qed.
Lemma expect_ext m : ext (expect m).
Proof.
  intros b x r t H. unfold expect in *. destruct (read_head b) as [[[m' v] r']|] eqn:E; [|discriminate]. rewrite (read_head_ext _ _ _ _ t E).
  destruct (m' =? m)%N; [inversion H; subst; reflexivity|discriminate].
Qed.
Lemma read_blob_ext m : ext (read_blob m).
Proof.
  intros b x r t H. unfold read_blob in *. destruct (expect m b) as [[n r']|] eqn:E; [|discriminate]. rewrite (expect_ext _ _ _ _ t E).
  destruct (N.leb_spec n (N.of_nat (length r'))) as [L|L]; [|discriminate]. rewrite app_length.
  destruct (N.leb_spec n (N.of_nat (length r' + length t))) as [_|G]; [|lia]. apply take_ext. exact H.
Qed.
Lemma skip_ext f : forall n b r f' t, skip f n b = Some r -> f <= f' -> skip f' n (b ++ t) = Some (r ++ t).
Proof.
  induction f as [|f IH]; intros n b r f' t H Hf.
  - cbn [skip] in H. destruct (N.eqb_spec n 0) as [->|_]; [|discriminate]. assert (b = r) as -> by congruence. destruct f'; reflexivity.
  - destruct f' as [|f']; [lia|]. cbn [skip] in *. destruct (N.eqb_spec n 0) as [->|_]; [inversion H; subst; reflexivity|].
    destruct (read_head b) as [[[m v] r']|] eqn:E; [|discriminate]. rewrite (read_head_ext _ _ _ _ t E).
    repeat match type of H with
    | (if (v <=? _)%N then _ else _) = _ => destruct (N.leb_spec v (N.of_nat (length r'))) as [L|L]; [|discriminate]
    | (if ?q then _ else _) = _ => destruct q
    end; try (apply IH; [exact H|lia]).
    rewrite app_length. destruct (N.leb_spec v (N.of_nat (length r' + length t))) as [_|G]; [|lia].
    rewrite skipn_app. replace (N.to_nat v - length r') with 0 by lia. cbn [skipn]. apply IH; [exact H|lia].
Qed.
Lemma skip_shorter f : forall n b r, skip f n b = Some r -> exists c, b = c ++ r.
Proof.
  induction f as [|f IH]; intros n b r H; cbn [skip] in H; (destruct (N.eqb_spec n 0) as [->|_]; [exists []; inversion H; subst; reflexivity|]); [discriminate|].
  destruct (read_head b) as [[[m v] r']|] eqn:E; [|discriminate].
  assert (exists c, b = c ++ r') as [c ->].
  { unfold read_head in E. destruct b as [|a b]; [discriminate|]. cbv zeta in E.
    repeat match type of E with (if ?q then _ else _) = _ => destruct q end; try discriminate E;
    [exists [a]; inversion E; subst; reflexivity|..];
    match type of E with match take ?k b with _ => _ end = _ => unfold take in E; destruct (Nat.leb_spec k (length b)); [|discriminate];
      exists (a :: firstn k b); cbn [app]; f_equal; assert (r' = skipn k b) as -> by congruence; symmetry; apply firstn_skipn end. }
  assert (G : exists d, r' = d ++ r).
  { repeat match type of H with
    | (if (v <=? _)%N then _ else _) = _ => destruct (N.leb_spec v (N.of_nat (length r'))) as [L|L]; [|discriminate]
    | (if ?q then _ else _) = _ => destruct q
    end; try (eapply IH; exact H).
    destruct (IH _ _ _ H) as [d Hd]. exists (firstn (N.to_nat v) r' ++ d). rewrite <- app_assoc, <- Hd. symmetry. apply firstn_skipn. }
  destruct G as [d ->]. exists (c ++ d). apply app_assoc.
Qed.
Lemma read_item_ext : ext read_item.
Proof.
  intros b x r t H. unfold read_item in *. destruct (skip (S (length b)) 1 b) as [r'|] eqn:E; [|discriminate].
  assert (r' = r) as -> by congruence. assert (X : x = firstn (length b - length r) b) by congruence.
  rewrite (skip_ext _ _ _ _ (S (length (b ++ t))) t E) by (rewrite app_length; lia).
  destruct (skip_shorter _ _ _ _ E) as [c Hc]. do 2 f_equal. rewrite X, !app_length, firstn_app.
  replace (length b + length t - (length r + length t)) with (length b - length r) by lia.
  replace (length b - length r - length b) with 0 by lia. rewrite firstn_O, app_nil_r. reflexivity.
Qed.
Lemma read_field_ext : ext read_field.
Proof.
  intros b x r t H. unfold read_field in *. destruct (read_blob 3 b) as [[k b1]|] eqn:E; [|discriminate]. rewrite (read_blob_ext _ _ _ _ t E).
  destruct (read_item b1) as [[v b2]|] eqn:F; [|discriminate]. rewrite (read_item_ext _ _ _ t F). inversion H; subst; reflexivity.
Qed.
Lemma many_ext {A} (rd : bytes -> option (A * bytes)) : ext rd -> forall f n b x r f' t, many rd f n b = Some (x, r) -> f <= f' -> many rd f' n (b ++ t) = Some (x, r ++ t).
Proof.
  intros He. induction f as [|f IH]; intros n b x r f' t H Hf.
  - cbn [many] in H. destruct (N.eqb_spec n 0) as [->|_]; [|discriminate]. destruct f'; cbn [many N.eqb]; inversion H; subst; reflexivity.
  - destruct f' as [|f']; [lia|]. cbn [many] in *. destruct (N.eqb_spec n 0) as [->|_]; [inversion H; subst; reflexivity|].
    destruct (rd b) as [[y r1]|] eqn:E; [|discriminate]. rewrite (He _ _ _ t E).
    destruct (many rd f (n - 1) r1) as [[xs r2]|] eqn:F; [|discriminate]. rewrite (IH _ _ _ _ f' t F) by lia. inversion H; subst; reflexivity.
Qed.
Lemma read_message_ext : ext read_message.
Proof.
  intros b x r t H. unfold read_message, read_many in *. destruct (expect 5 b) as [[n r1]|] eqn:E; [|discriminate]. rewrite (expect_ext _ _ _ _ t E).
  destruct (many read_field (S (length r1)) n r1) as [[l r2]|] eqn:F; [|discriminate].
  rewrite (many_ext read_field read_field_ext _ _ _ _ _ (S (length (r1 ++ t))) t F) by (rewrite app_length; lia). inversion H; subst; reflexivity.
Qed.

(** A message cut short is not read as another one. *)
Lemma cut_short pid ths k : process_number pid -> event_map ths -> k < length (pack pid ths) -> unpack (firstn k (pack pid ths)) = CBad.
Proof.
  intros Hp He Hk. unfold unpack. destruct (read_message (firstn k (pack pid ths))) as [[m r]|] eqn:E; [|reflexivity]. exfalso.
  apply (read_message_ext _ _ _ (skipn k (pack pid ths))) in E. rewrite firstn_skipn in E.
  pose proof (message_app pid ths [] Hp He) as M. rewrite app_nil_r in M. rewrite M in E.
  assert (X : r ++ skipn k (pack pid ths) = []) by congruence.
  apply app_eq_nil in X. destruct X as [_ X]. apply (f_equal (@length ascii)) in X. rewrite skipn_length in X. cbn [length] in X. lia.
Qed.

(** [fuel] above the number of bytes makes no difference. *)
Definition consumes {A} (rd : bytes -> option (A * bytes)) : Prop := forall b x r, rd b = Some (x, r) -> length r < length b.
Lemma many_fuel {A} (rd : bytes -> option (A * bytes)) : consumes rd -> forall f n b f', length b < f -> length b < f' -> many rd f n b = many rd f' n b.
Proof.
  intros Hc. induction f as [|f IH]; intros n b f' Hf Hf'; [lia|]. destruct f' as [|f']; [lia|]. cbn [many].
  destruct (N.eqb_spec n 0) as [_|_]; [reflexivity|]. destruct (rd b) as [[x r]|] eqn:E; [|reflexivity].
  apply Hc in E. rewrite (IH _ _ f') by lia. reflexivity.
Qed.

Lemma pack_injective pid ths pid' ths' : process_number pid -> event_map ths -> process_number pid' -> event_map ths' ->
  pack pid ths = pack pid' ths' -> pid = pid' /\ ths = ths'.
Proof.
  intros Hp He Hp' He' E. pose proof (unpack_pack pid ths Hp He) as U. pose proof (unpack_pack pid' ths' Hp' He') as U'. rewrite <- E, U in U'.
  inversion U'. split; reflexivity.
Qed.

(** A message of two threads with all kinds of heads. *)
Definition ex_events : list (N * list tev) :=
  [(7%N, [{| te_time := 1700000000000000000; te_id := 3000000000; te_type := SCOPE_ENTRY; te_value := None |};
          {| te_time := 1700000000000000100; te_id := 23; te_type := COUNTER; te_value := Some (-300)%Z |}]);
   (140000000000000%N, [{| te_time := 1700000000000000200; te_id := 300; te_type := COUNTER; te_value := Some (2 ^ 40)%Z |}])].
Lemma fits_small t i ty v : (t < 2 ^ 64)%N -> (i < 2 ^ 32)%N -> (ty < 2 ^ 8)%N -> match v with Some z => (- 2 ^ 63 <= z < 2 ^ 63)%Z | None => True end ->
  fits {| te_time := t; te_id := i; te_type := ty; te_value := v |}.
Proof. intros. split; cbn [te_time te_id te_type te_value]; try assumption. intros z ->. assumption. Qed.
Lemma ex_events_fit : event_map ex_events.
Proof.
  split.
  - repeat split; discriminate.
  - reflexivity.
  - unfold ex_events. apply Forall_cons; [|apply Forall_cons; [|apply Forall_nil]]; cbn [fst snd].
    + split; [reflexivity|]. split; [reflexivity|]. apply Forall_cons; [|apply Forall_cons; [|apply Forall_nil]]; apply fits_small; try exact I; try reflexivity.
      split; [discriminate|reflexivity].
    + split; [reflexivity|]. split; [reflexivity|]. apply Forall_cons; [|apply Forall_nil]; apply fits_small; try reflexivity.
      split; [discriminate|reflexivity].
Qed.
