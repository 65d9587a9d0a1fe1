From Coq Require Import List Arith NArith Ascii Bool Lia.
Import ListNotations.
From Verif Require Import Str_model Lines_model Lines_spec.
Local Open Scope nat_scope.

Lemma block_room : room < block. Proof. apply Nat.ltb_lt. vm_compute. reflexivity. Qed.
Lemma block_S : exists n, block = S n. Proof. eexists. reflexivity. Qed.
Lemma room_pos : 0 < room. Proof. apply Nat.ltb_lt. vm_compute. reflexivity. Qed.
Opaque block room.

Lemma eqb_nl c : Ascii.eqb c nl = true -> c = nl. Proof. apply Ascii.eqb_eq. Qed.
Lemma fgets_spec n : forall part buf pipe closed, match fgets n part buf pipe closed with
  | GLine piece buf' pipe' => exists u, piece = part ++ u /\ buf ++ pipe = u ++ buf' ++ pipe' /\ (length u = n /\ ~ In nl u \/ exists u', u = u' ++ [nl] /\ ~ In nl u' /\ length u <= n)
  | GWait part' => part' = part ++ buf ++ pipe /\ ~ In nl (buf ++ pipe) /\ closed = false /\ length (buf ++ pipe) < n
  | GEnd piece => piece = part ++ buf ++ pipe /\ ~ In nl (buf ++ pipe) /\ closed = true /\ length (buf ++ pipe) < n end.
Proof.
  induction n as [|n IH]; intros part buf pipe closed; cbn [fgets].
  - exists []. rewrite app_nil_r. repeat split; auto.
  - assert (Go : forall c buf pipe, match (if Ascii.eqb c nl then GLine (part ++ [c]) buf pipe else fgets n (part ++ [c]) buf pipe closed) with
      | GLine piece buf' pipe' => exists u, piece = part ++ u /\ (c :: buf) ++ pipe = u ++ buf' ++ pipe' /\ (length u = S n /\ ~ In nl u \/ exists u', u = u' ++ [nl] /\ ~ In nl u' /\ length u <= S n)
      | GWait part' => part' = part ++ (c :: buf) ++ pipe /\ ~ In nl ((c :: buf) ++ pipe) /\ closed = false /\ length ((c :: buf) ++ pipe) < S n
      | GEnd piece => piece = part ++ (c :: buf) ++ pipe /\ ~ In nl ((c :: buf) ++ pipe) /\ closed = true /\ length ((c :: buf) ++ pipe) < S n end).
    { clear buf pipe. intros c buf pipe. destruct (Ascii.eqb c nl) eqn:Ec.
      - apply eqb_nl in Ec. subst c. exists [nl]. split; [reflexivity|]. split; [reflexivity|]. right. exists []. repeat split; auto. cbn. lia.
      - assert (Hc : c <> nl) by (intros ->; rewrite Ascii.eqb_refl in Ec; discriminate). specialize (IH (part ++ [c]) buf pipe closed).
        destruct (fgets n (part ++ [c]) buf pipe closed) as [piece buf' pipe'|part'|piece].
        + destruct IH as (u & -> & E & H). exists (c :: u). rewrite <- app_assoc. split; [reflexivity|]. split; [cbn; rewrite E; reflexivity|]. destruct H as [[H1 H2]|(u' & -> & H1 & H2)].
          * left. split; [cbn; lia|]. intros [G|G]; [congruence|exact (H2 G)].
          * right. exists (c :: u'). split; [reflexivity|]. split; [intros [G|G]; [congruence|exact (H1 G)]|cbn in *; lia].
        + destruct IH as (-> & H1 & H2 & H3). rewrite <- app_assoc. split; [reflexivity|]. split; [intros [G|G]; [congruence|exact (H1 G)]|]. split; [exact H2|cbn; lia].
        + destruct IH as (-> & H1 & H2 & H3). rewrite <- app_assoc. split; [reflexivity|]. split; [intros [G|G]; [congruence|exact (H1 G)]|]. split; [exact H2|cbn; lia]. }
    destruct buf as [|c buf]; [|apply Go]. destruct (firstn block pipe) as [|c buf] eqn:Ef.
    + assert (pipe = []) as ->. { destruct pipe as [|c pipe]; [reflexivity|]. destruct block_S as (k & Hk). rewrite Hk in Ef. discriminate. }
      cbn. rewrite app_nil_r. destruct closed; repeat split; auto; lia.
    + assert (Ep : (c :: buf) ++ skipn block pipe = pipe) by (rewrite <- Ef; apply firstn_skipn). specialize (Go c buf (skipn block pipe)). rewrite Ep in Go. exact Go.
Qed.
(** The whole state: what is still to be delivered. *)
Definition part_of (q : stream) : str := match q_part q with Some p => p | None => [] end.
Definition rest (q : stream) : str := part_of q ++ q_buf q ++ q_pipe q.
Lemma zero_free t : ~ In (ascii_of_N 0) t -> c_str t = t.
Proof.
  induction t as [|c t IH]; intro H; [reflexivity|]. cbn. destruct (N.eqb_spec (N_of_ascii c) 0) as [E|E].
  - exfalso. apply H. left. rewrite <- (ascii_N_embedding c), E. reflexivity.
  - f_equal. apply IH. intro G. apply H. right. exact G.
Qed.
Lemma handle_whole l : whole_line l -> handle l = [l].
Proof.
  intros (t & -> & _ & _ & Hz). unfold handle. rewrite zero_free by (intro G; apply in_app_or in G as [G|[G|[]]]; [exact (Hz G)|discriminate]). destruct t; reflexivity.
Qed.
Lemma handle_start t : start_of_line t -> handle t = match t with [] => [] | _ => [t] end.
Proof. intros (_ & _ & Hz). unfold handle. rewrite zero_free by exact Hz. destruct t; reflexivity. Qed.
Lemma first_nl (a b : str) (x y : str) : ~ In nl a -> ~ In nl b -> a ++ nl :: x = b ++ nl :: y -> a = b /\ x = y.
Proof.
  revert b. induction a as [|c a IH]; intros [|d b] Ha Hb E; cbn in E.
  - injection E as E. auto.
  - injection E as E1 E2. exfalso. apply Hb. left. auto.
  - injection E as E1 E2. exfalso. apply Ha. left. auto.
  - injection E as -> E. destruct (IH b) as [-> ->]; auto; intro G; [apply Ha|apply Hb]; right; exact G.
Qed.
Definition inv (ls : list str) (t : str) (future : str) (q : stream) (out : list str) : Prop :=
  if q_stop q then rest q = [] /\ future = [] /\ out = all_lines ls t
  else exists l1 l2, ls = l1 ++ l2 /\ out = l1 /\ rest q ++ future = concat l2 ++ t /\ ~ In nl (part_of q) /\ length (part_of q) < room.
Lemma inv_work ls t future q out : Forall whole_line ls -> start_of_line t -> (q_closed q = true -> future = []) -> inv ls t future q out ->
  let (q', o) := qstep Work q in inv ls t future q' (out ++ o) /\ q_closed q' = q_closed q /\
    (q_closed q = true -> q_stop q' = true \/ length (rest q') < length (rest q)).
Proof.
  intros Hls Ht Hc H. unfold qstep. unfold inv in H. destruct (q_stop q) eqn:Es.
  { rewrite app_nil_r. unfold inv. rewrite Es. auto. }
  destruct H as (l1 & l2 & -> & -> & Hr & Hp & Hpl). cbn zeta.
  set (ready := match q_part q with Some _ => true | None => match q_pipe q with [] => q_closed q | _ => true end end).
  change (match q_part q with Some p => p | None => [] end) with (part_of q).
  destruct ready eqn:R.
  2: { rewrite app_nil_r. split; [unfold inv; rewrite Es; exists l1, l2; auto 10|]. split; [reflexivity|]. intro C. exfalso. unfold ready in R. destruct (q_part q); [discriminate|]. destruct (q_pipe q); congruence. }
  apply Forall_app in Hls as [Hl1 Hl2].
  pose proof (fgets_spec (room - length (part_of q)) (part_of q) (q_buf q) (q_pipe q) (q_closed q)) as F.
  destruct (fgets (room - length (part_of q)) (part_of q) (q_buf q) (q_pipe q) (q_closed q)) as [piece buf pipe|part'|piece].
  - destruct F as (u & -> & E & Hu). assert (Er : rest q = part_of q ++ u ++ buf ++ pipe) by (unfold rest; rewrite E; reflexivity).
    assert (G : exists l l2', l2 = l :: l2' /\ l = part_of q ++ u /\ buf ++ pipe ++ future = concat l2' ++ t).
    { rewrite Er, <- !app_assoc in Hr. destruct Hu as [[Hu1 Hu2]|(u' & -> & Hu1 & Hu2)].
      - exfalso. assert (Hlen : length (part_of q ++ u) = room) by (rewrite app_length; lia). assert (Hno : ~ In nl (part_of q ++ u)) by (intro G; apply in_app_or in G as [G|G]; auto).
        rewrite app_assoc in Hr. destruct l2 as [|l l2].
        + cbn [concat app] in Hr. destruct Ht as (_ & Ht & _). apply (f_equal (@length ascii)) in Hr. rewrite (app_length (part_of q ++ u)), Hlen in Hr. lia.
        + inversion Hl2 as [|? ? (s & -> & Hs1 & Hs2 & _) _]; subst. cbn [concat] in Hr. rewrite <- !app_assoc in Hr. cbn [app] in Hr. rewrite (app_assoc (part_of q) u) in Hr.
          apply (f_equal (firstn room)) in Hr. rewrite firstn_app, Hlen, Nat.sub_diag in Hr. cbn [firstn] in Hr. rewrite app_nil_r in Hr.
          rewrite <- Hlen in Hr at 1. rewrite firstn_all in Hr. apply Hno. rewrite Hr. rewrite app_length in Hs2. cbn in Hs2. rewrite firstn_app. apply in_or_app. right.
          replace (room - length s) with (S (room - length s - 1)) by lia. left. reflexivity.
      - rewrite <- !app_assoc in Hr. cbn [app] in Hr. rewrite app_assoc in Hr. destruct l2 as [|l l2].
        + cbn [concat app] in Hr. destruct Ht as (Ht & _). exfalso. apply Ht. rewrite <- Hr. apply in_or_app. right. left. reflexivity.
        + inversion Hl2 as [|? ? (s & -> & Hs1 & Hs2 & _) _]; subst. cbn [concat] in Hr. rewrite <- !app_assoc in Hr. cbn [app] in Hr. rewrite (app_assoc (part_of q) u') in Hr. apply first_nl in Hr as [<- Hr]; auto.
          2: { intro G. apply in_app_or in G as [G|G]; auto. }
          exists ((part_of q ++ u') ++ [nl]), l2. split; [reflexivity|]. split; [rewrite <- app_assoc; reflexivity|exact Hr]. }
    destruct G as (l & l2' & -> & -> & Eb). inversion Hl2 as [|? ? Hl Hl2']; subst. rewrite (handle_whole _ Hl). split; [|split; [reflexivity|]].
    + unfold inv. cbn [q_stop]. exists (l1 ++ [part_of q ++ u]), l2'. unfold rest, part_of. cbn. rewrite <- !app_assoc. repeat split; auto. apply room_pos.
    + intros _. right. rewrite Er. unfold rest, part_of at 1. cbn. destruct Hl as (s & Es2 & _). assert (Hlen : 0 < length (part_of q ++ u)) by (rewrite Es2, app_length; cbn; lia).
      rewrite app_assoc, (app_length (part_of q ++ u)). lia.
  - destruct F as (-> & Hn & Hcl & Hlen). rewrite app_nil_r. split; [|split; [reflexivity|intro C; congruence]]. unfold inv. cbn [q_stop]. exists l1, l2.
    unfold rest, part_of at 1 3 4. cbn. rewrite !app_nil_r. repeat split; auto; [intro G; apply in_app_or in G as [G|G]; auto|rewrite app_length; lia].
  - destruct F as (-> & Hn & Hcl & Hlen). specialize (Hc Hcl). subst future. rewrite app_nil_r in Hr. fold (rest q) in *.
    assert (l2 = []) as ->. { destruct l2 as [|l l2]; [reflexivity|]. exfalso. inversion Hl2 as [|? ? (s & -> & _) _]; subst. assert (G : In nl (rest q)).
      { rewrite Hr. cbn [concat]. rewrite <- !app_assoc. apply in_or_app. right. left. reflexivity. } unfold rest in G. apply in_app_or in G as [G|G]; auto. }
    cbn in Hr. rewrite app_nil_r. rewrite Hr. rewrite (handle_start t Ht). split; [|split; [reflexivity|intros _; left; reflexivity]].
    unfold inv. cbn. repeat split.
Qed.
Lemma qrun_app xs ys q : qrun (xs ++ ys) q = let (q', o) := qrun xs q in let (q'', o') := qrun ys q' in (q'', o ++ o').
Proof.
  revert q. induction xs as [|x xs IH]; intro q; cbn; [destruct (qrun ys q); reflexivity|]. destruct (qstep x q) as [q' o]. rewrite IH. destruct (qrun xs q') as [q1 o1]. destruct (qrun ys q1). rewrite app_assoc. reflexivity.
Qed.
Lemma inv_run xs : forall ls t q out, Forall whole_line ls -> start_of_line t -> inv ls t (printed_bytes xs (q_closed q)) q out ->
  let (q', o) := qrun xs q in inv ls t [] q' (out ++ o).
Proof.
  induction xs as [|x xs IH]; intros ls t q out Hls Ht H; [cbn in *; rewrite app_nil_r; exact H|]. cbn [qrun]. destruct x as [bs| |].
  - cbn [qstep]. destruct (q_closed q) eqn:C; cbn [printed_bytes] in H.
    + specialize (IH ls t q out Hls Ht). rewrite C in IH. specialize (IH H). destruct (qrun xs q). exact IH.
    + set (q1 := {| q_pipe := q_pipe q ++ bs; q_closed := false; q_buf := q_buf q; q_part := q_part q; q_stop := q_stop q |}).
      assert (H1 : inv ls t (printed_bytes xs (q_closed q1)) q1 out).
      { unfold inv in *. unfold q1 at 1. cbn [q_stop]. destruct (q_stop q).
        - destruct H as (H1 & H2 & H3). apply app_eq_nil in H2 as [-> H2]. unfold q1, rest, part_of in *. cbn. rewrite app_nil_r. auto.
        - destruct H as (l1 & l2 & E1 & E2 & E3 & E4 & E5). exists l1, l2. repeat split; auto. unfold q1, rest, part_of in *. cbn. rewrite <- E3, <- !app_assoc. reflexivity. }
      specialize (IH ls t q1 out Hls Ht H1). destruct (qrun xs q1). exact IH.
  - cbn [qstep]. set (q1 := {| q_pipe := q_pipe q; q_closed := true; q_buf := q_buf q; q_part := q_part q; q_stop := q_stop q |}).
    specialize (IH ls t q1 out Hls Ht H). destruct (qrun xs q1). exact IH.
  - cbn [printed_bytes] in H.
    assert (Hc : q_closed q = true -> printed_bytes xs (q_closed q) = []).
    { intros ->. clear. induction xs as [|[bs| |] xs IH]; cbn; auto. }
    pose proof (inv_work ls t _ q out Hls Ht Hc H) as G. destruct (qstep Work q) as [q1 o]. destruct G as (G & Ec & _). rewrite <- Ec in G. specialize (IH ls t q1 _ Hls Ht G).
    destruct (qrun xs q1). rewrite <- app_assoc in IH. exact IH.
Qed.
Lemma inv0 ls t future : future = concat ls ++ t -> inv ls t future stream0 [].
Proof. intros ->. exists [], ls. repeat split; auto; apply room_pos. Qed.
Lemma prefix_lemma xs ls t q out : Forall whole_line ls -> start_of_line t -> printed_bytes xs false = concat ls ++ t -> qrun xs stream0 = (q, out) ->
  exists more, all_lines ls t = out ++ more.
Proof.
  intros Hls Ht E H. pose proof (inv_run xs ls t stream0 [] Hls Ht (inv0 ls t _ E)) as G. rewrite H in G. cbn in G. unfold inv in G. destruct (q_stop q).
  - destruct G as (_ & _ & ->). exists []. rewrite app_nil_r. reflexivity.
  - destruct G as (l1 & l2 & -> & -> & _). unfold all_lines. rewrite <- app_assoc. eauto.
Qed.
Lemma works_end n : forall ls t q out, Forall whole_line ls -> start_of_line t -> inv ls t [] q out -> q_closed q = true -> length (rest q) < n ->
  let (q', o) := qrun (works n) q in out ++ o = all_lines ls t.
Proof.
  induction n as [|n IH]; intros ls t q out Hls Ht H Hc Hn; [lia|]. unfold works. cbn [repeat qrun]. pose proof (inv_work ls t [] q out Hls Ht (fun _ => eq_refl) H) as G. destruct (qstep Work q) as [q1 o].
  destruct G as (G & Ec & Hd). destruct (Hd Hc) as [Hs|Hs].
  - assert (K : forall n, qrun (repeat Work n) q1 = (q1, [])) by (induction n0 as [|k IHk]; [reflexivity|]; cbn [repeat qrun qstep]; rewrite Hs, IHk; reflexivity). rewrite K. rewrite app_nil_r.
    unfold inv in G. rewrite Hs in G. tauto.
  - specialize (IH ls t q1 (out ++ o) Hls Ht G). rewrite Ec in IH. specialize (IH Hc ltac:(lia)). fold (works n). destruct (qrun (works n) q1). rewrite app_assoc. exact IH.
Qed.
Lemma printed_app xs ys closed : printed_bytes (xs ++ ys) closed = printed_bytes xs closed ++ printed_bytes ys (closed || existsb (fun x => match x with Close => true | _ => false end) xs).
Proof.
  revert closed. induction xs as [|[bs| |] xs IH]; intro closed; cbn.
  - rewrite orb_false_r. reflexivity.
  - destruct closed; rewrite IH; [reflexivity|]. rewrite <- app_assoc. reflexivity.
  - rewrite IH, orb_true_r. reflexivity.
  - apply IH.
Qed.
Lemma rest_bound xs : forall q, length (rest (fst (qrun xs q))) <= length (rest q) + length (printed_bytes xs (q_closed q)).
Proof.
  induction xs as [|x xs IH]; intro q; [cbn; lia|]. cbn [qrun]. destruct (qstep x q) as [q1 o] eqn:Sq. specialize (IH q1). destruct (qrun xs q1) as [q2 o2]. cbn [fst] in *.
  destruct x as [bs| |]; cbn [qstep printed_bytes] in *.
  - destruct (q_closed q) eqn:C; injection Sq as <- <-; [rewrite C in IH; exact IH|]. cbn [q_closed] in IH. rewrite app_length. unfold rest in *. unfold part_of in *. cbn in IH. rewrite !app_length in *. lia.
  - injection Sq as <- <-. exact IH.
  - destruct (q_stop q); [injection Sq as <- <-; exact IH|]. cbn zeta in Sq. destruct (match q_part q with Some _ => true | None => match q_pipe q with [] => q_closed q | _ => true end end); [|injection Sq as <- <-; exact IH].
    change (match q_part q with Some p => p | None => [] end) with (part_of q) in Sq.
    pose proof (fgets_spec (room - length (part_of q)) (part_of q) (q_buf q) (q_pipe q) (q_closed q)) as F.
    destruct (fgets (room - length (part_of q)) (part_of q) (q_buf q) (q_pipe q) (q_closed q)); injection Sq as <- <-; cbn [q_closed] in IH; (eapply Nat.le_trans; [exact IH|]); apply Nat.add_le_mono_r; unfold rest, part_of at 1; cbn.
    + destruct F as (u & _ & -> & _). rewrite !app_length. lia.
    + destruct F as (-> & _). rewrite app_nil_r. lia.
    + lia.
Qed.
(** After babeltrace has ended and the loop has gone round often enough, everything has been delivered. *)
Lemma end_lemma xs ls t n : Forall whole_line ls -> start_of_line t -> printed_bytes xs false = concat ls ++ t -> length (concat ls ++ t) < n ->
  snd (qrun (xs ++ Close :: works n) stream0) = all_lines ls t.
Proof.
  intros Hls Ht E Hn. rewrite qrun_app. pose proof (inv_run xs ls t stream0 [] Hls Ht (inv0 ls t _ E)) as G. pose proof (rest_bound xs stream0) as B. change (rest stream0) with (@nil ascii) in B.
  cbn [length q_closed stream0] in B. destruct (qrun xs stream0) as [q o]. cbn [app fst] in *. cbn [qrun qstep].
  set (q1 := {| q_pipe := q_pipe q; q_closed := true; q_buf := q_buf q; q_part := q_part q; q_stop := q_stop q |}).
  assert (G1 : inv ls t [] q1 o) by exact G. assert (B1 : length (rest q1) < n) by (change (rest q1) with (rest q); rewrite E in B; cbn in B; lia).
  pose proof (works_end n ls t q1 o Hls Ht G1 eq_refl B1) as W. destruct (qrun (works n) q1). exact W.
Qed.
(** Lines printed one by one, with a round of the loop after each. *)
Lemma one_line l q : whole_line l -> q_pipe q = [] -> q_buf q = [] -> q_part q = None -> q_stop q = false -> q_closed q = false ->
  exists q', qrun [Print l; Work] q = (q', [l]) /\ q_pipe q' = [] /\ q_buf q' = [] /\ q_part q' = None /\ q_stop q' = false /\ q_closed q' = false.
Proof.
  intros Hl H1 H2 H3 H4 H5. cbn [qrun qstep]. rewrite H5. cbn [q_pipe q_buf q_part q_stop q_closed]. rewrite H1, H2, H3, H4. cbn [app].
  assert (Hne : l <> []) by (destruct Hl as (t & -> & _); destruct t; discriminate). destruct l as [|c l0] eqn:El; [congruence|]. rewrite <- El in *. cbn zeta.
  replace (match l with [] => false | _ => true end) with true by (rewrite El; reflexivity). cbn [length]. rewrite Nat.sub_0_r.
  pose proof (fgets_spec room [] [] l false) as F.
  assert (Hb : exists buf, fgets room [] [] l false = GLine l buf []).
  { destruct Hl as (t & Et & Hn & Hlen & Hz). assert (G : forall n part u, ~ In nl u -> length u < n -> fgets n part (u ++ [nl]) [] false = GLine (part ++ u ++ [nl]) [] []).
    { clear. induction n as [|n IH]; intros part u Hu Hlen; [lia|]. destruct u as [|c u]; cbn [fgets app].
      - rewrite Ascii.eqb_refl. reflexivity.
      - replace (Ascii.eqb c nl) with false by (symmetry; apply Ascii.eqb_neq; intros ->; apply Hu; left; reflexivity). rewrite IH; [rewrite <- app_assoc; reflexivity|intro G; apply Hu; right; exact G|cbn in Hlen; lia]. }
    exists []. pose proof block_room. assert (Ef : firstn block l = l) by (apply firstn_all2; lia). assert (Es : skipn block l = []) by (apply skipn_all2; lia).
    rewrite Et in Hlen. rewrite app_length in Hlen. cbn in Hlen.
    assert (G0 : fgets room [] [] l false = fgets room [] l [] false).
    { destruct room as [|r]; [lia|]. cbn [fgets]. rewrite Ef, Es. rewrite El. reflexivity. }
    rewrite G0, Et. apply G; [exact Hn|lia]. }
  destruct Hb as (buf & Eb). rewrite Eb in *. destruct F as (u & Eu & Er & _). cbn in Eu, Er. rewrite app_nil_r in Er. assert (buf = []) as ->.
  { rewrite <- Eu in Er. assert (length l = length (l ++ buf)) by congruence. rewrite app_length in H. destruct buf; [reflexivity|cbn in H; lia]. }
  eexists. split; [rewrite (handle_whole l Hl), app_nil_r; reflexivity|]. cbn. auto.
Qed.
Lemma each_lemma ls : Forall whole_line ls -> snd (qrun (flat_map (fun l => [Print l; Work]) ls) stream0) = ls.
Proof.
  intro H. assert (G : forall q, q_pipe q = [] -> q_buf q = [] -> q_part q = None -> q_stop q = false -> q_closed q = false -> snd (qrun (flat_map (fun l => [Print l; Work]) ls) q) = ls).
  { induction H as [|l ls Hl _ IH]; intros q H1 H2 H3 H4 H5; [reflexivity|]. cbn [flat_map]. rewrite qrun_app. destruct (one_line l q Hl H1 H2 H3 H4 H5) as (q' & -> & G1 & G2 & G3 & G4 & G5).
    specialize (IH q' G1 G2 G3 G4 G5). destruct (qrun _ q'). cbn in *. congruence. }
  apply G; reflexivity.
Qed.
Transparent block room.
(** ** Cases *)
Definition ab : str := ["a"%char; nl; "b"%char; nl].
Lemma two_lines : forall n, snd (qrun (Print ab :: works n) stream0) = match n with 0 => [] | _ => [["a"%char; nl]] end.
Proof.
  intros [|n]; [reflexivity|]. unfold works. cbn [repeat].
  assert (E : forall ys, qrun (Print ab :: Work :: ys) stream0 = let (q, o) := qrun ys {| q_pipe := []; q_closed := false; q_buf := ["b"%char; nl]; q_part := None; q_stop := false |} in (q, ["a"%char; nl] :: o)).
  { intro ys. cbn [qrun]. change (qstep Work (fst (qstep (Print ab) stream0))) with (qstep Work {| q_pipe := ab; q_closed := false; q_buf := []; q_part := None; q_stop := false |}).
    replace (qstep (Print ab) stream0) with ({| q_pipe := ab; q_closed := false; q_buf := []; q_part := None; q_stop := false |}, @nil str) by reflexivity.
    replace (qstep Work {| q_pipe := ab; q_closed := false; q_buf := []; q_part := None; q_stop := false |}) with
      ({| q_pipe := []; q_closed := false; q_buf := ["b"%char; nl]; q_part := None; q_stop := false |}, [["a"%char; nl]]) by (vm_compute; reflexivity).
    destruct (qrun ys _). reflexivity. }
  rewrite E. set (q := {| q_pipe := []; q_closed := false; q_buf := ["b"%char; nl]; q_part := None; q_stop := false |}).
  assert (K : forall n, qrun (repeat Work n) q = (q, [])) by (induction n0 as [|k IHk]; [reflexivity|]; cbn [repeat qrun]; change (qstep Work q) with (q, @nil str); cbv beta iota; rewrite IHk; reflexivity).
  rewrite K. reflexivity.
Qed.
Definition long : str := repeat "x"%char 1500 ++ [nl].
Lemma long_split : snd (qrun [Print long; Work; Close; Work] stream0) = [repeat "x"%char 1023; repeat "x"%char 477 ++ [nl]].
Proof. vm_compute. reflexivity. Qed.
Example ab_lines : Forall whole_line [["a"%char; nl]; ["b"%char; nl]] /\ concat [["a"%char; nl]; ["b"%char; nl]] = ab.
Proof.
  split; [|reflexivity]. assert (1 < room) by (apply Nat.ltb_lt; vm_compute; reflexivity).
  repeat apply Forall_cons; try apply Forall_nil; [exists ["a"%char]|exists ["b"%char]]; (split; [reflexivity|]; split; [intros [G|[]]; discriminate|]; split; [cbn [length]; lia|intros [G|[]]; discriminate]).
Qed.
Lemma long_lemma : exists l, ~ In nl l /\ snd (qrun [Print (l ++ [nl]); Work; Close; Work] stream0) = [firstn 1023 l; skipn 1023 l ++ [nl]].
Proof. exists (repeat "x"%char 1500). split; [intro G; apply repeat_spec in G; discriminate|vm_compute; reflexivity]. Qed.
