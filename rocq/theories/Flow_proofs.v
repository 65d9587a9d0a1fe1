(** Proofs of C94. *)
From Coq Require Import String List Arith NArith ZArith Ascii Bool Lia Floats.SpecFloat.
Import ListNotations.
From Verif Require Import Str_model Ctf_model Ctf_spec Ctf_proofs Names_model Native_model Lttng_model Lttng_spec Lttng_proofs UnixSystem_model UnixSystem_proofs Flow_model Flow_spec.
From Verif Require Lines_spec Lines_proofs Delivery_proofs.
Local Notation length := List.length.

(** ** The pipe *)
Definition pipe_of (x : flabel) : list Q.qlabel := match x with FPrint bs => [Q.Print bs] | FClose => [Q.Close] | FRead => [Q.Work] | _ => [] end.
Definition pipes (xs : list flabel) : list Q.qlabel := flat_map pipe_of xs.
Definition olist {A} (o : option A) : list A := match o with Some a => [a] | None => [] end.

Lemma pipes_snoc xs x : pipes (xs ++ [x]) = pipes xs ++ pipe_of x.
Proof. unfold pipes. rewrite flat_map_app. cbn [flat_map]. now rewrite app_nil_r. Qed.
Lemma output_pipes xs : forall c, output xs c = Lines_spec.printed_bytes (pipes xs) c.
Proof.
  induction xs as [|x xs IH]; intros c; [reflexivity|]. destruct x; cbn [output pipes flat_map pipe_of app Lines_spec.printed_bytes]; try apply IH. fold (pipes xs). rewrite IH. destruct c; reflexivity.
Qed.
Lemma work_one q : snd (Q.qstep Q.Work q) = olist (hd_error (snd (Q.qstep Q.Work q))).
Proof.
  cbn [Q.qstep]. destruct (Q.q_stop q); [reflexivity|]. destruct (match Q.q_part q with Some _ => true | None => _ end); [|reflexivity].
  destruct (Q.fgets _ _ _ _ _); cbn [snd]; try reflexivity; unfold Q.handle; destruct (c_str piece); reflexivity.
Qed.
Lemma caught_lines xs ls q out : Forall Lines_spec.whole_line ls -> output xs false = concat ls -> Q.qrun (pipes xs) Q.stream0 = (q, out) ->
  Q.q_pipe q = [] -> Q.q_buf q = [] -> Q.q_part q = None -> out = ls.
Proof.
  intros W O H E1 E2 E3. rewrite output_pipes in O. assert (St : Lines_spec.start_of_line []). { split; [intros []|]. split; [exact Lines_proofs.room_pos|intros []]. }
  assert (O' : Lines_spec.printed_bytes (pipes xs) false = concat ls ++ []) by (rewrite app_nil_r; exact O).
  pose proof (Lines_proofs.inv_run (pipes xs) ls [] Q.stream0 [] W St (Lines_proofs.inv0 ls [] _ O')) as G. rewrite H in G. cbn [app] in G. unfold Lines_proofs.inv in G. destruct (Q.q_stop q).
  - destruct G as (_ & _ & ->). unfold Lines_spec.all_lines. apply app_nil_r.
  - destruct G as (l1 & l2 & -> & -> & R & _). unfold Lines_proofs.rest, Lines_proofs.part_of in R. rewrite E1, E2, E3 in R. cbn in R. rewrite app_nil_r in R.
    destruct l2 as [|l l2]; [now rewrite app_nil_r|]. exfalso. apply Forall_app in W as (_ & W). inversion W as [|? ? (t & -> & _) _]; subst. cbn in R. destruct t; discriminate.
Qed.

Section Flow.
Context {E : Type} (parse : str -> option E).
Notation flow := (flow E).

Lemma frun_app xs ys s : frun parse (xs ++ ys) s = match frun parse xs s with FNext s' => frun parse ys s' | r => r end.
Proof. revert s. induction xs as [|x xs IH]; intro s; [reflexivity|]. cbn. destruct (fstep parse x s); auto. Qed.

(** ** What holds at any time *)
Definition members (d : D.state E) : list nat :=
  match D.d_phase d with
  | D.Idle => D.d_set d
  | D.Pass _ kept todo => kept ++ todo
  | D.Seen _ kept i todo | D.Ready _ kept i todo | D.Calling _ kept i todo => kept ++ i :: todo
  end.
Definition calling (i : nat) (d : D.state E) : Prop := match D.d_phase d with D.Calling _ _ j _ => j = i | _ => False end.
Definition engaged (i : nat) (d : D.state E) : Prop := match D.d_phase d with D.Seen _ _ j _ | D.Ready _ _ j _ | D.Calling _ _ j _ => j = i | _ => False end.

Record ginv (xs : list flabel) (s : flow) : Prop := {
  gi_q : Q.qrun (pipes xs) Q.stream0 = (f_q s, f_lines s ++ olist (f_wait s));
  gi_len : length (f_owner s) = length (D.d_subs (f_d s));
  gi_cb : forall k i, f_cb s k = Some i -> nth_error (f_owner s) i = Some k;
  gi_off : forall i k, nth_error (f_owner s) i = Some k -> f_cb s k <> Some i -> D.callable (f_d s) i = false /\ ~ calling i (f_d s);
  gi_nd : NoDup (members (f_d s));
  gi_lt : forall i, In i (members (f_d s)) -> i < length (D.d_subs (f_d s)) }.

Lemma qrun_snoc xs y q o : Q.qrun xs Q.stream0 = (q, o) -> Q.qrun (xs ++ [y]) Q.stream0 = (fst (Q.qstep y q), o ++ snd (Q.qstep y q)).
Proof. intros H. rewrite Lines_proofs.qrun_app, H. cbn [Q.qrun]. destruct (Q.qstep y q). cbn. now rewrite app_nil_r. Qed.

(** Only the phase changes. *)
Lemma phase_ginv xs x s s' : pipe_of x = [] -> ginv xs s -> f_q s' = f_q s -> f_lines s' ++ olist (f_wait s') = f_lines s ++ olist (f_wait s) -> f_owner s' = f_owner s -> f_cb s' = f_cb s ->
  D.d_subs (f_d s') = D.d_subs (f_d s) ->
  (forall i, calling i (f_d s') -> D.callable (f_d s) i = true \/ calling i (f_d s)) -> (forall i, In i (members (f_d s')) -> In i (members (f_d s))) -> NoDup (members (f_d s')) ->
  ginv (xs ++ [x]) s'.
Proof.
  intros P [G1 G2 G3 G4 G5 G6] Hq Hl Ho Hc Hs Hcal Hm Hnd. constructor.
  - rewrite pipes_snoc, P, app_nil_r, Hq, Hl. exact G1.
  - rewrite Ho, Hs. exact G2.
  - rewrite Ho, Hc. exact G3.
  - rewrite Ho, Hc. intros i k H1 H2. destruct (G4 i k H1 H2) as (A & B). split; [unfold D.callable in *; now rewrite Hs|]. intros C. destruct (Hcal i C) as [X|X]; [congruence|auto].
  - exact Hnd.
  - intros i H. rewrite Hs. auto.
Qed.

Lemma NoDup_drop {A} (l1 : list A) a l2 : NoDup (l1 ++ a :: l2) -> NoDup (l1 ++ l2).
Proof. apply NoDup_remove_1. Qed.
Lemma callable_modify i f us j : (forall u, D.u_call (f u) = D.u_call u) -> forall d d' : D.state E, D.d_subs d = us -> D.d_subs d' = D.modify i f us -> D.callable d' j = D.callable d j.
Proof.
  intros Hf d d' H1 H2. unfold D.callable. rewrite H1, H2. destruct (Nat.eq_dec i j) as [<-|N]; [|now rewrite Delivery_proofs.modify_other].
  rewrite Delivery_proofs.modify_same. destruct (nth_error us i); cbn; auto.
Qed.

Lemma step_ginv xs x s s' : ginv xs s -> fstep parse x s = FNext s' -> ginv (xs ++ [x]) s'.
Proof.
  intros G H. pose proof G as [G1 G2 G3 G4 G5 G6]. destruct x; cbn [fstep] in H.
  - injection H as <-. constructor; cbn [with_q f_q f_wait f_d f_owner f_cb f_events f_lines]; auto. rewrite pipes_snoc. cbn [pipe_of].
    rewrite (qrun_snoc _ (Q.Print bs) _ _ G1). f_equal. rewrite <- (app_nil_r (f_lines s ++ _)) at 2. f_equal. cbn. destruct (Q.q_closed (f_q s)); reflexivity.
  - injection H as <-. constructor; cbn [with_q f_q f_wait f_d f_owner f_cb f_events f_lines]; auto. rewrite pipes_snoc. cbn [pipe_of].
    rewrite (qrun_snoc _ Q.Close _ _ G1). f_equal. cbn. apply app_nil_r.
  - destruct (f_wait s) eqn:Ew; [discriminate|]. destruct (D.d_phase (f_d s)) eqn:Ep; try discriminate. pose proof (work_one (f_q s)) as W. pose proof (qrun_snoc _ Q.Work _ _ G1) as Q1.
    destruct (Q.qstep Q.Work (f_q s)) as [q o]. cbn [fst snd] in *. injection H as <-. constructor; cbn [with_q f_q f_wait f_d f_owner f_cb f_events f_lines]; auto.
    rewrite pipes_snoc. cbn [pipe_of]. rewrite Q1. cbn [olist]. rewrite app_nil_r. now rewrite <- W.
  - destruct (f_wait s) as [l|] eqn:Ew; [|discriminate]. cbn [D.step] in H. destruct (D.d_phase (f_d s)) eqn:Ep; try discriminate.
    assert (K : forall d c, D.d_subs d = D.d_subs (f_d s) -> members d = members (f_d s) -> (forall i, ~ calling i d) ->
      match D.Next d c with D.Next d _ => FNext {| f_q := f_q s; f_wait := None; f_d := d; f_owner := f_owner s; f_cb := f_cb s; f_events := f_events s; f_lines := f_lines s ++ [l] |} | D.Crashed => FCrash | D.Stuck => FStuck end = FNext s' -> ginv (xs ++ [FTake]) s').
    { intros d c A B C F. injection F as <-. apply (phase_ginv xs FTake s); cbn; auto; rewrite ?Ew, ?B; cbn; auto; [now rewrite app_nil_r|]. intros i X. destruct (C i X). }
    destruct (D.d_set (f_d s)) as [|a set] eqn:Es.
    + refine (K _ None eq_refl eq_refl _ H). intros i C. unfold calling in C. now rewrite Ep in C.
    + destruct (parse l) as [e|]; [|discriminate]. unfold D.go in H. refine (K _ None _ _ _ H); [reflexivity|unfold members; cbn; now rewrite Ep, Es|intros i X; exact X].
  - unfold goes in H. cbn [D.step] in H. destruct (D.d_phase (f_d s)) as [|e kept [|i todo]| | |] eqn:Ep; try discriminate.
    + injection H as <-. apply (phase_ginv xs FLook s); cbn; auto; unfold members in *; rewrite ?Ep in *; cbn; rewrite ?app_nil_r in *; auto.
    + destruct (D.active (f_d s) i); unfold D.go in H; injection H as <-; apply (phase_ginv xs FLook s); cbn; auto; unfold members in *; rewrite ?Ep in *; cbn; auto; try (intros j []).
      * intros j J. apply in_app_or in J as [J|J]; apply in_or_app; cbn; auto.
      * exact (NoDup_drop _ _ _ G5).
  - unfold goes in H. cbn [D.step] in H. destruct (D.d_phase (f_d s)) as [| |e kept i todo| |] eqn:Ep; try discriminate.
    destruct (D.callable (f_d s) i); unfold D.go in H; injection H as <-; apply (phase_ginv xs FTest s); cbn; auto; unfold members in *; rewrite ?Ep in *; cbn; auto; try (intros j []); rewrite <- app_assoc; cbn; auto.
  - unfold goes in H. cbn [D.step] in H. destruct (D.d_phase (f_d s)) as [| | |e kept i todo|] eqn:Ep; try discriminate. destruct (D.callable (f_d s) i) eqn:Ec; [|discriminate].
    destruct (nth_error (f_owner s) i) as [k|]; [|discriminate]. injection H as <-. apply (phase_ginv xs FCall s); cbn; auto; unfold members in *; rewrite ?Ep in *; cbn; auto. intros j <-. auto.
  - unfold goes in H. cbn [D.step] in H. destruct (D.d_phase (f_d s)) as [| | | |e kept i todo] eqn:Ep; try discriminate.
    unfold D.go in H; injection H as <-; apply (phase_ginv xs FReturn s); cbn; auto; unfold members in *; rewrite ?Ep in *; cbn; auto; try (intros j []); rewrite <- app_assoc; cbn; auto.
  - destruct (f_cb s k) eqn:Ek; [discriminate|]. cbn [D.step] in H. destruct (D.d_phase (f_d s)) eqn:Ep; try discriminate. injection H as <-. unfold members in *. rewrite Ep in *.
    assert (IN : forall i, In i (firstn at_ (D.d_set (f_d s)) ++ length (D.d_subs (f_d s)) :: skipn at_ (D.d_set (f_d s))) <-> i = length (D.d_subs (f_d s)) \/ In i (D.d_set (f_d s))).
    { intros i. rewrite <- (firstn_skipn at_ (D.d_set (f_d s))) at 3. rewrite !in_app_iff. cbn. intuition. }
    constructor; cbn.
    + rewrite pipes_snoc. cbn [pipe_of]. rewrite app_nil_r. exact G1.
    + rewrite !app_length. cbn. lia.
    + intros k0 i. unfold upd. destruct (k0 =? k) eqn:Q; intros X.
      * apply Nat.eqb_eq in Q. injection X as <-. rewrite <- G2, nth_error_app2, Nat.sub_diag by lia. cbn. now rewrite Q.
      * rewrite nth_error_app1; [auto|]. apply nth_error_Some. rewrite (G3 _ _ X). discriminate.
    + intros i k0 X1 X2. unfold calling. cbn. split; [|intros []]. unfold D.callable. cbn. destruct (Nat.lt_ge_cases i (length (f_owner s))) as [L|L].
      * rewrite nth_error_app1 in X1 by exact L. rewrite nth_error_app1 by lia. apply (G4 i k0 X1). unfold upd in X2. destruct (k0 =? k) eqn:Q; [|exact X2]. apply Nat.eqb_eq in Q as ->. rewrite Ek. discriminate.
      * exfalso. rewrite nth_error_app2 in X1 by exact L. destruct (i - length (f_owner s)) as [|n] eqn:D0; [|destruct n; discriminate]. cbn in X1. injection X1 as <-. apply X2. unfold upd. rewrite Nat.eqb_refl. f_equal. lia.
    + unfold members. cbn. apply NoDup_Add with (a := length (D.d_subs (f_d s))) (l := D.d_set (f_d s)).
      * rewrite <- (firstn_skipn at_ (D.d_set (f_d s))) at 1. apply Add_app.
      * split; [exact G5|]. intros I. specialize (G6 _ I). lia.
    + intros i I. unfold members in I. cbn in I. rewrite app_length. cbn. apply IN in I as [->|I]; [lia|]. specialize (G6 _ I). lia.
  - destruct (f_cb s k) as [i|] eqn:Ek; [|discriminate]. unfold goes in H. cbn [D.step] in H. destruct (i <? length (D.d_subs (f_d s))); [|discriminate]. injection H as <-.
    constructor; cbn [with_d f_q f_wait f_d f_owner f_cb f_events f_lines]; auto.
    + rewrite pipes_snoc. cbn [pipe_of]. rewrite app_nil_r. exact G1.
    + cbn. rewrite Delivery_proofs.modify_length. exact G2.
    + intros j k0 X1 X2. destruct (G4 j k0 X1 X2) as (A & B). split; [|exact B]. rewrite <- A. eapply callable_modify; [|reflexivity|reflexivity]. reflexivity.
    + intros j J. cbn. rewrite Delivery_proofs.modify_length. apply G6. exact J.
  - destruct (f_cb s k) as [i|] eqn:Ek; [|discriminate]. cbn [D.step] in H. destruct (i <? length (D.d_subs (f_d s))) eqn:Lt; [|discriminate]. apply Nat.ltb_lt in Lt.
    assert (K : ~ calling i (f_d s) -> forall d, d = {| D.d_subs := D.modify i (fun u => {| D.u_active := D.u_active u; D.u_call := false |}) (D.d_subs (f_d s)); D.d_set := D.d_set (f_d s); D.d_phase := D.d_phase (f_d s) |} ->
      FNext {| f_q := f_q s; f_wait := f_wait s; f_d := d; f_owner := f_owner s; f_cb := upd (f_cb s) k None; f_events := f_events s; f_lines := f_lines s |} = FNext s' -> ginv (xs ++ [FNull k]) s').
    { intros NC d -> F. injection F as <-. constructor; cbn [f_q f_wait f_d f_owner f_cb f_events f_lines]; auto.
      + rewrite pipes_snoc. cbn [pipe_of]. rewrite app_nil_r. exact G1.
      + cbn. rewrite Delivery_proofs.modify_length. exact G2.
      + intros k0 j. unfold upd. destruct (k0 =? k); [discriminate|auto].
      + intros j k0 X1 X2. unfold D.callable. cbn. destruct (Nat.eq_dec i j) as [<-|N].
        * rewrite Delivery_proofs.modify_same. split; [destruct (nth_error (D.d_subs (f_d s)) i); reflexivity|exact NC].
        * rewrite Delivery_proofs.modify_other by exact N. apply (G4 j k0 X1). unfold upd in X2. destruct (k0 =? k) eqn:Q; [|exact X2]. apply Nat.eqb_eq in Q as ->. rewrite Ek. congruence.
      + intros j J. cbn. rewrite Delivery_proofs.modify_length. apply G6. exact J. }
    destruct (D.d_phase (f_d s)) as [| | | |e kept j todo] eqn:Ep; try (refine (K _ _ eq_refl H); unfold calling; rewrite Ep; exact (fun X => X)).
    destruct (Nat.eqb_spec j i) as [->|N]; [discriminate|]. refine (K _ _ eq_refl H). unfold calling. rewrite Ep. exact N.
Qed.

Lemma ginv0 : ginv [] flow0.
Proof.
  constructor; cbn; auto; try discriminate; [|constructor|intros i []]. intros [|i] k H; discriminate.
Qed.
Lemma run_ginv ys : forall xs s s', ginv xs s -> frun parse ys s = FNext s' -> ginv (xs ++ ys) s'.
Proof.
  induction ys as [|y ys IH]; intros xs s s' G H; [injection H as <-; now rewrite app_nil_r|]. cbn in H. destruct (fstep parse y s) as [s1| |] eqn:E1; try discriminate.
  change (y :: ys) with ([y] ++ ys). rewrite app_assoc. eapply IH; [eapply step_ginv; eauto|exact H].
Qed.

(** ** While source [k] records *)
Definition memb (i : nat) (l : list nat) : bool := existsb (Nat.eqb i) l.
Lemma memb_in i l : memb i l = true <-> In i l.
Proof. unfold memb. rewrite existsb_exists. split; [intros (x & I & Q); apply Nat.eqb_eq in Q; now subst|intros I; exists i; split; [exact I|apply Nat.eqb_refl]]. Qed.
Definition pending (i : nat) (d : D.state E) : list E :=
  match D.d_phase d with
  | D.Idle => []
  | D.Pass e _ todo | D.Calling e _ _ todo => if memb i todo then [e] else []
  | D.Seen e _ j todo | D.Ready e _ j todo => if memb i (j :: todo) then [e] else []
  end.
Record rec (k i : nat) (old : list str) (s : flow) : Prop := {
  rc_cb : f_cb s k = Some i;
  rc_active : D.active (f_d s) i = true;
  rc_call : D.callable (f_d s) i = true;
  rc_in : In i (members (f_d s));
  rc_ev : exists L, f_lines s = old ++ L /\ map parse L = map Some (f_events s k ++ pending i (f_d s)) }.

Definition idle_label (k : nat) (x : flabel) : Prop := match x with FStart k' _ | FDeact k' | FNull k' => k' <> k | _ => True end.

Lemma memb_false i l : ~ In i l -> memb i l = false.
Proof. intros H. destruct (memb i l) eqn:X; [|reflexivity]. apply memb_in in X. contradiction. Qed.

Lemma active_modify i f us j : (forall u, D.u_active (f u) = D.u_active u) \/ i <> j -> forall d d' : D.state E, D.d_subs d = us -> D.d_subs d' = D.modify i f us -> D.active d' j = D.active d j.
Proof.
  intros Hf d d' H1 H2. unfold D.active. rewrite H1, H2. destruct (Nat.eq_dec i j) as [<-|N]; [|now rewrite Delivery_proofs.modify_other].
  rewrite Delivery_proofs.modify_same. destruct Hf as [Hf|Hf]; [|congruence]. destruct (nth_error us i); cbn; auto.
Qed.
Lemma callable_other i f us j : i <> j -> forall d d' : D.state E, D.d_subs d = us -> D.d_subs d' = D.modify i f us -> D.callable d' j = D.callable d j.
Proof. intros N d d' H1 H2. unfold D.callable. rewrite H1, H2. now rewrite Delivery_proofs.modify_other. Qed.

Lemma step_rec xs k i old x s s' : ginv xs s -> rec k i old s -> idle_label k x -> fstep parse x s = FNext s' -> rec k i old s'.
Proof.
  intros G [R1 R2 R3 R4 (L & R5 & R6)] Hx H. pose proof G as [G1 G2 G3 G4 G5 G6]. destruct x; cbn [fstep] in H; cbn [idle_label] in Hx.
  - injection H as <-. constructor; cbn; auto. exists L. auto.
  - injection H as <-. constructor; cbn; auto. exists L. auto.
  - destruct (f_wait s) eqn:Ew; [discriminate|]. destruct (D.d_phase (f_d s)) eqn:Ep; try discriminate. destruct (Q.qstep Q.Work (f_q s)) as [q o]. injection H as <-. constructor; cbn; auto. exists L. auto.
  - destruct (f_wait s) as [l|] eqn:Ew; [|discriminate]. cbn [D.step] in H. unfold members in R4. unfold pending in R6. destruct (D.d_phase (f_d s)) eqn:Ep; try discriminate.
    destruct (D.d_set (f_d s)) as [|a set] eqn:Es; [contradiction|]. destruct (parse l) as [e|] eqn:Pl; [|discriminate]. unfold D.go in H. injection H as <-.
    constructor; cbn [f_cb f_d f_lines f_events]; auto. exists (L ++ [l]). split; [rewrite R5; apply app_assoc_reverse|]. rewrite map_app, R6. cbn [map]. rewrite Pl. unfold pending. cbn [D.d_phase].
    apply memb_in in R4. rewrite R4. rewrite app_nil_r, map_app. reflexivity.
  - unfold goes in H. cbn [D.step] in H. unfold members in *. unfold pending in R6. destruct (D.d_phase (f_d s)) as [|e kept [|j todo]| | |] eqn:Ep; try discriminate.
    + injection H as <-. rewrite app_nil_r in R4. constructor; cbn; auto. exists L. auto.
    + destruct (D.active (f_d s) j) eqn:Ea; unfold D.go in H; injection H as <-; constructor; cbn [with_d f_cb f_d f_lines f_events]; auto.
      * exists L. auto.
      * unfold members. cbn. apply in_app_or in R4 as [R4|[->|R4]]; [apply in_or_app; auto|congruence|apply in_or_app; auto].
      * exists L. split; [exact R5|]. unfold pending. cbn [D.d_phase]. rewrite R6. unfold memb. cbn [existsb]. destruct (Nat.eqb_spec i j) as [->|N]; [congruence|reflexivity].
  - unfold goes in H. cbn [D.step] in H. unfold members in *. unfold pending in R6. destruct (D.d_phase (f_d s)) as [| |e kept j todo| |] eqn:Ep; try discriminate.
    destruct (D.callable (f_d s) j) eqn:Ea; unfold D.go in H; injection H as <-; constructor; cbn [with_d f_cb f_d f_lines f_events]; auto.
    + exists L. auto.
    + unfold members. cbn. now rewrite <- app_assoc.
    + exists L. split; [exact R5|]. unfold pending. cbn [D.d_phase]. rewrite R6. unfold memb. cbn [existsb]. destruct (Nat.eqb_spec i j) as [->|N]; [congruence|reflexivity].
  - unfold goes in H. cbn [D.step] in H. unfold members in *. unfold pending in R6. destruct (D.d_phase (f_d s)) as [| | |e kept j todo|] eqn:Ep; try discriminate. destruct (D.callable (f_d s) j) eqn:Ec; [|discriminate].
    destruct (nth_error (f_owner s) j) as [k0|] eqn:Eo; [|discriminate]. injection H as <-. constructor; cbn [f_cb f_d f_lines f_events]; auto. exists L. split; [exact R5|]. rewrite R6. unfold pending. cbn [D.d_phase]. unfold memb at 1. cbn [existsb]. fold (memb i todo). unfold upd.
    destruct (Nat.eqb_spec i j) as [->|N].
    + cbn [orb]. assert (k0 = k) as -> by (rewrite (G3 _ _ R1) in Eo; congruence). rewrite Nat.eqb_refl. rewrite memb_false; [now rewrite app_nil_r|]. apply NoDup_remove_2 in G5. intros I. apply G5. apply in_or_app. auto.
    + cbn [orb]. destruct (Nat.eqb_spec k k0) as [->|N2]; [|reflexivity]. exfalso. destruct (G4 j k0 Eo) as (A & _); [|congruence]. rewrite R1. congruence.
  - unfold goes in H. cbn [D.step] in H. unfold members in *. unfold pending in R6. destruct (D.d_phase (f_d s)) as [| | | |e kept j todo] eqn:Ep; try discriminate.
    unfold D.go in H; injection H as <-; constructor; cbn [with_d f_cb f_d f_lines f_events]; auto.
    + unfold members. cbn. now rewrite <- app_assoc.
    + exists L. auto.
  - destruct (f_cb s k0) eqn:Ek; [discriminate|]. cbn [D.step] in H. unfold members in *. unfold pending in R6. destruct (D.d_phase (f_d s)) eqn:Ep; try discriminate. injection H as <-.
    assert (Li : i < length (D.d_subs (f_d s))) by (apply G6; exact R4). assert (N : k =? k0 = false) by (apply Nat.eqb_neq; congruence).
    constructor; cbn [f_cb f_d f_lines f_events].
    + unfold upd. rewrite N. exact R1.
    + unfold D.active in *. cbn. now rewrite nth_error_app1.
    + unfold D.callable in *. cbn. now rewrite nth_error_app1.
    + unfold members. cbn. rewrite <- (firstn_skipn at_ (D.d_set (f_d s))) in R4. apply in_app_or in R4. apply in_or_app. cbn. intuition.
    + exists L. unfold upd. rewrite N. auto.
  - destruct (f_cb s k0) as [j|] eqn:Ek; [|discriminate]. unfold goes in H. cbn [D.step] in H. destruct (j <? length (D.d_subs (f_d s))); [|discriminate]. injection H as <-.
    assert (Nj : j <> i). { intros ->. apply G3 in Ek. rewrite (G3 _ _ R1) in Ek. congruence. }
    constructor; cbn [with_d f_cb f_d f_lines f_events]; auto.
    + rewrite <- R2. eapply active_modify; [right; exact Nj|reflexivity|reflexivity].
    + rewrite <- R3. eapply callable_other; [exact Nj|reflexivity|reflexivity].
    + exists L. auto.
  - destruct (f_cb s k0) as [j|] eqn:Ek; [|discriminate]. cbn [D.step] in H. destruct (j <? length (D.d_subs (f_d s))) eqn:Lt; [|discriminate].
    assert (Nj : j <> i). { intros ->. apply G3 in Ek. rewrite (G3 _ _ R1) in Ek. congruence. }
    assert (N : k =? k0 = false) by (apply Nat.eqb_neq; congruence).
    assert (K : forall d, d = {| D.d_subs := D.modify j (fun u => {| D.u_active := D.u_active u; D.u_call := false |}) (D.d_subs (f_d s)); D.d_set := D.d_set (f_d s); D.d_phase := D.d_phase (f_d s) |} ->
      FNext {| f_q := f_q s; f_wait := f_wait s; f_d := d; f_owner := f_owner s; f_cb := upd (f_cb s) k0 None; f_events := f_events s; f_lines := f_lines s |} = FNext s' -> rec k i old s').
    { intros d -> F. injection F as <-. constructor; cbn [f_cb f_d f_lines f_events]; auto.
      + unfold upd. rewrite N. exact R1.
      + rewrite <- R2. eapply active_modify; [right; exact Nj|reflexivity|reflexivity].
      + rewrite <- R3. eapply callable_other; [exact Nj|reflexivity|reflexivity].
      + exists L. auto. }
    destruct (D.d_phase (f_d s)) as [| | | |e kept j0 todo] eqn:Ep; try exact (K _ eq_refl H). destruct (j0 =? j); [discriminate|]. exact (K _ eq_refl H).
Qed.

Lemma run_rec ys : forall xs k i old s s', ginv xs s -> rec k i old s -> (forall y, In y ys -> idle_label k y) -> frun parse ys s = FNext s' -> rec k i old s'.
Proof.
  induction ys as [|y ys IH]; intros xs k i old s s' G R Hy H; [now injection H as <-|]. cbn in H. destruct (fstep parse y s) as [s1| |] eqn:E1; try discriminate.
  eapply (IH (xs ++ [y])); [eapply step_ginv; eauto|eapply step_rec; eauto; apply Hy; left; reflexivity|intros z Hz; apply Hy; right; exact Hz|exact H].
Qed.

(** ** After it was stopped *)
Definition over (k : nat) (ev : list E) (s : flow) : Prop :=
  f_events s k = ev /\ forall i, f_cb s k = Some i -> D.active (f_d s) i = false /\ ~ engaged i (f_d s).

Lemma step_over xs k ev x s s' : ginv xs s -> over k ev s -> (forall at_, x <> FStart k at_) -> fstep parse x s = FNext s' -> over k ev s'.
Proof.
  intros G (O1 & O2) Hx H. pose proof G as [G1 G2 G3 G4 G5 G6]. unfold over, engaged in *. destruct x; cbn [fstep] in H.
  - injection H as <-. cbn. auto.
  - injection H as <-. cbn. auto.
  - destruct (f_wait s) eqn:Ew; [discriminate|]. destruct (D.d_phase (f_d s)) eqn:Ep; try discriminate. destruct (Q.qstep Q.Work (f_q s)) as [q o]. injection H as <-. cbn. rewrite Ep. auto.
  - destruct (f_wait s) as [l|] eqn:Ew; [|discriminate]. cbn [D.step] in H. destruct (D.d_phase (f_d s)) eqn:Ep; try discriminate.
    destruct (D.d_set (f_d s)) as [|a set] eqn:Es; [injection H as <-; cbn; rewrite Ep; auto|]. destruct (parse l) as [e|] eqn:Pl; [|discriminate]. unfold D.go in H. injection H as <-. cbn. auto.
  - unfold goes in H. cbn [D.step] in H. destruct (D.d_phase (f_d s)) as [|e kept [|j todo]| | |] eqn:Ep; try discriminate; [injection H as <-; cbn; auto|].
    destruct (D.active (f_d s) j) eqn:Ea; unfold D.go in H; injection H as <-; cbn; auto. split; [exact O1|]. intros i Hi. destruct (O2 i Hi) as (A & _). split; [exact A|]. intros ->. congruence.
  - unfold goes in H. cbn [D.step] in H. destruct (D.d_phase (f_d s)) as [| |e kept j todo| |] eqn:Ep; try discriminate.
    destruct (D.callable (f_d s) j) eqn:Ea; unfold D.go in H; injection H as <-; cbn; auto. split; [exact O1|]. intros i Hi. destruct (O2 i Hi) as (A & _). auto.
  - unfold goes in H. cbn [D.step] in H. destruct (D.d_phase (f_d s)) as [| | |e kept j todo|] eqn:Ep; try discriminate. destruct (D.callable (f_d s) j) eqn:Ec; [|discriminate].
    destruct (nth_error (f_owner s) j) as [k0|] eqn:Eo; [|discriminate]. injection H as <-. cbn. split; [|intros i Hi; exact (O2 i Hi)].
    unfold upd. destruct (Nat.eqb_spec k k0) as [<-|N]; [|exact O1]. exfalso. destruct (f_cb s k) as [i|] eqn:Ek.
    + destruct (O2 i eq_refl) as (_ & B). destruct (G4 j k Eo) as (A & _); [|congruence]. rewrite Ek. intros Q. injection Q as ->. auto.
    + destruct (G4 j k Eo) as (A & _); [rewrite Ek; discriminate|congruence].
  - unfold goes in H. cbn [D.step] in H. destruct (D.d_phase (f_d s)) as [| | | |e kept j todo] eqn:Ep; try discriminate. unfold D.go in H; injection H as <-; cbn; auto. split; [exact O1|]. intros i Hi. destruct (O2 i Hi). auto.
  - destruct (f_cb s k0) eqn:Ek; [discriminate|]. cbn [D.step] in H. destruct (D.d_phase (f_d s)) eqn:Ep; try discriminate. injection H as <-. cbn. unfold upd.
    destruct (Nat.eqb_spec k k0) as [<-|N]; [destruct (Hx at_ eq_refl)|]. split; [exact O1|]. intros i Hi. destruct (O2 i Hi) as (A & _). split; [|auto]. unfold D.active in *. cbn.
    rewrite nth_error_app1; [exact A|]. apply G3 in Hi. assert (nth_error (f_owner s) i <> None) as L by congruence. apply nth_error_Some in L. lia.
  - destruct (f_cb s k0) as [j|] eqn:Ek; [|discriminate]. unfold goes in H. cbn [D.step] in H. destruct (j <? length (D.d_subs (f_d s))); [|discriminate]. injection H as <-. cbn [with_d f_cb f_d f_events D.d_phase]. split; [exact O1|].
    intros i Hi. destruct (O2 i Hi) as (A & B). split; [|exact B]. unfold D.active in *. cbn. destruct (Nat.eq_dec j i) as [->|N]; [rewrite Delivery_proofs.modify_same; destruct (nth_error _ i); reflexivity|now rewrite Delivery_proofs.modify_other].
  - destruct (f_cb s k0) as [j|] eqn:Ek; [|discriminate]. cbn [D.step] in H. destruct (j <? length (D.d_subs (f_d s))) eqn:Lt; [|discriminate].
    assert (K : forall d, d = {| D.d_subs := D.modify j (fun u => {| D.u_active := D.u_active u; D.u_call := false |}) (D.d_subs (f_d s)); D.d_set := D.d_set (f_d s); D.d_phase := D.d_phase (f_d s) |} ->
      FNext {| f_q := f_q s; f_wait := f_wait s; f_d := d; f_owner := f_owner s; f_cb := upd (f_cb s) k0 None; f_events := f_events s; f_lines := f_lines s |} = FNext s' -> over k ev s').
    { intros d -> F. injection F as <-. unfold over, engaged. cbn [f_cb f_d f_events D.d_phase]. split; [exact O1|]. intros i. unfold upd. destruct (k =? k0); [discriminate|]. intros Hi. destruct (O2 i Hi) as (A & B). split; [|exact B].
      transitivity (D.active (f_d s) i); [|exact A]. apply (active_modify j (fun u => {| D.u_active := D.u_active u; D.u_call := false |}) (D.d_subs (f_d s))); [left; reflexivity|reflexivity|reflexivity]. }
    destruct (D.d_phase (f_d s)) as [| | | |e kept j0 todo] eqn:Ep; try exact (K _ eq_refl H). destruct (j0 =? j); [discriminate|]. exact (K _ eq_refl H).
Qed.
Lemma run_over ys : forall xs k ev s s', ginv xs s -> over k ev s -> not_again k ys -> frun parse ys s = FNext s' -> over k ev s'.
Proof.
  induction ys as [|y ys IH]; intros xs k ev s s' G R Hy H; [now injection H as <-|]. cbn in H. destruct (fstep parse y s) as [s1| |] eqn:E1; try discriminate.
  eapply (IH (xs ++ [y])); [eapply step_ginv; eauto|eapply step_over; eauto; intros a ->; exact (Hy a (or_introl eq_refl))|intros a Hz; exact (Hy a (or_intror Hz))|exact H].
Qed.

Lemma start_rec xs k at_ s s' : ginv xs s -> fstep parse (FStart k at_) s = FNext s' -> exists i, rec k i (f_lines s) s'.
Proof.
  intros [G1 G2 G3 G4 G5 G6] H. cbn [fstep] in H. destruct (f_cb s k) eqn:Ek; [discriminate|]. cbn [D.step] in H. destruct (D.d_phase (f_d s)) eqn:Ep; try discriminate. injection H as <-.
  exists (length (D.d_subs (f_d s))). constructor; cbn [f_cb f_d f_lines f_events].
  - unfold upd. now rewrite Nat.eqb_refl.
  - unfold D.active. cbn. rewrite nth_error_app2, Nat.sub_diag by lia. reflexivity.
  - unfold D.callable. cbn. rewrite nth_error_app2, Nat.sub_diag by lia. reflexivity.
  - unfold members. cbn. apply in_or_app. right. left. reflexivity.
  - exists []. split; [now rewrite app_nil_r|]. unfold upd. rewrite Nat.eqb_refl. reflexivity.
Qed.

(** What a source has collected. *)
Theorem collected xs1 s1 k at_ xs2 s2 xs3 s3 ls1 ls2 :
  frun parse xs1 flow0 = FNext s1 -> frun parse (FStart k at_ :: xs2) s1 = FNext s2 -> frun parse (FDeact k :: xs3) s2 = FNext s3 ->
  leaves k xs2 -> not_again k xs3 -> caught_up s1 -> caught_up s2 ->
  Forall Lines_spec.whole_line (ls1 ++ ls2) -> output xs1 false = concat ls1 -> output (xs1 ++ FStart k at_ :: xs2) false = concat (ls1 ++ ls2) ->
  map parse ls2 = map Some (f_events s3 k).
Proof.
  intros H1 H2 H3 Lv Na (A1 & A2 & A3 & A4 & A5) (B1 & B2 & B3 & B4 & B5) W O1 O2.
  pose proof (run_ginv xs1 [] flow0 s1 ginv0 H1) as I1. cbn [app] in I1. pose proof (run_ginv _ _ _ _ I1 H2) as I2.
  assert (L1 : f_lines s1 = ls1). { pose proof (gi_q _ _ I1) as Qq. rewrite A4 in Qq. cbn in Qq. rewrite app_nil_r in Qq. eapply caught_lines; eauto. apply Forall_app in W. tauto. }
  assert (L2 : f_lines s2 = ls1 ++ ls2). { pose proof (gi_q _ _ I2) as Qq. rewrite B4 in Qq. cbn in Qq. rewrite app_nil_r in Qq. eapply caught_lines; eauto. }
  cbn [frun] in H2. destruct (fstep parse (FStart k at_) s1) as [s1'| |] eqn:F1; try discriminate. pose proof (step_ginv _ _ _ _ I1 F1) as I1'. destruct (start_rec _ _ _ _ _ I1 F1) as (i & R).
  assert (R2 : rec k i (f_lines s1) s2).
  { eapply run_rec; [exact I1'|exact R| |exact H2]. intros y Hy. destruct (Lv 0) as (_ & N2 & N3). destruct y; cbn; auto; intros ->; [destruct (Lv at_0); contradiction|contradiction|contradiction]. }
  destruct R2 as [R1 R2 R3 R4 (L & R5 & R6)]. rewrite L2, L1 in R5. apply app_inv_head in R5. subst L. unfold pending in R6. rewrite B5, app_nil_r in R6. rewrite R6. f_equal.
  cbn [frun] in H3. destruct (fstep parse (FDeact k) s2) as [s2'| |] eqn:F2; try discriminate.
  assert (Ov : over k (f_events s2 k) s2').
  { cbn [fstep] in F2. rewrite R1 in F2. unfold goes in F2. cbn [D.step] in F2. destruct (i <? length (D.d_subs (f_d s2))); [|discriminate]. injection F2 as <-. split; [reflexivity|]. cbn [with_d f_cb f_d].
    rewrite R1. intros j Q. injection Q as <-. split; [|unfold engaged; cbn; rewrite B5; exact (fun X => X)]. unfold D.active. cbn. rewrite Delivery_proofs.modify_same. destruct (nth_error _ i); reflexivity. }
  destruct (run_over xs3 _ k _ _ _ (step_ginv _ _ _ _ I2 F2) Ov Na H3) as (Q & _). symmetry. exact Q.
Qed.
End Flow.

(** ** C94 *)
Theorem flow_complete strtod early xs1 s1 k at_ xs2 s2 xs3 s3 ls1 ls2 os m :
  frun (parser strtod early) xs1 flow0 = FNext s1 -> frun (parser strtod early) (FStart k at_ :: xs2) s1 = FNext s2 -> frun (parser strtod early) (FDeact k :: xs3) s2 = FNext s3 ->
  leaves k xs2 -> not_again k xs3 -> caught_up s1 -> caught_up s2 ->
  Forall Lines_spec.whole_line (ls1 ++ ls2) -> output xs1 false = concat ls1 -> output (xs1 ++ FStart k at_ :: xs2) false = concat (ls1 ++ ls2) ->
  Forall2 (line_of strtod early) ls2 os ->
  exists res order, lconvert m (f_events s3 k) = FDone res /\ timely order (deeds os) /\ Forall2 (portrays m) order res.
Proof.
  intros H1 H2 H3 Lv Na C1 C2 W O1 O2 F. pose proof (collected _ _ _ _ _ _ _ _ _ _ _ H1 H2 H3 Lv Na C1 C2 W O1 O2) as P. apply interval_lemma. revert P. generalize (f_events s3 k). clear - F.
  induction F as [|l o ls os Hl F IH]; intros [|e es] P; try discriminate P; [constructor|]. cbn [map] in P. injection P as P1 P2. specialize (IH es P2). unfold ours in *. cbn [filter deeds flat_map]. destruct o as [d|].
  - destruct Hl as (p & Gp & Pp & St & NN & ->). unfold parser in P1. destruct (parse strtod early (line_text p ++ [Q.nl])) as [e0| |] eqn:Pe; try discriminate. injection P1 as ->.
    destruct (printed_lemma strtod early p d [Q.nl] e Gp Pp St NN (or_intror eq_refl) Pe) as (T & I). destruct (list_eq_dec ascii_dec (c_domain e) scalopus_domain); [|contradiction]. cbn [app]. constructor; auto.
  - cbn in Hl. destruct (list_eq_dec ascii_dec (c_domain e) scalopus_domain) as [E|_]; [destruct (Hl e P1 E)|]. exact IH.
Qed.

(** What a source has collected at any time while it records, whatever is still waiting: a run of the printed lines without gaps. *)
Theorem flow_sound {E} (parse : str -> option E) xs1 s1 k at_ xs2 s2 ls :
  frun parse xs1 flow0 = FNext s1 -> frun parse (FStart k at_ :: xs2) s1 = FNext s2 -> leaves k xs2 -> D.d_phase (f_d s2) = D.Idle ->
  Forall Lines_spec.whole_line ls -> output (xs1 ++ FStart k at_ :: xs2) false = concat ls ->
  exists b c, ls = f_lines s1 ++ b ++ c /\ map parse b = map Some (f_events s2 k).
Proof.
  intros H1 H2 Lv Id W O. pose proof (run_ginv parse xs1 [] flow0 s1 ginv0 H1) as I1. cbn [app] in I1. pose proof (run_ginv parse _ _ _ _ I1 H2) as I2.
  cbn [frun] in H2. destruct (fstep parse (FStart k at_) s1) as [s1'| |] eqn:F1; try discriminate. pose proof (step_ginv parse _ _ _ _ I1 F1) as I1'. destruct (start_rec parse _ _ _ _ _ I1 F1) as (i & R).
  assert (R2 : rec parse k i (f_lines s1) s2).
  { eapply run_rec; [exact I1'|exact R| |exact H2]. intros y Hy. destruct (Lv 0) as (_ & N2 & N3). destruct y; cbn; auto; intros ->; [destruct (Lv at_0); contradiction|contradiction|contradiction]. }
  destruct R2 as [R1 R2 R3 R4 (L & R5 & R6)]. unfold pending in R6. rewrite Id, app_nil_r in R6.
  assert (St : Lines_spec.start_of_line []). { split; [intros []|]. split; [exact Lines_proofs.room_pos|intros []]. }
  rewrite output_pipes in O. assert (O' : Lines_spec.printed_bytes (pipes (xs1 ++ FStart k at_ :: xs2)) false = concat ls ++ []) by (rewrite app_nil_r; exact O).
  destruct (Lines_proofs.prefix_lemma _ _ _ _ _ W St O' (gi_q _ _ I2)) as (more & M). unfold Lines_spec.all_lines in M. rewrite app_nil_r in M.
  exists L, (olist (f_wait s2) ++ more). split; [|exact R6]. rewrite M, R5, <- !app_assoc. reflexivity.
Qed.
