(** Proofs for C114. *)
From Coq Require Import List Arith Bool Permutation Lia.
Import ListNotations.
From Verif Require Import Dump_model Dump_spec.

Section P.
Context {E A : Type} (render : list E -> option (list A)) (reads : list A -> option (list E)) (ok : E -> Prop).
Notation state := (state E A). Notation label := (label E). Notation step := (step render). Notation run := (run render). Notation found := (found reads).

Lemma put_split i x y : forall l : list (source E), nth_error l i = Some y -> exists a b, l = a ++ y :: b /\ put i x l = a ++ x :: b.
Proof.
  unfold put. induction i as [|i IH]; intros [|z l] H; cbn in H; try discriminate.
  - injection H as ->. exists [], l. auto.
  - destruct (IH l H) as (a & b & -> & E2). exists (z :: a), b. split; [reflexivity|]. change (firstn (S i) (z :: a ++ y :: b)) with (z :: firstn i (a ++ y :: b)).
    change (skipn (S (S i)) (z :: a ++ y :: b)) with (skipn (S i) (a ++ y :: b)). cbn [app]. now rewrite E2.
Qed.
Lemma finish_empty (l : list (source E)) : Forall takes l -> flat_map k_data (map finish l) = [].
Proof. induction 1 as [|x l H _ IH]; cbn; [reflexivity|]. unfold takes in H. rewrite H. exact IH. Qed.
Lemma finish_takes (l : list (source E)) : Forall takes l -> Forall takes (map finish l).
Proof. induction 1; cbn; constructor; auto. Qed.
Lemma begin_takes (l : list (source E)) : Forall takes l -> Forall takes (map begin l).
Proof. induction 1; cbn; constructor; auto. Qed.
Lemma halt_takes (l : list (source E)) : Forall takes l -> Forall takes (map halt l).
Proof. induction 1; cbn; constructor; auto. Qed.
Lemma begin_empty (l : list (source E)) : flat_map k_data (map begin l) = [].
Proof. induction l; cbn; auto. Qed.
Lemma halt_same (l : list (source E)) : flat_map k_data (map halt l) = flat_map k_data l.
Proof. induction l; cbn; auto. now f_equal. Qed.

Definition total (s : state) (ps : list nat) : list E := pending s ++ concat (map found (texts (log s))) ++ concat (map found (contents ps s)).
Definition inv (ps : list nat) (s : state) : Prop := Forall takes (sources s) /\ Forall ok (pending s) /\ all_files ps s.
Definition adds (l : label) (s : state) : list E := match l with Arrive i e => if on_at i s then [e] else [] | _ => [] end.
Definition good (l : label) (s : state) : Prop :=
  match l with
  | Begin => pending s = []
  | Write p n => takes_all render p n s
  | Destroy n => match dump s with Some p => takes_all render p n s | None => pending s = [] end
  | Dies _ _ => False
  | _ => True
  end.

Lemma contents_same ps (s s' : state) : (forall p, In p ps -> files s' p = files s p) -> contents ps s' = contents ps s.
Proof. induction ps as [|p ps IH]; intro H; cbn; [reflexivity|]. rewrite H by now left. f_equal. apply IH. intros q Hq. apply H. now right. Qed.
Lemma texts_app a b : texts (A := A) (a ++ b) = texts a ++ texts b.
Proof. unfold texts. apply flat_map_app. Qed.

Hypothesis Hr : forall l, Forall ok l -> exists t, render l = Some t /\ reads t = Some l.

(** A complete write of a new file. *)
Lemma write_total ps s s1 p n x t : inv ps s -> takes_all render p n s -> render (pending s) = Some t -> reads t = Some (pending s) ->
  sources s1 = [] \/ sources s1 = map finish (sources s) -> files s1 = files (written p n t (taken s)) -> log s1 = log s ++ [x] -> texts [x] = [] ->
  inv (p :: ps) s1 /\ Permutation (total s ps) (total s1 (p :: ps)).
Proof.
  intros (Ht & Ho & Hd & Hf) (Hn & Hc & Hl) Er Et Hs Hfi Hlog Hx. assert (Np : ~ In p ps) by (intro H; apply Hf in H; congruence).
  assert (Fi : files s1 = set_file p t (files s)). { rewrite Hfi. cbn. rewrite Hc, firstn_all2; auto. }
  assert (Ep : pending s1 = []). { unfold pending. destruct Hs as [->| ->]; [reflexivity|now apply finish_empty]. }
  split.
  - split; [|split; [rewrite Ep; constructor|]].
    + destruct Hs as [->| ->]; [constructor|now apply finish_takes].
    + split; [constructor; assumption|]. intros q. rewrite Fi. unfold set_file. destruct (Nat.eqb_spec q p) as [->|Nq]; [split; [discriminate|now left]|]. cbn [In]. rewrite <- Hf.
      split; [intros [->|H]; [congruence|exact H]|auto].
  - unfold total. rewrite Ep, Hlog, texts_app, Hx, app_nil_r. change (contents (p :: ps) s1) with (match files s1 p with Some u => [u] | None => [] end ++ contents ps s1).
    replace (files s1 p) with (Some t) by (rewrite Fi; unfold set_file; now rewrite Nat.eqb_refl). cbn [app map concat]. rewrite (contents_same ps s s1).
    + replace (found t) with (pending s) by (unfold Dump_spec.found; now rewrite Et). rewrite !app_assoc. apply Permutation_app_tail. apply Permutation_app_comm.
    + intros q Hq. rewrite Fi. unfold set_file. destruct (Nat.eqb_spec q p) as [->|]; [contradiction|reflexivity].
Qed.

Lemma step_total l ps s s1 : inv ps s -> step l s = Some s1 -> good l s -> (forall i e, l = Arrive i e -> ok e) ->
  exists ps1, inv ps1 s1 /\ Permutation (total s ps ++ adds l s) (total s1 ps1).
Proof.
  intros (Ht & Ho & Hf) H G Hok. assert (I : inv ps s) by (split; auto). unfold Dump_model.step in H. destruct (gone s); [discriminate|]. destruct l as [| |i e|p| |p n|n|p n|p b]; cbn [adds good] in *; rewrite ?app_nil_r.
  - injection H as <-. exists ps. split.
    + split; [now apply begin_takes|]. split; [|exact Hf]. unfold pending. cbn. rewrite begin_empty. constructor.
    + unfold total. rewrite G. unfold pending. cbn. rewrite begin_empty. reflexivity.
  - injection H as <-. exists ps. split.
    + split; [now apply halt_takes|]. split; [|exact Hf]. unfold pending. cbn. rewrite halt_same. exact Ho.
    + unfold total. unfold pending at 2. cbn. rewrite halt_same. reflexivity.
  - unfold on_at. destruct (nth_error (sources s) i) as [x|] eqn:Ex; [|discriminate]. injection H as <-. destruct (put_split i (arrive e x) x _ Ex) as (a & b & Es & Ep). exists ps.
    assert (Pn : pending (with_sources (put i (arrive e x) (sources s)) s) = flat_map k_data a ++ (if k_on x then k_data x ++ [e] else k_data x) ++ flat_map k_data b).
    { unfold pending. cbn [with_sources sources]. rewrite Ep, flat_map_app. reflexivity. }
    assert (P0 : pending s = flat_map k_data a ++ k_data x ++ flat_map k_data b) by (unfold pending; rewrite Es, flat_map_app; reflexivity).
    split; [split; [|split; [|exact Hf]]|].
    + cbn. rewrite Ep. rewrite Es in Ht. apply Forall_app in Ht as [T1 T2]. inversion T2; subst. apply Forall_app. split; [exact T1|]. constructor; assumption.
    + rewrite Pn. rewrite P0 in Ho. apply Forall_app in Ho as [O1 O2]. apply Forall_app in O2 as [O2 O3]. apply Forall_app. split; [exact O1|]. apply Forall_app. split; [|exact O3].
      destruct (k_on x); [apply Forall_app; split; [exact O2|]; constructor; [now apply (Hok i e)|constructor]|exact O2].
    + unfold total. rewrite Pn, P0. cbn [with_sources log]. change (contents ps (with_sources (put i (arrive e x) (sources s)) s)) with (contents ps s).
      destruct (k_on x); [|rewrite app_nil_r; reflexivity]. rewrite <- !app_assoc. apply Permutation_app_head. apply Permutation_app_head.
      cbn [app]. rewrite !app_assoc. symmetry. apply Permutation_cons_append.
  - injection H as <-. exists ps. split; [exact I|reflexivity].
  - destruct (Hr (pending s) Ho) as (t & Er & Et). rewrite Er in H. injection H as <-. exists ps. split; [split; [now apply finish_takes|split; [|exact Hf]]|].
    + unfold pending. cbn. rewrite finish_empty by exact Ht. constructor.
    + unfold total. unfold pending at 2. cbn [see taken with_sources sources log]. rewrite finish_empty by exact Ht. rewrite texts_app. cbn [app texts flat_map]. rewrite map_app, concat_app. cbn [map concat]. rewrite app_nil_r.
      replace (found t) with (pending s) by (unfold Dump_spec.found; now rewrite Et). change (contents ps (see (Text t) (taken s))) with (contents ps s). rewrite !app_assoc. apply Permutation_app_tail. apply Permutation_app_comm.
  - destruct (Hr (pending s) Ho) as (t & Er & Et). rewrite Er in H. injection H as <-. exists (p :: ps). apply (write_total ps s _ p n Returned t); auto.
  - destruct (dump s) as [p|] eqn:Ed.
    + destruct (Hr (pending s) Ho) as (t & Er & Et). rewrite Er in H. injection H as <-. exists (p :: ps). apply (write_total ps s _ p n Destroyed t); auto.
    + injection H as <-. exists ps. split; [split; [constructor|split; [constructor|exact Hf]]|]. unfold total. rewrite G. cbn [end_it log]. rewrite texts_app. cbn. rewrite app_nil_r. reflexivity.
  - contradiction.
  - injection H as <-. exists ps. split; [exact I|reflexivity].
Qed.

Lemma run_total : forall ls ps s s1, inv ps s -> run ls s = Some s1 -> smooth render ls s -> (forall i e, In (Arrive i e) ls -> ok e) ->
  exists ps1, inv ps1 s1 /\ Permutation (total s ps ++ recorded render ls s) (total s1 ps1).
Proof.
  induction ls as [|l ls IH]; intros ps s s1 I R S O.
  - cbn in R. injection R as <-. exists ps. split; [exact I|]. cbn. now rewrite app_nil_r.
  - cbn [Dump_model.run] in R. cbn [smooth] in S. destruct S as [G S]. cbn [recorded]. destruct (step l s) as [s2|] eqn:Es; [|discriminate].
    destruct (step_total l ps s s2 I Es) as (ps2 & I2 & P2); [destruct l; exact G|intros i e ->; apply (O i); now left|].
    destruct (IH ps2 s2 s1 I2 R S) as (ps1 & I1 & P1); [intros i e H; apply (O i); now right|]. exists ps1. split; [exact I1|]. rewrite <- P1, <- P2.
    rewrite <- app_assoc. apply Permutation_app_head. unfold adds. destruct l; reflexivity.
Qed.
Theorem conserved ks ls s : Forall (fun k => k = false) ks -> (forall i e, In (Arrive i e) ls -> ok e) -> smooth render ls (state0 ks) -> run ls (state0 ks) = Some s ->
  exists ps, all_files ps s /\ Permutation (recorded render ls (state0 ks)) (pending s ++ concat (map found (texts (log s))) ++ concat (map found (contents ps s))).
Proof.
  intros K O S R. assert (P0 : pending (state0 (E := E) (A := A) ks) = []) by (unfold pending; cbn; clear; induction ks; cbn; auto).
  destruct (run_total ls [] (state0 ks) s) as (ps & (_ & _ & F) & P); auto.
  - split; [|split].
    + cbn. clear - K. induction K as [|k ks H _ IH]; cbn; constructor; auto.
    + rewrite P0. constructor.
    + split; [constructor|]. intros p. cbn. split; [intros []|congruence].
  - exists ps. split; [exact F|]. unfold total in P at 1. rewrite P0 in P. cbn in P. exact P.
Qed.
End P.

Section Lost.
Context {E A : Type} (render : list E -> option (list A)) (reads : list A -> option (list E)).
Notation state := (state E A). Notation label := (label E). Notation step := (step render). Notation run := (run render). Notation found := (found reads). Notation nowhere := (nowhere reads). Notation only_pending := (only_pending reads).
(** What is read in a text, or in the beginning of one, was put into it. *)
Hypothesis Hcut : forall l t n e, render l = Some t -> In e (found (firstn n t)) -> In e l.

Lemma finish_incl e l : In e (flat_map k_data (map finish l)) -> In e (flat_map (k_data (E := E)) l).
Proof. induction l as [|x l IH]; cbn; [auto|]. rewrite !in_app_iff. intros [H|H]; [|right; auto]. left. destruct (k_keeps x); [exact H|destruct H]. Qed.
Lemma found_whole l t e : render l = Some t -> In e (found t) -> In e l.
Proof. intros H I. apply (Hcut l t (length t) e H). now rewrite firstn_all. Qed.
Lemma nowhere_file e s p n t : render (pending s) = Some t -> nowhere e s -> forall q u, files (written p n t (taken s)) q = Some u -> ~ In e (found u).
Proof.
  intros Er (N1 & _ & N3) q u Hq Hi. cbn in Hq. destruct (can s p); [|now apply (N1 q u Hq)]. unfold set_file in Hq. destruct (Nat.eqb q p); [|now apply (N1 q u Hq)].
  injection Hq as <-. apply N3. now apply (Hcut _ t n).
Qed.
Lemma log_more (s : state) x e : (forall t, In (Text t) (log s) -> ~ In e (found t)) -> (forall t, x = Text t -> ~ In e (found t)) -> forall t, In (Text t) (log s ++ [x]) -> ~ In e (found t).
Proof. intros H1 H2 t Ht. apply in_app_iff in Ht as [Ht|[Ht|[]]]; [now apply H1|now apply H2]. Qed.
Lemma step_nowhere e l s s' : nowhere e s -> step l s = Some s' -> (forall i, l <> Arrive i e) -> nowhere e s'.
Proof.
  intros N H L. assert (N' := N). destruct N' as (N1 & N2 & N3). unfold Dump_model.step in H. destruct (gone s); [discriminate|].
  assert (Nf : forall t, render (pending s) = Some t -> ~ In e (found t)) by (intros t Er Hi; apply N3; now apply (found_whole _ t)).
  assert (Nt : ~ In e (pending (taken s))) by (intro Hi; apply N3; now apply finish_incl).
  destruct l as [| |i x|p| |p n|n|p n|p b].
  - injection H as <-. split; [exact N1|]. split; [exact N2|]. unfold pending. cbn. rewrite begin_empty. intros [].
  - injection H as <-. split; [exact N1|]. split; [exact N2|]. unfold pending. cbn. rewrite halt_same. exact N3.
  - destruct (nth_error (sources s) i) as [y|] eqn:Ey; [|discriminate]. injection H as <-. split; [exact N1|]. split; [exact N2|].
    destruct (put_split i (arrive x y) y _ Ey) as (a & b & Es & Ep). unfold pending in *. cbn. rewrite Ep. rewrite Es in N3. rewrite flat_map_app in *. cbn [flat_map] in *. rewrite !in_app_iff in *.
    intros [Hi|[Hi|Hi]]; auto. cbn in Hi. destruct (k_on y); [|auto]. apply in_app_iff in Hi as [Hi|[Hi|[]]]; [auto|]. subst x. apply (L i eq_refl).
  - injection H as <-. exact N.
  - destruct (render (pending s)) as [t|] eqn:Er; injection H as <-; (split; [exact N1|split; [|exact Nt]]); apply log_more; auto; intros u Hu; [injection Hu as <-; auto|discriminate].
  - destruct (render (pending s)) as [t|] eqn:Er; injection H as <-.
    + split; [exact (nowhere_file e s p n t Er N)|]. split; [|exact Nt]. apply log_more; auto. discriminate.
    + split; [exact N1|]. split; [|exact Nt]. apply log_more; auto. discriminate.
  - destruct (dump s) as [p|].
    + destruct (render (pending s)) as [t|] eqn:Er; injection H as <-.
      * split; [exact (nowhere_file e s p n t Er N)|]. split; [|intros []]. apply log_more; auto. discriminate.
      * split; [exact N1|]. split; [|intros []]. apply log_more; auto. discriminate.
    + injection H as <-. split; [exact N1|]. split; [|intros []]. apply log_more; auto. discriminate.
  - destruct (render (pending s)) as [t|] eqn:Er; injection H as <-.
    + split; [exact (nowhere_file e s p n t Er N)|]. split; [|intros []]. apply log_more; auto. discriminate.
    + split; [exact N1|]. split; [|intros []]. apply log_more; auto. discriminate.
  - injection H as <-. exact N.
Qed.
Theorem nowhere_for_ever e : forall ls s s', nowhere e s -> run ls s = Some s' -> (forall i, ~ In (Arrive i e) ls) -> nowhere e s'.
Proof.
  induction ls as [|l ls IH]; intros s s' N R L; cbn in R; [now injection R as <-|]. destruct (step l s) as [s1|] eqn:Es; [|discriminate]. apply (IH s1 s'); auto.
  - apply (step_nowhere e l s s1 N Es). intros i ->. apply (L i). now left.
  - intros i Hi. apply (L i). now right.
Qed.
Theorem unopened s p n s' t : Forall takes (sources s) -> can s p = false -> render (pending s) = Some t -> step (Write p n) s = Some s' ->
  log s' = log s ++ [Returned] /\ files s' = files s /\ forall e, only_pending e s -> nowhere e s'.
Proof.
  intros T C Er H. unfold Dump_model.step in H. destruct (gone s); [discriminate|]. rewrite Er in H. injection H as <-. split; [reflexivity|]. cbn. rewrite C. split; [reflexivity|].
  intros e (P1 & P2 & P3). split; [cbn; rewrite C; exact P2|]. split; [apply log_more; auto; discriminate|]. unfold pending. cbn. rewrite finish_empty by exact T. intros [].
Qed.
Theorem begun s s' : step Begin s = Some s' -> files s' = files s /\ log s' = log s /\ forall e, only_pending e s -> nowhere e s'.
Proof.
  intro H. unfold Dump_model.step in H. destruct (gone s); [discriminate|]. injection H as <-. split; [reflexivity|]. split; [reflexivity|]. intros e (P1 & P2 & P3). split; [exact P2|]. split; [exact P3|].
  unfold pending. cbn. rewrite begin_empty. intros [].
Qed.
(** Written, and then destroyed with the same file set up. *)
Theorem written_twice s p n m s' : Forall takes (sources s) -> dump s = Some p -> can s p = true -> render [] <> None -> run [Write p n; Destroy m] s = Some s' -> render (pending s) <> None ->
  forall e, only_pending e s -> nowhere e s' /\ forall t0, render [] = Some t0 -> files s' p = Some (firstn m t0).
Proof.
  intros T D C E0 R Ep e (P1 & P2 & P3). destruct (render (pending s)) as [t|] eqn:Er; [|congruence]. destruct (render []) as [t0|] eqn:Er0; [|congruence].
  assert (Pe : forall s1 : state, sources s1 = map finish (sources s) -> pending s1 = []) by (intros s1 Hs; unfold pending; rewrite Hs; now apply finish_empty).
  cbn [Dump_model.run] in R. unfold Dump_model.step in R. destruct (gone s) eqn:Eg; [discriminate|]. rewrite Er in R. cbn [see written taken with_sources gone dump] in R. rewrite Eg, D in R.
  rewrite Pe in R by reflexivity. rewrite Er0 in R. injection R as <-. cbn. rewrite C. split.
  - split; [|split; [|intros []]].
    + cbn. rewrite C. intros q u Hq Hi. unfold set_file in Hq. destruct (Nat.eqb q p); [|now apply (P2 q u Hq)]. injection Hq as <-. exact (Hcut [] t0 m e Er0 Hi).
    + cbn. intros u Hu. rewrite <- app_assoc in Hu. apply in_app_iff in Hu as [Hu|[Hu|[Hu|[]]]]; try discriminate. now apply P3.
  - intros t1 E1. injection E1 as <-. unfold set_file. now rewrite Nat.eqb_refl.
Qed.
(** The text cannot be made: the caller learns it, too late. *)
Theorem threw_lost s s' p n l : Forall takes (sources s) -> l = Collect \/ l = Write p n -> render (pending s) = None -> step l s = Some s' ->
  log s' = log s ++ [Threw] /\ files s' = files s /\ forall e, only_pending e s -> nowhere e s'.
Proof.
  intros T L Er H. unfold Dump_model.step in H. destruct (gone s); [discriminate|]. destruct L as [->| ->]; rewrite Er in H; injection H as <-; (split; [reflexivity|]; split; [reflexivity|]; intros e (P1 & P2 & P3);
    split; [exact P2|]; split; [apply log_more; auto; discriminate|]; unfold pending; cbn; rewrite finish_empty by exact T; intros []).
Qed.
(** A source for LTTng gives what it has recorded each time it is asked. *)
Theorem given_twice s t : Forall (fun y => k_keeps y = true) (sources s) -> gone s = false -> render (pending s) = Some t ->
  exists s', run [Collect; Collect] s = Some s' /\ log s' = log s ++ [Text t; Text t].
Proof.
  intros K G Er. assert (Pf : forall l : list (source E), Forall (fun y => k_keeps y = true) l -> flat_map k_data (map finish l) = flat_map k_data l).
  { induction 1 as [|y l Hy _ IH]; cbn; [reflexivity|]. rewrite Hy. now f_equal. }
  assert (Pe : forall s1 : state, sources s1 = map finish (sources s) -> pending s1 = pending s) by (intros s1 Hs; unfold pending; rewrite Hs; now apply Pf).
  cbn [Dump_model.run]. unfold Dump_model.step. rewrite G, Er. cbn [see taken with_sources gone]. rewrite G. rewrite Pe by reflexivity. rewrite Er.
  eexists. split; [reflexivity|]. cbn. now rewrite <- app_assoc.
Qed.
(** The file the destructor writes is the one asked for last. *)
Lemma asked_run : forall ls s s', run ls s = Some s' -> dump s' = fold_left (fun d l => match l with Setup p => Some p | _ => d end) ls (dump s).
Proof.
  induction ls as [|l ls IH]; intros s s' R; cbn in R; [now injection R as <-|]. destruct (step l s) as [s1|] eqn:Es; [|discriminate]. rewrite (IH s1 s' R). cbn [fold_left]. f_equal.
  unfold Dump_model.step in Es. destruct (gone s); [discriminate|]. destruct l as [| |i x|p| |p n|n|p n|p b]; try (injection Es as <-; reflexivity).
  - destruct (nth_error (sources s) i); [|discriminate]. now injection Es as <-.
  - destruct (render (pending s)); now injection Es as <-.
  - destruct (render (pending s)); now injection Es as <-.
  - destruct (dump s) eqn:D; [destruct (render (pending s))|]; injection Es as <-; cbn; auto.
  - destruct (render (pending s)); now injection Es as <-.
Qed.
Theorem destroyed ks ls s n s' p t : run ls (state0 ks) = Some s -> asked ls = Some p -> can s p = true -> render (pending s) = Some t -> length t <= n -> step (Destroy n) s = Some s' ->
  files s' p = Some t /\ (forall q, q <> p -> files s' q = files s q) /\ log s' = log s ++ [Destroyed].
Proof.
  intros R K C Er L H. pose proof (asked_run _ _ _ R) as D. change (dump s = asked ls) in D. unfold Dump_model.step in H. destruct (gone s); [discriminate|]. rewrite D, K, Er in H. injection H as <-.
  cbn. rewrite C, firstn_all2 by exact L. unfold set_file. rewrite Nat.eqb_refl. split; [reflexivity|]. split; [|reflexivity]. intros q N. now apply Nat.eqb_neq in N as ->.
Qed.
(** The text cannot be made in the destructor: the program ends. *)
Theorem terminated ks ls s n s' p : run ls (state0 ks) = Some s -> asked ls = Some p -> render (pending s) = None -> step (Destroy n) s = Some s' ->
  log s' = log s ++ [Terminated] /\ files s' = files s /\ forall e, only_pending e s -> nowhere e s'.
Proof.
  intros R K Er H. pose proof (asked_run _ _ _ R) as D. change (dump s = asked ls) in D. unfold Dump_model.step in H. destruct (gone s); [discriminate|]. rewrite D, K, Er in H. injection H as <-.
  split; [reflexivity|]. split; [reflexivity|]. intros e (P1 & P2 & P3). split; [exact P2|]. split; [apply log_more; auto; discriminate|intros []].
Qed.
End Lost.

Section Interval.
Context {E A : Type} (render : list E -> option (list A)).
Lemma put_all (P : source E -> Prop) : forall i x (l : list (source E)), Forall P l -> P x -> Forall P (put i x l).
Proof.
  intros i x l H Hx. unfold put. apply Forall_app. split.
  - rewrite <- (firstn_skipn i l) in H. now apply Forall_app in H.
  - constructor; [exact Hx|]. rewrite <- (firstn_skipn (S i) l) in H. now apply Forall_app in H.
Qed.
Lemma put_length : forall i (x y : source E) l, nth_error l i = Some y -> length (put i x l) = length l.
Proof. induction i as [|i IH]; intros x y [|z l] H; try discriminate; [reflexivity|]. cbn. f_equal. exact (IH x y l H). Qed.
Lemma step_interval l (s s' : state E A) b : step render l s = Some s' -> Forall (fun x => k_on x = b) (sources s) ->
  gone s' = true \/ length (sources s') = length (sources s) /\
  Forall (fun x => k_on x = match l with Begin => true | Halt | Collect | Write _ _ | Destroy _ | Dies _ _ => false | _ => b end) (sources s').
Proof.
  intros St H. unfold step in St. destruct (gone s); [discriminate|].
  assert (forall (f : source E -> source E) v, (forall x, k_on (f x) = v) -> length (map f (sources s)) = length (sources s) /\ Forall (fun x => k_on x = v) (map f (sources s))) as M.
  { intros f v Hf. split; [apply map_length|]. apply Forall_map, Forall_forall. auto. }
  destruct l as [| |i e|p| |p n|n|p n|p c].
  - injection St as <-. right. now apply M.
  - injection St as <-. right. now apply M.
  - destruct (nth_error (sources s) i) as [x|] eqn:Ex; [|discriminate]. injection St as <-. right. cbn. split; [eapply put_length, Ex|]. apply put_all; [exact H|]. cbn. rewrite Forall_forall in H. apply H. eapply nth_error_In, Ex.
  - injection St as <-. right. auto.
  - injection St as <-. right. destruct (render (pending s)); now apply (M finish).
  - injection St as <-. right. destruct (render (pending s)); now apply (M finish).
  - injection St as <-. left. destruct (dump s); [destruct (render (pending s))|]; reflexivity.
  - injection St as <-. left. destruct (render (pending s)); reflexivity.
  - injection St as <-. right. auto.
Qed.
Lemma gone_stays : forall ls (s s' : state E A), run render ls s = Some s' -> gone s = true -> gone s' = true.
Proof. induction ls as [|l ls IH]; cbn; intros s s' R G; [congruence|]. unfold step in R. rewrite G in R. discriminate. Qed.
Lemma run_interval : forall ls (s s' : state E A) b, run render ls s = Some s' -> Forall (fun x => k_on x = b) (sources s) -> gone s' = false ->
  length (sources s') = length (sources s) /\
  Forall (fun x => k_on x = fold_left (fun b l => match l with Begin => true | Halt | Collect | Write _ _ | Destroy _ | Dies _ _ => false | _ => b end) ls b) (sources s').
Proof.
  induction ls as [|l ls IH]; cbn; intros s s' b R H G; [injection R as <-; auto|]. destruct (step render l s) as [s1|] eqn:St; [|discriminate].
  destruct (step_interval _ _ _ _ St H) as [D|[L H1]]; [rewrite (gone_stays _ _ _ R D) in G; discriminate|]. destruct (IH _ _ _ R H1 G) as [L' H']. split; [congruence|exact H'].
Qed.
Lemma on_interval ks ls (s : state E A) i : run render ls (state0 ks) = Some s -> gone s = false -> i < length ks -> on_at i s = in_interval ls.
Proof.
  intros R G L. assert (Forall (fun x : source E => k_on x = false) (sources (state0 (A := A) ks))) as H by (apply Forall_map, Forall_forall; auto).
  destruct (run_interval _ _ _ _ R H G) as [L' F]. unfold on_at. destruct (nth_error (sources s) i) as [x|] eqn:Ex.
  - rewrite Forall_forall in F. apply F. eapply nth_error_In, Ex.
  - apply nth_error_None in Ex. cbn in L'. rewrite map_length in L'. lia.
Qed.
End Interval.
