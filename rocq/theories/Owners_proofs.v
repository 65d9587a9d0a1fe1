(** Proofs about the objects of a program that watches others (C115). *)
From Coq Require Import List Arith Bool Lia Permutation.
Import ListNotations.
From Verif Require Import Owners_model Owners_spec.

Definition ids (s : state) : list nat := map fst (live s).
Lemma mem_in n l : mem n l = true <-> In n l.
Proof. unfold mem. rewrite existsb_exists. split; [intros (x & H & E); apply Nat.eqb_eq in E; subst; exact H|intros H; exists n; rewrite Nat.eqb_refl; auto]. Qed.
Lemma mem_not n l : mem n l = false <-> ~ In n l.
Proof. rewrite <- mem_in. destruct (mem n l); split; congruence. Qed.
Lemma kind_eq_true a b : kind_eq a b = true <-> a = b.
Proof. destruct a, b; cbn; split; congruence. Qed.
Lemma is_in s n k : is s n k = true <-> In (n, k) (live s).
Proof.
  unfold is. rewrite existsb_exists. split.
  - intros ((x, y) & H & E). apply andb_true_iff in E. destruct E as (A & B). apply Nat.eqb_eq in A. apply kind_eq_true in B. cbn in A, B. subst. exact H.
  - intros H. exists (n, k). cbn. rewrite Nat.eqb_refl. split; [exact H|]. apply kind_eq_true. reflexivity.
Qed.
Lemma is_id s n k : is s n k = true -> In n (ids s).
Proof. intros H. apply is_in in H. apply (in_map fst) in H. exact H. Qed.
Lemma in_ids s n : In n (ids s) -> exists k, In (n, k) (live s).
Proof. intros H. apply in_map_iff in H. destruct H as ((x, k) & E & H). cbn in E. subst. eauto. Qed.
Lemma kind_unique (l : list (nat * kind)) : NoDup (map fst l) -> forall n a b, In (n, a) l -> In (n, b) l -> a = b.
Proof.
  induction l as [|(m, k) l IH]; cbn [map]; intros N n a b A B; [destruct A|]. inversion N as [|? ? X Y]; subst. cbn [fst] in X. destruct A as [A|A], B as [B|B].
  - congruence.
  - injection A as -> ->. destruct X. apply (in_map fst) in B. exact B.
  - injection B as -> ->. destruct X. apply (in_map fst) in A. exact A.
  - apply (IH Y n a b A B).
Qed.

Record sound (s : state) : Prop := {
  s_once : NoDup (ids s);
  s_old : forall n, In n (ids s) -> n < next s;
  s_ends : forall a b, In (a, b) (refs s) -> In a (ids s) /\ In b (ids s);
  s_vars : forall n, In n (vars s) -> In n (ids s) }.
Definition full (s : state) : Prop := forall n, In n (ids s) -> wanted s n = true.

(** ** Reference counting *)
Record below (s s' : state) : Prop := {
  b_next : next s' = next s;
  b_vars : vars s' = vars s;
  b_live : exists p, live s' = filter (fun o => p (fst o)) (live s);
  b_refs : forall e, In e (refs s') -> In e (refs s);
  b_kept : forall a b, In (a, b) (refs s) -> In a (ids s') -> In (a, b) (refs s') }.
Lemma filter_filter {A} (p q : A -> bool) l : filter q (filter p l) = filter (fun x => p x && q x) l.
Proof. induction l as [|a l IH]; cbn; [reflexivity|]. destruct (p a); cbn; [destruct (q a); rewrite IH; reflexivity|exact IH]. Qed.
Lemma filter_fst (p : nat -> bool) (l : list (nat * kind)) : map fst (filter (fun o => p (fst o)) l) = filter p (map fst l).
Proof. induction l as [|a l IH]; cbn; [reflexivity|]. destruct (p (fst a)); cbn; rewrite IH; reflexivity. Qed.
Lemma below_ids s s' : below s s' -> exists p, ids s' = filter p (ids s).
Proof. intros B. destruct (b_live _ _ B) as (p & L). exists p. unfold ids. rewrite L. apply filter_fst. Qed.
Lemma below_incl s s' : below s s' -> forall n, In n (ids s') -> In n (ids s).
Proof. intros B n H. destruct (below_ids s s' B) as (p & E). rewrite E in H. apply filter_In in H. apply H. Qed.
Lemma below_refl s : below s s.
Proof.
  split; try reflexivity; auto. exists (fun _ => true). induction (live s) as [|a l IH]; cbn; [reflexivity|]. rewrite <- IH. reflexivity.
Qed.
Lemma below_trans a b c : below a b -> below b c -> below a c.
Proof.
  intros A B. split.
  - rewrite (b_next _ _ B). apply A.
  - rewrite (b_vars _ _ B). apply A.
  - destruct (b_live _ _ A) as (p & P). destruct (b_live _ _ B) as (q & Q). exists (fun n => p n && q n). rewrite Q, P, filter_filter. reflexivity.
  - intros e H. apply A, B, H.
  - intros x y H I. apply (b_kept _ _ B); [|exact I]. apply (b_kept _ _ A); [exact H|]. apply (below_incl b c B). exact I.
Qed.
Lemma sweep_ids s : ids (sweep s) = filter (wanted s) (ids s).
Proof. unfold ids, sweep; cbn [live]. apply filter_fst. Qed.
Lemma sweep_below s : below s (sweep s).
Proof.
  split; try reflexivity.
  - exists (wanted s). reflexivity.
  - intros e H. cbn [sweep refs] in H. apply filter_In in H. apply H.
  - intros a b H I. cbn [sweep refs]. apply filter_In. split; [exact H|]. apply mem_in. exact I.
Qed.
Lemma sweep_sound s : sound s -> sound (sweep s).
Proof.
  intros S. split.
  - rewrite sweep_ids. apply NoDup_filter. apply S.
  - intros n H. rewrite sweep_ids in H. apply filter_In in H. apply (s_old s S). apply H.
  - intros a b H. cbn [sweep refs] in H. apply filter_In in H. destruct H as (H & M). apply mem_in in M. split; [exact M|]. rewrite sweep_ids. apply filter_In.
    split; [apply (s_ends s S a b H)|]. unfold wanted. apply orb_true_iff. right. apply mem_in. apply (in_map snd) in H. exact H.
  - intros n H. rewrite sweep_ids. cbn [sweep vars] in H. apply filter_In. split; [apply (s_vars s S n H)|]. unfold wanted. apply orb_true_iff. left. apply mem_in. exact H.
Qed.
Lemma all_wanted s : forallb (fun o => wanted s (fst o)) (live s) = true <-> full s.
Proof.
  rewrite forallb_forall. split.
  - intros H n I. apply in_ids in I. destruct I as (k & I). apply (H (n, k) I).
  - intros F (n, k) I. apply F. apply (in_map fst) in I. exact I.
Qed.
Lemma filter_shorter {A} (p : A -> bool) l : forallb p l = false -> length (filter p l) < length l.
Proof.
  induction l as [|a l IH]; cbn; [discriminate|]. destruct (p a); cbn.
  - intros H. specialize (IH H). lia.
  - intros _. assert (forall m, length (filter p m) <= length m) as G by (induction m as [|b m IHm]; cbn; [lia|]; destruct (p b); cbn; lia). specialize (G l). lia.
Qed.
Lemma settle_ok f : forall s, sound s -> length (live s) <= f -> below s (settle f s) /\ sound (settle f s) /\ full (settle f s).
Proof.
  induction f as [|f IH]; intros s S L; cbn [settle].
  - split; [apply below_refl|]. split; [exact S|]. intros n H. unfold ids in H. destruct (live s); [destruct H|cbn in L; lia].
  - destruct (forallb (fun o => wanted s (fst o)) (live s)) eqn:E.
    + split; [apply below_refl|]. split; [exact S|]. apply all_wanted. exact E.
    + apply filter_shorter in E. destruct (IH (sweep s) (sweep_sound s S)) as (A & B & C); [cbn [sweep live]; lia|]. split; [|split; assumption].
      apply (below_trans s (sweep s)); [apply sweep_below|exact A].
Qed.
Lemma split_ids (A B : list nat) : NoDup A -> (exists p, B = filter p A) -> Permutation A (B ++ filter (fun n => negb (mem n B)) A).
Proof.
  intros N (p & E). assert (filter (fun n => negb (mem n B)) A = filter (fun n => negb (p n)) A) as ->.
  { apply filter_ext_in. intros n H. f_equal. destruct (p n) eqn:P; [apply mem_in|apply mem_not]; rewrite E, filter_In; intuition congruence. }
  rewrite E. clear. induction A as [|a A IH]; cbn; [constructor|]. destruct (p a); cbn; [constructor; exact IH|]. apply Permutation_cons_app. exact IH.
Qed.

(** ** One operation *)
Record acts (s s' : state) (o : list obs) : Prop := {
  a_sound : sound s';
  a_next : next s <= next s';
  a_ids : Permutation (ids s') (made_ids o ++ ids s);
  a_made : forall n, In n (made_ids o) -> next s <= n < next s';
  a_once : NoDup (made_ids o);
  a_gone : gone_ids o = [] }.
Lemma made_app a b : made_ids (a ++ b) = made_ids a ++ made_ids b.
Proof. unfold made_ids. apply flat_map_app. Qed.
Lemma gone_app a b : gone_ids (a ++ b) = gone_ids a ++ gone_ids b.
Proof. unfold gone_ids. apply flat_map_app. Qed.
Lemma made_gone l : made_ids (map OGone l) = [].
Proof. induction l as [|a l IH]; [reflexivity|exact IH]. Qed.
Lemma gone_gone l : gone_ids (map OGone l) = l.
Proof. induction l as [|a l IH]; [reflexivity|]. cbn. f_equal. exact IH. Qed.
Lemma acts_same s s' : sound s' -> next s' = next s -> live s' = live s -> acts s s' [].
Proof. intros S N L. split; try exact S; cbn; try (intros n []); try reflexivity; [lia|unfold ids; rewrite L; apply Permutation_refl|constructor]. Qed.
Lemma make_sound k rs by_ mine s : sound s -> incl rs (ids s) -> incl by_ (ids s) -> sound (make k rs by_ mine s).
Proof.
  intros S R B. assert (ids (make k rs by_ mine s) = next s :: ids s) as E by reflexivity. split.
  - rewrite E. constructor; [intros H; apply (s_old s S) in H; lia|apply S].
  - rewrite E. cbn [make next]. intros n [<-|H]; [lia|]. apply (s_old s S) in H. lia.
  - rewrite E. cbn [make refs]. intros a b H. apply in_app_iff in H. destruct H as [H|H]; [|apply in_app_iff in H; destruct H as [H|H]].
    + apply in_map_iff in H. destruct H as (x & H & I). injection H as <- <-. split; [left; reflexivity|right; apply R; exact I].
    + apply in_map_iff in H. destruct H as (x & H & I). injection H as <- <-. split; [right; apply B; exact I|left; reflexivity].
    + destruct (s_ends s S a b H). split; right; assumption.
  - rewrite E. cbn [make vars]. intros n H. destruct mine; [destruct H as [<-|H]; [left; reflexivity|]|]; right; apply (s_vars s S); exact H.
Qed.
Lemma make_acts k rs by_ mine s : sound s -> incl rs (ids s) -> incl by_ (ids s) -> acts s (make k rs by_ mine s) [OMade (next s) k].
Proof.
  intros S R B. split.
  - apply make_sound; assumption.
  - cbn. lia.
  - cbn. apply Permutation_refl.
  - cbn. intros n [<-|[]]. lia.
  - constructor; [intros []|constructor].
  - reflexivity.
Qed.
Lemma acts_trans a b c o1 o2 : acts a b o1 -> acts b c o2 -> acts a c (o1 ++ o2).
Proof.
  intros A B. split.
  - apply B.
  - pose proof (a_next _ _ _ A). pose proof (a_next _ _ _ B). lia.
  - rewrite made_app. rewrite (a_ids _ _ _ B), (a_ids _ _ _ A). rewrite !app_assoc. apply Permutation_app_tail. apply Permutation_app_comm.
  - rewrite made_app. intros n H. apply in_app_iff in H. pose proof (a_next _ _ _ A). pose proof (a_next _ _ _ B).
    destruct H as [H|H]; [apply (a_made _ _ _ A) in H|apply (a_made _ _ _ B) in H]; lia.
  - rewrite made_app.
    pose proof (a_once _ _ _ A) as X. pose proof (a_once _ _ _ B) as Y. pose proof (a_made _ _ _ A) as P. pose proof (a_made _ _ _ B) as Q.
    revert X P. generalize (made_ids o1) as l. induction l as [|x l IH]; cbn; intros X P; [exact Y|]. inversion X as [|? ? X1 X2]; subst. constructor.
    + rewrite in_app_iff. intros [H|H]; [exact (X1 H)|]. apply Q in H. specialize (P x (or_introl eq_refl)). lia.
    + apply IH; [exact X2|]. intros n H. apply P. right. exact H.
  - rewrite gone_app, (a_gone _ _ _ A), (a_gone _ _ _ B). reflexivity.
Qed.
Lemma source_acts p hs mine s : sound s -> In p (ids s) -> incl hs (ids s) -> acts s (source p hs mine s) [OMade (next s) (source_kind s p)].
Proof.
  intros S P H. unfold source, source_kind. destruct (is s p Native).
  - apply make_acts; [exact S|intros x []|]. intros x [<-|X]; [exact P|apply H; exact X].
  - apply make_acts; [exact S| |exact H]. intros x [<-|[]]. exact P.
Qed.
Lemma source_ids p hs mine s n : In n (ids s) -> In n (ids (source p hs mine s)).
Proof. intros H. unfold source. destruct (is s p Native); right; exact H. Qed.
Lemma sources_acts n ps : forall s s' o, sound s -> In n (ids s) -> incl ps (ids s) -> sources n ps s = (s', o) -> acts s s' o.
Proof.
  induction ps as [|p ps IH]; intros s s' o S N P H; cbn [sources] in H.
  - injection H as <- <-. apply acts_same; auto.
  - destruct (sources n ps (source p [n] false s)) as (s1, o1) eqn:E. injection H as <- <-.
    assert (acts s (source p [n] false s) [OMade (next s) (source_kind s p)]) as A.
    { apply source_acts; [exact S|apply P; left; reflexivity|]. intros x [<-|[]]. exact N. }
    apply (acts_trans _ _ _ _ _ A). apply (IH _ s1 o1); [apply A|apply source_ids; exact N| |exact E]. intros x X. apply source_ids. apply P. right. exact X.
Qed.
Lemma put_sound a b s : sound s -> In a (ids s) -> In b (ids s) -> sound (put a b s).
Proof. intros S A B. split; try apply S. cbn [put refs]. intros x y [H|H]; [injection H as <- <-; auto|apply (s_ends s S); exact H]. Qed.
Lemma cut_in a b l e : In e (cut a b l) -> In e l.
Proof. induction l as [|x l IH]; cbn; [auto|]. destruct (Nat.eqb (fst x) a && Nat.eqb (snd x) b); cbn; tauto. Qed.
Lemma drop_in n l x : In x (drop n l) -> In x l.
Proof. induction l as [|y l IH]; cbn; [auto|]. destruct (Nat.eqb y n); cbn; tauto. Qed.
Lemma take_sound a b s : sound s -> sound (take a b s).
Proof. intros S. split; try apply S. cbn [take refs]. intros x y H. apply cut_in in H. apply (s_ends s S); exact H. Qed.
Lemma hold_sound n s : sound s -> In n (ids s) -> sound (hold n s).
Proof. intros S A. split; try apply S. cbn [hold vars]. intros x [<-|H]; [exact A|apply (s_vars s S); exact H]. Qed.
Lemma release_sound n s : sound s -> sound (release n s).
Proof. intros S. split; try apply S. cbn [release vars]. intros x H. apply drop_in in H. apply (s_vars s S); exact H. Qed.
Lemma provider_id s p : provider s p = true -> In p (ids s).
Proof. unfold provider. rewrite !orb_true_iff. intros [[H|H]|H]; apply is_id in H; exact H. Qed.
Lemma has_id s p k : has s p k = true -> In p (ids s).
Proof. unfold has. rewrite andb_true_iff. intros (_ & H). apply is_id in H. exact H. Qed.
Lemma owner_id s r : is s r Recorder || is s r Server = true -> In r (ids s).
Proof. rewrite orb_true_iff. intros [H|H]; apply is_id in H; exact H. Qed.
Lemma owner_has s r : has s r Recorder || has s r Server = true -> In r (ids s).
Proof. rewrite orb_true_iff. intros [H|H]; apply has_id in H; exact H. Qed.
Lemma providers_ids s r : sound s -> incl (providers s r) (ids s).
Proof. intros S p H. unfold providers in H. apply filter_In in H. apply provider_id. apply H. Qed.
Lemma act_acts a s s' o : sound s -> act a s = (s', o) -> acts s s' o.
Proof.
  intros S H. assert (acts s s []) as Z by (apply acts_same; auto).
  assert (forall k rs, incl rs (ids s) -> made k rs s = (s', o) -> acts s s' o) as M.
  { unfold made. intros k rs R E. injection E as <- <-. apply make_acts; [exact S|exact R|intros x []]. }
  destruct a; cbn [act] in H.
  - apply (M _ [] ltac:(intros x []) H).
  - destruct (has s m Manager); [apply (M _ [] ltac:(intros x []) H)|injection H as <- <-; exact Z].
  - destruct (has s m Manager) eqn:E; [|injection H as <- <-; exact Z]. apply (M General [m]); [|exact H]. intros x [<-|[]]. apply (has_id _ _ _ E).
  - destruct (has s m Manager); [apply (M _ [] ltac:(intros x []) H)|injection H as <- <-; exact Z].
  - apply (M _ [] ltac:(intros x []) H).
  - apply (M _ [] ltac:(intros x []) H).
  - destruct (mem p (vars s) && provider s p) eqn:E; injection H as <- <-; [|exact Z]. apply andb_true_iff in E. apply source_acts; [exact S|apply provider_id; apply E|intros x []].
  - destruct ((has s r Recorder || has s r Server) && mem p (vars s) && provider s p) eqn:E; injection H as <- <-; [|exact Z].
    apply andb_true_iff in E. destruct E as (E & P). apply andb_true_iff in E. destruct E as (E & _). apply acts_same; try reflexivity.
    apply put_sound; [exact S|apply owner_has; exact E|apply provider_id; exact P].
  - destruct (is s r Recorder || is s r Server) eqn:E; [|injection H as <- <-; exact Z].
    destruct (sources (next s) (providers s r) (make Session [] [r] false s)) as (s1, o1) eqn:F. injection H as <- <-.
    assert (acts s (make Session [] [r] false s) [OMade (next s) Session]) as A.
    { apply make_acts; [exact S|intros x []|]. intros x [<-|[]]. apply owner_id. exact E. }
    apply (acts_trans _ _ _ _ _ A). apply (sources_acts _ _ _ _ _ (a_sound _ _ _ A)) in F; [exact F|left; reflexivity|].
    intros x X. right. apply (providers_ids s r S x X).
  - destruct ((is s r Recorder || is s r Server) && is s n Session); injection H as <- <-; [|exact Z]. apply acts_same; try reflexivity. apply take_sound; exact S.
  - injection H as <- <-. exact Z.
  - destruct (mem n (vars s)) eqn:E; injection H as <- <-; [|exact Z]. apply acts_same; try reflexivity. apply hold_sound; [exact S|]. apply (s_vars s S). apply mem_in. exact E.
  - injection H as <- <-. apply acts_same; try reflexivity. apply release_sound; exact S.
  - apply (M _ [] ltac:(intros x []) H).
  - destruct (has s o0 Py && mem n (vars s)) eqn:E; injection H as <- <-; [|exact Z]. apply andb_true_iff in E. destruct E as (E & F). apply acts_same; try reflexivity.
    apply put_sound; [exact S|apply (has_id _ _ _ E)|apply (s_vars s S), mem_in, F].
  - destruct (has s o0 Py); injection H as <- <-; [|exact Z]. apply acts_same; try reflexivity. apply take_sound; exact S.
  - destruct (has s o0 Py && existsb (fun e => Nat.eqb (fst e) o0 && Nat.eqb (snd e) n) (refs s)) eqn:E; injection H as <- <-; [|exact Z]. apply acts_same; try reflexivity.
    apply hold_sound; [exact S|]. apply andb_true_iff in E. destruct E as (_ & E). apply existsb_exists in E. destruct E as ((x, y) & I & E). apply andb_true_iff in E. destruct E as (_ & E).
    apply Nat.eqb_eq in E. cbn in E. subst. apply (s_ends s S) in I. apply I.
  - destruct (has s m Manager && mem o0 (vars s)) eqn:E; injection H as <- <-; [|exact Z]. apply andb_true_iff in E. destruct E as (E & F). apply acts_same; try reflexivity.
    apply put_sound; [exact S|apply (has_id _ _ _ E)|apply (s_vars s S), mem_in, F].
  - injection H as <- <-. destruct Z. split; try assumption.
Qed.

(** ** Histories *)
Record good (s : state) (tr : list obs) : Prop := {
  g_sound : sound s;
  g_full : full s;
  g_ids : Permutation (made_ids tr) (ids s ++ gone_ids tr);
  g_once : NoDup (made_ids tr);
  g_old : forall n, In n (made_ids tr) -> n < next s }.
Lemma settled_ok s o s' o' : sound s -> settled s o = (s', o') ->
  below s s' /\ sound s' /\ full s' /\ o' = o ++ gone s s'.
Proof. intros S H. unfold settled in H. injection H as <- <-. destruct (settle_ok (length (live s)) s S (le_n _)) as (A & B & C). auto. Qed.
Lemma step_good a s tr s' o : good s tr -> step a s = (s', o) -> good s' (tr ++ o).
Proof.
  intros G H. unfold step in H. destruct (act a s) as (s1, o1) eqn:E. pose proof (act_acts a s s1 o1 (g_sound _ _ G) E) as A.
  destruct (settled_ok _ _ _ _ (a_sound _ _ _ A) H) as (B & S & F & ->).
  assert (made_ids (tr ++ o1 ++ gone s1 s') = made_ids tr ++ made_ids o1) as M by (rewrite !made_app; unfold gone; rewrite made_gone, app_nil_r; reflexivity).
  split; try assumption.
  - rewrite M, !gone_app. unfold gone at 1. rewrite gone_gone, (a_gone _ _ _ A). cbn [app].
    pose proof (split_ids (ids s1) (ids s') (s_once _ (a_sound _ _ _ A)) (below_ids _ _ B)) as P. fold (ids s1) (ids s').
    rewrite (g_ids _ _ G). transitivity ((made_ids o1 ++ ids s) ++ gone_ids tr); [|rewrite <- (a_ids _ _ _ A)].
    + rewrite <- !app_assoc. rewrite (Permutation_app_comm (made_ids o1)). rewrite <- !app_assoc. apply Permutation_refl.
    + rewrite P at 1. rewrite <- !app_assoc. apply Permutation_app_head. apply Permutation_app_comm.
  - rewrite M. pose proof (a_once _ _ _ A) as Y. pose proof (a_made _ _ _ A) as Q. pose proof (g_once _ _ G) as X. pose proof (g_old _ _ G) as P.
    revert X P. generalize (made_ids tr) as l. induction l as [|x l IH]; cbn; intros X P; [exact Y|]. inversion X as [|? ? X1 X2]; subst. constructor.
    + rewrite in_app_iff. intros [I|I]; [exact (X1 I)|]. apply Q in I. specialize (P x (or_introl eq_refl)). lia.
    + apply IH; [exact X2|]. intros n I. apply P. right. exact I.
  - rewrite M. intros n I. rewrite (b_next _ _ B). pose proof (a_next _ _ _ A). apply in_app_iff in I. destruct I as [I|I]; [apply (g_old _ _ G) in I|apply (a_made _ _ _ A) in I]; lia.
Qed.
Lemma run_good h : forall s tr s' o, good s tr -> run h s = (s', o) -> good s' (tr ++ o).
Proof.
  induction h as [|a h IH]; intros s tr s' o G H; cbn [run] in H.
  - injection H as <- <-. rewrite app_nil_r. exact G.
  - destruct (step a s) as (s1, o1) eqn:E. destruct (run h s1) as (s2, o2) eqn:F. injection H as <- <-. rewrite app_assoc. apply (IH s1); [|exact F]. apply (step_good a s); assumption.
Qed.
Lemma start_good : good start [].
Proof. split; [split| | | |]; try (intros ? ? []; fail); try (intros ? []; fail); constructor. Qed.
Lemma history_good h s tr : run h start = (s, tr) -> good s tr.
Proof. intros H. apply (run_good h start [] s tr start_good H). Qed.

(** ** What is kept, and what is not *)
Lemma kept_live s : sound s -> forall n, kept s n -> In n (ids s).
Proof. intros S n [m H|a b _ H]; [apply (s_vars s S); exact H|apply (s_ends s S) in H; apply H]. Qed.
Lemma live_kept s : sound s -> full s -> no_circle s -> forall n, In n (ids s) -> kept s n.
Proof.
  intros S F (rank & R). enough (HH : forall k n, rank n < k -> In n (ids s) -> kept s n) by (intros n; apply (HH (1 + rank n)); lia).
  induction k as [|k IH]; intros n L H; [lia|]. pose proof (F n H) as W. unfold wanted in W. apply orb_true_iff in W. destruct W as [W|W]; apply mem_in in W.
  - apply k_var. exact W.
  - apply in_map_iff in W. destruct W as ((a, b) & E & W). cbn in E. subst b. apply (k_ref s a n); [|exact W]. apply IH; [|apply (s_ends s S a n W)]. specialize (R a n W). lia.
Qed.
Lemma gone_once s tr : good s tr -> NoDup (ids s ++ gone_ids tr).
Proof. intros G. apply (Permutation_NoDup (g_ids _ _ G)). apply G. Qed.
Lemma nodup_apart (a b : list nat) : NoDup (a ++ b) -> NoDup b /\ forall n, In n a -> ~ In n b.
Proof.
  induction a as [|x a IH]; cbn; intros N; [split; [exact N|intros n []]|]. inversion N as [|? ? X Y]; subst. destruct (IH Y) as (P & Q). split; [exact P|].
  intros n [<-|H]; [intros I; apply X, in_app_iff; auto|apply Q; exact H].
Qed.
Lemma held h s tr n : run h start = (s, tr) -> kept s n -> In n (made_ids tr) /\ ~ In n (gone_ids tr).
Proof.
  intros H K. pose proof (history_good h s tr H) as G. apply (kept_live s (g_sound _ _ G)) in K. split.
  - apply (Permutation_in _ (Permutation_sym (g_ids _ _ G))). apply in_app_iff. left. exact K.
  - apply (nodup_apart _ _ (gone_once s tr G)). exact K.
Qed.
Lemma destroyed_once h s tr : run h start = (s, tr) -> NoDup (gone_ids tr) /\ incl (gone_ids tr) (made_ids tr).
Proof.
  intros H. pose proof (history_good h s tr H) as G. split; [apply (nodup_apart _ _ (gone_once s tr G))|].
  intros n I. apply (Permutation_in _ (Permutation_sym (g_ids _ _ G))). apply in_app_iff. right. exact I.
Qed.
Lemma freed h s tr n : run h start = (s, tr) -> no_circle s -> In n (made_ids tr) -> (In n (gone_ids tr) <-> ~ kept s n).
Proof.
  intros H C M. pose proof (history_good h s tr H) as G. split.
  - intros D K. apply (held h s tr n H K). exact D.
  - intros N. apply (Permutation_in _ (g_ids _ _ G)) in M. apply in_app_iff in M. destruct M as [M|M]; [|exact M]. destruct N. apply (live_kept s (g_sound _ _ G) (g_full _ _ G) C n M).
Qed.

(** ** Programs in C++ *)
Definition ok (a b : kind) : bool :=
  match a, b with
  | General, Manager | Native, NSource | PSource, General | PSource, Lttng | Session, NSource | Session, PSource => true
  | Recorder, Native | Recorder, General | Recorder, Lttng | Recorder, Session | Server, Native | Server, General | Server, Lttng | Server, Session => true
  | _, _ => false
  end.
Definition typed (s : state) : Prop := forall a b, In (a, b) (refs s) -> exists ka kb, In (a, ka) (live s) /\ In (b, kb) (live s) /\ ok ka kb = true.
Lemma below_typed s s' : sound s -> sound s' -> below s s' -> typed s -> typed s'.
Proof.
  intros S S' B T a b H. destruct (s_ends s' S' a b H) as (A1 & B1). destruct (T a b (b_refs _ _ B _ H)) as (ka & kb & A & C & O). exists ka, kb.
  destruct (b_live _ _ B) as (p & L). assert (forall n k, In n (ids s') -> In (n, k) (live s) -> In (n, k) (live s')) as K.
  { intros n k I J. apply in_ids in I. destruct I as (k' & I). pose proof I as I'. rewrite L in I. apply filter_In in I. destruct I as (I & _).
    rewrite (kind_unique (live s) (s_once s S) n k k' J I). exact I'. }
  auto.
Qed.
Lemma make_typed k rs by_ mine s : typed s -> (forall b, In b rs -> exists kb, In (b, kb) (live s) /\ ok k kb = true) ->
  (forall a, In a by_ -> exists ka, In (a, ka) (live s) /\ ok ka k = true) -> typed (make k rs by_ mine s).
Proof.
  intros T R B a b H. cbn [make refs live] in *. apply in_app_iff in H. destruct H as [H|H]; [|apply in_app_iff in H; destruct H as [H|H]].
  - apply in_map_iff in H. destruct H as (x & H & I). injection H as <- <-. destruct (R x I) as (kb & J & O). exists k, kb. split; [left; reflexivity|]. split; [right; exact J|exact O].
  - apply in_map_iff in H. destruct H as (x & H & I). injection H as <- <-. destruct (B x I) as (ka & J & O). exists ka, k. split; [right; exact J|]. split; [left; reflexivity|exact O].
  - destruct (T a b H) as (ka & kb & P & Q & O). exists ka, kb. split; [right; exact P|]. split; [right; exact Q|exact O].
Qed.
Lemma provider_kind s p : provider s p = true -> exists k, In (p, k) (live s) /\ (k = Native \/ k = General \/ k = Lttng).
Proof. unfold provider. rewrite !orb_true_iff. intros [[H|H]|H]; apply is_in in H; eexists; (split; [exact H|tauto]). Qed.
Lemma source_typed p hs mine s : typed s -> provider s p = true -> (forall a, In a hs -> In (a, Session) (live s)) -> typed (source p hs mine s).
Proof.
  intros T P H. unfold source. destruct (is s p Native) eqn:E.
  - apply make_typed; [exact T|intros b []|]. intros a [<-|I]; [exists Native; split; [apply is_in; exact E|reflexivity]|]. exists Session. split; [apply H; exact I|reflexivity].
  - apply make_typed; [exact T| |].
    + intros b [<-|[]]. destruct (provider_kind s p P) as (k & I & [->|[->| ->]]).
      * apply is_in in I. congruence.
      * exists General. auto.
      * exists Lttng. auto.
    + intros a I. exists Session. split; [apply H; exact I|reflexivity].
Qed.
Lemma make_is k rs by_ mine s n j : is s n j = true -> is (make k rs by_ mine s) n j = true.
Proof. rewrite !is_in. cbn. auto. Qed.
Lemma source_is p hs mine s n j : is s n j = true -> is (source p hs mine s) n j = true.
Proof. unfold source. destruct (is s p Native); apply make_is. Qed.
Lemma source_provider p hs mine s n : provider s n = true -> provider (source p hs mine s) n = true.
Proof. unfold provider. rewrite !orb_true_iff. intros [[H|H]|H]; apply (source_is p hs mine) in H; tauto. Qed.
Lemma make_provider k rs by_ mine s n : provider s n = true -> provider (make k rs by_ mine s) n = true.
Proof. unfold provider. rewrite !orb_true_iff. intros [[H|H]|H]; apply (make_is k rs by_ mine) in H; tauto. Qed.
Lemma sources_typed n ps : forall s s' o, typed s -> is s n Session = true -> (forall p, In p ps -> provider s p = true) -> sources n ps s = (s', o) -> typed s'.
Proof.
  induction ps as [|p ps IH]; intros s s' o T N P H; cbn [sources] in H.
  - injection H as <- <-. exact T.
  - destruct (sources n ps (source p [n] false s)) as (s1, o1) eqn:E. injection H as <- <-. apply (IH _ s1 o1) in E; [exact E| | |].
    + apply source_typed; [exact T|apply P; left; reflexivity|]. intros a [<-|[]]. apply is_in. exact N.
    + apply source_is. exact N.
    + intros q Q. apply source_provider. apply P. right. exact Q.
Qed.
Lemma owner_kind s r : is s r Recorder || is s r Server = true -> exists k, In (r, k) (live s) /\ (k = Recorder \/ k = Server).
Proof. rewrite orb_true_iff. intros [H|H]; apply is_in in H; eauto. Qed.
Lemma has_is s n k : has s n k = true -> is s n k = true.
Proof. unfold has. rewrite andb_true_iff. tauto. Qed.
Lemma act_typed a s s' o : plain a = true -> typed s -> act a s = (s', o) -> typed s'.
Proof.
  intros P T H. assert (forall k rs, (forall b, In b rs -> exists kb, In (b, kb) (live s) /\ ok k kb = true) -> made k rs s = (s', o) -> typed s') as M.
  { unfold made. intros k rs R E. injection E as <- <-. apply make_typed; [exact T|exact R|intros x []]. }
  destruct a; try discriminate P; cbn [act] in H.
  - apply (M _ [] ltac:(intros x []) H).
  - destruct (has s m Manager); [apply (M _ [] ltac:(intros x []) H)|injection H as <- <-; exact T].
  - destruct (has s m Manager) eqn:E; [|injection H as <- <-; exact T]. apply (M General [m]); [|exact H]. intros b [<-|[]]. exists Manager. split; [apply is_in, has_is, E|reflexivity].
  - destruct (has s m Manager); [apply (M _ [] ltac:(intros x []) H)|injection H as <- <-; exact T].
  - apply (M _ [] ltac:(intros x []) H).
  - apply (M _ [] ltac:(intros x []) H).
  - destruct (mem p (vars s) && provider s p) eqn:E; injection H as <- <-; [|exact T]. apply andb_true_iff in E. apply source_typed; [exact T|apply E|intros x []].
  - destruct ((has s r Recorder || has s r Server) && mem p (vars s) && provider s p) eqn:E; injection H as <- <-; [|exact T].
    apply andb_true_iff in E. destruct E as (E & V). apply andb_true_iff in E. destruct E as (E & _).
    assert (is s r Recorder || is s r Server = true) as E' by (apply orb_true_iff in E; apply orb_true_iff; destruct E as [E|E]; apply has_is in E; auto).
    destruct (owner_kind s r E') as (k & K & J). destruct (provider_kind s p V) as (q & Q & I). intros a b [X|X].
    + injection X as <- <-. exists k, q. split; [exact K|]. split; [exact Q|]. destruct J as [->| ->], I as [->|[->| ->]]; reflexivity.
    + apply (T a b X).
  - destruct (is s r Recorder || is s r Server) eqn:E; [|injection H as <- <-; exact T].
    destruct (sources (next s) (providers s r) (make Session [] [r] false s)) as (s1, o1) eqn:F. injection H as <- <-. apply sources_typed in F; [exact F| | |].
    + apply make_typed; [exact T|intros b []|]. intros a [<-|[]]. destruct (owner_kind s r E) as (k & K & J). exists k. split; [exact K|]. destruct J as [->| ->]; reflexivity.
    + apply is_in. left. reflexivity.
    + intros p Q. apply make_provider. unfold providers in Q. apply filter_In in Q. apply Q.
  - destruct ((is s r Recorder || is s r Server) && is s n Session); injection H as <- <-; [|exact T]. intros a b X. cbn [take refs live] in *. apply cut_in in X. apply (T a b X).
  - injection H as <- <-. exact T.
  - destruct (mem n (vars s)); injection H as <- <-; exact T.
  - injection H as <- <-. exact T.
Qed.
Lemma run_typed h : forall s tr s' o, forallb plain h = true -> good s tr -> typed s -> run h s = (s', o) -> typed s'.
Proof.
  induction h as [|a h IH]; intros s tr s' o P G T H; cbn [run] in H.
  - injection H as <- <-. exact T.
  - cbn [forallb] in P. apply andb_true_iff in P. destruct P as (P & Q). destruct (step a s) as (s1, o1) eqn:E. destruct (run h s1) as (s2, o2) eqn:F. injection H as <- <-.
    apply (IH s1 (tr ++ o1) s2 o2 Q); [apply (step_good a s); assumption| |exact F]. unfold step in E. destruct (act a s) as (x, ox) eqn:X.
    pose proof (act_acts a s x ox (g_sound _ _ G) X) as A. destruct (settled_ok _ _ _ _ (a_sound _ _ _ A) E) as (B & S & _ & _).
    apply (below_typed x s1 (a_sound _ _ _ A) S B). apply (act_typed a s x ox P T X).
Qed.
Definition level (k : kind) : nat :=
  match k with Recorder | Server => 0 | Session => 1 | PSource => 2 | General | Native | Lttng => 3 | _ => 4 end.
Definition look (s : state) (n : nat) : nat := match find (fun o => Nat.eqb (fst o) n) (live s) with Some o => level (snd o) | None => 0 end.
Lemma look_kind s n k : sound s -> In (n, k) (live s) -> look s n = level k.
Proof.
  intros S H. unfold look. destruct (find (fun o => Nat.eqb (fst o) n) (live s)) as [(m, j)|] eqn:E.
  - apply find_some in E. destruct E as (I & E). apply Nat.eqb_eq in E. cbn in E. subst m. cbn. rewrite (kind_unique _ (s_once s S) n j k I H). reflexivity.
  - pose proof (find_none _ _ E _ H) as X. cbn in X. rewrite Nat.eqb_refl in X. discriminate X.
Qed.
Lemma typed_no_circle s : sound s -> typed s -> no_circle s.
Proof.
  intros S T. exists (look s). intros a b H. destruct (T a b H) as (ka & kb & A & B & O). rewrite (look_kind s a ka S A), (look_kind s b kb S B).
  destruct ka, kb; try discriminate O; cbn; lia.
Qed.
Lemma start_typed : typed start.
Proof. intros a b []. Qed.
Lemma plain_typed h s tr : forallb plain h = true -> run h start = (s, tr) -> typed s.
Proof. intros P H. apply (run_typed h start [] s tr P start_good start_typed H). Qed.
Lemma plain_freed h s tr n : forallb plain h = true -> run h start = (s, tr) -> In n (made_ids tr) -> (In n (gone_ids tr) <-> ~ kept s n).
Proof.
  intros P H M. apply (freed h s tr n H); [|exact M]. apply typed_no_circle; [apply (history_good h s tr H)|]. apply (plain_typed h s tr P H).
Qed.
Lemma nothing_kept s : vars s = [] -> forall n, ~ kept s n.
Proof. intros V n K. induction K as [n H|a b _ IH _]; [rewrite V in H; destruct H|exact IH]. Qed.
Lemma plain_all h s tr : forallb plain h = true -> run h start = (s, tr) -> vars s = [] -> Permutation (made_ids tr) (gone_ids tr) /\ NoDup (gone_ids tr).
Proof.
  intros P H V. destruct (destroyed_once h s tr H) as (N & I). split; [|exact N]. pose proof (history_good h s tr H) as G. apply NoDup_Permutation; [apply G|exact N|].
  intros n. split; [|apply I]. intros M. apply (plain_freed h s tr n P H M). apply nothing_kept. exact V.
Qed.

(** ** Managers *)
Lemma made_live s tr n k : good s tr -> In (n, k) (live s) -> In n (made_ids tr).
Proof. intros G I. apply (Permutation_in _ (Permutation_sym (g_ids _ _ G))). apply in_app_iff. left. apply (in_map fst) in I. exact I. Qed.
Definition told (s : state) (tr : list obs) : Prop := forall n k, In (n, k) (live s) -> In (OMade n k) tr.
Lemma sources_told n ps : forall s s' o x k, sources n ps s = (s', o) -> In (x, k) (live s') -> In (x, k) (live s) \/ In (OMade x k) o.
Proof.
  induction ps as [|p ps IH]; intros s s' o x k H I; cbn [sources] in H.
  - injection H as <- <-. auto.
  - destruct (sources n ps (source p [n] false s)) as (s1, o1) eqn:E. injection H as <- <-. destruct (IH _ _ _ x k E I) as [J|J]; [|right; right; exact J].
    unfold source, source_kind in *. destruct (is s p Native); cbn [make live] in J; (destruct J as [J|J]; [injection J as <- <-; right; left; reflexivity|left; exact J]).
Qed.
Lemma act_told a s s' o x k : act a s = (s', o) -> In (x, k) (live s') -> In (x, k) (live s) \/ In (OMade x k) o.
Proof.
  intros H I. assert (forall j rs, made j rs s = (s', o) -> In (x, k) (live s) \/ In (OMade x k) o) as M.
  { unfold made. intros j rs E. injection E as <- <-. cbn [make live] in I. destruct I as [J|J]; [injection J as <- <-; right; left; reflexivity|left; exact J]. }
  destruct a; cbn [act] in H;
    repeat match type of H with (if ?b then _ else _) = _ => destruct b end; try (eapply M; exact H); try (injection H as <- <-; left; exact I).
  - injection H as <- <-. unfold source, source_kind in *. destruct (is s p Native); cbn [make live] in I; (destruct I as [J|J]; [injection J as <- <-; right; left; reflexivity|left; exact J]).
  - destruct (sources (next s) (providers s r) (make Session [] [r] false s)) as (s1, o1) eqn:F. injection H as <- <-. destruct (sources_told _ _ _ _ _ x k F I) as [J|J]; [|right; right; exact J].
    cbn [make live] in J. destruct J as [J|J]; [injection J as <- <-; right; left; reflexivity|left; exact J].
Qed.
Lemma run_told h : forall s tr s' o, good s tr -> told s tr -> run h s = (s', o) -> told s' (tr ++ o).
Proof.
  induction h as [|a h IH]; intros s tr s' o G T H; cbn [run] in H.
  - injection H as <- <-. rewrite app_nil_r. exact T.
  - destruct (step a s) as (s1, o1) eqn:E. destruct (run h s1) as (s2, o2) eqn:F. injection H as <- <-. rewrite app_assoc. apply (IH s1); [apply (step_good a s); assumption| |exact F].
    unfold step in E. destruct (act a s) as (x, ox) eqn:X. pose proof (act_acts a s x ox (g_sound _ _ G) X) as A. destruct (settled_ok _ _ _ _ (a_sound _ _ _ A) E) as (B & _ & _ & ->).
    intros n k I. destruct (b_live _ _ B) as (p & L). rewrite L in I. apply filter_In in I. destruct I as (I & _). rewrite !in_app_iff.
    destruct (act_told a s x ox n k X I) as [J|J]; [left; apply T; exact J|right; left; exact J].
Qed.
Lemma history_told h s tr : run h start = (s, tr) -> told s tr.
Proof. intros H. apply (run_told h start [] s tr start_good (fun n k I => match I with end) H). Qed.
(** A manager is kept by the program, or by a general provider, and by nothing else. *)
Lemma manager_kept h s tr m : forallb plain h = true -> run h start = (s, tr) -> In (m, Manager) (live s) -> kept s m ->
  In m (vars s) \/ exists g, In (OMade g General) tr /\ kept s g /\ In (g, m) (refs s).
Proof.
  intros P H M K. pose proof (plain_typed h s tr P H) as T. pose proof (history_good h s tr H) as G. destruct K as [n V|a b K R]; [left; exact V|right].
  destruct (T a b R) as (ka & kb & A & B & O). rewrite (kind_unique _ (s_once _ (g_sound _ _ G)) b kb Manager B M) in O. destruct ka; try discriminate O. exists a.
  split; [apply (history_told h s tr H); exact A|]. auto.
Qed.
Lemma unique_made h s tr n k : run h start = (s, tr) -> In (OMade n k) tr -> In n (made_ids tr).
Proof. intros _ I. unfold made_ids. apply in_flat_map. exists (OMade n k). cbn. auto. Qed.
Lemma made_twice tr n a b : NoDup (made_ids tr) -> In (OMade n a) tr -> In (OMade n b) tr -> a = b.
Proof.
  assert (forall l k, In (OMade n k) l -> In n (made_ids l)) as X by (intros l k I; unfold made_ids; apply in_flat_map; exists (OMade n k); cbn; auto).
  induction tr as [|e tr IH]; intros N A B; [destruct A|]. destruct A as [A|A], B as [B|B].
  - congruence.
  - subst e. cbn in N. inversion N as [|? ? U V]; subst. destruct U. apply (X tr b B).
  - subst e. cbn in N. inversion N as [|? ? U V]; subst. destruct U. apply (X tr a A).
  - apply IH; [|exact A|exact B]. destruct e; cbn in N; try exact N. inversion N; assumption.
Qed.
Lemma manager_unheld h s tr m : forallb plain h = true -> run h start = (s, tr) -> In (OMade m Manager) tr -> (forall g, ~ In (OMade g General) tr) -> ~ In m (vars s) -> In m (gone_ids tr).
Proof.
  intros P H M N V. apply (plain_freed h s tr m P H (unique_made h s tr m _ H M)). intros K. pose proof (history_good h s tr H) as G.
  pose proof (kept_live s (g_sound _ _ G) m K) as I. apply in_ids in I. destruct I as (k & I). pose proof (history_told h s tr H m k I) as J.
  rewrite (made_twice tr m k Manager (g_once _ _ G) J M) in I. destruct (manager_kept h s tr m P H I K) as [X|(g & X & _)]; [exact (V X)|exact (N g X)].
Qed.

(** ** A circle *)
Lemma ring_settle m o f : forall s, sound s -> ring m o s -> ring m o (settle f s).
Proof.
  induction f as [|f IH]; intros s S R; cbn [settle]; [exact R|]. destruct (forallb _ _); [exact R|]. apply IH; [apply sweep_sound; exact S|].
  assert (forall n k, (n = m \/ n = o) -> In (n, k) (live s) -> In (n, k) (live (sweep s))) as L.
  { intros n k N I. cbn [sweep live]. apply filter_In. split; [exact I|]. cbn. unfold wanted. apply orb_true_iff. right. apply mem_in.
    destruct N as [-> | ->]; [pose proof (r_om _ _ _ R) as X|pose proof (r_mo _ _ _ R) as X]; apply (in_map snd) in X; exact X. }
  pose proof (L m Manager (or_introl eq_refl) (r_m _ _ _ R)) as LM. pose proof (L o Py (or_intror eq_refl) (r_o _ _ _ R)) as LO. split; try assumption.
  - cbn [sweep refs]. apply filter_In. split; [apply R|]. apply mem_in. apply (in_map fst) in LM. exact LM.
  - cbn [sweep refs]. apply filter_In. split; [apply R|]. apply mem_in. apply (in_map fst) in LO. exact LO.
  - apply R.
  - intros a b H. cbn [sweep refs] in H. apply filter_In in H. apply (r_refs _ _ _ R). apply H.
Qed.
Lemma ring_make m o k rs by_ mine s : sound s -> ring m o s -> ~ In m rs -> ~ In o rs -> ring m o (make k rs by_ mine s).
Proof.
  intros S R M O. assert (m < next s) as Lm by (apply (s_old s S); pose proof (r_m _ _ _ R) as X; apply (in_map fst) in X; exact X).
  assert (o < next s) as Lo by (apply (s_old s S); pose proof (r_o _ _ _ R) as X; apply (in_map fst) in X; exact X). split; cbn [make live refs vars].
  - right. apply R.
  - right. apply R.
  - rewrite !in_app_iff. right. right. apply R.
  - rewrite !in_app_iff. right. right. apply R.
  - destruct (r_vars _ _ _ R). destruct mine; cbn [In]; [split; intros [X|X]; try lia; auto|split; auto].
  - intros a b H. rewrite !in_app_iff in H. destruct H as [H|[H|H]].
    + apply in_map_iff in H. destruct H as (x & H & I). injection H as <- <-. intros [-> | ->]; contradiction.
    + apply in_map_iff in H. destruct H as (x & H & I). injection H as <- <-. intros [X|X]; lia.
    + apply (r_refs _ _ _ R a b H).
Qed.
Lemma not_manager s m k : sound s -> In (m, Manager) (live s) -> In (m, k) (live s) -> k = Manager.
Proof. intros S A B. apply (kind_unique _ (s_once s S) m k Manager B A). Qed.
Lemma ring_not_provider m o s p : sound s -> ring m o s -> provider s p = true -> p <> m /\ p <> o.
Proof.
  intros S R P. destruct (provider_kind s p P) as (k & K & J). split; intros ->.
  - pose proof (kind_unique _ (s_once s S) m k Manager K (r_m _ _ _ R)). destruct J as [J|[J|J]]; congruence.
  - pose proof (kind_unique _ (s_once s S) o k Py K (r_o _ _ _ R)). destruct J as [J|[J|J]]; congruence.
Qed.
Lemma ring_not_owner m o s r : sound s -> ring m o s -> is s r Recorder || is s r Server = true -> r <> m /\ r <> o.
Proof.
  intros S R P. destruct (owner_kind s r P) as (k & K & J). split; intros ->.
  - pose proof (kind_unique _ (s_once s S) m k Manager K (r_m _ _ _ R)). destruct J as [J|J]; congruence.
  - pose proof (kind_unique _ (s_once s S) o k Py K (r_o _ _ _ R)). destruct J as [J|J]; congruence.
Qed.
Lemma ring_source m o p hs mine s : sound s -> ring m o s -> provider s p = true -> ring m o (source p hs mine s).
Proof.
  intros S R P. destruct (ring_not_provider m o s p S R P) as (A & B). unfold source. destruct (is s p Native); apply ring_make; try assumption; cbn; intuition.
Qed.
Lemma ring_sources m o n ps : forall s s' tr, sound s -> In n (ids s) -> ring m o s -> (forall p, In p ps -> provider s p = true) -> sources n ps s = (s', tr) -> ring m o s'.
Proof.
  induction ps as [|p ps IH]; intros s s' tr S N R P H; cbn [sources] in H.
  - injection H as <- <-. exact R.
  - destruct (sources n ps (source p [n] false s)) as (s1, o1) eqn:E. injection H as <- <-. assert (provider s p = true) as PP by (apply P; left; reflexivity).
    apply IH in E; [exact E| | | |].
    + apply (source_acts p [n] false s S (provider_id s p PP)). intros x [<-|[]]. exact N.
    + apply source_ids. exact N.
    + apply ring_source; assumption.
    + intros q Q. apply source_provider. apply P. right. exact Q.
Qed.
Lemma cut_keeps a b l x y : (x, y) <> (a, b) -> In (x, y) l -> In (x, y) (cut a b l).
Proof.
  intros N. induction l as [|(p, q) l IH]; cbn; [auto|]. intros [H|H].
  - injection H as -> ->. destruct (Nat.eqb x a && Nat.eqb y b) eqn:E; [|left; reflexivity]. apply andb_true_iff in E. destruct E as (E & F). apply Nat.eqb_eq in E, F. congruence.
  - destruct (Nat.eqb p a && Nat.eqb q b); [exact H|right; apply IH; exact H].
Qed.
Lemma ring_take m o a b s : ring m o s -> a <> m -> a <> o -> ring m o (take a b s).
Proof.
  intros R A B. split; cbn [take live refs vars]; try apply R.
  - apply cut_keeps; [congruence|apply R].
  - apply cut_keeps; [congruence|apply R].
  - intros x y H. apply cut_in in H. apply (r_refs _ _ _ R x y H).
Qed.
Lemma ring_put m o a b s : ring m o s -> b <> m -> b <> o -> ring m o (put a b s).
Proof.
  intros R A B. split; cbn [put live refs vars]; try apply R; try (right; apply R). intros x y [H|H]; [injection H as <- <-; intros [X|X]; contradiction|apply (r_refs _ _ _ R x y H)].
Qed.
Lemma ring_hold m o n s : ring m o s -> n <> m -> n <> o -> ring m o (hold n s).
Proof. intros R A B. destruct (r_vars _ _ _ R). split; cbn [hold live refs vars]; try apply R. split; intros [X|X]; auto. Qed.
Lemma ring_release m o n s : ring m o s -> ring m o (release n s).
Proof. intros R. destruct (r_vars _ _ _ R). split; cbn [release live refs vars]; try apply R. split; intros X; apply drop_in in X; auto. Qed.
Lemma var_out m o s n : ring m o s -> mem n (vars s) = true -> n <> m /\ n <> o.
Proof. intros R V. apply mem_in in V. destruct (r_vars _ _ _ R). split; intros ->; contradiction. Qed.
Lemma has_out m o s n k : ring m o s -> has s n k = true -> n <> m /\ n <> o.
Proof. intros R V. unfold has in V. apply andb_true_iff in V. apply (var_out m o s n R). apply V. Qed.
Lemma ring_act m o a s s' tr : sound s -> ring m o s -> act a s = (s', tr) -> ring m o s'.
Proof.
  intros S R H. assert (forall k rs, ~ In m rs -> ~ In o rs -> made k rs s = (s', tr) -> ring m o s') as M.
  { unfold made. intros k rs A B E. injection E as <- <-. apply ring_make; assumption. }
  destruct a; cbn [act] in H.
  - apply (M _ [] ltac:(intros []) ltac:(intros []) H).
  - destruct (has s m0 Manager); [apply (M _ [] ltac:(intros []) ltac:(intros []) H)|injection H as <- <-; exact R].
  - destruct (has s m0 Manager) eqn:E; [|injection H as <- <-; exact R]. destruct (has_out m o s m0 Manager R E). apply (M General [m0]); [intros [X|[]]; congruence|intros [X|[]]; congruence|exact H].
  - destruct (has s m0 Manager); [apply (M _ [] ltac:(intros []) ltac:(intros []) H)|injection H as <- <-; exact R].
  - apply (M _ [] ltac:(intros []) ltac:(intros []) H).
  - apply (M _ [] ltac:(intros []) ltac:(intros []) H).
  - destruct (mem p (vars s) && provider s p) eqn:E; injection H as <- <-; [|exact R]. apply andb_true_iff in E. apply ring_source; [exact S|exact R|apply E].
  - destruct ((has s r Recorder || has s r Server) && mem p (vars s) && provider s p) eqn:E; injection H as <- <-; [|exact R]. apply andb_true_iff in E. destruct E as (_ & E).
    destruct (ring_not_provider m o s p S R E). apply ring_put; assumption.
  - destruct (is s r Recorder || is s r Server) eqn:E; [|injection H as <- <-; exact R].
    destruct (sources (next s) (providers s r) (make Session [] [r] false s)) as (s1, o1) eqn:F. injection H as <- <-. apply (ring_sources m o) in F; [exact F| | | |].
    + apply make_sound; [exact S|intros x []|]. intros x [<-|[]]. apply owner_id. exact E.
    + left. reflexivity.
    + apply ring_make; [exact S|exact R|intros []|intros []].
    + intros p Q. apply make_provider. unfold providers in Q. apply filter_In in Q. apply Q.
  - destruct ((is s r Recorder || is s r Server) && is s n Session) eqn:E; injection H as <- <-; [|exact R]. apply andb_true_iff in E. destruct E as (E & _).
    destruct (ring_not_owner m o s r S R E). apply ring_take; assumption.
  - injection H as <- <-. exact R.
  - destruct (mem n (vars s)) eqn:E; injection H as <- <-; [|exact R]. destruct (var_out m o s n R E). apply ring_hold; assumption.
  - injection H as <- <-. apply ring_release. exact R.
  - apply (M _ [] ltac:(intros []) ltac:(intros []) H).
  - destruct (has s o0 Py && mem n (vars s)) eqn:E; injection H as <- <-; [|exact R]. apply andb_true_iff in E. destruct (var_out m o s n R (proj2 E)). apply ring_put; assumption.
  - destruct (has s o0 Py) eqn:E; injection H as <- <-; [|exact R]. destruct (has_out m o s o0 Py R E). apply ring_take; assumption.
  - destruct (has s o0 Py && existsb (fun e => Nat.eqb (fst e) o0 && Nat.eqb (snd e) n) (refs s)) eqn:E; injection H as <- <-; [|exact R]. apply andb_true_iff in E. destruct E as (E & F).
    destruct (has_out m o s o0 Py R E). apply existsb_exists in F. destruct F as ((x, y) & I & F). apply andb_true_iff in F. destruct F as (F1 & F2). apply Nat.eqb_eq in F1, F2. cbn in F1, F2. subst x y.
    apply ring_hold; [exact R| |]; intros ->; destruct (r_refs _ _ _ R _ _ I) as [X|X]; auto.
  - destruct (has s m0 Manager && mem o0 (vars s)) eqn:E; injection H as <- <-; [|exact R]. apply andb_true_iff in E. destruct (var_out m o s o0 R (proj2 E)). apply ring_put; assumption.
  - injection H as <- <-. exact R.
Qed.
Lemma ring_run m o h : forall s tr s' x, good s tr -> ring m o s -> run h s = (s', x) -> ring m o s'.
Proof.
  induction h as [|a h IH]; intros s tr s' x G R H; cbn [run] in H.
  - injection H as <- <-. exact R.
  - destruct (step a s) as (s1, o1) eqn:E. destruct (run h s1) as (s2, o2) eqn:F. injection H as <- <-. apply (IH s1 (tr ++ o1) s2 o2); [apply (step_good a s); assumption| |exact F].
    unfold step in E. destruct (act a s) as (y, oy) eqn:X. unfold settled in E. injection E as <- <-. apply ring_settle; [apply (act_acts a s y oy (g_sound _ _ G) X)|].
    apply (ring_act m o a s y oy (g_sound _ _ G) R X).
Qed.
Lemma ring_not_kept m o s : ring m o s -> forall n, kept s n -> n <> m /\ n <> o.
Proof.
  intros R n K. induction K as [n H|a b _ IH H].
  - destruct (r_vars _ _ _ R). split; intros ->; contradiction.
  - split; intros ->; destruct (r_refs _ _ _ R _ _ H) as [X|X]; auto; destruct IH; contradiction.
Qed.
Lemma run_app h1 : forall h2 s, run (h1 ++ h2) s = (let (s1, o1) := run h1 s in let (s2, o2) := run h2 s1 in (s2, o1 ++ o2)).
Proof.
  induction h1 as [|a h1 IH]; intros h2 s; cbn [run app]; [destruct (run h2 s); reflexivity|]. destruct (step a s) as (s1, o1). rewrite IH.
  destruct (run h1 s1) as (s2, o2). destruct (run h2 s2) as (s3, o3). rewrite app_assoc. reflexivity.
Qed.
(** Whatever is done after the program has let go of a manager and a function that keep each other. *)
Lemma ring_stays h1 h2 s1 o1 s tr m o : run h1 start = (s1, o1) -> ring m o s1 -> run (h1 ++ h2) start = (s, tr) ->
  ~ kept s m /\ ~ kept s o /\ In m (made_ids tr) /\ In o (made_ids tr) /\ ~ In m (gone_ids tr) /\ ~ In o (gone_ids tr).
Proof.
  intros H1 R H. pose proof (history_good _ _ _ H) as G. rewrite run_app, H1 in H. destruct (run h2 s1) as (s2, o2) eqn:E. injection H as <- <-.
  pose proof (ring_run m o h2 s1 o1 s2 o2 (history_good h1 s1 o1 H1) R E) as Q. pose proof (ring_not_kept m o s2 Q) as N.
  assert (forall n k, In (n, k) (live s2) -> In n (made_ids (o1 ++ o2)) /\ ~ In n (gone_ids (o1 ++ o2))) as L.
  { intros n k I. split; [apply (made_live s2 _ n k G I)|]. apply (nodup_apart _ _ (gone_once _ _ G)). apply (in_map fst) in I. exact I. }
  destruct (L m _ (r_m _ _ _ Q)), (L o _ (r_o _ _ _ Q)). repeat split; try assumption; intros K; apply N in K; destruct K; congruence.
Qed.
(** The function made for this does nothing but raise. *)
Lemma settle_full f s : full s -> settle f s = s.
Proof. intros F. destruct f; [reflexivity|]. cbn [settle]. apply all_wanted in F. rewrite F. reflexivity. Qed.
Lemma gone_same s : gone s s = [].
Proof.
  unfold gone. replace (filter _ _) with (@nil nat); [reflexivity|]. symmetry.
  assert (forall l, (forall n, In n l -> In n (map fst (live s))) -> filter (fun n => negb (mem n (map fst (live s)))) l = []) as G.
  { induction l as [|a l IH]; intros I; cbn; [reflexivity|]. destruct (mem a (map fst (live s))) eqn:E; cbn; [apply IH; intros n X; apply I; right; exact X|].
    apply mem_not in E. destruct E. apply I. left. reflexivity. }
  apply G. auto.
Qed.
Lemma helper h s tr m o : run h start = (s, tr) -> step (PyWeak m o) s = (s, [ORaised]).
Proof. intros H. pose proof (history_good h s tr H) as G. unfold step, settled. cbn [act]. rewrite (settle_full _ s (g_full _ _ G)), gone_same. reflexivity. Qed.
(** One copy of a reference more, and one less: nothing has changed. *)
Lemma copied h s tr n : run h start = (s, tr) -> In n (vars s) -> run (h ++ [Dup n; Drop n]) start = (s, tr).
Proof.
  intros H V. pose proof (history_good h s tr H) as G. rewrite run_app, H. cbn [run]. unfold step at 1. cbn [act]. apply mem_in in V. rewrite V. unfold settled.
  assert (F : full (hold n s)).
  { apply all_wanted. pose proof (proj2 (all_wanted s) (g_full _ _ G)) as F. rewrite forallb_forall in *. intros o Ho. specialize (F o Ho). unfold wanted in *. cbn [hold vars refs mem existsb].
    apply orb_prop in F as [F|F]; [|rewrite F; apply orb_true_r]. unfold mem in F. rewrite F. now rewrite !orb_true_r. }
  rewrite (settle_full _ _ F), gone_same. unfold step. cbn [act]. unfold settled. replace (release n (hold n s)) with s by (destruct s; unfold release, hold; cbn; now rewrite Nat.eqb_refl).
  rewrite (settle_full _ s (g_full _ _ G)), gone_same. cbn. now rewrite app_nil_r.
Qed.

Lemma settle_vars f : forall s, vars (settle f s) = vars s.
Proof. induction f as [|f IH]; intros s; cbn; [reflexivity|]. destruct (forallb _ (live s)); [reflexivity|]. now rewrite IH. Qed.
Lemma source_own s p : own (source_kind s p) = false.
Proof. unfold source_kind. now destruct (is s p Native). Qed.
Lemma sources_own n ps : forall s s' o, sources n ps s = (s', o) -> vars s' = vars s /\ forall x k, In (OMade x k) o -> own k = false.
Proof.
  induction ps as [|p ps IH]; cbn; intros s s' o E; [injection E as <- <-; split; [reflexivity|intros ? ? []]|].
  destruct (sources n ps (source p [n] false s)) as [s1 o1] eqn:E1. injection E as <- <-. destruct (IH _ _ _ E1) as [V K]. split.
  - rewrite V. unfold source, make. now destruct (is s p Native).
  - intros x k [H|H]; [|eapply K, H]. injection H as <- <-. apply source_own.
Qed.
Lemma drop_other n l x : In x l -> x <> n -> In x (drop n l).
Proof. induction l as [|y l IH]; cbn; [auto|]. intros [->|H] N; [apply Nat.eqb_neq in N as ->; now left|]. destruct (Nat.eqb y n); [exact H|]. right. auto. Qed.
Lemma act_own a s s' o : act a s = (s', o) -> (forall n, In n (vars s) -> a <> Drop n -> In n (vars s')) /\ (forall n k, In (OMade n k) o -> own k = true -> In n (vars s')).
Proof.
  assert (forall k rs, made k rs s = (s', o) -> (forall n, In n (vars s) -> a <> Drop n -> In n (vars s')) /\ (forall n k, In (OMade n k) o -> own k = true -> In n (vars s'))) as M.
  { unfold made. intros k rs E. injection E as <- <-. cbn. split; [now right|]. intros n j [H|[]] _. injection H as <- <-. now left. }
  assert ((s, []) = (s', o) -> (forall n, In n (vars s) -> a <> Drop n -> In n (vars s')) /\ (forall n k, In (OMade n k) o -> own k = true -> In n (vars s'))) as Q.
  { intros E. injection E as <- <-. split; [auto|intros ? ? []]. }
  destruct a; cbn [act]; intros E; eauto;
    try (match type of E with (if ?b then _ else _) = _ => destruct b; [|now apply Q] end; eauto);
    try (injection E as <- <-; cbn; split; [auto|intros ? ? []]; fail).
  - injection E as <- <-. split.
    + intros n H _. unfold source, make. destruct (is s p Native); now right.
    + intros n k [H|[]] O. injection H as <- <-. now rewrite source_own in O.
  - destruct (sources (next s) (providers s r) (make Session [] [r] false s)) as [s1 o1] eqn:E1. injection E as <- <-. destruct (sources_own _ _ _ _ _ E1) as [V K]. rewrite V. cbn. split; [auto|].
    intros n k [H|H] O; [injection H as <- <-; discriminate|]. apply K in H. congruence.
  - injection E as <- <-. cbn. split; [|intros ? ? []]. intros x H N. apply drop_other; congruence.
  - injection E as <- <-. split; [auto|]. intros n k [H|[]]; discriminate.
Qed.
Lemma gone_made a b n k : ~ In (OMade n k) (gone a b).
Proof. unfold gone. rewrite in_map_iff. intros (x & H & _). discriminate. Qed.
Lemma run_own h : forall s s' tr, run h s = (s', tr) ->
  (forall n, In n (vars s) -> ~ In (Drop n) h -> In n (vars s')) /\ (forall n k, In (OMade n k) tr -> own k = true -> ~ In (Drop n) h -> In n (vars s')).
Proof.
  induction h as [|a h IH]; cbn [run]; intros s s' tr E; [injection E as <- <-; split; [auto|intros ? ? []]|].
  unfold step in E. destruct (act a s) as [s1 o1] eqn:E1. destruct (act_own _ _ _ _ E1) as [A1 A2]. unfold settled in E.
  pose proof (settle_vars (length (live s1)) s1) as SV. remember (settle (length (live s1)) s1) as s2 eqn:E2. destruct (run h s2) as [s3 o3] eqn:E3. injection E as <- <-. destruct (IH _ _ _ E3) as [I1 I2]. split.
  - intros n H N. apply I1; [|intros H'; apply N; now right]. rewrite SV. apply A1; [exact H|]. intros ->. apply N. now left.
  - intros n k H O N. assert (~ In (Drop n) h) as N' by (intros H'; apply N; now right). apply in_app_or in H as [H|H]; [|eapply I2; eauto].
    apply in_app_or in H as [H|H]; [|now apply gone_made in H]. apply I1; [|exact N']. rewrite SV. eapply A2; eauto.
Qed.
Lemma yours h s tr n k : run h start = (s, tr) -> In (OMade n k) tr -> own k = true -> ~ In (Drop n) h -> ~ In n (gone_ids tr).
Proof. intros R M O N. apply (held h s tr n R). apply k_var. eapply run_own; eauto. Qed.
