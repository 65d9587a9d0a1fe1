From Coq Require Import String List Arith NArith ZArith Ascii Bool Lia Permutation Sorting.Sorted.
Import ListNotations.
From Verif Require Import OMap_model OMap_proofs Json_model Names_proofs Bson_model Bson_spec Bson_proofs Wire_model Wire_spec Wire_proofs Info_model Info_spec.
Local Open Scope nat_scope.
Local Notation length := List.length.

Lemma has_spec t l : has t l = true <-> In t l.
Proof.
  unfold has. rewrite existsb_exists. split; [intros (x & H & E); apply N.eqb_eq in E; congruence|intros H; exists t; split; auto; apply N.eqb_refl].
Qed.
Lemma has_cons t u l : has t (u :: l) = N.eqb t u || has t l. Proof. reflexivity. Qed.
Lemma has_without t u l : has t (without u l) = negb (N.eqb u t) && has t l.
Proof.
  unfold has, without. induction l as [|x l IH]; cbn; [now rewrite andb_false_r|]. destruct (N.eqb_spec u x) as [->|Hux]; cbn; rewrite IH.
  - destruct (N.eqb_spec x t) as [->|]; cbn; auto. destruct (N.eqb_spec t x); cbn; auto; congruence.
  - destruct (N.eqb_spec t x) as [->|]; cbn; auto. destruct (N.eqb_spec u x); cbn; auto; congruence.
Qed.

Arguments has : simpl never.
Arguments without : simpl never.
Arguments passed : simpl never.
Arguments runs : simpl never.
Arguments name_of : simpl never.

(** ** The table of a process *)
Record meets (h : list act) (s : threads) : Prop := {
  mt_table : forall t, mfind N.ltb t (th_table s) = name_of t h;
  mt_ord : ordered N.ltb (th_table s);
  mt_live : forall t, has t (th_live s) = runs t h;
  mt_hook : forall t, name_of t h <> None -> has t (th_hooked s) = true /\ runs t h = true;
  mt_sites : forall t i, passed t i s = existsb (Nat.eqb i) (snd (fold_left (named1 t) h (None, [])));
  mt_gone : forall t, runs t h = false -> snd (fold_left (named1 t) h (None, [])) = [] /\ has t (th_hooked s) = false
}.

Lemma meets0 : meets [] threads0.
Proof. constructor; cbn; auto; try congruence. apply ordered_nil. Qed.

Lemma name_snoc t h a : fold_left (named1 t) (h ++ [a]) (None, []) = named1 t (fold_left (named1 t) h (None, [])) a.
Proof. now rewrite fold_left_app. Qed.
Lemma runs_snoc t h a : runs t (h ++ [a]) = runs1 t (runs t h) a.
Proof. unfold runs. now rewrite fold_left_app. Qed.
Lemma asked_init h a : asked_first (h ++ [a]) -> asked_first h.
Proof. intros H x t nm b ->. eapply (H x t nm (b ++ [a])). now rewrite <- app_assoc. Qed.

Lemma passed_filter t u i s f : passed t i {| th_live := f s; th_hooked := th_hooked s; th_sites := filter (fun e => negb (N.eqb u (fst e))) (th_sites s); th_table := th_table s |}
  = negb (N.eqb u t) && passed t i s.
Proof.
  unfold passed. cbn. induction (th_sites s) as [|[x j] l IH]; cbn; [now rewrite andb_false_r|]. destruct (N.eqb_spec u x) as [->|Hux]; cbn; rewrite IH.
  - destruct (N.eqb_spec x t) as [->|]; cbn; auto. destruct (N.eqb_spec t x); cbn; auto; congruence.
  - destruct (N.eqb_spec t x) as [->|]; cbn; auto. destruct (N.eqb_spec u x); cbn; auto; congruence.
Qed.

Lemma name_self_meets h s t nm : meets h s -> runs t h = true -> forall a sites', 
  (forall u, named1 u (fold_left (named1 u) h (None, [])) a =
     if N.eqb t u then (Some nm, sites') else fold_left (named1 u) h (None, [])) ->
  (forall u, runs1 u (runs u h) a = runs u h) ->
  forall s', th_live s' = th_live (name_self t nm s) -> th_hooked s' = th_hooked (name_self t nm s) -> th_table s' = th_table (name_self t nm s) ->
  (forall u i, passed u i s' = if N.eqb t u then existsb (Nat.eqb i) sites' else passed u i s) ->
  meets (h ++ [a]) s'.
Proof.
  intros M Hr a sites' Hn Ha s' El Eh Et Es. destruct M. constructor.
  - intros u. unfold name_of. rewrite name_snoc, Hn, Et. cbn [name_self th_table]. destruct (N.eqb_spec t u) as [->|Hu].
    + apply (find_insert_same N.ltb N_order).
    + rewrite (find_insert_other N.ltb N_order) by auto. apply mt_table0.
  - rewrite Et. apply (ordered_insert N.ltb N_order). auto.
  - intros u. rewrite runs_snoc, Ha, El. cbn. apply mt_live0.
  - intros u. unfold name_of. rewrite name_snoc, Hn, runs_snoc, Ha, Eh. cbn [name_self th_hooked]. destruct (N.eqb_spec t u) as [->|Hu].
    + intros _. split; auto. destruct (has u (th_hooked s)) eqn:E; auto. rewrite has_cons, N.eqb_refl. reflexivity.
    + intros H. apply mt_hook0 in H as [H1 H2]. split; auto. destruct (has t (th_hooked s)); auto. rewrite has_cons, H1. apply orb_true_r.
  - intros u i. rewrite name_snoc, Hn, Es. destruct (N.eqb t u); auto.
  - intros u. rewrite runs_snoc, Ha, name_snoc, Hn, Eh. intros Hu. cbn [name_self th_hooked]. destruct (N.eqb_spec t u) as [->|Hne]; [congruence|].
    destruct (mt_gone0 u Hu) as [G1 G2]. split; auto. destruct (has t (th_hooked s)); auto. rewrite has_cons, G2. destruct (N.eqb_spec u t); auto. congruence.
Qed.

Lemma act_meets h s a s' : meets h s -> asked_first (h ++ [a]) -> act_step a s = Some s' -> meets (h ++ [a]) s'.
Proof.
  intros M HA E. destruct a as [t|t nm|t i nm|t nm|t]; cbn [act_step] in E.
  - (* a start *)
    destruct (has t (th_live s)) eqn:El; [discriminate|]. injection E as <-. destruct M. rewrite mt_live0 in El. destruct (mt_gone0 t El) as [G1 G2].
    assert (Hnone : name_of t h = None) by (destruct (name_of t h) eqn:En; auto; destruct (mt_hook0 t) as [_ X]; congruence).
    assert (Hst : fold_left (named1 t) h (None, []) = (None, [])).
    { unfold name_of in Hnone. destruct (fold_left (named1 t) h (None, [])). cbn in *. congruence. }
    assert (Hn : forall u, fold_left (named1 u) (h ++ [Begin t]) (None, []) = fold_left (named1 u) h (None, [])).
    { intros u. rewrite name_snoc. unfold named1 at 1. destruct (N.eqb_spec t u) as [->|]; [rewrite Hst; reflexivity|]. now destruct (fold_left (named1 u) h (None, [])). }
    constructor; cbn; auto.
    + intros u. unfold name_of. rewrite Hn. apply mt_table0.
    + intros u. rewrite has_cons, runs_snoc, mt_live0. cbn. destruct (N.eqb_spec u t) as [->|]; cbn; [now rewrite N.eqb_refl|]. destruct (N.eqb_spec t u); congruence.
    + intros u. unfold name_of. rewrite Hn. intros H. destruct (mt_hook0 u H) as [H1 H2]. split; auto. rewrite runs_snoc. cbn. destruct (N.eqb t u); auto.
    + intros u i. rewrite Hn. apply mt_sites0.
    + intros u. rewrite runs_snoc, Hn. cbn. destruct (N.eqb t u); [discriminate|]. auto.
  - destruct (has t (th_live s)) eqn:El; [|discriminate]. injection E as <-. pose proof (mt_live _ _ M t) as L. rewrite El in L.
    apply (name_self_meets h s t nm M (eq_sym L) _ (snd (fold_left (named1 t) h (None, [])))); auto.
    + intros u. destruct (fold_left (named1 u) h (None, [])) as [n si] eqn:Ef. cbn. destruct (N.eqb_spec t u) as [->|]; auto. now rewrite Ef.
    + intros u i. destruct (N.eqb_spec t u) as [->|]; [|reflexivity]. apply (mt_sites _ _ M).
  - destruct (has t (th_live s)) eqn:El; [|discriminate]. pose proof (mt_live _ _ M t) as L. rewrite El in L. destruct (passed t i s) eqn:Ep.
    + injection E as <-. pose proof (mt_sites _ _ M t i) as S1. rewrite Ep in S1.
      assert (Hn : forall u, fold_left (named1 u) (h ++ [NameSite t i nm]) (None, []) = fold_left (named1 u) h (None, [])).
      { intros u. rewrite name_snoc. unfold named1 at 1. destruct (fold_left (named1 u) h (None, [])) as [n si] eqn:Ef. destruct (N.eqb_spec t u) as [->|]; auto.
        rewrite Ef in S1. cbn [snd] in S1. rewrite <- S1. reflexivity. }
      destruct M. constructor; auto; intros u; unfold name_of in *; rewrite ?Hn, ?runs_snoc; cbn; auto.
    + injection E as <-. apply (name_self_meets h s t nm M (eq_sym L) _ (i :: snd (fold_left (named1 t) h (None, [])))); auto.
      * intros u. pose proof (mt_sites _ _ M t i) as S1. rewrite Ep in S1. destruct (fold_left (named1 u) h (None, [])) as [n si] eqn:Ef. cbn. destruct (N.eqb_spec t u) as [->|]; auto. rewrite Ef in *. cbn [snd] in *. now rewrite <- S1.
      * intros u j. unfold passed at 1. cbn [th_sites existsb fst snd]. change (existsb _ (th_sites s)) with (passed u j s).
        destruct (N.eqb_spec t u) as [->|]; [|destruct (N.eqb_spec u t); [congruence|reflexivity]]. rewrite N.eqb_refl. cbn. now rewrite (mt_sites _ _ M).
  - injection E as <-. assert (Hne : name_of t h <> None) by (apply (HA h t nm []); reflexivity). destruct (mt_hook _ _ M _ Hne) as [H1 H2].
    apply (name_self_meets h s t nm M H2 _ (snd (fold_left (named1 t) h (None, [])))); auto.
    + intros u. destruct (fold_left (named1 u) h (None, [])) as [n si] eqn:Ef. cbn. destruct (N.eqb_spec t u) as [->|]; auto. now rewrite Ef.
    + cbn. now rewrite H1.
    + intros u i. destruct (N.eqb_spec t u) as [->|]; [|reflexivity]. apply (mt_sites _ _ M).
  - (* the end *)
    destruct (has t (th_live s)) eqn:El; [|discriminate]. injection E as <-.
    assert (Hn : forall u, fold_left (named1 u) (h ++ [End t]) (None, []) = if N.eqb t u then (None, []) else fold_left (named1 u) h (None, [])).
    { intros u. rewrite name_snoc. unfold named1 at 1. destruct (fold_left (named1 u) h (None, [])). reflexivity. }
    destruct M. constructor; cbn [th_table th_live th_hooked th_sites].
    + intros u. unfold name_of. rewrite Hn. destruct (N.eqb_spec t u) as [->|Hu].
      * cbn. destruct (has u (th_hooked s)) eqn:Eh; [now apply (find_erase_same N.ltb N_order)|]. rewrite mt_table0. destruct (name_of u h) eqn:En; auto. destruct (mt_hook0 u) as [X _]; congruence.
      * destruct (has t (th_hooked s)); [rewrite (find_erase_other N.ltb N_order) by auto|]; apply mt_table0.
    + destruct (has t (th_hooked s)); auto. now apply (ordered_erase N.ltb N_order).
    + intros u. rewrite has_without, runs_snoc, mt_live0. cbn. destruct (N.eqb_spec t u); cbn; auto.
    + intros u. unfold name_of. rewrite Hn, has_without, runs_snoc. cbn. destruct (N.eqb_spec t u); cbn; [congruence|]. apply mt_hook0.
    + intros u i. rewrite Hn. transitivity (negb (N.eqb t u) && passed u i s); [apply (passed_filter u t i s th_live)|]. rewrite mt_sites0. destruct (N.eqb t u); reflexivity.
    + intros u. rewrite Hn, has_without, runs_snoc. cbn. destruct (N.eqb_spec t u); cbn; auto.
Qed.

Lemma acts_meets l : forall h s s', meets h s -> asked_first (h ++ l) -> acts l s = Some s' -> meets (h ++ l) s'.
Proof.
  induction l as [|a l IH]; intros h s s' M HA E; cbn [acts] in E; [injection E as <-; now rewrite app_nil_r|].
  destruct (act_step a s) as [s1|] eqn:E1; [|discriminate]. replace (h ++ a :: l) with ((h ++ [a]) ++ l) in * by (now rewrite <- app_assoc).
  apply (IH _ s1); auto. apply (act_meets h s); auto. intros x t nm b Eq. apply (HA x t nm (b ++ l)). rewrite Eq, <- app_assoc. reflexivity.
Qed.

Theorem table_names h s : acts h threads0 = Some s -> asked_first h ->
  NoDup (map fst (th_table s)) /\ (forall t nm, In (t, nm) (th_table s) <-> name_of t h = Some nm) /\ (forall t, name_of t h <> None -> runs t h = true).
Proof.
  intros E HA. pose proof (acts_meets h [] threads0 s meets0 HA E) as M. cbn [app] in M. destruct M.
  split; [now apply (ordered_NoDup N.ltb N_order)|]. split.
  - intros t nm. rewrite <- mt_table0. split; [now apply (in_find N.ltb N_order)|apply (find_in N.ltb N_order)].
  - intros t Ht. now apply mt_hook0.
Qed.

Lemma table_fits h : forall s s', Forall fits h -> Forall (fun e => (fst e < 9223372036854775808)%N /\ short (snd e)) (th_table s) -> acts h s = Some s' ->
  Forall (fun e => (fst e < 9223372036854775808)%N /\ short (snd e)) (th_table s').
Proof.
  induction h as [|a h IH]; intros s s' HF HT E; cbn [acts] in E; [injection E as <-; auto|]. destruct (act_step a s) as [s1|] eqn:E1; [|discriminate].
  inversion HF as [|? ? Ha HF']; subst. apply (IH s1 s'); auto. clear IH E HF HF'.
  destruct a as [t|t nm|t i nm|t nm|t]; cbn [act_step fits] in *; repeat match type of E1 with (if ?b then _ else _) = _ => destruct b; try discriminate end;
    injection E1 as <-; cbn; auto; try (apply insert_Forall; auto; fail).
  destruct (has t (th_hooked s)); auto. apply erase_Forall. auto.
Qed.

(** ** The entries *)
Section Info.
Context {F : Type} (f64 : F -> bytes) (unf64 : bytes -> F) (trunc : F -> Z).
Hypothesis E8 : eight f64 unf64.
Notation answers := (answers f64 unf64). Notation hears := (hears f64 unf64).

Definition shown (p : process) (e : Z * (bytes * list (N * bytes))) : Prop :=
  fst e = pc_pid p /\ fst (snd e) = pc_name p /\ NoDup (map fst (snd (snd e))) /\
  forall t nm, In (t, nm) (snd (snd e)) <-> name_of t (pc_acts p) = Some nm.

Lemma answer_shown p b : usual p -> answers p b -> exists ts, info_client unf64 trunc b = Some (pc_pid p, pc_name p, ts) /\ shown p (pc_pid p, (pc_name p, ts)).
Proof.
  intros (Hp & Hn & HF & HA) (st & order & q & Ea & Po & Eq & Eh). destruct (table_names _ _ Ea HA) as (ND & Hin & _).
  pose proof (table_fits _ threads0 _ HF (Forall_nil _) Ea) as HT.
  assert (HO : a_thread_table short order).
  { split; [eapply Permutation_NoDup; [apply Permutation_map, Permutation_sym, Po|exact ND]|]. eapply Permutation_Forall; [apply Permutation_sym, Po|exact HT]. }
  destruct (info_answered f64 unf64 trunc E8 (pc_pid p) (pc_name p) order Hp Hn HO) as (q' & b' & m & Eq' & Eh' & Ec & Pm & _).
  rewrite Eq in Eq'. injection Eq' as <-. rewrite Eh in Eh'. injection Eh' as <-. exists m. split; [exact Ec|].
  assert (P : Permutation (th_table st) m) by (rewrite <- Po; exact Pm).
  repeat split; cbn.
  - eapply Permutation_NoDup; [apply Permutation_map, P|exact ND].
  - intros H. apply Hin. eapply Permutation_in; [apply Permutation_sym, P|exact H].
  - intros H. eapply Permutation_in; [exact P|]. now apply Hin.
Qed.

Lemma update_hears ps hs : hears ps hs -> Forall usual ps -> forall m, ordered Z.ltb m -> NoDup (map pc_pid ps ++ map fst m) ->
  exists l m', update unf64 trunc hs m = Some m' /\ Permutation (l ++ m) m' /\ Forall2 shown ps l.
Proof.
  induction 1 as [|ps hs H IH|p b ps hs Ha H IH]; intros HU m Om ND.
  - exists [], m. auto.
  - cbn [update]. apply IH; auto.
  - inversion HU as [|? ? Hp HU']; subst. destruct (answer_shown p b Hp Ha) as (ts & Ec & Hs). cbn [update process_info]. rewrite Ec.
    cbn [map app] in ND. inversion ND as [|? ? Hn ND']; subst.
    assert (Ef : mfind Z.ltb (pc_pid p) m = None).
    { destruct (mfind Z.ltb (pc_pid p) m) eqn:E; auto. exfalso. apply Hn, in_or_app. right. apply (find_keys Z.ltb Z_order); auto. congruence. }
    pose proof (insert_absent Z.ltb (pc_pid p) (pc_name p, ts) m Ef) as P.
    destruct (IH HU' (minsert Z.ltb (pc_pid p) (pc_name p, ts) m)) as (l & m' & Eu & Pm & HF).
    + now apply (ordered_insert Z.ltb Z_order).
    + eapply Permutation_NoDup; [|exact ND]. rewrite Permutation_middle. apply Permutation_app_head. apply (Permutation_map fst P).
    + exists ((pc_pid p, (pc_name p, ts)) :: l), m'. split; auto. split; [|constructor; auto]. rewrite <- Pm. cbn [app]. rewrite Permutation_middle. now apply Permutation_app_head.
Qed.

Lemma NoDup_flat_map {A B} (f : A -> list B) (g : B -> A -> Prop) : (forall a b, In b (f a) -> g b a) -> forall l, NoDup l ->
  (forall a, In a l -> NoDup (f a)) -> (forall b a a', In a l -> In a' l -> g b a -> g b a' -> a = a') -> NoDup (flat_map f l).
Proof.
  intros Hg. induction 1 as [|a l Hn ND IH]; intros Hf Hi; cbn; [constructor|].
  assert (G1 : NoDup (flat_map f l)) by (apply IH; [intros; apply Hf; now right|intros; eapply Hi; eauto; now right]).
  assert (G2 : NoDup (f a)) by (apply Hf; now left).
  assert (G3 : forall b, In b (f a) -> ~ In b (flat_map f l)).
  { intros b Hb Hb'. apply in_flat_map in Hb' as (a' & Ha' & Hb'). apply Hn. replace a with a'; auto. eapply (Hi b); [now right|now left|auto|auto]. }
  clear - G1 G2 G3. induction (f a) as [|b l' IH]; cbn; auto. inversion G2; subst. constructor.
  - intros H. apply in_app_or in H as [H|H]; auto. apply (G3 b); cbn; auto.
  - apply IH; auto. intros x Hx. apply G3. now right.
Qed.

Definition entries (p : Z * (bytes * list (N * bytes))) : list (json F) :=
  process_entry (fst p) (fst (snd p)) :: map (fun t => thread_entry (fst p) (fst t) (snd t)) (snd (snd p)).

(** The number of the process an entry is for. *)
Definition entry_pid (j : json F) : option Z :=
  match j with JObj [_; _; _; (_, JInt pid); _] => Some pid | _ => None end.
Lemma entries_pid e j : In j (entries e) -> entry_pid j = Some (fst e).
Proof. intros [<-|H]; [reflexivity|]. apply in_map_iff in H as (t & <- & _). reflexivity. Qed.
Lemma entries_NoDup e : NoDup (map fst (snd (snd e))) -> NoDup (entries e).
Proof.
  intros ND. constructor.
  - intros H. apply in_map_iff in H as (t & E & _). discriminate.
  - induction (snd (snd e)) as [|[t nm] l IH]; cbn; [constructor|]. cbn in ND. inversion ND as [|? ? Hn ND']; subst. constructor; auto.
    intros H. apply in_map_iff in H as ([t' nm'] & E & Hin). cbn in E. apply Hn. apply in_map_iff. exists (t', nm'). split; auto. cbn.
    unfold thread_entry, meta in E. injection E. intros. lia.
Qed.

Theorem entries_exact ps hs : hears ps hs -> Forall usual ps -> NoDup (map pc_pid ps) ->
  exists es, finish_interval unf64 trunc hs = Some es /\ NoDup es /\
    forall e, In e es <-> exists p, In p ps /\ (e = process_entry (pc_pid p) (pc_name p) \/
                                              exists t nm, name_of t (pc_acts p) = Some nm /\ e = thread_entry (pc_pid p) t nm).
Proof.
  intros H HU ND. destruct (update_hears ps hs H HU [] (ordered_nil _)) as (l & m' & Eu & Pm & HF); [now rewrite app_nil_r|]. rewrite app_nil_r in Pm.
  unfold finish_interval. rewrite Eu. exists (flat_map entries m'). split; [reflexivity|].
  assert (Ef : map fst l = map pc_pid ps) by (clear - HF; induction HF as [|p e ps l (H & _) HF IH]; cbn; congruence).
  split.
  - apply (NoDup_flat_map entries (fun j e => entry_pid j = Some (fst e))).
    + intros e j. apply entries_pid.
    + apply (NoDup_map_inv fst). eapply Permutation_NoDup; [apply Permutation_map, Pm|]. now rewrite Ef.
    + intros e He. apply entries_NoDup. eapply Permutation_in in He; [|apply Permutation_sym, Pm]. clear - HF He.
      induction HF as [|p e' ps l (H1 & H2 & H3 & H4) HF IH]; [destruct He|]. destruct He as [->|He]; auto.
    + intros j e e' He He' E E'. rewrite E in E'. injection E' as E'.
      assert (ND' : NoDup (map fst m')) by (eapply Permutation_NoDup; [apply Permutation_map, Pm|now rewrite Ef]).
      clear - ND' He He' E'. induction m' as [|x m IH]; [destruct He|]. cbn in ND'. inversion ND' as [|? ? Hn ND'']; subst.
      destruct He as [->|He], He' as [->|He']; auto; exfalso; apply Hn; [rewrite E'|rewrite <- E']; now apply in_map.
  - intros j. rewrite in_flat_map. split.
    + intros (e & He & Hj). eapply Permutation_in in He; [|apply Permutation_sym, Pm].
      assert (G : exists p, In p ps /\ shown p e).
      { clear - HF He. induction HF as [|p e' ps l Hs HF IH]; [destruct He|]. destruct He as [->|He]; [exists p; cbn; auto|]. destruct (IH He) as (q & Hq & Hs'). exists q. cbn. auto. }
      destruct G as (p & Hp & (H1 & H2 & H3 & H4)). exists p. split; auto. destruct Hj as [<-|Hj]; [left; now rewrite H1, H2|]. right.
      apply in_map_iff in Hj as ([t nm] & <- & Ht). exists t, nm. cbn [fst snd]. rewrite H1. split; auto. now apply H4.
    + intros (p & Hp & Hj).
      assert (G : exists e, In e l /\ shown p e).
      { clear - HF Hp. induction HF as [|p' e ps l Hs HF IH]; [destruct Hp|]. destruct Hp as [->|Hp]; [exists e; cbn; auto|]. destruct (IH Hp) as (q & Hq & Hs'). exists q. cbn. auto. }
      destruct G as (e & He & (H1 & H2 & H3 & H4)). exists e. split; [eapply Permutation_in; eauto|]. unfold entries. rewrite H1, H2. destruct Hj as [->|(t & nm & Hn & ->)]; [now left|].
      right. apply in_map_iff. exists (t, nm). split; auto. now apply H4.
Qed.
End Info.

(** The entries say what they are for. *)
Lemma entries_say {F} pid t nm : reads (F := F) (process_entry pid nm) = Some (text "process_name", pid, 0%Z, nm) /\
  reads (F := F) (thread_entry pid t nm) = Some (text "thread_name", pid, Z.of_N t, nm).
Proof. split; reflexivity. Qed.
