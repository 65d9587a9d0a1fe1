(** Python values through JSON and JSON values through Python. *)
From Coq Require Import String List Arith NArith ZArith Ascii Bool Lia Permutation.
Import ListNotations.
From Verif Require Import OMap_model OMap_proofs Json_model Json_spec Json_proofs Bson_proofs PyJson_model PyJson_spec PyText_proofs.
Local Open Scope nat_scope.
Local Notation length := List.length.

(** ** One after the other *)
Lemma all_some {A B} (f : A -> option B) l r : all f l = Some r <-> Forall2 (fun x y => f x = Some y) l r.
Proof.
  revert r. induction l as [|x l IH]; intros r; cbn [all].
  - split; [intros E; injection E as <-; constructor|inversion 1; reflexivity].
  - destruct (f x) as [y|] eqn:Ex.
    + destruct (all f l) as [r'|].
      * split.
        -- intros E. injection E as <-. constructor; [exact Ex|]. now apply IH.
        -- inversion 1 as [|? y' ? r2 H1 H2]; subst. assert (y' = y) by congruence. subst y'. apply IH in H2. congruence.
      * split; [discriminate|]. inversion 1 as [|? y' ? r2 H1 H2]; subst. apply IH in H2. discriminate.
    + split; [discriminate|]. inversion 1; congruence.
Qed.
Lemma all_ok {A B} (f : A -> option B) l : all f l <> None <-> Forall (fun x => f x <> None) l.
Proof.
  induction l as [|x l IH]; cbn [all]; [split; [constructor|discriminate]|]. rewrite Forall_cons_iff, <- IH.
  destruct (f x) as [y|]; [|split; [intros H; now destruct H|intros [H _]; now destruct H]].
  destruct (all f l) as [r|]; [split; [split; discriminate|discriminate]|split; [intros H; now destruct H|intros [_ H]; now destruct H]].
Qed.
Lemma map_ok {A B} (g : A -> B) o : option_map g o <> None <-> o <> None.
Proof. destruct o; cbn; split; congruence. Qed.

Section Ind.
Context {F : Type} (P : py F -> Prop).
Hypothesis Hnone : P PNone. Hypothesis Hbool : forall b, P (PBool b). Hypothesis Hint : forall z, P (PInt z). Hypothesis Hfloat : forall f, P (PFloat f).
Hypothesis Hstr : forall s, P (PStr s). Hypothesis Hbytes : forall b, P (PBytes b). Hypothesis Hlist : forall l, Forall P l -> P (PList l).
Hypothesis Htuple : forall l, Forall P l -> P (PTuple l). Hypothesis Hset : forall l, Forall P l -> P (PSet l).
Hypothesis Hdict : forall d, Forall (fun kv => P (snd kv)) d -> P (PDict d). Hypothesis Hother : P POther.
Fixpoint py_full_ind (p : py F) : P p :=
  let go := fix go (l : list (py F)) : Forall P l := match l with [] => Forall_nil _ | x :: l' => Forall_cons x (py_full_ind x) (go l') end in
  match p with
  | PNone => Hnone | PBool b => Hbool b | PInt z => Hint z | PFloat f => Hfloat f | PStr s => Hstr s | PBytes b => Hbytes b
  | PList l => Hlist l (go l) | PTuple l => Htuple l (go l) | PSet l => Hset l (go l)
  | PDict d => Hdict d ((fix god (d : list (py F * py F)) : Forall (fun kv => P (snd kv)) d :=
                          match d with [] => Forall_nil _ | kv :: d' => Forall_cons kv (py_full_ind (snd kv)) (god d') end) d)
  | POther => Hother
  end.
End Ind.

Section Proofs.
Context {F : Type} (fcmp : F -> F -> comparison) (of_int : Z -> F).
Notation json := (json F). Notation py := (py F).
Notation json_cmp := (json_cmp fcmp of_int). Notation to_json := (to_json fcmp of_int). Notation set_insert := (set_insert fcmp of_int).

(** ** The order of values without floating point numbers *)
Inductive nofloat : json -> Prop :=
| nf_null : nofloat JNull
| nf_bool b : nofloat (JBool b)
| nf_int z : nofloat (JInt z)
| nf_str s : nofloat (JStr s)
| nf_arr l : Forall nofloat l -> nofloat (JArr l)
| nf_obj m : Forall (fun kv => nofloat (snd kv)) m -> nofloat (JObj m).

Definition cmp_member (p q : bytes * json) : comparison := match str_cmp (fst p) (fst q) with Eq => json_cmp (snd p) (snd q) | c => c end.

Lemma str_cmp_eq a b : str_cmp a b = Eq -> a = b.
Proof.
  unfold str_cmp. destruct (key_case str_ltb str_order a b) as [(H1 & H2 & _)|[(H1 & H2 & _)|(H1 & H2 & H3)]]; rewrite H1, ?H2; congruence.
Qed.
Lemma str_cmp_opp a b : str_cmp b a = CompOpp (str_cmp a b).
Proof. unfold str_cmp. destruct (key_case str_ltb str_order a b) as [(H1 & H2 & _)|[(H1 & H2 & _)|(H1 & H2 & _)]]; rewrite H1, H2; reflexivity. Qed.
Lemma str_cmp_lt a b : str_cmp a b = Lt <-> str_ltb a b = true.
Proof. unfold str_cmp. destruct (str_ltb a b); [tauto|]. destruct (str_ltb b a); split; discriminate. Qed.
Lemma str_cmp_refl a : str_cmp a a = Eq.
Proof. unfold str_cmp. now rewrite (so_irr _ str_order). Qed.

Lemma lex_eq {A} (cmp : A -> A -> comparison) l : Forall (fun x => forall y, cmp x y = Eq -> x = y) l -> forall m, lex cmp l m = Eq -> l = m.
Proof.
  induction 1 as [|x l Hx Hl IH]; intros [|y m]; cbn [lex]; try discriminate; [reflexivity|].
  destruct (cmp x y) eqn:E; try discriminate. intros H. now rewrite (Hx _ E), (IH _ H).
Qed.
Lemma lex_opp {A} (cmp : A -> A -> comparison) l : forall m, Forall (fun x => Forall (fun y => cmp y x = CompOpp (cmp x y)) m) l -> lex cmp m l = CompOpp (lex cmp l m).
Proof.
  induction l as [|x l IH]; intros [|y m] H; cbn [lex]; try reflexivity.
  apply Forall_cons_iff in H as [Hx Hl]. apply Forall_cons_iff in Hx as [Hxy _]. rewrite Hxy. destruct (cmp x y); cbn [CompOpp]; try reflexivity.
  apply IH. eapply Forall_impl; [|exact Hl]. cbn. intros a Ha. now apply Forall_cons_iff in Ha as [_ Ha].
Qed.
Lemma lex_trans {A} (cmp : A -> A -> comparison) (ok : A -> Prop) :
  forall a, Forall (fun x => ok x /\ forall y z, ok y -> ok z -> cmp x y = Lt -> cmp y z = Lt -> cmp x z = Lt) a ->
  (forall x y, ok x -> ok y -> cmp x y = Eq -> x = y) ->
  forall b c, Forall ok b -> Forall ok c -> lex cmp a b = Lt -> lex cmp b c = Lt -> lex cmp a c = Lt.
Proof.
  intros a Ha He. induction Ha as [|x a [Hx Ht] Ha IH]; intros [|y b] [|z c] Hb Hc; cbn [lex]; try discriminate; auto.
  apply Forall_cons_iff in Hb as [Hy Hb], Hc as [Hz Hc].
  destruct (cmp x y) eqn:Exy; try discriminate.
  - apply He in Exy; auto. subst y. destruct (cmp x z) eqn:Exz; try discriminate; auto. intros H1 H2. now apply (IH b c).
  - intros _. destruct (cmp y z) eqn:Eyz; try discriminate; intros _.
    + apply He in Eyz; auto. subst z. now rewrite Exy.
    + now rewrite (Ht y z).
Qed.

Lemma rank_eq (a b : json) : rank_cmp a b = Eq -> rank a = rank b.
Proof. apply Nat.compare_eq. Qed.

Lemma json_cmp_eq a : nofloat a -> forall b, nofloat b -> json_cmp a b = Eq -> a = b.
Proof.
  induction a as [|x|x|x|x|l IH|m IH] using json_full_ind; intros Ha b Hb E;
    (destruct b as [|y|y|y|y|l'|m']; cbn [PyJson_model.json_cmp] in E; try (apply rank_eq in E; discriminate E); try reflexivity); try (now inversion Ha); try (now inversion Hb).
  - destruct x, y; try discriminate; reflexivity.
  - apply Z.compare_eq in E. now subst.
  - apply str_cmp_eq in E. now subst.
  - inversion Ha as [| | | |? Hl|]; subst. inversion Hb as [| | | |? Hl'|]; subst. f_equal.
    clear Ha Hb. revert l' E Hl'. induction l as [|x l IHl]; intros [|y l'] E Hl'; cbn [lex] in E; try discriminate; [reflexivity|].
    apply Forall_cons_iff in IH as [Hx IH], Hl as [Nx Hl], Hl' as [Ny Hl']. destruct (json_cmp x y) eqn:Exy; try discriminate. f_equal; [now apply Hx|]. now apply IHl.
  - inversion Ha as [| | | | |? Hl]; subst. inversion Hb as [| | | | |? Hl']; subst. f_equal.
    clear Ha Hb. revert m' E Hl'. induction m as [|[k x] m IHm]; intros [|[k' y] m'] E Hl'; cbn [lex] in E; try discriminate; [reflexivity|].
    apply Forall_cons_iff in IH as [Hx IH], Hl as [Nx Hl], Hl' as [Ny Hl']. cbn [fst snd] in *. destruct (str_cmp k k') eqn:Ek; try discriminate. apply str_cmp_eq in Ek as ->.
    destruct (json_cmp x y) eqn:Exy; try discriminate. f_equal; [f_equal; now apply Hx|]. now apply IHm.
Qed.
(** The order is one: what the model of the set relies on. *)
Lemma json_cmp_opp a : nofloat a -> forall b, nofloat b -> json_cmp b a = CompOpp (json_cmp a b).
Proof.
  induction a as [|x|x|x|x|l IH|m IH] using json_full_ind; intros Ha b Hb;
    (destruct b as [|y|y|y|y|l'|m']; cbn [PyJson_model.json_cmp]; try reflexivity); try (now inversion Ha); try (now inversion Hb).
  - destruct x, y; reflexivity.
  - apply Z.compare_antisym.
  - apply str_cmp_opp.
  - inversion Ha as [| | | |? Hl|]; subst. inversion Hb as [| | | |? Hl'|]; subst. apply lex_opp. rewrite Forall_forall in *. intros x Hx. apply Forall_forall. intros y Hy. apply IH; auto.
  - inversion Ha as [| | | | |? Hl]; subst. inversion Hb as [| | | | |? Hl']; subst. apply lex_opp. rewrite Forall_forall in *. intros [k x] Hx. apply Forall_forall. intros [k' y] Hy. cbn [fst snd].
    rewrite (str_cmp_opp k k'). destruct (str_cmp k k'); cbn [CompOpp]; try reflexivity. apply (IH (k, x) Hx (Hl (k, x) Hx) y). apply (Hl' (k', y) Hy).
Qed.
Lemma json_cmp_trans a : nofloat a -> forall b c, nofloat b -> nofloat c -> json_cmp a b = Lt -> json_cmp b c = Lt -> json_cmp a c = Lt.
Proof.
  assert (RK : forall x y : json, rank_cmp x y = Lt <-> rank x < rank y) by (intros; unfold rank_cmp; apply Nat.compare_lt_iff).
  assert (RL : forall x y, nofloat x -> nofloat y -> json_cmp x y = Lt -> rank x <= rank y).
  { intros x y Hx Hy E. destruct x, y; cbn [PyJson_model.json_cmp] in E; try (apply RK in E; lia); cbn; try lia; try (now inversion Hx). }
  induction a as [|x|x|x|x|l IH|m IH] using json_full_ind; intros Ha b c Hb Hc E1 E2;
    pose proof (RL _ _ Ha Hb E1) as R1; pose proof (RL _ _ Hb Hc E2) as R2; try (now inversion Ha);
    (destruct b as [|y|y|y|y|l'|m']; try (now inversion Hb)); try (cbn [rank] in R1; lia); (destruct c as [|z|z|z|z|l''|m'']; try (now inversion Hc)); try (cbn [rank] in R1, R2; lia);
    try reflexivity; cbn [PyJson_model.json_cmp] in *; try (apply RK; apply RK in E1 || idtac; cbn [rank] in *; lia); try discriminate.
  - destruct x, y, z; try discriminate; reflexivity.
  - change (x < y)%Z in E1. change (y < z)%Z in E2. change (x < z)%Z. lia.
  - apply str_cmp_lt in E1, E2. apply str_cmp_lt. exact (so_trans _ str_order _ _ _ E1 E2).
  - inversion Ha as [| | | |? Hl|]; subst. inversion Hb as [| | | |? Hl'|]; subst. inversion Hc as [| | | |? Hl''|]; subst.
    apply (lex_trans json_cmp nofloat) with (b := l'); auto.
    + rewrite Forall_forall in *. intros x Hx. split; [now apply Hl|]. intros y z Hy Hz. apply IH; auto.
    + intros x y Hx Hy. now apply json_cmp_eq.
  - inversion Ha as [| | | | |? Hl]; subst. inversion Hb as [| | | | |? Hl']; subst. inversion Hc as [| | | | |? Hl'']; subst.
    apply (lex_trans cmp_member (fun kv => nofloat (snd kv))) with (b := m'); auto.
    + rewrite Forall_forall in *. intros [k x] Hx. split; [now apply (Hl (k, x))|]. intros [k' y] [k'' z] Hy Hz. unfold cmp_member. cbn [fst snd] in *.
      destruct (str_cmp k k') eqn:K1; try discriminate.
      * apply str_cmp_eq in K1 as ->. destruct (str_cmp k' k''); try discriminate; auto. apply (IH (k', x) Hx (Hl (k', x) Hx)); auto.
      * intros _. destruct (str_cmp k' k'') eqn:K2; try discriminate.
        -- apply str_cmp_eq in K2 as ->. now rewrite K1.
        -- intros _. apply str_cmp_lt in K1, K2. now rewrite (proj2 (str_cmp_lt k k'') (so_trans _ str_order _ _ _ K1 K2)).
    + intros [k x] [k' y] Hx Hy. unfold cmp_member. cbn [fst snd] in *. destruct (str_cmp k k') eqn:K1; try discriminate. apply str_cmp_eq in K1 as ->. intros E. f_equal. now apply json_cmp_eq.
Qed.

(** ** Sets *)
Lemma set_insert_new x l : nofloat x -> Forall nofloat l -> ~ In x l -> Permutation (x :: l) (set_insert x l).
Proof.
  intros Hx. induction 1 as [|y l Hy Hl IH]; cbn [PyJson_model.set_insert]; intros Hn; [auto|].
  destruct (json_cmp x y) eqn:E.
  - exfalso. apply Hn. left. symmetry. now apply json_cmp_eq.
  - auto.
  - rewrite perm_swap. constructor. apply IH. intros H. apply Hn. now right.
Qed.
Lemma set_fold js : Forall nofloat js -> forall acc, Forall nofloat acc -> NoDup (js ++ acc) -> Permutation (js ++ acc) (fold_left (fun m x => set_insert x m) js acc).
Proof.
  induction 1 as [|x js Hx Hjs IH]; intros acc Ha ND; cbn [fold_left app]; [auto|].
  cbn [app] in ND. assert (Hn : ~ In x acc) by (apply NoDup_cons_iff in ND as [H _]; intros G; apply H; apply in_or_app; now right).
  pose proof (set_insert_new x acc Hx Ha Hn) as Pm. rewrite <- IH.
  - rewrite <- Pm. apply Permutation_middle.
  - eapply Permutation_Forall; [exact Pm|now constructor].
  - eapply Permutation_NoDup; [|exact ND]. rewrite <- Pm. apply Permutation_middle.
Qed.

Lemma Forall2_inv {A B} (R : A -> B -> Prop) l m : Forall2 R l m -> forall y, In y m -> exists x, In x l /\ R x y.
Proof. induction 1 as [|x y l m Hxy H IH]; intros z Hz; [destruct Hz|]. destruct Hz as [<-|Hz]; [exists x; split; [now left|auto]|]. destruct (IH _ Hz) as (w & Hw & Rw). exists w. split; [now right|auto]. Qed.
Lemma Forall2_impl_in {A B} (R Q : A -> B -> Prop) l m : (forall x y, In x l -> In y m -> R x y -> Q x y) -> Forall2 R l m -> Forall2 Q l m.
Proof. intros H HF. induction HF as [|x y l m Hxy HF IH]; constructor; [apply H; auto; now left|]. apply IH. intros. apply H; auto; now right. Qed.
Lemma Forall2_flip {A B} (R : A -> B -> Prop) l m : Forall2 R l m -> Forall2 (fun y x => R x y) m l.
Proof. induction 1; constructor; auto. Qed.
Lemma perm_back {A B} (R : A -> B -> Prop) l m m' : Forall2 R l m -> Permutation m m' -> exists l', Permutation l l' /\ Forall2 R l' m'.
Proof. intros H Pm. destruct (Permutation_Forall2 Pm (Forall2_flip _ _ _ H)) as (l' & P' & H'). exists l'. split; [exact P'|]. now apply Forall2_flip in H'. Qed.
Lemma Forall2_exists {A B} (R : A -> B -> Prop) l : Forall (fun x => exists y, R x y) l -> exists m, Forall2 R l m.
Proof. induction 1 as [|x l (y & Hy) _ (m & Hm)]; [exists []; constructor|]. exists (y :: m). now constructor. Qed.

Lemma simple_nofloat p : simple p -> forall j, to_json p = Some j -> nofloat j.
Proof.
  induction p as [|b|z|f|s|b|l IH|l IH|l IH|d IH|] using py_full_ind; intros Hp j E; try (now inversion Hp); cbn [PyJson_model.to_json] in E.
  - injection E as <-. constructor.
  - injection E as <-. constructor.
  - destruct (_ && _)%bool; [|discriminate]. injection E as <-. constructor.
  - destruct (to_utf8 s); [|discriminate]. injection E as <-. constructor.
  - inversion Hp as [| | | |? Hl]; subst. destruct (all to_json l) as [js|] eqn:Ea; [|discriminate]. injection E as <-. constructor.
    apply all_some in Ea. rewrite Forall_forall in *. intros y Hy. destruct (Forall2_inv _ _ _ Ea y Hy) as (x & Hx & Ex). exact (IH x Hx (Hl x Hx) y Ex).
Qed.
Lemma simple_inj p : simple p -> forall q, simple q -> forall j, to_json p = Some j -> to_json q = Some j -> p = q.
Proof.
  induction p as [|b|z|f|s|b|l IH|l IH|l IH|d IH|] using py_full_ind; intros Hp q Hq j E1 E2; try (now inversion Hp);
    (destruct q as [|b'|z'|f'|s'|b'|l'|l'|l'|d'|]; try (now inversion Hq)); cbn [PyJson_model.to_json] in E1, E2;
    repeat match goal with
           | H : option_map _ ?o = Some _ |- _ => let E := fresh "Eo" in destruct o eqn:E; [cbn [option_map] in H|discriminate]
           | H : (if ?b then _ else None) = Some _ |- _ => destruct b; [|discriminate]
           end; try congruence; try reflexivity.
  - match goal with A : to_utf8 s = Some ?x, B : to_utf8 s' = Some ?y |- _ => assert (x = y) by congruence; subst y; inversion Hp as [| | |? V1|]; subst; inversion Hq as [| | |? V2|]; subst; pose proof (utf8_back _ _ V1 A); pose proof (utf8_back _ _ V2 B); congruence end.
  - match goal with A : all _ l = Some ?x, B : all _ l' = Some ?y |- _ => assert (x = y) by congruence; subst y; rename A into A1; rename B into B1 end.
    apply all_some in A1, B1. inversion Hp as [| | | |? Hl]; subst. inversion Hq as [| | | |? Hl']; subst. f_equal.
    clear Hp Hq E1 E2. revert l' Hl' B1. induction A1 as [|x y l m Hxy HF IHl]; intros l' Hl' B1; inversion B1 as [|x' y' l2 m2 Hxy' HF' E3 E4]; subst; [reflexivity|].
    apply Forall_cons_iff in IH as [Hx IH], Hl as [Sx Hl], Hl' as [Sx' Hl']. f_equal; [now apply (Hx Sx x' Sx' y)|]. now apply IHl.
Qed.
Lemma simple_nodup l js : NoDup l -> Forall simple l -> Forall2 (fun x y => to_json x = Some y) l js -> NoDup js.
Proof.
  intros ND HS HF. induction HF as [|x y l m Hxy HF IH]; [constructor|]. apply NoDup_cons_iff in ND as [Hn ND]. apply Forall_cons_iff in HS as [Sx HS]. constructor; [|auto].
  intros Hy. destruct (Forall2_inv _ _ _ HF y Hy) as (x' & Hx' & Ex'). rewrite Forall_forall in HS. assert (x = x') by (eapply simple_inj; eauto). subst. auto.
Qed.

(** ** Dictionaries *)
Definition member_json (kv : py * py) : option (bytes * json) :=
  match fst kv with PStr k => match to_utf8 k, to_json (snd kv) with Some k', Some v => Some (k', v) | _, _ => None end | _ => None end.
Definition member_py (kv : bytes * json) : option (py * py) := match of_utf8 (fst kv), to_py (snd kv) with Some k, Some v => Some (PStr k, v) | _, _ => None end.
Lemma member_json_some kv k' v : member_json kv = Some (k', v) <-> exists k, fst kv = PStr k /\ to_utf8 k = Some k' /\ to_json (snd kv) = Some v.
Proof.
  unfold member_json. destruct kv as [p q]. cbn [fst snd]. split.
  - destruct p; try discriminate. destruct (to_utf8 s) eqn:Es; [|discriminate]. destruct (to_json q) eqn:Eq; [|discriminate]. intros E. exists s. repeat split; congruence.
  - intros (k & -> & -> & ->). reflexivity.
Qed.
Lemma fold_insert (l : list (bytes * json)) : forall acc, ordered str_ltb acc -> NoDup (map fst (l ++ acc)) ->
  Permutation (l ++ acc) (fold_left (fun m kv => minsert str_ltb (fst kv) (snd kv) m) l acc) /\ ordered str_ltb (fold_left (fun m kv => minsert str_ltb (fst kv) (snd kv) m) l acc).
Proof.
  induction l as [|[k v] l IH]; intros acc Ho ND; cbn [fold_left app fst snd]; [auto|].
  cbn [app map fst] in ND. apply NoDup_cons_iff in ND as ND'. destruct ND' as [Hn _].
  assert (Hf : mfind str_ltb k acc = None).
  { destruct (mfind str_ltb k acc) as [w|] eqn:Ef; [|reflexivity]. exfalso. apply Hn. apply (find_in str_ltb str_order) in Ef. rewrite map_app. apply in_or_app. right. apply in_map_iff. now exists (k, w). }
  pose proof (insert_absent str_ltb k v acc Hf) as Pm. destruct (IH (minsert str_ltb k v acc)) as [P1 O1].
  - now apply (ordered_insert str_ltb str_order).
  - eapply Permutation_NoDup; [|exact ND]. change (k :: map fst (l ++ acc)) with (map fst ((k, v) :: l ++ acc)). apply Permutation_map. rewrite <- Pm. apply Permutation_middle.
  - split; [|exact O1]. rewrite <- P1, <- Pm. apply Permutation_middle.
Qed.

(** ** Python, JSON, Python *)
Theorem nothing_lost p : valid p -> forall j, to_json p = Some j -> exists q, to_py j = Some q /\ back p q.
Proof.
  induction p as [|b|z|f|s|b|l IH|l IH|l IH|d IH|] using py_full_ind; intros Hp j E; cbn [PyJson_model.to_json] in E.
  - injection E as <-. eexists. split; [reflexivity|constructor].
  - injection E as <-. eexists. split; [reflexivity|constructor].
  - destruct (_ && _)%bool; [|discriminate]. injection E as <-. eexists. split; [reflexivity|constructor].
  - injection E as <-. eexists. split; [reflexivity|constructor].
  - destruct (to_utf8 s) as [t|] eqn:Es; [|discriminate]. injection E as <-. inversion Hp; subst. cbn [to_py]. rewrite (utf8_back s t) by assumption. eexists. split; [reflexivity|constructor].
  - assert (j = JArr (map (fun c => JInt (Z.of_N (code c))) b)) by congruence. subst j. eexists. split; [|apply ba_bytes]. cbn [to_py].
    rewrite (proj2 (all_some to_py _ (map (fun c => PInt (Z.of_N (N_of_ascii c))) b))); [reflexivity|]. clear. induction b; cbn [map]; constructor; auto.
  - inversion Hp as [| | | | | |? Hl| | |]; subst. destruct (all to_json l) as [js|] eqn:Ea; [|discriminate]. injection E as <-. apply all_some in Ea.
    assert (G : exists qs, Forall2 (fun y q => to_py y = Some q) js qs /\ Forall2 back l qs).
    { clear Hp. induction Ea as [|x y l m Hxy HF IHl]; [exists []; split; constructor|]. apply Forall_cons_iff in IH as [Hx IH], Hl as [Vx Hl].
      destruct (IHl IH Hl) as (qs & H1 & H2). destruct (Hx Vx y Hxy) as (q & Hq1 & Hq2). exists (q :: qs). split; constructor; auto. }
    destruct G as (qs & H1 & H2). exists (PList qs). cbn [to_py]. apply all_some in H1. rewrite H1. split; [reflexivity|now constructor].
  - inversion Hp as [| | | | | | |? Hl| |]; subst. destruct (all to_json l) as [js|] eqn:Ea; [|discriminate]. injection E as <-. apply all_some in Ea.
    assert (G : exists qs, Forall2 (fun y q => to_py y = Some q) js qs /\ Forall2 back l qs).
    { clear Hp. induction Ea as [|x y l m Hxy HF IHl]; [exists []; split; constructor|]. apply Forall_cons_iff in IH as [Hx IH], Hl as [Vx Hl].
      destruct (IHl IH Hl) as (qs & H1 & H2). destruct (Hx Vx y Hxy) as (q & Hq1 & Hq2). exists (q :: qs). split; constructor; auto. }
    destruct G as (qs & H1 & H2). exists (PList qs). cbn [to_py]. apply all_some in H1. rewrite H1. split; [reflexivity|now constructor].
  - inversion Hp as [| | | | | | | |? ND HS|]; subst. destruct (all to_json l) as [js|] eqn:Ea; [|discriminate]. injection E as <-. apply all_some in Ea.
    assert (NF : Forall nofloat js).
    { apply Forall_forall. intros y Hy. destruct (Forall2_inv _ _ _ Ea y Hy) as (x & Hx & Ex). rewrite Forall_forall in HS. exact (simple_nofloat x (HS x Hx) y Ex). }
    pose proof (set_fold js NF [] (Forall_nil _)) as PS. rewrite app_nil_r in PS. specialize (PS (simple_nodup _ _ ND HS Ea)). destruct (perm_back _ _ _ _ Ea PS) as (l1 & P1 & H1).
    set (m := fold_left _ js []) in *. clearbody m.
    assert (HI : Forall (fun p => valid p -> forall j, to_json p = Some j -> exists q, to_py j = Some q /\ back p q) l1) by (eapply Permutation_Forall; eauto).
    assert (HV : Forall valid l1).
    { apply (Permutation_Forall P1). eapply Forall_impl; [|exact HS]. clear. intros p. induction p as [|b|z|f|s|b|l IH|l IH|l IH|d IH|] using py_full_ind; intros Hs; try (now inversion Hs); try constructor.
      - now inversion Hs.
      - inversion Hs as [| | | |? Hl]; subst. rewrite Forall_forall in *. auto. }
    assert (G : exists qs, Forall2 (fun y q => to_py y = Some q) m qs /\ Forall2 back l1 qs).
    { clear - H1 HI HV. induction H1 as [|x y l m Hxy HF IHl]; [exists []; split; constructor|]. apply Forall_cons_iff in HI as [Hx IH], HV as [Vx Hl].
      destruct (IHl IH Hl) as (qs & H1 & H2). destruct (Hx Vx y Hxy) as (q & Hq1 & Hq2). exists (q :: qs). split; constructor; auto. }
    destruct G as (qs & H2 & H3). exists (PList qs). cbn [to_py]. apply all_some in H2. rewrite H2. split; [reflexivity|]. now apply (ba_set l l1 qs).
  - inversion Hp as [| | | | | | | | |? ND HV]; subst. change (all (fun kv : py * py => match fst kv with PStr k => match to_utf8 k, to_json (snd kv) with Some k', Some v => Some (k', v) | _, _ => None end | _ => None end) d) with (all member_json d) in E. destruct (all member_json d) as [js|] eqn:Ea; [|discriminate]. injection E as <-. apply all_some in Ea.
    assert (NK : NoDup (map fst js)).
    { clear - Ea ND HV. induction Ea as [|x [k v] d js Hxy HF IH]; [constructor|]. cbn [map] in *. apply NoDup_cons_iff in ND as [Hn ND]. apply Forall_cons_iff in HV as [[Vk Vv] HV]. constructor; [|auto].
      intros Hk. apply in_map_iff in Hk as ([k2 v2] & Ek & Hy). cbn in Ek. subst k2. destruct (Forall2_inv _ _ _ HF _ Hy) as (x' & Hx' & Ex').
      apply member_json_some in Hxy as (s & Es & Us & _). apply member_json_some in Ex' as (s' & Es' & Us' & _). rewrite Forall_forall in HV. destruct (HV _ Hx') as [Vk' _].
      rewrite Es in Vk. rewrite Es' in Vk'. inversion Vk; subst. inversion Vk'; subst. pose proof (utf8_back _ _ H0 Us). pose proof (utf8_back _ _ H1 Us').
      apply Hn. apply in_map_iff. exists x'. split; [|exact Hx']. rewrite Es, Es'. congruence. }
    destruct (fold_insert js [] (ordered_nil _)) as [PS _]; [now rewrite app_nil_r|]. rewrite app_nil_r in PS. destruct (perm_back _ _ _ _ Ea PS) as (d1 & P1 & H1).
    set (m := fold_left (fun m kv => minsert str_ltb (fst kv) (snd kv) m) js []) in *. clearbody m.
    assert (HI : Forall (fun kv => valid (snd kv) -> forall j, to_json (snd kv) = Some j -> exists q, to_py j = Some q /\ back (snd kv) q) d1) by (eapply Permutation_Forall; eauto).
    assert (HV1 : Forall (fun kv => valid (fst kv) /\ valid (snd kv)) d1) by (eapply Permutation_Forall; eauto).
    assert (G : exists qs, Forall2 (fun y q => member_py y = Some q) m qs /\ Forall2 (fun a b => fst b = fst a /\ back (snd a) (snd b)) d1 qs).
    { clear - H1 HI HV1. induction H1 as [|x [k v] l m Hxy HF IHl]; [exists []; split; constructor|]. apply Forall_cons_iff in HI as [Hx IH], HV1 as [[Vk Vx] Hl].
      destruct (IHl IH Hl) as (qs & H1 & H2). apply member_json_some in Hxy as (s & Es & Us & Ev). destruct (Hx Vx v Ev) as (q & Hq1 & Hq2). exists ((PStr s, q) :: qs).
      rewrite Es in Vk. inversion Vk; subst. split; constructor; auto. unfold member_py. cbn [fst snd]. rewrite (utf8_back _ _ H0 Us), Hq1. reflexivity. }
    destruct G as (qs & H2 & H3). exists (PDict qs). apply all_some in H2. change (to_py (JObj m)) with (option_map PDict (all member_py m)). rewrite H2. split; [reflexivity|]. now apply (ba_dict d d1 qs).
  - inversion Hp.
Qed.
Theorem plain_stays (p q : py) : plain p -> back p q -> plain q.
Proof.
  revert q. induction p as [|b|z|f|s|b|l IH|l IH|l IH|d IH|] using py_full_ind; intros q Hp Hb; inversion Hb; subst; try (now inversion Hp); try (now constructor).
  - inversion Hp as [| | | | |? Hl|]; subst. constructor. match goal with H : Forall2 back _ _ |- _ => rename H into HF end. clear Hp Hb. induction HF; constructor; apply Forall_cons_iff in IH as [Hx IH], Hl as [Px Hl]; auto.
  - inversion Hp as [| | | | | |? Hl]; subst. constructor. match goal with H : Permutation _ _ |- _ => rename H into HP end. match goal with H : Forall2 _ _ _ |- _ => rename H into HF end. clear Hp Hb.
    apply (Permutation_Forall HP) in IH, Hl. clear HP. induction HF as [|x y l m [H1 H2] HF IHl]; constructor; apply Forall_cons_iff in IH as [Hx IH], Hl as [[Pk Px] Hl]; auto. rewrite H1. auto.
Qed.
Theorem converts p : to_json p <> None <-> fits p.
Proof.
  assert (GL : forall l, Forall (fun p => to_json p <> None <-> fits p) l -> (all to_json l <> None <-> Forall fits l)).
  { intros l IH. rewrite all_ok. split; intros H; rewrite Forall_forall in *; intros x Hx; apply (IH x Hx); auto. }
  induction p as [|b|z|f|s|b|l IH|l IH|l IH|d IH|] using py_full_ind; cbn [PyJson_model.to_json]; try (split; [constructor|discriminate]).
  - split.
    + destruct ((-9223372036854775808 <=? z) && (z <=? 9223372036854775807))%Z eqn:E; [|congruence]. intros _. constructor. apply andb_true_iff in E as [E1 E2]. apply Z.leb_le in E1, E2. split; auto.
    + inversion 1 as [| |? [H1 H2]| | | | | | | |]; subst. rewrite (proj2 (Z.leb_le _ _) H1), (proj2 (Z.leb_le _ _) H2). discriminate.
  - rewrite map_ok, to_utf8_ok. split; [now constructor|now inversion 1].
  - rewrite map_ok, (GL l IH). split; [now constructor|now inversion 1].
  - rewrite map_ok, (GL l IH). split; [now constructor|now inversion 1].
  - rewrite map_ok, (GL l IH). split; [now constructor|now inversion 1].
  - rewrite map_ok. change (all (fun kv : py * py => match fst kv with PStr k => match to_utf8 k, to_json (snd kv) with Some k', Some v => Some (k', v) | _, _ => None end | _ => None end) d) with (all member_json d). rewrite all_ok.
    assert (G : forall kv, In kv d -> (member_json kv <> None <-> (exists k, fst kv = PStr k /\ no_surrogate k) /\ fits (snd kv))).
    { intros kv Hkv. rewrite Forall_forall in IH. pose proof (IH kv Hkv) as IHv. unfold member_json. destruct kv as [p q]. cbn [fst snd] in *. split.
      - destruct p; try congruence. destruct (to_utf8 s) eqn:Es; [|congruence]. destruct (to_json q); [|congruence]. intros _. split; [|apply IHv; discriminate]. exists s. split; [reflexivity|]. apply to_utf8_ok. congruence.
      - intros [(k & -> & Hk) Hq]. apply to_utf8_ok in Hk. apply IHv in Hq. destruct (to_utf8 k); [|congruence]. destruct (to_json q); [discriminate|congruence]. }
    split.
    + intros H. constructor. rewrite Forall_forall in *. intros kv Hkv. apply G; auto.
    + inversion 1 as [| | | | | | | | |? Hd|]; subst. rewrite Forall_forall in *. intros kv Hkv. apply G; auto.
Qed.

(** ** JSON, Python, JSON *)
Lemma fold_ascending (m : list (bytes * json)) : ascending m -> fold_left (fun m kv => minsert str_ltb (fst kv) (snd kv) m) m [] = m.
Proof. exact (object_ascending m). Qed.
Theorem json_unchanged j : a_json j -> forall p, to_py j = Some p -> plain p /\ forall j', to_json p = Some j' -> j' = j.
Proof.
  induction j as [|b|z|f|s|l IH|m IH] using json_full_ind; intros Hj p E; cbn [to_py] in E.
  - injection E as <-. split; [constructor|]. cbn. congruence.
  - injection E as <-. split; [constructor|]. cbn. congruence.
  - injection E as <-. split; [constructor|]. cbn [PyJson_model.to_json]. destruct (_ && _)%bool; congruence.
  - injection E as <-. split; [constructor|]. cbn. congruence.
  - destruct (of_utf8 s) as [t|] eqn:Es; [|discriminate]. injection E as <-. split; [constructor|]. apply utf8_there in Es as [Es _]. cbn [PyJson_model.to_json]. rewrite Es. cbn. congruence.
  - inversion Hj as [| | | | |? Hl|]; subst. destruct (all to_py l) as [ps|] eqn:Ea; [|discriminate]. injection E as <-. apply all_some in Ea.
    assert (G : Forall plain ps /\ forall js, Forall2 (fun x y => to_json x = Some y) ps js -> js = l).
    { clear Hj. induction Ea as [|x y l m Hxy HF IHl]; [split; [constructor|inversion 1; reflexivity]|]. apply Forall_cons_iff in IH as [Hx IH], Hl as [Ax Hl]. destruct (IHl IH Hl) as [G1 G2]. destruct (Hx Ax _ Hxy) as [P1 P2].
      split; [now constructor|]. inversion 1; subst. f_equal; auto. }
    destruct G as [G1 G2]. split; [now constructor|]. cbn [PyJson_model.to_json]. intros j' E. destruct (all to_json ps) as [js|] eqn:Eb; [|discriminate]. apply all_some in Eb. apply G2 in Eb. cbn in E. congruence.
  - inversion Hj as [| | | | | |? HA Hl]; subst. change (all _ m) with (all member_py m) in E. destruct (all member_py m) as [ps|] eqn:Ea; [|discriminate]. injection E as <-. apply all_some in Ea.
    assert (G : Forall (fun kv => (exists k, fst kv = PStr k) /\ plain (snd kv)) ps /\ forall js, Forall2 (fun x y => member_json x = Some y) ps js -> js = m).
    { clear Hj HA. induction Ea as [|[k x] y l m Hxy HF IHl]; [split; [constructor|inversion 1; reflexivity]|]. apply Forall_cons_iff in IH as [Hx IH], Hl as [Ax Hl]. destruct (IHl IH Hl) as [G1 G2].
      unfold member_py in Hxy. cbn [fst snd] in *. destruct (of_utf8 k) as [t|] eqn:Ek; [|discriminate]. destruct (to_py x) as [q|] eqn:Ex; [|discriminate]. injection Hxy as <-. destruct (Hx Ax _ eq_refl) as [P1 P2].
      split; [constructor; [split; [eexists; reflexivity|exact P1]|exact G1]|]. inversion 1 as [|? [k2 v2] ? ? M1 M2]; subst. apply member_json_some in M1 as (s & Es & Us & Ev). cbn [fst snd] in *.
      apply utf8_there in Ek as [Ek _]. assert (s = t) by congruence. subst s. rewrite (P2 _ Ev). f_equal; [congruence|auto]. }
    destruct G as [G1 G2]. split; [now constructor|]. cbn [PyJson_model.to_json]. intros j' E. change (all _ ps) with (all member_json ps) in E. destruct (all member_json ps) as [js|] eqn:Eb; [|discriminate]. apply all_some in Eb. apply G2 in Eb. subst js.
    cbn [option_map] in E. rewrite fold_ascending in E by exact HA. congruence.
Qed.
Theorem json_back j : a_json j -> usual_json j -> exists p, to_py j = Some p /\ to_json p = Some j.
Proof.
  intros HA HU. assert (G : exists p, to_py j = Some p /\ fits p).
  { clear HA. induction j as [|b|z|f|s|l IH|m IH] using json_full_ind; cbn [to_py].
    - eexists. split; [reflexivity|constructor].
    - eexists. split; [reflexivity|constructor].
    - eexists. split; [reflexivity|]. inversion HU; subst. now constructor.
    - eexists. split; [reflexivity|constructor].
    - inversion HU as [| | | |? Hs| |]; subst. apply of_utf8_ok in Hs. destruct (of_utf8 s) as [t|] eqn:Es; [|congruence]. eexists. split; [reflexivity|]. constructor. apply utf8_there in Es as [Es _]. apply to_utf8_ok. congruence.
    - inversion HU as [| | | | |? Hl|]; subst. assert (G : exists ps, Forall2 (fun x y => to_py x = Some y) l ps /\ Forall fits ps).
      { clear HU. induction l as [|x l IHl]; [exists []; split; constructor|]. apply Forall_cons_iff in IH as [Hx IH], Hl as [Ux Hl]. destruct (IHl IH Hl) as (ps & H1 & H2). destruct (Hx Ux) as (p & H3 & H4).
        exists (p :: ps). split; constructor; auto. }
      destruct G as (ps & H1 & H2). apply all_some in H1. rewrite H1. eexists. split; [reflexivity|]. now constructor.
    - inversion HU as [| | | | | |? Hl]; subst. assert (G : exists ps, Forall2 (fun x y => member_py x = Some y) m ps /\ Forall (fun kv => (exists k, fst kv = PStr k /\ no_surrogate k) /\ fits (snd kv)) ps).
      { clear HU. induction m as [|[k x] l IHl]; [exists []; split; constructor|]. apply Forall_cons_iff in IH as [Hx IH], Hl as [[Uk Ux] Hl]. destruct (IHl IH Hl) as (ps & H1 & H2). cbn [fst snd] in *. destruct (Hx Ux) as (p & H3 & H4).
        apply of_utf8_ok in Uk. destruct (of_utf8 k) as [t|] eqn:Ek; [|congruence]. exists ((PStr t, p) :: ps). split; constructor; auto.
        - unfold member_py. cbn [fst snd]. rewrite Ek, H3. reflexivity.
        - cbn [fst snd]. split; [|exact H4]. exists t. split; [reflexivity|]. apply utf8_there in Ek as [Ek _]. apply to_utf8_ok. congruence. }
      destruct G as (ps & H1 & H2). apply all_some in H1. change (all _ m) with (all member_py m). rewrite H1. eexists. split; [reflexivity|]. now constructor. }
  destruct G as (p & Ep & Hf). exists p. split; [exact Ep|]. apply converts in Hf. destruct (to_json p) as [j'|] eqn:E; [|congruence]. f_equal. now apply (json_unchanged j HA p Ep).
Qed.

End Proofs.

(** ** Payloads *)
Section Payload.
Context {F : Type}.
Notation py := (py F).
Lemma data_back b : to_data (F := F) (of_data b) = PData b.
Proof. reflexivity. Qed.
Lemma list_data b : to_data (F := F) (PList (map (fun c => PInt (Z.of_N (N_of_ascii c))) b)) = PData b.
Proof.
  unfold to_data. replace (all byte_of (map (fun c => PInt (F := F) (Z.of_N (N_of_ascii c))) b)) with (Some b); [reflexivity|]. symmetry. apply all_some. induction b as [|c b IH]; cbn [map]; constructor; auto.
  unfold byte_of. pose proof (N_ascii_bounded c). rewrite (proj2 (Z.leb_le _ _)) by lia. rewrite (proj2 (Z.leb_le _ _)) by lia. cbn [andb]. rewrite N2Z.id. f_equal. apply ch_code.
Qed.
Lemma Forall2_impl' {A B} (P Q : A -> B -> Prop) l m : (forall x y, P x y -> Q x y) -> Forall2 P l m -> Forall2 Q l m.
Proof. intros H HF. induction HF; constructor; auto. Qed.
Lemma byte_element (x : py) c : byte_of x = Some c <-> element x c.
Proof.
  split.
  - destruct x; cbn [byte_of]; try discriminate.
    + intros H. assert (c = ch (if b then 1 else 0)) by congruence. subst c. destruct b; constructor.
    + destruct ((0 <=? z) && (z <=? 255))%Z eqn:E; [|discriminate]. intros H. assert (c = ch (Z.to_N z)) by congruence. subst c. apply andb_prop in E as [E1 E2]. apply Z.leb_le in E1, E2.
      replace z with (Z.of_N (N_of_ascii (ch (Z.to_N z)))) at 1; [constructor|]. unfold ch. rewrite N_ascii_embedding by lia. lia.
  - intros H. destruct H; [|reflexivity|reflexivity]. unfold byte_of. pose proof (N_ascii_bounded c). rewrite (proj2 (Z.leb_le _ _)) by lia. rewrite (proj2 (Z.leb_le _ _)) by lia. cbn [andb]. rewrite N2Z.id. f_equal. apply ch_code.
Qed.
Theorem payload_exact (p : py) b : (forall s, p = PStr s -> a_str s) -> (to_data p = PData b <-> says p b).
Proof.
  intros Hp. split.
  - destruct p; cbn [to_data]; try discriminate.
    + destruct (to_utf8 s) as [b'|] eqn:E; [|discriminate]. intros H. injection H as <-. constructor. apply utf8_back; auto.
    + intros H. injection H as <-. constructor.
    + destruct (all byte_of l) as [b'|] eqn:E; [|discriminate]. intros H. injection H as <-. constructor. apply all_some in E. eapply Forall2_impl'; [|exact E]. intros x c Hx. now apply byte_element.
  - intros H. destruct H as [b|s b Hs|l b Hl]; cbn [to_data]; [reflexivity| |].
    + apply utf8_there in Hs as [-> _]. reflexivity.
    + replace (all byte_of l) with (Some b); [reflexivity|]. symmetry. apply all_some. eapply Forall2_impl'; [|exact Hl]. intros x c Hx. now apply byte_element.
Qed.
Lemma received_bytes b b' : says (F := F) (of_data b) b' <-> b' = b.
Proof. split; [now inversion 1|intros ->; constructor]. Qed.
End Payload.
