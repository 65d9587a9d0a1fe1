(** Proofs about the command line of [trace_configure] (C118). *)
From Coq Require Import String Ascii List ZArith Bool Lia.
Import ListNotations.
From Verif Require Import Commands_model Commands_spec Commands_proofs CmdLine_model CmdLine_spec.
Open Scope string_scope.

Lemma app_empty : forall s, s ++ "" = s.
Proof. induction s; cbn; [reflexivity|]. now f_equal. Qed.
Lemma plain_A : forall w, plain w -> classify w = A w.
Proof.
  intros w P. destruct w as [|c r]; [reflexivity|]. cbn. destruct (is_char c dash) eqn:E; [|reflexivity].
  apply Ascii.eqb_eq in E. subst c. destruct (P r eq_refl).
Qed.
Lemma plain_not : forall w, plain w -> String.eqb w "--" = false.
Proof. intros w P. apply String.eqb_neq. intros ->. exact (P _ eq_refl). Qed.
Lemma plains : forall ns ws, Forall plain ns -> classify_all (ns ++ ws) = (map A ns ++ classify_all ws)%list.
Proof. induction ns as [|n ns IH]; intros ws P; [reflexivity|]. inversion P; subst. cbn [app map classify_all]. rewrite plain_not, plain_A, IH; auto. Qed.
Lemma word_plain : forall b, plain (word_for b).
Proof. intros [] r E; discriminate E. Qed.
Lemma on_off_word : forall b, on_off (word_for b) = Some b.
Proof. intros []; reflexivity. Qed.
Lemma on_off_inv : forall w b, on_off w = Some b -> w = word_for b.
Proof.
  intros w b. unfold on_off. destruct (String.eqb w "on") eqn:E; [apply String.eqb_eq in E; intros [= <-]; exact E|].
  destruct (String.eqb w "off") eqn:F; [apply String.eqb_eq in F; intros [= <-]; exact F|discriminate].
Qed.

(** ** Options *)
Definition with_u (u : option bool) (s : pst) : pst :=
  {| p_want := false; p_run := p_run s; p_taken := p_taken s; p_u := match u with Some b => Some (word_for b) | None => p_u s end |}.
Definition toks_u (ts : list tok) (u : option bool) : Prop :=
  (forall s rest, p_want s = false -> p_run s = [] -> takes (ts ++ rest) s = takes rest (with_u u s)) /\
  (forall rest, checked false (ts ++ rest) = checked false rest) /\
  (ts = [] \/ exists e r, ts = U e :: r).
Lemma one_option : forall b o, option_u b o -> exists ts, toks_u ts (Some b) /\ ts <> [] /\ forall ws, classify_all (o ++ ws) = (ts ++ classify_all ws)%list.
Proof.
  intros b o H.
  assert (K : exists ts, (ts = [U None; A (word_for b)] \/ ts = [U (Some (word_for b))]) /\ forall ws, classify_all (o ++ ws) = (ts ++ classify_all ws)%list).
  { destruct H; [exists [U None; A (word_for b)]|exists [U None; A (word_for b)]|exists [U (Some (word_for b))]|exists [U (Some (word_for b))]]; (split; [auto|]); intros ws; destruct b; reflexivity. }
  destruct K as (ts & K & C). exists ts. split; [|split; [destruct K as [->| ->]; discriminate|exact C]].
  destruct K as [->| ->]; (split; [|split; [intros rest; cbn; rewrite on_off_word; reflexivity|right; eauto]]).
  - intros s rest W R. cbn. unfold close. rewrite R. cbn. unfold with_u. rewrite R. reflexivity.
  - intros s rest W R. cbn. unfold close. rewrite R. cbn. unfold with_u. rewrite R. reflexivity.
Qed.
Lemma some_options : forall os u, options_u os u -> exists ts, toks_u ts u /\ (u = None <-> ts = []) /\ forall ws, classify_all (os ++ ws) = (ts ++ classify_all ws)%list.
Proof.
  intros os u H. induction H as [|o b os u H _ IH].
  - exists []. split; [|split; [tauto|reflexivity]]. split; [|split; auto]. intros s rest W R. cbn. f_equal. destruct s; cbn in *. subst. reflexivity.
  - destruct IH as (ts & (K1 & K2 & K3) & N & C). destruct (one_option _ _ H) as (t1 & (L1 & L2 & L3) & N1 & C1). exists (t1 ++ ts)%list. split; [split; [|split]|split].
    + intros s rest W R. rewrite <- app_assoc, L1 by assumption. rewrite K1 by (auto; reflexivity). destruct u; reflexivity.
    + intros rest. rewrite <- app_assoc, L2. apply K2.
    + right. destruct L3 as [->|(e & r & ->)]; [contradiction|]. exists e, (r ++ ts)%list. reflexivity.
    + destruct u; split; intros X; try discriminate X; apply app_eq_nil in X; tauto.
    + intros ws. rewrite <- app_assoc, C1, C, app_assoc. reflexivity.
Qed.
Lemma take_closed : forall e s s1, close s = Some s1 -> take (U e) s = take (U e) s1.
Proof.
  intros e s s1 H. cbn. rewrite H. unfold close in *. destruct (p_run s) eqn:R.
  - injection H as <-. rewrite R. reflexivity.
  - destruct (p_taken s); [discriminate|]. injection H as <-. reflexivity.
Qed.
Lemma takes_plain : forall ns rest s, p_want s = false ->
  takes (map A ns ++ rest) s = takes rest {| p_want := false; p_run := p_run s ++ map A ns; p_taken := p_taken s; p_u := p_u s |}.
Proof.
  induction ns as [|n ns IH]; intros rest s W; cbn.
  - rewrite app_nil_r. destruct s; cbn in *; subst. reflexivity.
  - rewrite W. rewrite IH by reflexivity. cbn. rewrite <- app_assoc. reflexivity.
Qed.
Lemma checked_plain : forall ns rest, checked false (map A ns ++ rest) = checked false rest.
Proof. induction ns as [|n ns IH]; intros rest; cbn; auto. Qed.
Lemma share_plain : forall n ns, share (map A (n :: ns)) = ([A n], map A ns).
Proof. intros n [|m ns]; reflexivity. Qed.
Lemma words_plain : forall ns, map word (map A ns) = ns.
Proof. intros ns. rewrite map_map. apply map_id. Qed.
Lemma undash_plain : forall ns, Forall plain ns -> undash ns = ns.
Proof. induction ns as [|n ns IH]; intros P; [reflexivity|]. inversion P; subst. cbn. rewrite plain_not, IH; auto. Qed.

(** ** Words that are arguments *)
Definition arg (w : string) : Prop := classify w = A w /\ String.eqb w "--" = false.
Lemma plain_arg : forall w, plain w -> arg w.
Proof. intros w P. split; [now apply plain_A|now apply plain_not]. Qed.
Lemma digits_all : forall s, all_digits s -> digits s = true.
Proof. intros s H. induction H as [|a r (L & R) _ IH]; [reflexivity|]. cbn [digits]. rewrite IH. unfold digit. apply Nat.leb_le in L, R. rewrite L, R. reflexivity. Qed.
Lemma not_char : forall a b, 48 <= nat_of_ascii a <= 57 -> (nat_of_ascii b < 48 \/ 57 < nat_of_ascii b) -> is_char a b = false.
Proof. intros a b H K. apply Ascii.eqb_neq. intros ->. lia. Qed.
Lemma digits_no_eq : forall s, all_digits s -> split_eq s = None.
Proof.
  intros s H. induction H as [|a r L _ IH]; [reflexivity|]. cbn [split_eq]. rewrite IH.
  rewrite not_char; [reflexivity|exact L|]. change (nat_of_ascii "="%char) with 61. lia.
Qed.
Lemma negative_arg : forall w, negative w -> arg w.
Proof.
  intros w (a & r & -> & H). assert (L : 48 <= nat_of_ascii a <= 57) by (inversion H; assumption).
  assert (Nd : is_char a dash = false) by (apply not_char; [exact L|change (nat_of_ascii dash) with 45; lia]).
  assert (Nu : is_char a "u"%char = false) by (apply not_char; [exact L|change (nat_of_ascii "u"%char) with 117; lia]).
  assert (Nh : is_char a "h"%char = false) by (apply not_char; [exact L|change (nat_of_ascii "h"%char) with 104; lia]).
  assert (Q : forall c s, is_char a c = false -> String.eqb (String "-" (String a r)) (String "-" (String c s)) = false).
  { intros c s E. apply String.eqb_neq. intros X. injection X as X _. apply Ascii.eqb_neq in E. contradiction. }
  split; [|exact (Q dash "" Nd)].
  unfold classify. change (is_char "-" dash) with true. cbn [negb].
  unfold is_u, is_h. rewrite (Q "u"%char "" Nu), (Q "-"%char "unmatched-pid" Nd), (Q "h"%char "" Nh), (Q "-"%char "help" Nd). cbn [orb].
  change (split_eq (String "-" (String a r))) with (match split_eq (String a r) with Some (o, v) => Some (String "-" o, v) | None => None end).
  rewrite (digits_no_eq _ H), Nd, Nu, Nh, (digits_all _ H). reflexivity.
Qed.
Lemma args_A : forall ns ws, Forall arg ns -> classify_all (ns ++ ws) = (map A ns ++ classify_all ws)%list.
Proof. induction ns as [|n ns IH]; intros ws P; [reflexivity|]. inversion P as [|? ? (C & E) R]; subst. cbn [app map classify_all]. rewrite E, C, IH; auto. Qed.
Lemma undash_none : forall ns, ~ In "--" ns -> undash ns = ns.
Proof.
  induction ns as [|n ns IH]; intros P; [reflexivity|]. cbn. destruct (String.eqb n "--") eqn:E.
  - apply String.eqb_eq in E. destruct P. left. exact E.
  - rewrite IH; [reflexivity|]. intros K. apply P. right. exact K.
Qed.
Lemma undash_args : forall ns, Forall arg ns -> undash ns = ns.
Proof. intros ns H. apply undash_none. intros I. rewrite Forall_forall in H. destruct (H _ I) as (_ & E). discriminate E. Qed.

Section Int.
Variable int : string -> option Z.

Lemma ints_of : forall ns zs, numerals int ns zs -> ints int ns = Some zs.
Proof. intros ns zs H. induction H as [|n z ns zs (_ & E) _ IH]; [reflexivity|]. cbn. rewrite E, IH. reflexivity. Qed.
Lemma numerals_plain : forall ns zs, numerals int ns zs -> Forall arg ns.
Proof. intros ns zs H. induction H as [|n z ns zs ([P|P] & _) _ IH]; constructor; auto using plain_arg, negative_arg. Qed.

(** ** A command line as it should be *)
Lemma well_written : forall o1 u1 o2 u2 b ns zs, options_u o1 u1 -> options_u o2 u2 -> numerals int ns zs ->
  parse int (o1 ++ word_for b :: ns ++ o2) = Runs {| ar_state := b; ar_unmatched := last_of u1 u2; ar_ids := zs |}.
Proof.
  intros o1 u1 o2 u2 b ns zs H1 H2 N. assert (P := numerals_plain _ _ N).
  destruct (some_options _ _ H1) as (t1 & (K1 & L1 & _) & _ & C1). destruct (some_options _ _ H2) as (t2 & (K2 & L2 & M2) & _ & C2).
  unfold parse. rewrite C1. change (word_for b :: (ns ++ o2))%list with ((word_for b :: ns) ++ o2)%list.
  rewrite args_A by (constructor; [apply plain_arg, word_plain|exact P]). specialize (C2 []). rewrite !app_nil_r in C2. rewrite C2.
  rewrite K1 by reflexivity. rewrite takes_plain by reflexivity.
  set (s := {| p_want := false; p_run := p_run (with_u u1 pst0) ++ map A (word_for b :: ns); p_taken := p_taken (with_u u1 pst0); p_u := p_u (with_u u1 pst0) |}).
  assert (CH : checked false (t1 ++ map A (word_for b :: ns) ++ t2) = true).
  { rewrite L1, checked_plain. specialize (L2 []). rewrite app_nil_r in L2. rewrite L2. reflexivity. }
  set (s1 := {| p_want := false; p_run := []; p_taken := Some ([A (word_for b)], map A ns); p_u := p_u (with_u u1 pst0) |}).
  assert (CL : close s = Some s1).
  { unfold close, s, s1. cbn. destruct ns; reflexivity. }
  assert (E : exists s2, takes t2 s = Some s2 /\ close s2 = Some (with_u u2 s1)).
  { destruct M2 as [->|(e & r & ->)].
    - exists s. split; [reflexivity|]. specialize (K2 s1 [] eq_refl eq_refl). cbn [app takes] in K2. injection K2 as K2. rewrite CL. f_equal. unfold s1 at 1, with_u. cbn. unfold with_u in K2. cbn in K2. congruence.
    - exists (with_u u2 s1). specialize (K2 s1 [] eq_refl eq_refl). rewrite app_nil_r in K2. split; [|reflexivity].
      change (takes (U e :: r) s) with (match take (U e) s with Some s' => takes r s' | None => None end). rewrite (take_closed _ _ _ CL). exact K2. }
  destruct E as (s2 & -> & ->). rewrite CH. cbn [negb with_u p_taken s1 p_u]. rewrite words_plain, (undash_args _ P), (ints_of _ _ N).
  cbn [map word undash]. rewrite plain_not by apply word_plain. rewrite on_off_word. f_equal. f_equal.
  destruct u1 as [v1|], u2 as [v2|]; cbn; rewrite ?on_off_word; reflexivity.
Qed.
(** With [--] before the state or after it, whatever the numbers look like. *)
Lemma dashes : forall o1 u1 b ns zs, options_u o1 u1 -> ~ In "--" ns -> ints int ns = Some zs ->
  parse int (o1 ++ "--" :: word_for b :: ns) = Runs {| ar_state := b; ar_unmatched := u1; ar_ids := zs |} /\
  parse int (o1 ++ word_for b :: "--" :: ns) = Runs {| ar_state := b; ar_unmatched := u1; ar_ids := zs |}.
Proof.
  intros o1 u1 b ns zs H1 P N. destruct (some_options _ _ H1) as (t1 & (K1 & L1 & _) & _ & C1). unfold parse. rewrite !C1.
  assert (X1 : classify_all ("--" :: word_for b :: ns) = D :: map A (word_for b :: ns)) by reflexivity.
  assert (X2 : classify_all (word_for b :: "--" :: ns) = A (word_for b) :: D :: map A ns) by (destruct b; reflexivity).
  assert (J : forall l, takes (map A l) = takes (map A l ++ [])) by (intros l; rewrite app_nil_r; reflexivity).
  assert (Q : forall l, checked false (map A l) = true) by (intros l; rewrite <- (app_nil_r (map A l)); apply checked_plain).
  rewrite X1, X2, !K1 by reflexivity. split.
  - cbn [takes take]. rewrite J, takes_plain by reflexivity. cbn [takes]. rewrite L1. cbn [checked]. rewrite Q.
    cbn. rewrite words_plain, (undash_none _ P), N. rewrite on_off_word. destruct u1; cbn; rewrite ?on_off_word; reflexivity.
  - cbn [takes take with_u p_want pst0]. rewrite J, takes_plain by reflexivity. cbn [takes]. rewrite L1. cbn [checked]. rewrite Q.
    cbn. rewrite words_plain, (undash_none _ P), N. rewrite plain_not by apply word_plain. cbn. rewrite on_off_word. destruct u1; cbn; rewrite ?on_off_word; reflexivity.
Qed.
Lemma only_options : forall o u, options_u o u -> parse int o = Runs {| ar_state := false; ar_unmatched := u; ar_ids := [] |}.
Proof.
  intros o u H. destruct (some_options _ _ H) as (t & (K & L & _) & _ & C). unfold parse. specialize (C []). specialize (L []). specialize (K pst0 [] eq_refl eq_refl).
  rewrite !app_nil_r in *. rewrite C, K, L. cbn. destruct u; cbn; rewrite ?on_off_word; reflexivity.
Qed.

(** ** Arguments in two places *)
Lemma stuck : forall ts s, p_want s = false -> p_run s <> [] -> p_taken s <> None -> forall s', takes ts s = Some s' -> close s' = None.
Proof.
  induction ts as [|t ts IH]; intros s W R T s' D; cbn in D.
  - injection D as <-. unfold close. destruct (p_run s); [contradiction|]. destruct (p_taken s); [reflexivity|contradiction].
  - destruct t; cbn in D.
    + rewrite W in D. apply IH in D; auto. cbn. destruct (p_run s); discriminate.
    + apply IH in D; auto. cbn. destruct (p_run s); discriminate.
    + unfold close in D. destruct (p_run s); [contradiction|]. destruct (p_taken s); [discriminate|contradiction].
    + discriminate.
Qed.
Lemma two_places : forall o1 u1 p1 o u p2 rest, options_u o1 u1 -> options_u o (Some u) -> p1 <> [] -> p2 <> [] -> Forall plain p1 -> Forall plain p2 ->
  parse int (o1 ++ p1 ++ o ++ p2 ++ rest) = Stops.
Proof.
  intros o1 u1 p1 o u p2 rest H1 H N1 N2 P1 P2.
  destruct (some_options _ _ H1) as (t1 & (K1 & _) & _ & C1). destruct (some_options _ _ H) as (t2 & (K2 & _ & M2) & N & C2).
  unfold parse. rewrite C1, plains, C2, plains by assumption. rewrite K1 by reflexivity. rewrite takes_plain by reflexivity.
  set (s := {| p_want := false; p_run := _; p_taken := _; p_u := _ |}).
  assert (CL : exists s1, close s = Some s1 /\ p_taken s1 <> None /\ p_run s1 = [] /\ p_want s1 = false).
  { unfold close, s. cbn. destruct p1 as [|w p1]; [contradiction|]. cbn. eexists. split; [reflexivity|]. cbn. repeat split; discriminate. }
  destruct CL as (s1 & CL & T1 & R1 & W1).
  assert (E : takes (t2 ++ map A p2 ++ classify_all rest) s = takes (t2 ++ map A p2 ++ classify_all rest) s1).
  { destruct M2 as [->|(e & r & ->)]; [destruct N as [_ N]; specialize (N eq_refl); discriminate N|].
    change (takes (U e :: (r ++ map A p2 ++ classify_all rest)) s = takes (U e :: (r ++ map A p2 ++ classify_all rest)) s1).
    cbn [takes]. rewrite (take_closed _ _ _ CL). reflexivity. }
  rewrite E, K2 by assumption. rewrite takes_plain by reflexivity.
  destruct (takes (classify_all rest) _) as [s'|] eqn:D; [|reflexivity].
  assert (CN : close s' = None).
  { eapply stuck; [| | |exact D]; cbn; [reflexivity| |exact T1]. rewrite R1. destruct p2; [contradiction|discriminate]. }
  rewrite CN. reflexivity.
Qed.

(** ** The first argument *)
Lemma first_stays : forall ts w s, p_want s = false -> (p_taken s = None /\ (exists r, p_run s = A w :: r) \/ exists r, p_taken s = Some ([A w], r) \/ p_taken s = Some ([A w; D], r)) ->
  forall s', takes ts s = Some s' -> (p_taken s' = None /\ (exists r, p_run s' = A w :: r) \/ exists r, p_taken s' = Some ([A w], r) \/ p_taken s' = Some ([A w; D], r)).
Proof.
  intros ts w s _. revert s. induction ts as [|t ts IH]; intros s I s' D; cbn in D; [injection D as <-; exact I|].
  destruct (take t s) as [s1|] eqn:E; [|discriminate]. apply (IH s1); auto. clear IH D.
  destruct t; cbn in E.
  - destruct (p_want s); injection E as <-; cbn; destruct I as [(T & r & R)|I]; auto; left; split; auto; rewrite R; cbn; eauto.
  - injection E as <-. cbn. destruct I as [(T & r & R)|I]; auto. left. split; auto. rewrite R. cbn. eauto.
  - destruct (close s) as [s2|] eqn:C; [|discriminate]. injection E as <-. cbn. right. unfold close in C. destruct I as [(T & r & R)|(r & I)].
    + rewrite R, T in C. injection C as <-. cbn. destruct r as [|[]]; cbn; eauto.
    + destruct (p_run s); [injection C as <-; eauto|]. destruct (p_taken s); [discriminate|]. destruct I; discriminate.
  - discriminate.
Qed.
Lemma first_word : forall o1 u1 w rest, options_u o1 u1 -> plain w -> on_off w = None -> parse int (o1 ++ w :: rest) = Stops.
Proof.
  intros o1 u1 w rest H P N. destruct (some_options _ _ H) as (t1 & (K1 & _) & _ & C1). unfold parse. rewrite C1. change (w :: rest) with ([w] ++ rest)%list.
  rewrite plains by auto. rewrite K1 by reflexivity. rewrite takes_plain by reflexivity.
  destruct (takes (classify_all rest) _) as [s'|] eqn:TK; [|reflexivity]. apply (first_stays _ w) in TK; [|reflexivity|left; cbn; split; eauto].
  destruct (close s') as [s''|] eqn:C; [|reflexivity]. destruct (negb _); [reflexivity|].
  assert (I : exists r, p_taken s'' = Some ([A w], r) \/ p_taken s'' = Some ([A w; D], r)).
  { unfold close in C. destruct TK as [(T & r & R)|(r & I)].
    - rewrite R, T in C. injection C as <-. cbn. destruct r as [|[]]; cbn; eauto.
    - destruct (p_run s'); [injection C as <-; eauto|]. destruct (p_taken s'); [discriminate|]. destruct I; discriminate. }
  destruct I as (r & [-> | ->]); cbn [map word undash]; rewrite (plain_not _ P), ?String.eqb_refl; rewrite N; destruct (ints int _); reflexivity.
Qed.

(** ** What runs was written *)
Inductive sub {B} : list B -> list B -> Prop :=
  | sub_nil l : sub [] l
  | sub_in x l m : sub l m -> sub (x :: l) (x :: m)
  | sub_out x l m : sub l m -> sub l (x :: m).
Lemma sub_snoc : forall B (l m : list B) x, sub l m -> sub (l ++ [x]) (m ++ [x]).
Proof.
  intros B l m x H. induction H; cbn; [|constructor; auto|constructor; auto].
  induction l; cbn; [repeat constructor|now constructor].
Qed.
Lemma sub_more : forall B (l m : list B) x, sub l m -> sub l (m ++ [x]).
Proof. intros B l m x H. induction H; cbn; constructor; auto. Qed.
Lemma sub_refl : forall B (l : list B), sub l l.
Proof. induction l; constructor; auto. Qed.
Lemma sub_trans : forall B (m l n : list B), sub l m -> sub m n -> sub l n.
Proof.
  intros B m l n H1 H2. revert l H1. induction H2; intros k H1; inversion H1; subst; try constructor; auto; try (apply IHsub; auto).
Qed.
Lemma sub_app : forall B (a b c d : list B), sub a b -> sub c d -> sub (a ++ c) (b ++ d).
Proof. intros B a b c d H K. induction H; cbn; try (constructor; auto; fail). induction l; cbn; auto. constructor. auto. Qed.
Lemma sub_in_in : forall B (l m : list B) x, sub l m -> In x l -> In x m.
Proof. intros B l m x H. induction H; cbn; intros X; auto; [destruct X|destruct X; auto]. Qed.
Lemma sub_head : forall B (l m : list B) x, sub (x :: l) m -> exists a b, m = (a ++ x :: b)%list /\ sub l b.
Proof.
  intros B l m x H. remember (x :: l) as k eqn:E. revert l x E. induction H; intros k y E.
  - discriminate E.
  - injection E as -> ->. exists [], m. auto.
  - destruct (IHsub _ _ E) as (a & b & -> & S1). exists (x :: a), b. auto.
Qed.
Lemma undash_sub : forall l, sub (undash l) l.
Proof. induction l as [|w l IH]; cbn; [constructor|]. destruct (String.eqb w "--"); constructor; auto. apply sub_refl. Qed.

Definition from (w : string) (t : tok) : Prop :=
  match t with A v => v = w | D => w = "--" | U e => like_u w /\ match e with Some v => ends_in w v | None => True end | X => True end.
Lemma split_eq_app : forall w o v, split_eq w = Some (o, v) -> w = o ++ String "="%char v.
Proof.
  induction w as [|c w IH]; intros o v E; cbn in E; [discriminate|]. destruct (is_char c "="%char) eqn:F.
  - injection E as <- <-. apply Ascii.eqb_eq in F. subst. reflexivity.
  - destruct (split_eq w) as [[o' v']|] eqn:G; [|discriminate]. injection E as <- <-. cbn. f_equal. now apply IH.
Qed.
Lemma ends_after : forall o v, ends_in (o ++ String "="%char v) v.
Proof. intros o v. exists (o ++ "="). induction o; cbn; [reflexivity|]. now f_equal. Qed.
Lemma is_u_like : forall o r, is_u o = true -> like_u (o ++ r).
Proof.
  intros o r H. unfold is_u in H. apply orb_true_iff in H as [H|H]; apply String.eqb_eq in H; subst o; [left|right]; cbn; eauto.
Qed.
Lemma prefix_u : forall q, prefix (String "-" (String "-" q)) "--unmatched-pid" = true -> prefix (String "-" (String "-" q)) "--help" = false -> exists r, q = String "u" r.
Proof.
  intros q H N. destruct q as [|c q]; [discriminate N|]. exists q. f_equal. clear N. cbn in H. destruct (ascii_dec c "u"); [auto|discriminate].
Qed.
Lemma classify_from : forall w, from w (classify w).
Proof.
  intros w. destruct w as [|c r]; [reflexivity|]. unfold classify. destruct (is_char c dash) eqn:C; cbn [negb]; [|reflexivity].
  apply Ascii.eqb_eq in C. subst c. destruct (is_u (String dash r)) eqn:IU.
  { split; auto. rewrite <- (app_empty (String dash r)). now apply is_u_like. }
  destruct (is_h (String dash r)) eqn:IH; [exact I|]. destruct r as [|c2 rest]; [reflexivity|].
  set (w := String dash (String c2 rest)).
  assert (SU : is_char c2 "u"%char = true -> from w (U (Some rest))).
  { intros E. apply Ascii.eqb_eq in E. subst c2. split; [left; exists rest; reflexivity|]. exists "-u". reflexivity. }
  assert (LO : forall p v, (exists q, w = p ++ q /\ match v with Some x => ends_in w x | None => True end) -> is_char c2 dash = true ->
     (exists q, p = String dash (String dash q) \/ prefix p "--help" = true) -> from w (if prefix p "--unmatched-pid" || prefix p "--help" then short_for p v else if spaced w then A w else X)).
  { intros p v (q & E & EV) E2 (q' & Q). destruct (prefix p "--unmatched-pid" || prefix p "--help"); [|destruct (spaced w); [reflexivity|exact I]].
    unfold short_for. destruct (prefix p "--unmatched-pid") eqn:P1; [|exact I]. destruct (prefix p "--help") eqn:P2; [exact I|].
    split; [|destruct v; auto]. destruct Q as [->|Q]; [|discriminate Q]. destruct (prefix_u _ P1 P2) as (r & ->). right. exists (r ++ q). rewrite E. reflexivity. }
  destruct (split_eq w) as [[o v]|] eqn:SE.
  - apply split_eq_app in SE. destruct (is_u o) eqn:U1; [split; [rewrite SE; now apply is_u_like|rewrite SE; apply ends_after]|].
    destruct (is_h o); [exact I|]. destruct (is_char c2 dash) eqn:C2.
    + apply LO; auto; [exists (String "="%char v); split; auto; rewrite SE; apply ends_after|].
      apply Ascii.eqb_eq in C2. subst c2. destruct o as [|a [|a2 o]]; [exists ""; auto|..].
      * exists "". right. unfold w in SE. cbn in SE. injection SE as <- SE. reflexivity.
      * exists o. left. unfold w in SE. cbn in SE. injection SE as <- <- _. reflexivity.
    + destruct (is_char c2 "u"%char) eqn:C3; [now apply SU|]. destruct (is_char c2 "h"%char); [exact I|]. destruct (spaced w); [reflexivity|exact I].
  - destruct (is_char c2 dash) eqn:C2.
    + apply LO; auto; [exists ""; split; auto; symmetry; apply app_empty|]. apply Ascii.eqb_eq in C2. subst c2. exists rest. left. reflexivity.
    + destruct (is_char c2 "u"%char) eqn:C3; [now apply SU|]. destruct (is_char c2 "h"%char); [exact I|].
      destruct (digits (String c2 rest) || decimal (String c2 rest)); [reflexivity|]. destruct (spaced w); [reflexivity|exact I].
Qed.
Lemma all_from : forall ws, Forall2 from ws (classify_all ws).
Proof.
  induction ws as [|w ws IH]; cbn; [constructor|]. destruct (String.eqb w "--") eqn:E.
  - constructor; [now apply String.eqb_eq in E|]. clear IH. induction ws; constructor; auto. reflexivity.
  - constructor; auto. apply classify_from.
Qed.
Definition flat (s : pst) : list tok := ((match p_taken s with Some (a, b) => a ++ b | None => [] end) ++ p_run s)%list.
Definition u_from (pre : list string) (v : string) : Prop :=
  exists x w y, pre = (x ++ w :: y)%list /\ like_u w /\ (ends_in w v \/ exists y', y = v :: y').
Record came (pre : list string) (s : pst) : Prop := {
  cm_sub : sub (map word (flat s)) pre;
  cm_want : p_want s = true -> exists x w, pre = (x ++ [w])%list /\ like_u w;
  cm_u : forall v, p_u s = Some v -> u_from pre v
}.
Lemma u_from_more : forall pre v w, u_from pre v -> u_from (pre ++ [w]) v.
Proof.
  intros pre v w (x & a & y & -> & L & E). exists x, a, (y ++ [w])%list. split; [rewrite <- app_assoc; reflexivity|]. split; auto.
  destruct E as [E|(y' & ->)]; auto. right. exists (y' ++ [w])%list. reflexivity.
Qed.
Lemma share_app : forall run, (fst (share run) ++ snd (share run))%list = run.
Proof. intros [|[] [|[] r]]; reflexivity. Qed.
Lemma close_flat : forall s s', close s = Some s' -> flat s' = flat s /\ p_u s' = p_u s /\ (p_run s' = []).
Proof.
  intros s s' C. unfold close in C. destruct (p_run s) as [|t r] eqn:R; [injection C as <-; auto|]. destruct (p_taken s) eqn:T; [discriminate|]. injection C as <-.
  unfold flat. rewrite R, T. cbn [p_taken p_run p_u]. rewrite app_nil_r. split; [|auto]. destruct t, r as [|[] r]; reflexivity.
Qed.
Lemma take_came : forall pre w t s s', from w t -> came pre s -> take t s = Some s' -> came (pre ++ [w]) s'.
Proof.
  intros pre w t s s' F [S W Us] T. destruct t; cbn in T.
  - cbn in F. subst w0. destruct (p_want s) eqn:E; injection T as <-; constructor; cbn.
    + apply sub_more. exact S.
    + discriminate.
    + intros v [= <-]. destruct (W eq_refl) as (x & a & -> & L). exists x, a, [w]. split; [rewrite <- app_assoc; reflexivity|]. split; auto. right. exists []. reflexivity.
    + unfold flat in *. cbn. rewrite app_assoc, map_app. apply (sub_snoc _ _ _ w). exact S.
    + discriminate.
    + intros v V. apply u_from_more. auto.
  - cbn in F. subst w. injection T as <-. constructor; cbn.
    + unfold flat in *. cbn. rewrite app_assoc, map_app. apply (sub_snoc _ _ _ "--"). exact S.
    + discriminate.
    + intros v V. apply u_from_more. auto.
  - destruct (close s) as [s1|] eqn:C; [|discriminate]. injection T as <-. destruct (close_flat _ _ C) as (FL & _ & R). destruct F as (L & V). constructor; cbn.
    + unfold flat in *. cbn. rewrite R in FL. rewrite FL. apply sub_more. exact S.
    + intros _. eauto.
    + intros v ->. exists pre, w, []. auto.
  - discriminate.
Qed.
Lemma takes_came : forall ws ts, Forall2 from ws ts -> forall pre s s', came pre s -> takes ts s = Some s' -> came (pre ++ ws) s'.
Proof.
  intros ws ts F. induction F as [|w t ws ts H _ IH]; intros pre s s' C T; cbn in T.
  - injection T as <-. rewrite app_nil_r. exact C.
  - destruct (take t s) as [s1|] eqn:E; [|discriminate]. change (w :: ws) with ([w] ++ ws)%list. rewrite app_assoc. apply (IH _ s1); auto. apply (take_came _ _ t s); auto.
Qed.
Lemma ints_in : forall l zs, ints int l = Some zs -> forall z, In z zs -> exists w, In w l /\ int w = Some z.
Proof.
  induction l as [|w l IH]; intros zs E z Z; cbn in E; [injection E as <-; destruct Z|].
  destruct (int w) as [y|] eqn:I; [|discriminate]. destruct (ints int l) as [ys|] eqn:J; [|discriminate]. injection E as <-.
  destruct Z as [<-|Z]; [exists w; cbn; auto|]. destruct (IH _ eq_refl z Z) as (v & V & X). exists v. cbn. auto.
Qed.
(** The word [--] is the first of a run only as the one that ends the options. *)
Definition lead (l : list tok) : Prop := match l with [] | D :: _ => True | A w :: _ => w <> "--" | _ => False end.
Definition shaped (g : list tok * list tok) : Prop := exists run, g = share run /\ lead run.
Record neat (s : pst) : Prop := { nt_run : lead (p_run s); nt_taken : forall g, p_taken s = Some g -> shaped g }.
Lemma neat_run : forall s want t u, neat s -> lead [t] -> neat {| p_want := want; p_run := p_run s ++ [t]; p_taken := p_taken s; p_u := u |}.
Proof. intros s want t u [H K] N. constructor; auto. cbn. destruct (p_run s) as [|x r]; auto. Qed.
Lemma neat_close : forall s s', neat s -> close s = Some s' -> neat s'.
Proof.
  intros s s' [H K] C. unfold close in C. destruct (p_run s) as [|t r] eqn:R; [injection C as <-; constructor; [rewrite R; exact H|exact K]|].
  destruct (p_taken s); [discriminate|]. injection C as <-. constructor; cbn; [exact I|]. intros g [= <-]. exists (t :: r). auto.
Qed.
Lemma neat_take : forall t s s', neat s -> t <> A "--" -> take t s = Some s' -> neat s'.
Proof.
  intros t s s' H N T. destruct t; cbn [take] in T.
  - destruct (p_want s); injection T as <-; [destruct H; constructor; auto|apply neat_run; auto; cbn; congruence].
  - injection T as <-. apply neat_run; auto. exact I.
  - destruct (close s) as [s1|] eqn:C; [|discriminate]. injection T as <-. destruct (neat_close _ _ H C). constructor; auto. exact I.
  - discriminate.
Qed.
Lemma neat_end : forall r s s', neat s -> p_run s <> [] -> p_want s = false -> takes (map A r) s = Some s' -> neat s'.
Proof.
  intros r s s' [H K] R W T. assert (E := takes_plain r [] s W). rewrite app_nil_r in E. rewrite E in T. cbn [takes] in T. injection T as <-. constructor; auto.
  cbn. destruct (p_run s); [contradiction|]. exact H.
Qed.
Lemma neat_takes : forall ws s s', neat s -> takes (classify_all ws) s = Some s' -> neat s'.
Proof.
  induction ws as [|w ws IH]; intros s s' H T; [injection T as <-; exact H|]. cbn [classify_all] in T. destruct (String.eqb w "--") eqn:E.
  - cbn [takes take] in T. apply neat_end in T; auto; [apply neat_run; [exact H|exact I]|]. cbn. destruct (p_run s); discriminate.
  - cbn [takes] in T. destruct (take (classify w) s) as [s1|] eqn:F; [|discriminate]. apply (IH s1); auto. apply (neat_take _ _ _ H) in F; auto.
    assert (X := classify_from w). intros Y. rewrite Y in X. cbn in X. subst w. discriminate E.
Qed.
Lemma no_numbers : forall st is, shaped (st, is) -> undash (map word st) = [] -> is = [].
Proof.
  intros st is (run & E & N) U. destruct run as [|t [|t' r]]; cbn in E.
  - now injection E as _ ->.
  - destruct t; now injection E as _ ->.
  - destruct t as [w| |e|]; cbn in N; try contradiction.
    + exfalso. apply String.eqb_neq in N. destruct t' as [w'| |e'|]; injection E as -> _; cbn in U; rewrite N in U; discriminate U.
    + injection E as -> _. discriminate U.
Qed.
Lemma runs_written : forall ws a, parse int ws = Runs a -> written int ws a.
Proof.
  intros ws a H. unfold parse in H. destruct (takes (classify_all ws) pst0) as [s|] eqn:T; [|discriminate].
  assert (C0 : came [] pst0) by (constructor; cbn; [constructor|discriminate|discriminate]).
  assert (CM := takes_came _ _ (all_from ws) _ _ _ C0 T). cbn in CM.
  destruct (close s) as [s'|] eqn:C; [|discriminate]. destruct (close_flat _ _ C) as (FL & PU & R).
  destruct (negb (checked false (classify_all ws))); [discriminate|].
  destruct (match p_taken s' with Some g => g | None => ([], []) end) as [st is] eqn:G.
  assert (SB : sub (map word st ++ map word is) ws).
  { rewrite <- map_app. replace (st ++ is)%list with (flat s'); [rewrite FL; exact (cm_sub _ _ CM)|].
    unfold flat. rewrite R, app_nil_r. destruct (p_taken s') as [[x y]|]; injection G as <- <-; reflexivity. }
  assert (SB2 : sub (undash (map word st) ++ undash (map word is)) ws) by (eapply sub_trans; [|exact SB]; apply sub_app; apply undash_sub).
  assert (UM : forall b, match p_u s' with Some w => on_off w | None => None end = Some b -> u_from ws (word_for b)).
  { intros b E. destruct (p_u s') as [w|] eqn:P; [|discriminate]. apply on_off_inv in E. subst w. apply (cm_u _ _ CM). congruence. }
  destruct (undash (map word st)) as [|w [|w' l]] eqn:ST.
  - destruct (ints int (undash (map word is))) as [zs|] eqn:E; [|discriminate]. injection H as <-. split; [|exact UM]. cbn. intros NZ. exfalso. apply NZ.
    (* no word for the state: there is none for the numbers *)
    assert (IS : is = []).
    { destruct (p_taken s') as [g|] eqn:TK; [|now injection G as _ <-]. subst g. apply (no_numbers st); auto.
      assert (NT : neat s') by (apply (neat_close s); auto; apply (neat_takes ws pst0); auto; constructor; cbn; [exact I|discriminate]). exact (nt_taken _ NT _ TK). }
    subst is. cbn in E. congruence.
  - destruct (ints int (undash (map word is))) as [zs|] eqn:E; [|discriminate]. destruct (on_off w) as [b|] eqn:O; [|discriminate]. injection H as <-.
    split; [|exact UM]. cbn. intros _. apply on_off_inv in O. subst w. apply sub_head in SB2 as (x & y & -> & S2). exists x, y. split; auto.
    intros z Z. destruct (ints_in _ _ E z Z) as (v & V & I). exists v. split; auto. exact (sub_in_in _ _ _ _ S2 V).
  - destruct (ints int (undash (map word is))); discriminate.
Qed.
End Int.

(** ** What becomes of the processes *)
Lemma refl_servers : forall (P : server -> server -> Prop) l, (forall s, P s s) -> Forall2 P l l.
Proof. intros P l H. induction l; constructor; auto. Qed.
Lemma weaker : forall (P Q : server -> server -> Prop) l m, (forall s s', P s s' -> Q s s') -> Forall2 P l m -> Forall2 Q l m.
Proof. intros P Q l m H F. induction F; constructor; auto. Qed.
Lemma unlisted : forall int ws l, (forall w, In w ws -> ~ like_u w) -> Forall reachable l ->
  (forall s junk w, In s l -> sv_tell s = TooLate junk -> In w ws -> int w <> Some junk) ->
  Forall2 (fun s s' => s' = s \/ exists a, written int ws a /\ ar_unmatched a = None /\ carried_out a s s') l (fst (command int ws l)).
Proof.
  intros int ws l NU R J. unfold command. destruct (parse int ws) as [a|] eqn:E; [|apply refl_servers; auto].
  assert (W := runs_written _ _ _ E). destruct W as (W1 & W2).
  assert (U : ar_unmatched a = None).
  { destruct (ar_unmatched a) as [b|] eqn:U; auto. destruct (W2 b eq_refl) as (x & w & y & -> & L & _). destruct (NU w); auto. apply in_or_app. right. now left. }
  assert (NW := never_wrong a l R U). eapply weaker; [|apply NW].
  - intros s s' [X|X]; [left; exact X|right; exists a]. split; [exact (conj W1 W2)|auto].
  - intros s junk I T X. unfold asks in X. destruct W1 as (x & y & -> & Y); [intros Z; rewrite Z in X; destruct X|].
    destruct (Y _ X) as (w & Iw & N). apply (J s junk w); auto. apply in_or_app. right. now right.
Qed.
Lemma with_same : forall s, with_cfg s (sv_cfg s) = s.
Proof. intros []; reflexivity. Qed.
Lemma asks_nothing : forall a l, ar_ids a = [] -> ar_unmatched a = None -> fst (trace_configure a l) = l.
Proof.
  intros a l I U. unfold trace_configure. destruct (manage _ l) as [ses|] eqn:M; [|reflexivity]. apply manage_fst in M. subst l.
  assert (C1 : forall se, fst (configure1 a se) = fst se).
  { intros (s & es). unfold configure1. destruct (has trace_configurator es); [|reflexivity]. destruct (has process_info es); [|reflexivity].
    destruct (ask_info s) as [i|]; [|reflexivity]. assert (CH : change a i = Config_model.CChange false false []).
    { unfold change, listed. rewrite I, U. cbn. f_equal. induction (snd i); cbn; auto. }
    rewrite CH. cbn. destruct (sv_obey s) as [|[]|[]]; cbn; rewrite ?with_same; reflexivity. }
  assert (C : fst (configure a ses) = map fst ses).
  { induction ses as [|se ses IH]; [reflexivity|]. cbn [configure map]. specialize (C1 se). destruct (configure1 a se) as [s r]. cbn in C1. subst s.
    destruct r; [destruct (configure a ses)|reflexivity|destruct (configure a ses)|destruct (configure a ses)]; cbn in *; congruence. }
  destruct (configure a ses) as [ss [[es n]|]]; exact C.
Qed.
Lemma only_asks : forall int ws l, (forall w, In w ws -> ~ like_u w) -> ~ In "on" ws -> ~ In "off" ws -> fst (command int ws l) = l.
Proof.
  intros int ws l NU N1 N2. unfold command. destruct (parse int ws) as [a|] eqn:E; [|reflexivity]. destruct (runs_written _ _ _ E) as (W1 & W2). apply asks_nothing.
  - destruct (ar_ids a); auto. exfalso. destruct W1 as (x & y & -> & _); [discriminate|]. destruct (ar_state a); [apply N1|apply N2]; apply in_or_app; right; now left.
  - destruct (ar_unmatched a) as [b|] eqn:U; auto. destruct (W2 b eq_refl) as (x & w & y & -> & L & _). destruct (NU w); auto. apply in_or_app. right. now left.
Qed.
Lemma carried : forall int o1 u1 o2 u2 b ns zs l, options_u o1 u1 -> options_u o2 u2 -> numerals int ns zs ->
  command int (o1 ++ word_for b :: ns ++ o2) l = trace_configure {| ar_state := b; ar_unmatched := last_of u1 u2; ar_ids := zs |} l.
Proof. intros int o1 u1 o2 u2 b ns zs l H1 H2 N. unfold command. rewrite (well_written _ _ _ _ _ _ _ _ H1 H2 N). reflexivity. Qed.
Lemma stops_two : forall int o1 u1 p1 o u p2 rest l, options_u o1 u1 -> options_u o (Some u) -> p1 <> [] -> p2 <> [] -> Forall plain p1 -> Forall plain p2 ->
  command int (o1 ++ p1 ++ o ++ p2 ++ rest) l = (l, None).
Proof. intros. unfold command. erewrite two_places; eauto. Qed.
Lemma stops_first : forall int o1 u1 w rest l, options_u o1 u1 -> plain w -> w <> "on" -> w <> "off" -> command int (o1 ++ w :: rest) l = (l, None).
Proof.
  intros int o1 u1 w rest l H P N1 N2. unfold command. erewrite first_word; eauto. unfold on_off.
  apply String.eqb_neq in N1, N2. rewrite N1, N2. reflexivity.
Qed.

Lemma ints_all : forall int ns zs, Forall2 (fun w z => int w = Some z) ns zs -> ints int ns = Some zs.
Proof. intros int ns zs H. induction H as [|n z ns zs E _ IH]; [reflexivity|]. cbn. rewrite E, IH. reflexivity. Qed.
Lemma carried_dashes : forall int o u b ns zs l, options_u o u -> ~ In "--" ns -> Forall2 (fun w z => int w = Some z) ns zs ->
  command int (o ++ "--" :: word_for b :: ns) l = trace_configure {| ar_state := b; ar_unmatched := u; ar_ids := zs |} l /\
  command int (o ++ word_for b :: "--" :: ns) l = trace_configure {| ar_state := b; ar_unmatched := u; ar_ids := zs |} l.
Proof.
  intros int o u b ns zs l H P N. destruct (dashes int _ _ b _ _ H P (ints_all _ _ _ N)) as (E1 & E2). unfold command. rewrite E1, E2. split; reflexivity.
Qed.

(** ** Lines that are refused as a whole *)
Lemma classify_before : forall x y, ~ In "--" x -> classify_all (x ++ y) = (map classify x ++ classify_all y)%list.
Proof.
  induction x as [|w x IH]; intros y N; [reflexivity|]. cbn [app map classify_all]. destruct (String.eqb w "--") eqn:E.
  - apply String.eqb_eq in E. destruct N. left. exact E.
  - rewrite IH; [reflexivity|]. intros I. apply N. right. exact I.
Qed.
Lemma takes_X : forall x y s, takes (x ++ X :: y) s = None.
Proof. induction x as [|t x IH]; intros y s; [reflexivity|]. cbn. destruct (take t s); auto. Qed.
Lemma X_stops : forall int x w y l, ~ In "--" x -> w <> "--" -> classify w = X -> command int (x ++ w :: y) l = (l, None).
Proof.
  intros int x w y l N E C. unfold command, parse. rewrite classify_before by exact N. cbn [classify_all]. apply String.eqb_neq in E. rewrite E, C, takes_X. reflexivity.
Qed.
Lemma help_X : forall w, asks_help w -> w <> "--" /\ classify w = X.
Proof. intros w [->| ->]; (split; [discriminate|reflexivity]). Qed.
Lemma no_eq : forall s, without [" "; "="]%char s -> split_eq s = None /\ spaced s = false.
Proof.
  intros s H. induction H as [|a r N _ (E1 & E2)]; [split; reflexivity|]. cbn [split_eq spaced]. rewrite E1, E2.
  assert (K1 : is_char a "="%char = false) by (apply Ascii.eqb_neq; intros ->; apply N; right; left; reflexivity).
  assert (K2 : is_char a " "%char = false) by (apply Ascii.eqb_neq; intros ->; apply N; left; reflexivity).
  rewrite K1, K2. split; reflexivity.
Qed.
Lemma unknown_X : forall w, unknown w -> w <> "--" /\ classify w = X.
Proof.
  intros w (a & r & -> & N & G & W). destruct (no_eq _ W) as (E1 & E2).
  assert (K : forall b, In b ["u"; "h"; "."; "-"]%char -> is_char a b = false) by (intros b I; apply Ascii.eqb_neq; intros ->; exact (N I)).
  assert (Nd : is_char a dash = false) by (apply K; cbn; tauto).
  assert (Nu : is_char a "u"%char = false) by (apply K; cbn; tauto).
  assert (Nh : is_char a "h"%char = false) by (apply K; cbn; tauto).
  assert (Np : is_char a "."%char = false) by (apply K; cbn; tauto).
  assert (Ng : digit a = false).
  { unfold digit. apply andb_false_iff. rewrite !Nat.leb_gt. lia. }
  assert (Q : forall c s, is_char a c = false -> String.eqb (String "-" (String a r)) (String "-" (String c s)) = false).
  { intros c s E. apply String.eqb_neq. intros Y. injection Y as Y _. apply Ascii.eqb_neq in E. contradiction. }
  split; [apply String.eqb_neq; exact (Q "-"%char "" Nd)|].
  unfold classify. change (is_char "-" dash) with true. cbn [negb].
  unfold is_u, is_h. rewrite (Q "u"%char "" Nu), (Q "-"%char "unmatched-pid" Nd), (Q "h"%char "" Nh), (Q "-"%char "help" Nd). cbn [orb].
  rewrite E1, E2, Nd, Nu, Nh. cbn [digits decimal]. rewrite Ng, Np. reflexivity.
Qed.
Lemma stops_help : forall int x w y l, ~ In "--" x -> asks_help w \/ unknown w -> command int (x ++ w :: y) l = (l, None).
Proof.
  intros int x w y l N [H|H]; [destruct (help_X _ H) as (E & C)|destruct (unknown_X _ H) as (E & C)]; apply X_stops; assumption.
Qed.
Lemma checked_bad : forall v r x want y, on_off v = None -> r = [U None; A v] \/ r = [U (Some v)] -> checked want (x ++ r ++ y) = false.
Proof.
  intros v r x want y B H. revert want. induction x as [|t x IH]; intros want.
  - destruct H as [->| ->]; cbn; rewrite B; reflexivity.
  - cbn. destruct t as [w| |[e|]|]; rewrite ?IH; try reflexivity.
    + destruct want; [destruct (on_off w)|]; rewrite ?IH; reflexivity.
    + destruct (on_off e); rewrite ?IH; reflexivity.
Qed.
Lemma on_off_none : forall v, v <> "on" -> v <> "off" -> on_off v = None.
Proof. intros v H K. unfold on_off. apply String.eqb_neq in H, K. rewrite H, K. reflexivity. Qed.
Lemma stops_bad : forall int x o y l, ~ In "--" x -> bad_option o -> command int (x ++ o ++ y) l = (l, None).
Proof.
  intros int x o y l N H.
  assert (K : exists v r, on_off v = None /\ (r = [U None; A v] \/ r = [U (Some v)]) /\ forall ws, classify_all (o ++ ws) = (r ++ classify_all ws)%list).
  { destruct H as [v P A1 A2|v P A1 A2|v A1 A2]; exists v; eexists; (split; [now apply on_off_none|]).
    - split; [left; reflexivity|]. intros ws. cbn [app classify_all]. rewrite (plain_not _ P), (plain_A _ P). reflexivity.
    - split; [left; reflexivity|]. intros ws. cbn [app classify_all]. rewrite (plain_not _ P), (plain_A _ P). reflexivity.
    - split; [right; reflexivity|]. intros ws. reflexivity. }
  destruct K as (v & r & B & R & C). unfold command, parse. rewrite classify_before by exact N. rewrite C, (checked_bad v r _ _ _ B R).
  destruct (takes _ _); [|reflexivity]. destruct (close _); reflexivity.
Qed.
