From Coq Require Import String List Arith NArith ZArith Ascii Bool Lia.
Import ListNotations.
From Verif Require Import Json_model Json_proofs Str_model Str_proofs Ctf_model Ctf_spec.
Local Open Scope nat_scope.
Local Open Scope list_scope.
Local Notation length := List.length.

Arguments find_from : simpl never.
Arguments substr : simpl never.

(** No character of a short text. *)
Ltac inchar H := unfold txt in H; cbn [list_ascii_of_string In] in H; repeat (destruct H as [H|H]; [discriminate H|]); destruct H.
Lemma find_at_fits p s i k : find_at p s i = Some k -> i <= k /\ k + length p <= i + length s.
Proof.
  revert i. induction s as [|a s IH]; intros i H; cbn [find_at] in H.
  - destruct p; [|discriminate]. injection H as <-. cbn. lia.
  - destruct (starts p (a :: s)) eqn:E.
    + injection H as <-. split; [lia|]. assert (G : length p <= length (a :: s)).
      { clear IH. revert E. generalize (a :: s). clear. induction p as [|x p IH]; intros [|y t] H; cbn in *; try lia; try discriminate.
        apply andb_true_iff in H as [_ H]. apply IH in H. lia. }
      lia.
    + apply IH in H. cbn. lia.
Qed.
Lemma find_fits p s from k : find_from p s from = Some k -> from <= k /\ k + length p <= length s.
Proof.
  unfold find_from. destruct (Nat.ltb_spec (length s) from); [discriminate|]. intro G. apply find_at_fits in G. rewrite skipn_length in G. lia.
Qed.
Lemma sub_mid {A} s a b d (f : str -> outcome A) p n : s = a ++ b ++ d -> p = length a -> n = Some (length b) -> sub s p n f = f b.
Proof. intros -> -> ->. unfold sub. rewrite substr_mid. reflexivity. Qed.
Lemma sub_rest {A} s a b (f : str -> outcome A) p : s = a ++ b -> p = length a -> sub s p None f = f b.
Proof. intros -> ->. unfold sub. rewrite substr_end. reflexivity. Qed.
Lemma find_is c p s a b d from : s = a ++ b ++ (c :: p) ++ d -> from = length a -> ~ In c b -> find_from (c :: p) s from = Some (length a + length b).
Proof. intros -> -> H. apply find_app. exact H. Qed.

Lemma find_txt s0 c p (e : txt s0 = c :: p) s a b d from : s = a ++ b ++ (c :: p) ++ d -> from = length a -> ~ In c b -> find_from (txt s0) s from = Some (length a + length b).
Proof. rewrite e. apply find_is. Qed.

(** ** Fields *)
Fixpoint denote (early : bool) (fs : list field) (res : ids) : ids :=
  match fs with
  | [] => res
  | (k, FInt z) :: fs' => denote early fs' ((k, Z.to_N (z mod 2 ^ 64)) :: res)
  | (k, FText _) :: fs' => denote early fs' (if early then match lookup k res with None => (k, 0%N) :: res | Some _ => res end else res)
  end.
Lemma field_avoids f : good_field f -> ~ In ","%char (field_text f) /\ ~ In "{"%char (field_text f) /\ ~ In "}"%char (field_text f).
Proof.
  destruct f as [k v]. intros (_ & Hk & Hv). cbn [fst snd] in *. unfold field_text. cbn [fst snd].
  assert (G : forall c, In c (txt ",{}") -> ~ In c (value_text v)).
  { intros c Hc H. destruct v as [z|s]; cbn [value_text] in H.
    - rewrite dump_int_text in H. apply in_app_or in H as [H|H].
      + destruct (z <? 0)%Z; [|destruct H]. destruct H as [<-|[]]. inchar Hc.
      + pose proof (dump_nat_digits (Z.abs_N z)) as D. rewrite forallb_forall in D. apply D in H.
        unfold txt in Hc; cbn in Hc. destruct Hc as [<-|[<-|[<-|[]]]]; discriminate.
    - apply in_app_or in H as [H|H].
      + unfold txt in H; unfold txt in H; cbn in H. destruct H as [<-|[]]. inchar Hc.
      + apply in_app_or in H as [H|H]; [exact (Hv c Hc H)|]. unfold txt in H; cbn in H. destruct H as [<-|[]]. inchar Hc. }
  assert (K : forall c, In c (txt ",{}") -> ~ In c (k ++ txt " = " ++ value_text v)).
  { intros c Hc H. apply in_app_or in H as [H|H].
    - refine (Hk c _ H). unfold txt in *; cbn in *. intuition.
    - apply in_app_or in H as [H|H]; [|exact (G c Hc H)]. unfold txt in *; cbn in H, Hc. intuition congruence. }
  repeat split; apply K; unfold txt; cbn; auto.
Qed.
Lemma value_nonempty v : 1 <= length (value_text v).
Proof.
  destruct v as [z|s]; cbn [value_text]; [|rewrite app_length; cbn; lia]. rewrite dump_int_text, app_length.
  destruct (dump_nat_head (Z.abs_N z)) as (c & t & -> & _). cbn. lia.
Qed.
Lemma field_long f : good_field f -> 5 <= length (field_text f).
Proof.
  destruct f as [k v]. intros (Hk & _). unfold field_text. cbn [fst snd] in *. rewrite !app_length. pose proof (value_nonempty v).
  destruct k; [congruence|]. cbn. lia.
Qed.
(** One key and its value. *)
Lemma split_field {A} f (g : str -> str -> outcome A) : good_field f ->
  (let split := find_from (txt " = ") (field_text f) 0 in sub (field_text f) 0 split (fun key => sub (field_text f) (plus split 3) None (fun value => g key value)))
  = g (fst f) (value_text (snd f)).
Proof.
  destruct f as [k v]. intros (_ & Hk & _). cbn [fst snd] in *. unfold field_text. cbn [fst snd]. cbn zeta.
  assert (E : find_from (txt " = ") (k ++ txt " = " ++ value_text v) 0 = Some (length k)).
  { apply (find_is " "%char (txt "= ") _ [] k (value_text v)); [reflexivity|reflexivity|]. apply Hk. unfold txt; cbn; auto. }
  rewrite E. rewrite (sub_mid _ [] k (txt " = " ++ value_text v)) by reflexivity. cbn [plus].
  rewrite (sub_rest _ (k ++ txt " = ") (value_text v)); [reflexivity|rewrite <- app_assoc; reflexivity|rewrite app_length; reflexivity].
Qed.
Lemma value_number f : good_field f -> stoull (value_text (snd f)) = match snd f with FInt z => NValue (Z.to_N (z mod 2 ^ 64)) | FText _ => NInvalid end.
Proof.
  destruct f as [k [z|s]]; intros (_ & _ & H); cbn [snd value_text] in *; [|reflexivity].
  rewrite <- (app_nil_r (dump_int z)). change (2 ^ 64)%Z with (Z.of_N two64) in *. change (2 ^ 63)%Z with 9223372036854775808%Z in H. apply stoull_int; [exact I|]. change (Z.of_N two64) with 18446744073709551616%Z in *. lia.
Qed.
Lemma process_one early fuel csv a f d last res : csv = a ++ field_text f ++ d -> good_field f -> last <> length csv ->
  (d = [] \/ exists d', d = txt ", " ++ d') ->
  process early (S fuel) csv (length a) last res =
  process early fuel csv (match d with [] => length csv | _ => length a + length (field_text f) + 2 end)
    (length a + length (field_text f)) (denote early [f] res).
Proof.
  intros E Hf Hl Hd. cbn [process]. replace (last =? length csv) with false by (symmetry; apply Nat.eqb_neq; exact Hl). cbn zeta.
  destruct (field_avoids f Hf) as (Hc & _). pose proof (field_long f Hf) as Hlong.
  assert (EF : find_from (txt ", ") csv (length a) = match d with [] => None | _ => Some (length a + length (field_text f)) end).
  { destruct Hd as [->|(d' & ->)].
    - rewrite app_nil_r in E. rewrite E. apply (find_app_none ","%char (txt " ")). exact Hc.
    - exact (find_is ","%char (txt " ") csv a (field_text f) d' (length a) E eq_refl Hc). }
  set (L := length a + length (field_text f)) in *.
  assert (LC : d = [] -> length csv = L) by (intros ->; rewrite E, !app_length; unfold L; cbn; lia).
  assert (M1 : (match find_from (txt ", ") csv (length a) with None => length csv | Some p => p end) = L) by (rewrite EF; destruct d; auto).
  assert (M2 : L + (match find_from (txt ", ") csv (length a) with None => 0 | Some _ => 2 end) = match d with [] => length csv | _ => L + 2 end)
    by (rewrite EF; destruct d; [rewrite (LC eq_refl); lia|reflexivity]).
  rewrite M1, M2. clear EF M1 M2. set (N := match d with [] => length csv | _ => L + 2 end).
  rewrite (sub_mid csv a (field_text f) d); [|exact E|reflexivity|unfold minus, L; replace (_ <? _) with false by (symmetry; apply Nat.ltb_ge; lia); f_equal; lia].
  replace (length (field_text f) <=? 4) with false by (symmetry; apply Nat.leb_gt; lia).
  pose proof (split_field f (fun key value => match stoull value with
    | NValue v => process early fuel csv N L ((key, v) :: res)
    | NInvalid => process early fuel csv N L (if early then match lookup key res with None => (key, 0%N) :: res | Some _ => res end else res)
    | NOutOfRange => Threw end) Hf) as G. cbn zeta in G. rewrite G. clear G. rewrite (value_number f Hf).
  destruct f as [k [z|s]]; reflexivity.
Qed.
Lemma denote_app early a b res : denote early (a ++ b) res = denote early b (denote early a res).
Proof. revert res. induction a as [|[k [z|s]] a IH]; intro res; [reflexivity|apply IH|apply IH]. Qed.
Lemma fields_cons f fs : fs <> [] -> fields_text (f :: fs) = field_text f ++ txt ", " ++ fields_text fs.
Proof. destruct fs; [congruence|reflexivity]. Qed.
Lemma process_fields early fs : Forall good_field fs -> fs <> [] -> forall fuel csv a last res, csv = a ++ fields_text fs -> last <> length csv ->
  length fs < fuel -> process early fuel csv (length a) last res = Done (denote early fs res).
Proof.
  induction 1 as [|f fs Hf Hfs IH]; intros Hne fuel csv a last res E Hl Hfuel; [congruence|]. destruct fuel as [|fuel]; [lia|]. cbn [length] in Hfuel.
  destruct fs as [|f' fs].
  - cbn [fields_text] in E. rewrite (process_one early fuel csv a f [] last res) by (auto; rewrite app_nil_r; exact E).
    destruct fuel as [|fuel]; [cbn in Hfuel; lia|]. cbn [process]. replace (_ =? _) with true by (symmetry; apply Nat.eqb_eq; rewrite E, app_length; reflexivity). reflexivity.
  - rewrite fields_cons in E by discriminate.
    rewrite (process_one early fuel csv a f (txt ", " ++ fields_text (f' :: fs)) last res); [|exact E|exact Hf|exact Hl|right; eexists; reflexivity].
    change (denote early (f :: f' :: fs) res) with (denote early ([f] ++ f' :: fs) res). rewrite denote_app.
    change (match txt ", " ++ fields_text (f' :: fs) with [] => length csv | _ => length a + length (field_text f) + 2 end) with (length a + length (field_text f) + 2).
    replace (length a + length (field_text f) + 2) with (length (a ++ field_text f ++ txt ", ")) by (rewrite !app_length; cbn; lia).
    apply IH; [discriminate|rewrite E, <- !app_assoc; reflexivity| |lia]. rewrite E, !app_length. change (length (txt ", ")) with 2. lia.
Qed.
Lemma fields_length fs : Forall good_field fs -> length fs <= length (fields_text fs).
Proof.
  induction 1 as [|f fs Hf _ IH]; [cbn; lia|]. pose proof (field_long f Hf). destruct fs; [cbn in *; lia|]. rewrite fields_cons by discriminate. rewrite !app_length. cbn [length] in *. lia.
Qed.
Lemma process_context_fields early fs : Forall good_field fs -> fs <> [] -> process_context early (fields_text fs) = Done (denote early fs []).
Proof.
  intros H Hne. unfold process_context. apply (process_fields early fs H Hne _ _ []); [reflexivity| |].
  - destruct H as [|f fs Hf _]; [congruence|]. pose proof (field_long f Hf). destruct fs; [cbn [fields_text]; lia|]. rewrite fields_cons by discriminate. rewrite app_length. lia.
  - apply fields_length in H. lia.
Qed.
(** After an empty pair of braces. *)
Definition short_end (d : str) : Prop := (length d <= 3 /\ ~ In ","%char d) \/ exists d', d = txt ", " ++ d'.
Lemma process_context_empty early d : short_end d -> process_context early ("}"%char :: d) = Done [].
Proof.
  intros [[Hl Hc]|(d' & ->)]; unfold process_context; cbn [process].
  - replace (0 =? length ("}"%char :: d)) with false by reflexivity. cbn zeta.
    assert (F : find_from (txt ", ") ("}"%char :: d) 0 = None). { apply (find_app_none ","%char (txt " ") []). intros [G|G]; [discriminate|exact (Hc G)]. }
    rewrite F. rewrite (sub_mid _ [] ("}"%char :: d) []); [|rewrite app_nil_r; reflexivity|reflexivity|cbn; reflexivity].
    replace (length ("}"%char :: d) <=? 4) with true by (symmetry; apply Nat.leb_le; cbn; lia). reflexivity.
  - replace (0 =? length ("}"%char :: txt ", " ++ d')) with false by reflexivity. cbn zeta.
    assert (F : find_from (txt ", ") ("}"%char :: txt ", " ++ d') 0 = Some 1).
    { apply (find_is ","%char (txt " ") _ [] ["}"%char] d'); [reflexivity|reflexivity|]. intros [G|[]]. discriminate. }
    rewrite F. rewrite (sub_mid _ [] ["}"%char] (txt ", " ++ d')) by reflexivity. reflexivity.
Qed.

(** ** What the list of fields gives. *)
Lemma lookup_cons k k' v m : lookup k ((k', v) :: m) = if list_eq_dec ascii_dec k k' then Some v else lookup k m. Proof. reflexivity. Qed.
Lemma denote_reads early fs : NoDup (map fst fs) -> forall res, (forall k, In k (map fst fs) -> lookup k res = None) ->
  (forall k z, In (k, FInt z) fs -> lookup k (denote early fs res) = Some (Z.to_N (z mod 2 ^ 64))) /\
  (forall k s, In (k, FText s) fs -> lookup k (denote early fs res) = if early then Some 0%N else None) /\
  (forall k, ~ In k (map fst fs) -> lookup k (denote early fs res) = lookup k res).
Proof.
  induction fs as [|[k0 v] fs IH]; intros Hn res Hr; [repeat split; intros k z []|]. cbn [map fst] in *. inversion Hn as [|? ? Hk0 Hn']; subst.
  assert (N0 : lookup k0 res = None) by (apply Hr; left; reflexivity).
  set (res' := match v with FInt z => (k0, Z.to_N (z mod 2 ^ 64)) :: res | FText _ => if early then (k0, 0%N) :: res else res end).
  assert (ED : denote early ((k0, v) :: fs) res = denote early fs res') by (destruct v; cbn [denote]; unfold res'; rewrite ?N0; reflexivity).
  assert (Other : forall k, k <> k0 -> lookup k res' = lookup k res).
  { intros k Hk. unfold res'. destruct v; [|destruct early; [|reflexivity]]; rewrite lookup_cons; destruct (list_eq_dec ascii_dec k k0); congruence. }
  destruct (IH Hn' res') as (H1 & H2 & H3).
  { intros k Hk. rewrite Other by (intros ->; exact (Hk0 Hk)). apply Hr. right. exact Hk. }
  rewrite ED. assert (K : lookup k0 (denote early fs res') = lookup k0 res') by (apply H3; exact Hk0).
  repeat split.
  - intros k z [E|Hin]; [|exact (H1 k z Hin)]. injection E as -> ->. rewrite K. unfold res'. rewrite lookup_cons. destruct (list_eq_dec ascii_dec k k); congruence.
  - intros k s [E|Hin]; [|exact (H2 k s Hin)]. injection E as -> ->. rewrite K. unfold res'. destruct early; [|exact N0]. rewrite lookup_cons. destruct (list_eq_dec ascii_dec k k); congruence.
  - intros k Hk. rewrite H3 by (intro G; apply Hk; right; exact G). apply Other. intros ->. apply Hk. left. reflexivity.
Qed.

(** ** The line *)
Lemma word_is {A} line x y w w2 d cut stop (f : str -> nat -> outcome A) from :
  line = x ++ y ++ txt " " ++ (w ++ w2) ++ txt " " ++ d -> from = length x -> ~ In " "%char y -> ~ In " "%char (w ++ w2) -> cut = S (length w2) ->
  word line from cut stop f = f w (length (x ++ y ++ txt " " ++ w ++ w2)).
Proof.
  intros E Ef Hy Hw Hcut. unfold word. rewrite (find_txt " " " "%char [] eq_refl line x y ((w ++ w2) ++ txt " " ++ d) from E Ef Hy).
  rewrite (find_txt " " " "%char [] eq_refl line (x ++ y ++ txt " ") (w ++ w2) d (plus (Some (length x + length y)) 1)); [|rewrite E, <- !app_assoc; reflexivity|unfold plus; rewrite !app_length; cbn; lia|exact Hw].
  replace (length (x ++ y ++ txt " ") + length (w ++ w2)) with (length (x ++ y ++ txt " " ++ w ++ w2)) by (rewrite !app_length; lia).
  apply (sub_mid line (x ++ y ++ txt " ") w (w2 ++ txt " " ++ d)); [rewrite E, <- !app_assoc; reflexivity|rewrite !app_length; cbn; lia|].
  unfold minus. rewrite !app_length. change (length (txt " ")) with 1. rewrite Hcut.
  replace (_ <? length x + length y) with false by (symmetry; apply Nat.ltb_ge; lia). replace (_ <? S (length w2)) with false by (symmetry; apply Nat.ltb_ge; lia). f_equal. lia.
Qed.
Lemma braces_is {A} line x y t d stop (f : str -> nat -> outcome A) from :
  line = x ++ y ++ (txt "{ " ++ t ++ txt " ") ++ txt "}" ++ d -> from = length x -> ~ In "{"%char y -> ~ In "}"%char t ->
  braces line from stop f = f t (length (x ++ y ++ txt "{ " ++ t ++ txt " ")).
Proof.
  intros E Ef Hy Ht. unfold braces. rewrite (find_txt "{" "{"%char [] eq_refl line x y ((txt " " ++ t ++ txt " ") ++ txt "}" ++ d) from); [|rewrite E; reflexivity|exact Ef|exact Hy].
  rewrite (find_txt "}" "}"%char [] eq_refl line (x ++ y ++ txt "{") (txt " " ++ t ++ txt " ") d (plus (Some (length x + length y)) 1));
    [|rewrite E, <- !app_assoc; reflexivity|unfold plus; rewrite !app_length; cbn; lia|].
  2: { intro H. apply in_app_or in H as [H|H]; [destruct H as [H|[]]; discriminate|]. apply in_app_or in H as [H|H]; [exact (Ht H)|destruct H as [H|[]]; discriminate]. }
  replace (length (x ++ y ++ txt "{") + length (txt " " ++ t ++ txt " ")) with (length (x ++ y ++ txt "{ " ++ t ++ txt " ")) by (rewrite !app_length; cbn; lia).
  apply (sub_mid line (x ++ y ++ txt "{ ") t (txt " " ++ txt "}" ++ d)); [rewrite E, <- !app_assoc; reflexivity|rewrite !app_length; cbn; lia|].
  unfold minus. rewrite !app_length. change (length (txt " ")) with 1. change (length (txt "{ ")) with 2.
  replace (_ <? length x + length y) with false by (symmetry; apply Nat.ltb_ge; lia). replace (_ <? 3) with false by (symmetry; apply Nat.ltb_ge; lia). f_equal. lia.
Qed.
Lemma braces_empty {A} line x y d stop (f : str -> nat -> outcome A) from :
  line = x ++ y ++ txt "{ " ++ txt "}" ++ d -> from = length x -> ~ In "{"%char y -> braces line from stop f = f ("}"%char :: d) (length (x ++ y ++ txt "{ ")).
Proof.
  intros E Ef Hy. unfold braces. rewrite (find_txt "{" "{"%char [] eq_refl line x y (txt " " ++ txt "}" ++ d) from); [|rewrite E; reflexivity|exact Ef|exact Hy].
  rewrite (find_txt "}" "}"%char [] eq_refl line (x ++ y ++ txt "{") (txt " ") d (plus (Some (length x + length y)) 1)); [|rewrite E, <- !app_assoc; reflexivity|unfold plus; rewrite !app_length; cbn; lia|].
  2: { intros [H|[]]. discriminate. }
  replace (length (x ++ y ++ txt "{") + length (txt " ")) with (length (x ++ y ++ txt "{ ")) by (rewrite !app_length; cbn; lia).
  assert (M : (match minus (length (x ++ y ++ txt "{ ")) (length x + length y) with Some d0 => minus d0 3 | None => None end) = None).
  { unfold minus. rewrite !app_length. change (length (txt "{ ")) with 2. replace (_ <? length x + length y) with false by (symmetry; apply Nat.ltb_ge; lia).
    replace (_ <? 3) with true by (symmetry; apply Nat.ltb_lt; lia). reflexivity. }
  rewrite M. apply (sub_rest line (x ++ y ++ txt "{ ") ("}"%char :: d)); [rewrite E, <- !app_assoc; reflexivity|rewrite !app_length; cbn; lia].
Qed.
(** A whole list of fields. *)
Definition open_text (fs : list field) : str := match fs with [] => txt "{ " | _ => txt "{ " ++ fields_text fs ++ txt " " end.
Lemma context_open fs : context_text fs = open_text fs ++ txt "}".
Proof. destruct fs; [reflexivity|]. unfold context_text, open_text. rewrite <- !app_assoc. reflexivity. Qed.
Lemma fields_avoid fs : Forall good_field fs -> ~ In "}"%char (fields_text fs).
Proof.
  induction 1 as [|f fs Hf _ IH]; [intros []|]. destruct (field_avoids f Hf) as (_ & _ & G). destruct fs; [exact G|]. rewrite fields_cons by discriminate.
  intro H. apply in_app_or in H as [H|H]; [exact (G H)|]. apply in_app_or in H as [H|H]; [|exact (IH H)]. repeat (destruct H as [H|H]; [discriminate|]). destruct H.
Qed.
Lemma braces_fields {A} early line x y fs d stop (f : str -> nat -> outcome A) from :
  line = x ++ y ++ context_text fs ++ d -> from = length x -> ~ In "{"%char y -> Forall good_field fs -> short_end d ->
  exists csv, braces line from stop f = f csv (length (x ++ y ++ open_text fs)) /\ process_context early csv = Done (denote early fs []).
Proof.
  intros E Ef Hy Hf Hd. destruct fs as [|f0 fs].
  - exists ("}"%char :: d). split; [|apply process_context_empty; exact Hd]. apply braces_empty; auto.
  - exists (fields_text (f0 :: fs)). split; [|apply process_context_fields; [exact Hf|discriminate]].
    apply braces_is with (d := d); auto; [|apply fields_avoid; exact Hf]. rewrite E, context_open. change (open_text (f0 :: fs)) with (txt "{ " ++ fields_text (f0 :: fs) ++ txt " "). rewrite <- !app_assoc. reflexivity.
Qed.
Lemma at_is fs (d : str) (x y : str) : x ++ y ++ context_text fs ++ d = (x ++ y ++ open_text fs) ++ txt "}" ++ d.
Proof. rewrite context_open, <- !app_assoc. reflexivity. Qed.

Lemma avoids_one c cs s : avoids cs s -> In c (txt cs) -> ~ In c s. Proof. intros H G. exact (H c G). Qed.
Section Parse.
Context {V : Type} (strtod : str -> real_result V) (early : bool).
Lemma parse_lemma p t rest : good p -> strtod (p_time p) = DValue t -> rest = [] \/ rest = [ascii_of_N 10] ->
  parse strtod early (line_text p ++ rest) = Done {| c_line := line_text p ++ rest; c_time := Some t; c_host := p_host p; c_domain := p_domain p; c_name := p_name p;
    c_stream := denote early (p_stream p) []; c_context := denote early (p_context p) []; c_data := denote early (p_data p) [] |}.
Proof.
  intros (Ht & Hh & Hd & Hn & (Hs & _) & (Hc & _) & (Hda & _)) Es Hr. set (line := line_text p ++ rest).
  set (C := context_text (p_stream p) ++ txt ", " ++ context_text (p_context p) ++ txt ", " ++ context_text (p_data p) ++ rest).
  assert (E : line = txt "[" ++ p_time p ++ txt "]" ++ txt " " ++ p_host p ++ txt " " ++ (p_domain p ++ txt ":" ++ p_name p ++ txt ":") ++ txt " " ++ C).
  { unfold line, line_text, C. rewrite <- !app_assoc. reflexivity. }
  unfold parse. destruct line as [|c0 l0] eqn:E0; [discriminate|]. rewrite <- E0 in *. clear E0 c0 l0.
  rewrite (find_txt "[" "["%char [] eq_refl line [] [] (p_time p ++ txt "]" ++ txt " " ++ p_host p ++ txt " " ++ (p_domain p ++ txt ":" ++ p_name p ++ txt ":") ++ txt " " ++ C) 0 E eq_refl (fun x => x)).
  rewrite (find_txt "]" "]"%char [] eq_refl line [] (txt "[" ++ p_time p) (txt " " ++ p_host p ++ txt " " ++ (p_domain p ++ txt ":" ++ p_name p ++ txt ":") ++ txt " " ++ C) 0);
    [|rewrite E, <- !app_assoc; reflexivity|reflexivity|].
  2: { intro H. apply in_app_or in H as [H|H]; [destruct H as [H|[]]; discriminate|]. refine (Ht _ _ H). left. reflexivity. }
  change (length (@nil ascii) + length (@nil ascii) + 1) with 1.
  replace (length (@nil ascii) + length (txt "[" ++ p_time p)) with (S (length (p_time p))) by reflexivity.
  rewrite (sub_mid line (txt "[") (p_time p) (txt "]" ++ txt " " ++ p_host p ++ txt " " ++ (p_domain p ++ txt ":" ++ p_name p ++ txt ":") ++ txt " " ++ C)); [|exact E|reflexivity|reflexivity].
  rewrite Es. cbn zeta.
  rewrite (word_is line (txt "[" ++ p_time p) (txt "]") (p_host p) [] ((p_domain p ++ txt ":" ++ p_name p ++ txt ":") ++ txt " " ++ C)); cycle 1.
  { rewrite E, app_nil_r, <- !app_assoc. reflexivity. } { reflexivity. } { intros [H|[]]. discriminate. }
  { rewrite app_nil_r. apply Hh. left. reflexivity. } { reflexivity. }
  assert (Hpt : ~ In " "%char (p_domain p ++ txt ":" ++ p_name p ++ txt ":")).
  { intro H. apply in_app_or in H as [H|H]; [refine (Hd _ _ H); left; reflexivity|]. apply in_app_or in H as [H|H]; [destruct H as [H|[]]; discriminate|].
    apply in_app_or in H as [H|H]; [refine (Hn _ _ H); left; reflexivity|destruct H as [H|[]]; discriminate]. }
  rewrite app_nil_r.
  rewrite (word_is line ((txt "[" ++ p_time p) ++ txt "]" ++ txt " " ++ p_host p) [] (p_domain p ++ txt ":" ++ p_name p) (txt ":") C); cycle 1.
  { rewrite E, <- !app_assoc. reflexivity. } { reflexivity. } { intros []. } { rewrite <- !app_assoc. exact Hpt. } { reflexivity. }
  set (X := ((txt "[" ++ p_time p) ++ txt "]" ++ txt " " ++ p_host p) ++ [] ++ txt " " ++ (p_domain p ++ txt ":" ++ p_name p) ++ txt ":").
  rewrite (find_txt ":" ":"%char [] eq_refl (p_domain p ++ txt ":" ++ p_name p) [] (p_domain p) (p_name p) 0 eq_refl eq_refl (Hd _ (or_intror (or_introl eq_refl)))). cbn [length Nat.add].
  rewrite (sub_mid (p_domain p ++ txt ":" ++ p_name p) [] (p_domain p) (txt ":" ++ p_name p)) by reflexivity.
  assert (EN : forall (A : Type) (f : str -> outcome A), sub (p_domain p ++ txt ":" ++ p_name p) (length (p_domain p) + 1) (minus (length (p_domain p ++ txt ":" ++ p_name p)) (length (p_domain p))) f = f (p_name p)).
  { intros A f. unfold sub, substr, minus. rewrite !app_length. change (length (txt ":")) with 1.
    replace (_ <? length (p_domain p) + 1) with false by (symmetry; apply Nat.ltb_ge; lia). replace (_ <? length (p_domain p)) with false by (symmetry; apply Nat.ltb_ge; lia).
    replace (p_domain p ++ txt ":" ++ p_name p) with ((p_domain p ++ txt ":") ++ p_name p) by (rewrite <- app_assoc; reflexivity).
    replace (length (p_domain p) + 1) with (length (p_domain p ++ txt ":")) by (rewrite app_length; reflexivity). rewrite skipn_app, skipn_all, Nat.sub_diag. cbn [app skipn].
    rewrite firstn_all2; [reflexivity|lia]. }
  rewrite EN. cbn zeta.
  assert (EL : line = X ++ txt " " ++ C) by (rewrite E; unfold X; rewrite <- !app_assoc; reflexivity).
  assert (SE : forall d, short_end (txt ", " ++ d)) by (intro d; right; eauto).
  assert (SR : short_end rest) by (left; destruct Hr as [->| ->]; cbn; split; [lia|intros []|lia|intros [H|[]]; discriminate]).
  assert (NS : forall s, (s = txt " " \/ s = txt "}, ") -> ~ In "{"%char s).
  { intros s [->| ->] H; repeat (destruct H as [H|H]; [discriminate|]); destruct H. }
  match goal with |- braces _ _ ?st ?f = _ => destruct (braces_fields early line X (txt " ") (p_stream p) (txt ", " ++ context_text (p_context p) ++ txt ", " ++ context_text (p_data p) ++ rest) st f (length X))
    as (csv1 & B1 & P1); [exact EL|reflexivity|apply NS; auto|exact Hs|apply SE|] end.
  rewrite B1. clear B1. set (X2 := X ++ txt " " ++ open_text (p_stream p)).
  match goal with |- braces _ _ ?st ?f = _ => destruct (braces_fields early line X2 (txt "}, ") (p_context p) (txt ", " ++ context_text (p_data p) ++ rest) st f (length X2))
    as (csv2 & B2 & P2); [rewrite EL; unfold C, X2; rewrite at_is; rewrite <- !app_assoc; reflexivity|reflexivity|apply NS; auto|exact Hc|apply SE|] end.
  rewrite B2. clear B2. set (X3 := X2 ++ txt "}, " ++ open_text (p_context p)).
  match goal with |- braces _ _ ?st ?f = _ => destruct (braces_fields early line X3 (txt "}, ") (p_data p) rest st f (length X3))
    as (csv3 & B3 & P3); [|reflexivity|apply NS; auto|exact Hda|exact SR|] end.
  { rewrite EL. unfold C, X3, X2. rewrite (context_open (p_stream p)), (context_open (p_context p)), <- !app_assoc. reflexivity. }
  rewrite B3. clear B3. rewrite P1, P2, P3. reflexivity.
Qed.
End Parse.
Lemma good_reads early fs : good_fields fs -> reads early fs (denote early fs []).
Proof.
  intros (_ & Hn). destruct (denote_reads early fs Hn [] (fun _ _ => eq_refl)) as (H1 & H2 & H3). repeat split; assumption.
Qed.
Lemma line_lemma {V} (strtod : str -> real_result V) early p t rest : good p -> strtod (p_time p) = DValue t -> rest = [] \/ rest = [ascii_of_N 10] ->
  exists e, parse strtod early (line_text p ++ rest) = Done e /\ c_time e = Some t /\ c_host e = p_host p /\ c_domain e = p_domain p /\ c_name e = p_name p /\
    reads early (p_stream p) (c_stream e) /\ reads early (p_context p) (c_context e) /\ reads early (p_data p) (c_data e).
Proof.
  intros H Ht Hr. eexists. split; [apply (parse_lemma strtod early p t rest H Ht Hr)|]. destruct H as (_ & _ & _ & _ & H1 & H2 & H3).
  cbn. repeat split; try reflexivity; apply good_reads; assumption.
Qed.
Lemma ids_lemma {V} (strtod : str -> real_result V) early p t rest e v w : good p -> strtod (p_time p) = DValue t -> rest = [] \/ rest = [ascii_of_N 10] ->
  parse strtod early (line_text p ++ rest) = Done e -> In (txt "vpid", FInt (Z.of_N v)) (p_context p) -> In (txt "pthread_id", FInt (Z.of_N w)) (p_context p) ->
  pid e = Some v /\ tid e = Some w.
Proof.
  intros H Ht Hr He Hv Hw. destruct (line_lemma strtod early p t rest H Ht Hr) as (e' & He' & _ & _ & _ & _ & _ & (R & _) & _).
  rewrite He in He'. injection He' as <-. unfold pid, tid. destruct H as (_ & _ & _ & _ & _ & (Hg & _) & _). rewrite Forall_forall in Hg.
  rewrite (R _ _ Hv), (R _ _ Hw). apply Hg in Hv as (_ & _ & Bv). apply Hg in Hw as (_ & _ & Bw). cbn [snd] in Bv, Bw. rewrite !Z.mod_small, !N2Z.id by lia. auto.
Qed.

(** ** No line whatsoever reads outside of it. *)
Definition sound {A} (o : outcome A) : Prop := o <> Broken.
Lemma sub_sound {A} s p n (f : str -> outcome A) : p <= length s -> (forall t, sound (f t)) -> sound (sub s p n f).
Proof. intros H Hf. unfold sub. destruct (substr_ok s p n H) as (t & ->). apply Hf. Qed.
Lemma sub_sound' {A} s p n (f : str -> outcome A) : p <= length s -> (forall t, substr s p n = Some t -> sound (f t)) -> sound (sub s p n f).
Proof. intros H Hf. unfold sub. destruct (substr_ok s p n H) as (t & E). rewrite E. apply Hf. exact E. Qed.
Lemma process_sound early fuel : forall csv start last res, start <= length csv -> 1 + (length csv - start) <= fuel -> sound (process early fuel csv start last res).
Proof.
  induction fuel as [|fuel IH]; intros csv start last res Hs Hf; [lia|]. cbn [process]. destruct (last =? length csv); [discriminate|]. cbn zeta.
  apply sub_sound'; [exact Hs|]. intros kv Ekv. destruct (Nat.leb_spec (length kv) 4) as [|Hkv]; [discriminate|].
  assert (Hlen : length kv <= length csv - start).
  { unfold substr in Ekv. destruct (length csv <? start); [discriminate|]. destruct (minus _ start); injection Ekv as <-; [rewrite firstn_length, skipn_length|rewrite skipn_length]; lia. }
  apply sub_sound; [lia|]. intro key. apply sub_sound.
  { destruct (find_from (txt " = ") kv 0) as [k|] eqn:Ek; cbn [plus]; [apply find_fits in Ek; cbn in Ek; lia|lia]. }
  intro value.
  assert (G : forall res', sound (process early fuel csv (match find_from (txt ", ") csv start with None => length csv | Some p => p end + match find_from (txt ", ") csv start with None => 0 | Some _ => 2 end)
    (match find_from (txt ", ") csv start with None => length csv | Some p => p end) res')).
  { intro res'. destruct (find_from (txt ", ") csv start) as [k|] eqn:Ek; [apply find_fits in Ek; cbn [txt list_ascii_of_string length] in Ek|]; apply IH; lia. }
  destruct (stoull value); [apply G|apply G|discriminate].
Qed.
Lemma context_sound early csv : sound (process_context early csv).
Proof. apply process_sound; lia. Qed.
Lemma obind_sound {A B} (x : outcome A) (f : A -> outcome B) : sound x -> (forall a, sound (f a)) -> sound (obind x f).
Proof. intros H Hf. destruct x; cbn; [apply Hf|discriminate|exfalso; apply H; reflexivity]. Qed.
Lemma word_sound {A} line from cut stop (f : str -> nat -> outcome A) : sound stop -> (forall t n, sound (f t n)) -> sound (word line from cut stop f).
Proof.
  intros Hs Hf. unfold word. destruct (find_from (txt " ") line from) as [b|] eqn:E; [|exact Hs]. destruct (find_from (txt " ") line (plus (Some b) 1)) as [e|] eqn:E'; [|exact Hs].
  apply find_fits in E. cbn in E. apply sub_sound; [lia|]. intro t. apply Hf.
Qed.
Lemma braces_sound {A} line from stop (f : str -> nat -> outcome A) : sound stop -> (forall t n, sound (f t n)) -> sound (braces line from stop f).
Proof.
  intros Hs Hf. unfold braces. destruct (find_from (txt "{") line from) as [b|] eqn:E; [|exact Hs]. destruct (find_from (txt "}") line (plus (Some b) 1)) as [e|] eqn:E'; [|exact Hs].
  apply find_fits in E'. cbn in E'. apply sub_sound; [lia|]. intro t. apply Hf.
Qed.
Lemma parse_sound {V} (strtod : str -> real_result V) early line : parse strtod early line <> Broken.
Proof.
  change (sound (parse strtod early line)). unfold parse. destruct line as [|c0 l0]; [discriminate|]. set (line := c0 :: l0).
  destruct (find_from (txt "[") line 0) as [b|] eqn:E; [|discriminate]. destruct (find_from (txt "]") line 0) as [e|]; [|discriminate].
  apply find_fits in E. cbn [txt list_ascii_of_string length] in E. apply sub_sound; [lia|]. intro t. destruct (strtod t); [|discriminate|discriminate]. cbn zeta.
  apply word_sound; [discriminate|]. intros host e1. apply word_sound; [discriminate|]. intros point e2.
  destruct (find_from (txt ":") point 0) as [k|] eqn:Ek; [|discriminate]. apply find_fits in Ek. cbn [txt list_ascii_of_string length] in Ek.
  apply sub_sound; [lia|]. intro domain. apply sub_sound; [lia|]. intro name. do 3 (apply braces_sound; [discriminate|]; intros ? ?).
  do 3 (apply obind_sound; [apply context_sound|]; intro). discriminate.
Qed.

(** ** The only way to fail is a number out of range. *)
Definition infix (a s : str) : Prop := exists x y, s = x ++ a ++ y.
Lemma infix_refl s : infix s s. Proof. exists [], []. rewrite app_nil_r. reflexivity. Qed.
Lemma infix_trans a b c : infix a b -> infix b c -> infix a c.
Proof. intros (x & y & ->) (x' & y' & ->). exists (x' ++ x), (y ++ y'). rewrite <- !app_assoc. reflexivity. Qed.
Lemma infix_skipn n s : infix (skipn n s) s. Proof. exists (firstn n s), []. rewrite app_nil_r, firstn_skipn. reflexivity. Qed.
Lemma infix_firstn n s : infix (firstn n s) s. Proof. exists [], (skipn n s). cbn. rewrite firstn_skipn. reflexivity. Qed.
Lemma infix_cons c a s : infix a s -> infix a (c :: s). Proof. intros (x & y & ->). exists (c :: x), y. reflexivity. Qed.
Lemma infix_substr s p n t : substr s p n = Some t -> infix t s.
Proof.
  unfold substr. destruct (length s <? p); [discriminate|]. destruct n; intro H; injection H as <-; [|apply infix_skipn].
  eapply infix_trans; [apply infix_firstn|apply infix_skipn].
Qed.
Fixpoint head_digits (s : str) : str := match s with c :: s' => match digit c with Some _ => c :: head_digits s' | None => [] end | [] => [] end.
Lemma head_digits_infix s : infix (head_digits s) s.
Proof. exists []. induction s as [|c s (y & IH)]; [exists []; reflexivity|]. cbn. destruct (digit c); [exists y; cbn; f_equal; exact IH|exists (c :: s); reflexivity]. Qed.
Lemma head_digits_decimal s : forallb is_decimal (head_digits s) = true.
Proof. induction s as [|c s IH]; [reflexivity|]. cbn. unfold digit. destruct ((48 <=? N_of_ascii c) && (N_of_ascii c <=? 57))%N eqn:E; [|reflexivity]. cbn. unfold is_decimal at 1. rewrite E. exact IH. Qed.
Lemma digit_small c d : digit c = Some d -> (d <= 9)%N.
Proof. unfold digit. destruct ((48 <=? N_of_ascii c) && (N_of_ascii c <=? 57))%N eqn:E; [|discriminate]. intro H. injection H as <-. apply andb_true_iff in E as [E1 E2]. apply N.leb_le in E1, E2. lia. Qed.
Lemma digits_bound s acc : (digits s acc < (acc + 1) * 10 ^ N.of_nat (length (head_digits s)))%N.
Proof.
  revert acc. induction s as [|c s IH]; intro acc; cbn [digits head_digits]; [cbn; lia|]. destruct (digit c) as [d|] eqn:E; [|cbn [length N.of_nat]; rewrite N.pow_0_r; lia].
  apply digit_small in E. eapply N.lt_le_trans; [apply IH|]. cbn [length]. rewrite Nat2N.inj_succ, N.pow_succ_r'. rewrite N.mul_assoc.
  apply N.mul_le_mono_r. lia.
Qed.
Lemma c_str_infix s : infix (c_str s) s.
Proof. exists []. induction s as [|c s (y & IH)]; [exists []; reflexivity|]. cbn. destruct (N_of_ascii c =? 0)%N; [exists (c :: s); reflexivity|]. exists y. cbn. f_equal. exact IH. Qed.
Lemma skip_infix s : infix (skip_spaces s) s.
Proof. induction s as [|c s IH]; [apply infix_refl|]. cbn. destruct (is_space c); [apply infix_cons; exact IH|apply infix_refl]. Qed.
Lemma sign_infix s : infix (snd (sign s)) s.
Proof. destruct s as [|c s]; [apply infix_refl|]. cbn. destruct (Ascii.eqb c "-"); [apply infix_cons; apply infix_refl|]. destruct (Ascii.eqb c "+"); [apply infix_cons; apply infix_refl|apply infix_refl]. Qed.
Lemma stoull_long s : stoull s = NOutOfRange -> long_number s.
Proof.
  unfold stoull, read_number. destruct (sign (skip_spaces (c_str s))) as [neg r] eqn:E. assert (I : infix r s).
  { eapply infix_trans; [|apply c_str_infix]. eapply infix_trans; [|apply skip_infix]. replace r with (snd (sign (skip_spaces (c_str s)))) by (rewrite E; reflexivity). apply sign_infix. }
  unfold magnitude. destruct r as [|c r]; [discriminate|]. destruct (digit c) eqn:Ed; [|discriminate]. cbn [option_map].
  destruct (N.leb_spec two64 (digits (c :: r) 0)) as [H|]; [|discriminate]. intros _.
  pose proof (digits_bound (c :: r) 0) as B. pose proof (head_digits_decimal (c :: r)) as D. destruct (infix_trans _ _ _ (head_digits_infix (c :: r)) I) as (x & y & Ex).
  exists x, (head_digits (c :: r)), y. split; [exact Ex|]. split; [exact D|]. set (m := length (head_digits (c :: r))) in *.
  destruct (Nat.le_gt_cases 20 m) as [|Hn]; [assumption|]. exfalso. assert (P : (10 ^ N.of_nat m <= 10 ^ 19)%N) by (apply N.pow_le_mono_r; lia).
  change (10 ^ 19)%N with 10000000000000000000%N in P. unfold two64 in H. lia.
Qed.
Lemma long_infix a s : infix a s -> long_number a -> long_number s.
Proof. intros (x & y & ->) (u & d & w & -> & Hd & Hl). exists (x ++ u), d, (w ++ y). rewrite <- !app_assoc. auto. Qed.
Definition quiet {A} (o : outcome A) : Prop := o <> Threw.
Lemma sub_quiet {A} s p n (f : str -> outcome A) : (forall t, infix t s -> quiet (f t)) -> quiet (sub s p n f).
Proof. intro Hf. unfold sub. destruct (substr s p n) eqn:E; [apply Hf; eapply infix_substr; exact E|discriminate]. Qed.
Lemma process_quiet early fuel : forall csv start last res, ~ long_number csv -> quiet (process early fuel csv start last res).
Proof.
  induction fuel as [|fuel IH]; intros csv start last res H; [discriminate|]. cbn [process]. destruct (last =? length csv); [discriminate|]. cbn zeta.
  apply sub_quiet. intros kv Ik. destruct (length kv <=? 4); [discriminate|]. apply sub_quiet. intros key _. apply sub_quiet. intros value Iv.
  destruct (stoull value) eqn:E; [apply IH; exact H|apply IH; exact H|]. exfalso. apply H. apply stoull_long in E. eapply long_infix; [exact (infix_trans _ _ _ Iv Ik)|exact E].
Qed.
Lemma word_quiet {A} line from cut stop (f : str -> nat -> outcome A) : quiet stop -> (forall t n, infix t line -> quiet (f t n)) -> quiet (word line from cut stop f).
Proof. intros Hs Hf. unfold word. destruct (find_from _ line from); [|exact Hs]. destruct (find_from _ line _); [|exact Hs]. apply sub_quiet. intros t It. apply Hf. exact It. Qed.
Lemma braces_quiet {A} line from stop (f : str -> nat -> outcome A) : quiet stop -> (forall t n, infix t line -> quiet (f t n)) -> quiet (braces line from stop f).
Proof. intros Hs Hf. unfold braces. destruct (find_from _ line from); [|exact Hs]. destruct (find_from _ line _); [|exact Hs]. apply sub_quiet. intros t It. apply Hf. exact It. Qed.
Lemma obind_quiet {A B} (x : outcome A) (f : A -> outcome B) : quiet x -> (forall a, quiet (f a)) -> quiet (obind x f).
Proof. intros H Hf. destruct x; cbn; [apply Hf|exfalso; apply H; reflexivity|discriminate]. Qed.
Lemma parse_quiet {V} (strtod : str -> real_result V) early line : ~ long_number line -> (forall t, infix t line -> strtod t <> DOutOfRange) -> quiet (parse strtod early line).
Proof.
  intros H Hd. unfold parse. destruct line as [|c0 l0]; [discriminate|]. set (line := c0 :: l0) in *.
  destruct (find_from (txt "[") line 0) as [b|]; [|discriminate]. destruct (find_from (txt "]") line 0) as [e|]; [|discriminate].
  apply sub_quiet. intros t It. specialize (Hd t It). destruct (strtod t); [|discriminate|congruence]. cbn zeta.
  apply word_quiet; [discriminate|]. intros host e1 _. apply word_quiet; [discriminate|]. intros point e2 _.
  destruct (find_from (txt ":") point 0); [|discriminate]. apply sub_quiet. intros domain _. apply sub_quiet. intros name _.
  assert (G : forall t, infix t line -> quiet (process_context early t)) by (intros x Ix; apply process_quiet; intro L; apply H; eapply long_infix; eassumption).
  apply braces_quiet; [discriminate|]. intros t1 n1 I1. apply braces_quiet; [discriminate|]. intros t2 n2 I2. apply braces_quiet; [discriminate|]. intros t3 n3 I3.
  do 3 (apply obind_quiet; [apply G; assumption|]; intro). discriminate.
Qed.
Lemma total_lemma {V} (strtod : str -> real_result V) early line : ~ long_number line -> (forall a t b, line = a ++ t ++ b -> strtod t <> DOutOfRange) ->
  exists e, parse strtod early line = Done e.
Proof.
  intros H Hd. pose proof (parse_sound strtod early line) as S. assert (Q : quiet (parse strtod early line)) by (apply parse_quiet; [exact H|]; intros t (x & y & E); exact (Hd x t y E)).
  destruct (parse strtod early line) as [e| |]; [eauto|exfalso; apply Q; reflexivity|congruence].
Qed.

(** The time of an event of any domain has been set. *)
Definition timed {V} (o : outcome (event V)) : Prop := match o with Done e => c_domain e <> [] -> exists t, c_time e = Some t | _ => True end.
Lemma sub_timed {V} s p n (f : str -> outcome (event V)) : (forall t, timed (f t)) -> timed (sub s p n f).
Proof. intro Hf. unfold sub. destruct (substr s p n); [apply Hf|exact I]. Qed.
Lemma word_timed {V} line from cut (stop : outcome (event V)) f : timed stop -> (forall t n, timed (f t n)) -> timed (word line from cut stop f).
Proof. intros Hs Hf. unfold word. destruct (find_from _ line from); [|exact Hs]. destruct (find_from _ line _); [|exact Hs]. apply sub_timed. intro t. apply Hf. Qed.
Lemma braces_timed {V} line from (stop : outcome (event V)) f : timed stop -> (forall t n, timed (f t n)) -> timed (braces line from stop f).
Proof. intros Hs Hf. unfold braces. destruct (find_from _ line from); [|exact Hs]. destruct (find_from _ line _); [|exact Hs]. apply sub_timed. intro t. apply Hf. Qed.
Lemma obind_timed {V A} (x : outcome A) (f : A -> outcome (event V)) : (forall a, timed (f a)) -> timed (obind x f).
Proof. intro Hf. destruct x; cbn; [apply Hf|exact I|exact I]. Qed.
Lemma parse_timed {V} (strtod : str -> real_result V) early line : timed (parse strtod early line).
Proof.
  unfold parse. destruct line as [|c0 l0]; [cbn; congruence|]. set (line := c0 :: l0). destruct (find_from (txt "[") line 0); [|cbn; congruence]. destruct (find_from (txt "]") line 0); [|cbn; congruence].
  apply sub_timed. intro t. destruct (strtod t); [|cbn; congruence|exact I]. cbn zeta.
  apply word_timed; [cbn; congruence|]. intros. apply word_timed; [cbn; congruence|]. intros point ?. destruct (find_from (txt ":") point 0); [|cbn; congruence].
  apply sub_timed. intro. apply sub_timed. intro. do 3 (apply braces_timed; [cbn; eauto|]; intros ? ?). do 3 (apply obind_timed; intro). cbn. eauto.
Qed.

(** ** Cases *)
(** A reader of numbers that knows the whole ones. *)
Definition whole (s : str) : real_result N := match stoull s with NValue v => DValue v | NInvalid => DInvalid | NOutOfRange => DOutOfRange end.
Definition sample : printed := {| p_time := txt "1544361620.739021131"; p_host := txt "eagle"; p_domain := txt "scalopus_scope_id"; p_name := txt "exit";
  p_stream := [(txt "cpu_id", FInt 2)]; p_context := [(txt "vpid", FInt 14897); (txt "pthread_id", FInt 139688084124608)];
  p_data := [(txt "id", FInt 4144779573); (txt "value", FInt (-5)); (txt "what", FText (txt "a = b"))] |}.
Example sample_text : line_text sample = txt "[1544361620.739021131] eagle scalopus_scope_id:exit: { cpu_id = 2 }, { vpid = 14897, pthread_id = 139688084124608 }, { id = 4144779573, value = -5, what = ""a = b"" }".
Proof. vm_compute. reflexivity. Qed.
Ltac avoid := let c := fresh in let H := fresh in let G := fresh in intros c H G; vm_compute in H, G; intuition congruence.
Example sample_good : good sample.
Proof.
  do 4 (split; [avoid|]).
  assert (G : forall fs, Forall good_field fs -> NoDup (map fst fs) -> good_fields fs) by (intros; split; assumption).
  split; [|split]; apply G; try (repeat (apply NoDup_cons; [cbn [map fst In]; intuition discriminate|]); apply NoDup_nil);
    repeat apply Forall_cons; try apply Forall_nil; (split; [discriminate|split; [avoid|cbn [snd]; first [split; [discriminate|reflexivity] | avoid]]]).
Qed.
Example sample_parsed : match parse whole false (line_text sample ++ [ascii_of_N 10]) with
  | Done e => pid e = Some 14897%N /\ tid e = Some 139688084124608%N /\ c_time e = Some 1544361620%N /\ c_name e = txt "exit" /\ lookup (txt "value") (c_data e) = Some 18446744073709551611%N | _ => False end.
Proof. vm_compute. repeat split; reflexivity. Qed.
Example odd_lines : (exists e, parse whole false (txt "[][ {}{}: : {") = Done e) /\ (exists e, parse whole false (txt "]5[3 a b:c: {}{}{}") = Done e).
Proof. split; eexists; vm_compute; reflexivity. Qed.
Definition big_line : str := txt "[1] eagle a:b: { }, { }, { id = 18446744073709551616 }".
Lemma big_throws : parse (fun _ => DValue 1%N) false big_line = Threw. Proof. vm_compute. reflexivity. Qed.
Lemma throws_refuted : ~ forall (strtod : str -> real_result N) early line, (forall t, strtod t <> DOutOfRange) -> exists e, parse strtod early line = Done e.
Proof. intro H. destruct (H (fun _ => DValue 1%N) false big_line) as (e & E); [discriminate|]. rewrite big_throws in E. discriminate. Qed.
Lemma timed_lemma {V} (strtod : str -> real_result V) early line e : parse strtod early line = Done e -> c_domain e <> [] -> exists t, c_time e = Some t.
Proof. intro H. pose proof (parse_timed strtod early line) as G. rewrite H in G. exact G. Qed.
