From Coq Require Import String List Arith NArith ZArith Ascii Bool Lia Sorting.Sorted Permutation Floats.SpecFloat.
Import ListNotations.
From Verif Require Import OMap_model OMap_proofs Json_model Json_spec Json_proofs JsonRead_proofs PyJson_model PyJson_spec PyText_proofs PyJson_proofs.
From Verif Require Import TraceEvent_model Names_model Names_proofs Native_model Native_spec Native_proofs Provider_proofs Ended_model Ended_spec Ended_proofs Record_model Record_spec.
From Verif Require Info_model.
Local Notation length := List.length.
Local Open Scope nat_scope.

(** ** The characters *)
Lemma hexval_digit d : (d < 16)%N -> hexval (hexdigit d) = Some d.
Proof.
  intros H. assert (E : forallb (fun k => match hexval (hexdigit (N.of_nat k)) with Some x => (x =? N.of_nat k)%N | None => false end) (seq 0 16) = true) by (vm_compute; reflexivity).
  rewrite forallb_forall in E. specialize (E (N.to_nat d)). rewrite N2Nat.id in E. destruct (hexval (hexdigit d)) as [x|].
  - f_equal. apply N.eqb_eq, E, in_seq. lia.
  - exfalso. assert (false = true) by (apply E, in_seq; lia). discriminate.
Qed.
Lemma unit_four n : (n < 65536)%N -> exists ds, unit_text n = backslash :: "u"%char :: ds /\ four n ds.
Proof.
  intros H. eexists. split; [reflexivity|]. split; [reflexivity|]. cbn [hex4]. unfold hex_at.
  rewrite !hexval_digit by (apply N.mod_lt; discriminate). f_equal. f_equal.
  rewrite N.div_1_r, (N.mod_small (n / 4096)) by (apply N.div_lt_upper_bound; lia).
  pose proof (N.div_mod' n 16) as H1. pose proof (N.div_mod' (n / 16) 16) as H2. pose proof (N.div_mod' (n / 16 / 16) 16) as H3.
  rewrite !N.div_div in * by discriminate. change (16 * 16)%N with 256%N in *. change (256 * 16)%N with 4096%N in *. lia.
Qed.
Lemma in_short n e l : In (n, e) short -> [backslash; ch e] = l -> (n < 128)%N -> forall s t, spelled s t -> spelled (encode n ++ s) (l ++ t).
Proof.
  intros H <- Hn s t Hs. unfold encode. replace (n <? 128)%N with true by (symmetry; apply N.ltb_lt; exact Hn). apply (sp_short n e s t); assumption.
Qed.
Lemma spelled_escape n s t : (n < 1114112)%N -> surrogate n = false -> spelled s t -> spelled (encode n ++ s) (py_escape n ++ t).
Proof.
  intros Hn Hs Ht. apply surrogate_not in Hs. unfold py_escape.
  destruct (N.eqb_spec n 34) as [->|]; [apply (in_short 34 34); auto; cbn; auto 10|].
  destruct (N.eqb_spec n 92) as [->|]; [apply (in_short 92 92); auto; cbn; auto 10; reflexivity|].
  destruct (N.eqb_spec n 8) as [->|]; [apply (in_short 8 98); auto; cbn; auto 10; reflexivity|].
  destruct (N.eqb_spec n 9) as [->|]; [apply (in_short 9 116); auto; cbn; auto 10; reflexivity|].
  destruct (N.eqb_spec n 10) as [->|]; [apply (in_short 10 110); auto; cbn; auto 10; reflexivity|].
  destruct (N.eqb_spec n 12) as [->|]; [apply (in_short 12 102); auto; cbn; auto 10; reflexivity|].
  destruct (N.eqb_spec n 13) as [->|]; [apply (in_short 13 114); auto; cbn; auto 10; reflexivity|].
  destruct ((32 <=? n) && (n <=? 126))%N eqn:E.
  - apply andb_true_iff in E. destruct E as [E1 E2]. apply N.leb_le in E1, E2. unfold encode. replace (n <? 128)%N with true by (symmetry; apply N.ltb_lt; lia).
    apply (sp_plain (ch n) [] s t); rewrite ?code_ch by lia; auto.
    cbn. rewrite bin by lia. reflexivity.
  - destruct (N.ltb_spec n 65536) as [H|H].
    + destruct (unit_four n H) as (ds & -> & Hd). cbn [app]. apply sp_four; auto. lia.
    + assert (Hq : ((n - 65536) / 1024 < 1024)%N) by (apply N.div_lt_upper_bound; lia).
      assert (Hr : ((n - 65536) mod 1024 < 1024)%N) by (apply N.mod_lt; discriminate).
      destruct (unit_four (55296 + (n - 65536) / 1024)) as (ds & -> & Hd); [lia|].
      destruct (unit_four (56320 + (n - 65536) mod 1024)) as (es & -> & He); [lia|].
      cbn [app]. rewrite <- app_assoc. cbn [app]. eapply sp_pair; eauto; try lia.
Qed.
Lemma spelled_py p : forall s, to_utf8 p = Some s -> a_str p -> spelled s (flat_map py_escape p).
Proof.
  induction p as [|n p IH]; intros s H Ha; cbn in H; [injection H as <-; constructor|].
  destruct (surrogate n) eqn:E; [discriminate|]. destruct (to_utf8 p) as [r|]; [|discriminate]. injection H as <-.
  cbn [flat_map]. inversion Ha; subst. apply spelled_escape; auto.
Qed.
Lemma quoted_py s p : of_utf8 s = Some p -> quoted s (py_quote p).
Proof. intros H. apply utf8_there in H. destruct H. eexists. split; [eapply spelled_py; eauto|reflexivity]. Qed.

(** ** [json.dumps] *)
Section Dumps.
Context {F : Type} (fw : F -> bytes) (fr : bytes -> option F).
Notation json := (json F).
Notation val := (val fw fr). Notation items := (items fw fr). Notation members := (members fw fr). Notation wf := (wf fw fr).

Lemma join_items w sep : ws w -> sep = ","%char :: w -> forall l ts, Forall2 val l ts -> l <> [] -> forall w0, ws w0 -> items l (w0 ++ join sep ts).
Proof.
  intros Hw ->. induction 1 as [|j t l ts Hv Hl IH]; [congruence|]. intros _ w0 Hw0. destruct Hl as [|j2 t2 l ts Hv2 Hl].
  - cbn [join]. rewrite <- (app_nil_r t). apply i_one; auto. reflexivity.
  - change (join (","%char :: w) (t :: t2 :: ts)) with (t ++ (","%char :: w) ++ join (","%char :: w) (t2 :: ts)). cbn [app].
    change (w0 ++ t ++ ","%char :: w ++ join (","%char :: w) (t2 :: ts)) with (w0 ++ t ++ [] ++ ","%char :: w ++ join (","%char :: w) (t2 :: ts)).
    apply i_more; auto; [reflexivity|]. apply IH; auto. discriminate.
Qed.
Lemma join_members w sep : ws w -> sep = ","%char :: w -> forall (m : list (bytes * json)) ts,
  Forall2 (fun kv t => exists q u, quoted (fst kv) q /\ val (snd kv) u /\ t = q ++ ":"%char :: " "%char :: u) m ts -> m <> [] -> forall w0, ws w0 -> members m (w0 ++ join sep ts).
Proof.
  intros Hw ->. induction 1 as [|[k j] t l ts (q & u & Hq & Hv & ->) Hl IH]; [congruence|]. intros _ w0 Hw0. cbn [fst snd] in *. destruct Hl as [|j2 t2 l ts Hv2 Hl].
  - cbn [join]. replace (q ++ ":"%char :: " "%char :: u) with (q ++ [] ++ ":"%char :: [" "%char] ++ u ++ []) by (rewrite app_nil_r; reflexivity).
    apply m_one; auto; reflexivity.
  - change (join (","%char :: w) ((q ++ ":"%char :: " "%char :: u) :: t2 :: ts)) with ((q ++ ":"%char :: " "%char :: u) ++ (","%char :: w) ++ join (","%char :: w) (t2 :: ts)).
    rewrite <- app_assoc. cbn [app].
    change (w0 ++ q ++ ":"%char :: " "%char :: u ++ ","%char :: w ++ join (","%char :: w) (t2 :: ts))
      with (w0 ++ q ++ [] ++ ":"%char :: [" "%char] ++ u ++ [] ++ ","%char :: w ++ join (","%char :: w) (t2 :: ts)).
    apply m_more; auto; try reflexivity. apply IH; auto. discriminate.
Qed.

Lemma dumps_ok (j : json) : wf j -> exists p t, to_py j = Some p /\ dumps fw p = Some t /\ val j t.
Proof.
  induction j as [|b|z|f|s|l IH|m IH] using json_full_ind; intros W.
  - exists PNone. eexists. repeat split. constructor.
  - exists (PBool b). destruct b; eexists; repeat split; constructor.
  - inversion W; subst. exists (PInt z). eexists. repeat split. now constructor.
  - inversion W; subst. exists (PFloat f). eexists. repeat split. now constructor.
  - inversion W as [| | | |s' Hu| |]; subst. apply of_utf8_ok in Hu. cbn [to_py]. destruct (of_utf8 s) as [p|] eqn:E; [|congruence].
    exists (PStr p). eexists. repeat split. constructor. now apply quoted_py.
  - inversion W as [| | | | |l' Hl|]; subst.
    assert (G : exists ps ts, all to_py l = Some ps /\ all (dumps fw) ps = Some ts /\ Forall2 val l ts).
    { clear W. induction l as [|j l IHl]; [exists [], []; repeat split; constructor|].
      inversion IH; subst. inversion Hl; subst. destruct H1 as (p & t & E1 & E2 & Hv); [assumption|]. destruct IHl as (ps & ts & E3 & E4 & Hvs); auto.
      exists (p :: ps), (t :: ts). cbn. rewrite E1, E2, E3, E4. repeat split. now constructor. }
    destruct G as (ps & ts & E1 & E2 & Hv). cbn [to_py]. rewrite E1. exists (PList ps). eexists. split; [reflexivity|]. split; [cbn [dumps]; rewrite E2; reflexivity|].
    destruct l as [|j l]; [inversion Hv; subst; apply (v_arr0 _ _ []); reflexivity|]. apply v_arr.
    refine (join_items [" "%char] (text ", ") eq_refl eq_refl _ _ Hv _ [] eq_refl). discriminate.
  - inversion W as [| | | | | |m' Hm Hl]; subst.
    set (pym := fun kv : bytes * json => match of_utf8 (fst kv), to_py (snd kv) with Some k, Some v => Some (PStr (F := F) k, v) | _, _ => None end).
    set (dumpm := fun kv : py F * py F => match fst kv with PStr k => option_map (fun t => py_quote k ++ text ": " ++ t) (dumps fw (snd kv)) | _ => None end).
    assert (G : exists ps ts, all pym m = Some ps /\ all dumpm ps = Some ts /\
       Forall2 (fun kv t => exists q u, quoted (fst kv) q /\ val (snd kv) u /\ t = q ++ ":"%char :: " "%char :: u) m ts).
    { clear W Hm. induction m as [|[k j] m IHm]; [exists [], []; repeat split; constructor|].
      inversion IH as [|? ? H1 ?]; subst. inversion Hl as [|? ? [Hu Hw] ?]; subst. cbn [fst snd] in *. destruct H1 as (p & t & E1 & E2 & Hv); [assumption|].
      destruct IHm as (ps & ts & E3 & E4 & Hvs); auto. apply of_utf8_ok in Hu. destruct (of_utf8 k) as [s|] eqn:E; [|congruence].
      exists ((PStr s, p) :: ps), ((py_quote s ++ text ": " ++ t) :: ts). cbn [all]. rewrite E3, E4. unfold pym at 1, dumpm at 1. cbn [fst snd]. rewrite E, E1, E2. repeat split.
      constructor; [|exact Hvs]. exists (py_quote s), t. split; [now apply quoted_py|]. split; [exact Hv|reflexivity]. }
    destruct G as (ps & ts & E1 & E2 & Hv). exists (PDict ps). eexists. split; [cbn [to_py]; fold pym; rewrite E1; reflexivity|].
    split; [cbn [dumps]; fold dumpm; rewrite E2; reflexivity|].
    destruct m as [|j m]; [inversion Hv; subst; apply (v_obj0 _ _ []); reflexivity|]. apply v_obj; [exact Hm|].
    refine (join_members [" "%char] (text ", ") eq_refl eq_refl _ _ Hv _ [] eq_refl). discriminate.
Qed.

(** ** The output *)
Lemma dumps_all (l : list json) : Forall wf l -> exists ps ts, all to_py l = Some ps /\ all (dumps fw) ps = Some ts /\ Forall2 val l ts.
Proof.
  induction 1 as [|j l Hj Hl (ps & ts & E1 & E2 & H)]; [exists [], []; repeat split; constructor|].
  destruct (dumps_ok j Hj) as (p & t & E3 & E4 & Hv). exists (p :: ps), (t :: ts). cbn. rewrite E1, E2, E3, E4. repeat split. now constructor.
Qed.
Lemma all_app {A B} (f : A -> option B) l m r q : all f l = Some r -> all f m = Some q -> all f (l ++ m) = Some (r ++ q).
Proof.
  revert r. induction l as [|x l IH]; intros r H1 H2; cbn in *; [injection H1 as <-; exact H2|].
  destruct (f x); [|discriminate]. destruct (all f l) as [r'|]; [|discriminate]. injection H1 as <-. now rewrite (IH r' eq_refl H2).
Qed.
Theorem output_parses b (l m : list json) : Forall wf l -> Forall wf m ->
  exists t, record_output fw b (Some l) (Some m) = (t, Normal) /\ parse fr t = Some (JArr (l ++ m)).
Proof.
  intros Hl Hm. destruct (dumps_all l Hl) as (ps & ts & E1 & E2 & H). destruct (dumps_all m Hm) as (qs & us & E3 & E4 & H').
  unfold record_output. rewrite E1, E3, (all_app _ _ _ _ _ E2 E4). eexists. split; [reflexivity|].
  pose proof (Forall2_app H H') as Hv. apply (parse_document fw fr). exists [], (opening ++ join (text "," ++ [ch 10]) (ts ++ us) ++ text "]"), [].
  split; [rewrite app_nil_r; reflexivity|]. split; [reflexivity|]. split; [reflexivity|]. 
  destruct (l ++ m) as [|j r] eqn:E.
  - inversion Hv as [E'|]. apply (v_arr0 _ _ [ch 10]). reflexivity.
  - apply (v_arr _ _ _ ([ch 10] ++ join (text "," ++ [ch 10]) (ts ++ us))). apply (join_items [ch 10]); auto; [reflexivity|discriminate|reflexivity].
Qed.
Theorem empty_parses : parse fr (fst quiet) = Some (JArr (F := F) []).
Proof. reflexivity. Qed.
Theorem loud_fails : parse fr (fst loud) = @None json.
Proof. reflexivity. Qed.
End Dumps.

(** ** The entries made of the data *)
Section Fits.
Context (fw : spec_float -> bytes) (fr : bytes -> option spec_float).
Notation event_fits := (event_fits fw fr). Notation chunk_fits := (chunk_fits fw fr). Notation label_fits := (label_fits fw fr).
Notation wf := (wf fw fr).

Definition series_fits (s : series_map) : Prop := ordered str_ltb s /\ Forall (fun e => utf8 (fst e) = true /\ int64 (snd e)) s.
Record entry_fits (e : entry) : Prop := {
  ef_ts : float_ok fw fr (en_ts e); ef_tid : word (en_tid e); ef_pid : int32 (en_pid e); ef_name : utf8 (en_name e) = true;
  ef_ph : utf8 [en_ph e] = true; ef_s : match en_s e with Some s => utf8 [s] = true | None => True end;
  ef_args : match en_args e with Some a => series_fits a | None => True end }.
Definition map_fits (m : mapping) : Prop := Forall (fun e => Forall (fun n => utf8 (snd n) = true) (snd e)) m.
Definition counters_fit (c : process_counter) : Prop := wf_pc c /\ forall pid name, series_fits (of_name pid name c).

Lemma U_split s : U s -> forall a b, split_first s = Some (a, b) -> U a /\ U b.
Proof.
  induction 1 as [|h s Hne Hx Hs IH]; intros a b E; [discriminate|].
  pose proof (Hx []) as Hh. rewrite app_nil_r in Hh. apply utf8_head_case in Hh as [_ [(c & -> & Hc)|(_ & Hhigh & _)]].
  - cbn in E. destruct (Ascii.eqb c slash) eqn:Ec; [injection E as <- <-; split; [constructor|exact Hs]|].
    destruct (split_first s) as [[a' b']|]; [|discriminate]. injection E as <- <-. destruct (IH _ _ eq_refl). split; [|assumption].
    apply (U_app [c]); [now apply U_ascii|assumption].
  - assert (G : forall h, forallb (fun c => negb (between 0 127 c)) h = true -> split_first (h ++ s) = match split_first s with Some (x, y) => Some (h ++ x, y) | None => None end).
    { clear. induction h as [|c h IH]; intros H; cbn [app]; [destruct (split_first s) as [[x y]|]; reflexivity|]. cbn [forallb] in H. apply andb_true_iff in H. destruct H as [H1 H2].
      cbn [split_first]. destruct (Ascii.eqb_spec c slash) as [->|]; [discriminate|]. rewrite IH by exact H2. destruct (split_first s) as [[x y]|]; reflexivity. }
    rewrite (G h Hhigh) in E. destruct (split_first s) as [[a' b']|]; [|discriminate]. injection E as <- <-. destruct (IH _ _ eq_refl). split; [|assumption].
    apply U_app; [|assumption]. now apply U_head.
Qed.
Lemma split_fits s : utf8 s = true -> utf8 (fst (split_series s)) = true /\ utf8 (snd (split_series s)) = true.
Proof.
  intros H. unfold split_series. destruct (split_first s) as [[a b]|] eqn:E; [|split; [exact H|reflexivity]].
  apply utf8_U in H. destruct (U_split _ H _ _ E). split; now apply utf8_U.
Qed.
Lemma hex_digit_U d : U [hex_digit d].
Proof.
  apply U_ascii. unfold hex_digit. assert (E : forallb (between 0 127) (list_ascii_of_string "0123456789abcdef") = true) by reflexivity.
  rewrite forallb_forall in E. destruct (nth_in_or_default (N.to_nat d) (list_ascii_of_string "0123456789abcdef") "0"%char) as [H| ->]; [now apply E|reflexivity].
Qed.
Lemma hex_U fuel : forall n acc, U acc -> U (hex_go fuel n acc).
Proof.
  induction fuel as [|f IH]; intros n acc H; cbn [hex_go]; [exact H|]. destruct (n <? 16)%N; [|apply IH]; apply (U_app [_]); auto using hex_digit_U.
Qed.
Lemma unknown_fits id : utf8 (list_ascii_of_string "Unknown 0x"%string ++ hex id) = true.
Proof. apply utf8_U, U_app; [apply utf8_U; reflexivity|]. apply hex_U. constructor. Qed.
Lemma scope_fits m pid id : map_fits m -> utf8 (scope_name m pid id) = true.
Proof.
  intros H. unfold scope_name. destruct (mfind Z.ltb pid m) as [t|] eqn:E; [|apply unknown_fits].
  destruct (mfind N.ltb id t) as [n|] eqn:E2; [|apply unknown_fits].
  unfold map_fits in H. rewrite Forall_forall in H. apply (find_in _ Z_order) in E. apply H in E. cbn [snd] in E. rewrite Forall_forall in E. apply (find_in _ N_order) in E2. exact (E _ E2).
Qed.
Lemma counters_nil : counters_fit [].
Proof. split; [apply wf_nil|]. intros. split; constructor. Qed.
Lemma counters_set pid name s c : counters_fit c -> series_fits s -> counters_fit (set_name pid name s c).
Proof.
  intros [W H] Hs. split; [apply wf_set; [exact W|apply Hs]|]. intros p n. rewrite of_name_set by exact W. destruct (_ && _); auto.
Qed.
Lemma series_insert k z s : utf8 k = true -> int64 z -> series_fits s -> series_fits (minsert str_ltb k z s).
Proof. intros Hk Hz [H1 H2]. split; [now apply (ordered_insert _ str_order)|]. apply insert_Forall; [exact H2|]. now split. Qed.
Lemma series_merge b : forall a, series_fits a -> Forall (fun e => utf8 (fst e) = true /\ int64 (snd e)) b -> series_fits (merge_series a b).
Proof.
  unfold merge_series. induction b as [|[k z] b IH]; intros a Ha Hb; cbn [fold_left]; [exact Ha|]. inversion Hb as [|? ? [H1 H2] H3]; subst. apply IH; [|exact H3].
  unfold add_series. cbn [fst snd] in *. destruct (mfind str_ltb k a); [exact Ha|]. now apply series_insert.
Qed.

Lemma conv_event_fits m pid tid ev cv e cv' : map_fits m -> int32 pid -> word tid -> event_fits ev -> counters_fit cv ->
  conv_event m pid tid ev cv = EOk e cv' -> entry_fits e /\ counters_fit cv'.
Proof.
  intros Hm Hp Ht [Hf Hv] Hc. unfold conv_event. pose proof (scope_fits m pid (te_id ev) Hm) as Hn. set (label := scope_name m pid (te_id ev)) in *. clearbody label.
  repeat match goal with |- (if ?b then _ else _) = _ -> _ => destruct b end;
    try (intros H; injection H as <- <-; split; [constructor; cbn; auto|exact Hc]); try discriminate.
  pose proof (split_fits label Hn) as Hs. destruct (split_series label) as [counter series]. cbn [fst snd] in Hs. destruct Hs as [Hs1 Hs2].
  destruct (te_value ev) as [z|]; [|discriminate]. intros H. injection H as <- <-.
  assert (Hq : series_fits (minsert str_ltb series z (of_name pid counter cv))) by (apply series_insert; auto; apply Hc).
  split; [constructor; cbn; auto|]. now apply counters_set.
Qed.
Definition pass_fits (p : pass) : Prop :=
  match p with PassUB => True | PassStop res => Forall entry_fits res | PassOn res cv => Forall entry_fits res /\ counters_fit cv end.
Lemma conv_events_fit m pid tid : map_fits m -> int32 pid -> word tid -> forall evs res cv, Forall event_fits evs -> Forall entry_fits res -> counters_fit cv ->
  pass_fits (conv_events m pid tid evs res cv).
Proof.
  intros Hm Hp Ht. induction evs as [|ev evs IH]; intros res cv He Hr Hc; cbn [conv_events]; [now split|]. inversion He; subst.
  destruct (conv_event m pid tid ev cv) as [| |e cv'] eqn:E; [exact Logic.I|exact Hr|].
  destruct (conv_event_fits _ _ _ _ _ _ _ Hm Hp Ht H1 Hc E) as [H3 H4]. apply IH; auto. apply Forall_app. auto.
Qed.
Lemma conv_threads_fit m pid : map_fits m -> int32 pid -> forall ths res cv, Forall (fun t => word (fst t) /\ Forall event_fits (snd t)) ths -> Forall entry_fits res -> counters_fit cv ->
  pass_fits (conv_threads m pid ths res cv).
Proof.
  intros Hm Hp. induction ths as [|[tid evs] ths IH]; intros res cv He Hr Hc; cbn [conv_threads]; [now split|]. inversion He as [|? ? [H1 H2] H3]; subst. cbn [fst snd] in *.
  pose proof (conv_events_fit m pid tid Hm Hp H1 evs res cv H2 Hr Hc) as H. destruct (conv_events m pid tid evs res cv); auto. destruct H. apply IH; auto.
Qed.
Lemma conv_chunks_fit m : map_fits m -> forall cs res cv, Forall chunk_fits cs -> Forall entry_fits res -> counters_fit cv -> pass_fits (conv_chunks m cs res cv).
Proof.
  intros Hm. induction cs as [|[|c] cs IH]; intros res cv He Hr Hc; cbn [conv_chunks]; [now split|exact Hr|]. inversion He as [|? ? H0 H3]; subst. destruct H0 as [H1 H2].
  pose proof (conv_threads_fit m (nc_pid c) Hm H1 (nc_threads c) res cv H2 Hr Hc) as H. destruct (conv_threads m (nc_pid c) (nc_threads c) res cv); auto. destruct H. apply IH; auto.
Qed.
Lemma fill_fits l : Forall entry_fits l -> Forall entry_fits (fst (fill l)) /\ counters_fit (snd (fill l)).
Proof.
  induction 1 as [|e l He Hl IH]; [split; [constructor|apply counters_nil]|]. cbn [fill]. destruct (fill l) as [r c]. cbn [fst snd] in IH. destruct IH as [Hr Hc].
  destruct (Ascii.eqb (en_ph e) "C"); [|split; [constructor; auto|exact Hc]]. destruct (en_args e) as [a|] eqn:Ea; [|split; [constructor; auto|exact Hc]].
  assert (Ha : series_fits a) by (pose proof (ef_args _ He) as H; rewrite Ea in H; exact H).
  assert (Hq : series_fits (merge_series a (of_name (en_pid e) (en_name e) c))) by (apply series_merge; [exact Ha|apply Hc]).
  cbn [fst snd]. split; [constructor; auto|now apply counters_set]. destruct He. constructor; cbn; auto.
Qed.
Lemma finish_fits m cs es : map_fits m -> Forall chunk_fits cs -> finish m cs = FEntries es -> Forall entry_fits es.
Proof.
  intros Hm Hc H. unfold finish in H. pose proof (conv_chunks_fit m Hm cs [] [] Hc (Forall_nil _) counters_nil) as G.
  destruct (conv_chunks m cs [] []) as [|res|res cv]; [discriminate| |]; injection H as <-; apply fill_fits; cbn in G.
  - eapply Permutation_Forall; [apply Permutation_sym, sort_perm|exact G].
  - eapply Permutation_Forall; [apply Permutation_sym, sort_perm|apply G].
Qed.

(** ** As JSON values *)
Lemma asc_map (a : series_map) : ordered str_ltb a -> ascending (map (fun kv => (fst kv, JInt (F := spec_float) (snd kv))) a).
Proof.
  induction 1 as [|x a Ha IH Hf]; cbn [map]; constructor; [exact IH|]. rewrite Forall_forall in *. intros y Hy. apply in_map_iff in Hy. destruct Hy as (z & <- & Hz). exact (Hf z Hz).
Qed.
Ltac asc := repeat (constructor; [|repeat (constructor; [reflexivity|]); constructor]); constructor.
Lemma int32_range z : int32 z -> int_range z. Proof. unfold int32, int_range. lia. Qed.
Lemma int64_range z : int64 z -> int_range z. Proof. unfold int64, int_range. lia. Qed.
Lemma word_range n : word n -> int_range (Z.of_N n). Proof. unfold word, int_range. lia. Qed.
Lemma entry_wf e : entry_fits e -> wf (entry_json e).
Proof.
  intros [H1 H2 H3 H4 H5 H6 H7]. unfold entry_json.
  assert (Ha : forall a, en_args e = Some a -> wf (JObj (map (fun kv => (fst kv, JInt (snd kv))) a))).
  { intros a E. rewrite E in H7. destruct H7 as [Ho Hf]. constructor; [now apply asc_map|]. rewrite Forall_forall in *. intros y Hy. apply in_map_iff in Hy.
    destruct Hy as (z & <- & Hz). destruct (Hf z Hz). split; [assumption|]. constructor. now apply int64_range. }
  destruct (en_args e) as [a|]; destruct (en_s e) as [s|]; cbn [app]; (constructor; [asc|]); repeat (constructor; [split; [reflexivity|]|]); cbn [snd];
    try (now apply Ha); try (constructor; first [exact H4|exact H5|exact H6|exact H1|now apply int32_range|now apply word_range|reflexivity]); constructor.
Qed.
Definition info_fits (m : imap) : Prop := Forall (fun p => int32 (fst p) /\ utf8 (fst (snd p)) = true /\ Forall (fun t => word (fst t) /\ utf8 (snd t) = true) (snd (snd p))) m.
Lemma meta_wf k pid tid nm : utf8 (text k) = true -> int32 pid -> int_range tid -> utf8 nm = true -> wf (Info_model.meta k pid tid nm).
Proof.
  intros Hk Hp Ht Hn. unfold Info_model.meta. constructor; [asc|]. repeat (constructor; [split; [reflexivity|]|]); cbn [snd]; try (constructor; first [assumption|now apply int32_range|reflexivity]); try constructor.
  - asc.
  - constructor; [split; [reflexivity|now constructor]|constructor].
Qed.
Lemma general_wf m : info_fits m -> Forall wf (general_json m).
Proof.
  unfold general_json. induction 1 as [|[pid [nm ths]] m (H1 & H2 & H3) Hm IH]; cbn [flat_map]; [constructor|]. cbn [fst snd] in *. constructor.
  - apply meta_wf; auto. unfold int_range. lia.
  - apply Forall_app. split; [|exact IH]. rewrite Forall_forall in *. intros x Hx. apply in_map_iff in Hx. destruct Hx as ([t n] & <- & Ht). destruct (H3 _ Ht). cbn [fst snd] in *.
    apply meta_wf; auto. now apply word_range.
Qed.

(** ** What they show *)
Lemma entry_shows e : event_shown e (entry_json e).
Proof.
  unfold event_shown, entry_json, is_text. destruct (en_args e) as [a|]; destruct (en_s e) as [s|]; cbn [app option_map]; repeat split; cbn;
    repeat match goal with |- context [list_eq_dec ascii_dec ?a ?b] => destruct (list_eq_dec ascii_dec a b) as [?E|?E]; try discriminate; try congruence end; reflexivity.
Qed.
Lemma entries_show es : Forall2 event_shown es (map entry_json es).
Proof. induction es as [|e es IH]; constructor; auto using entry_shows. Qed.
Lemma meta_shows kind pid tid nm : name_shown kind pid tid nm (Info_model.meta kind pid tid nm).
Proof.
  unfold name_shown, Info_model.meta, is_text. repeat split; cbn [member]; try reflexivity. eexists. split; [reflexivity|]. reflexivity.
Qed.
Lemma general_shows im : names_shown im (general_json im).
Proof.
  split.
  - intros kind pid tid nm (title & ths & Hi & H). exists (Info_model.meta kind pid tid nm). split; [|apply meta_shows]. unfold general_json. apply in_flat_map. exists (pid, (title, ths)). split; [exact Hi|].
    destruct H as [(-> & -> & ->)|(-> & t & Ht & ->)]; [now left|]. right. cbn [fst snd]. apply in_map_iff. exists (t, nm). split; [reflexivity|exact Ht].
  - intros j Hj. unfold general_json in Hj. apply in_flat_map in Hj. destruct Hj as ([pid [title ths]] & Hi & [<-|Hj]); cbn [fst snd] in *.
    + exists "process_name"%string, pid, 0%Z, title. split; [|apply meta_shows]. exists title, ths. auto.
    + apply in_map_iff in Hj. destruct Hj as ([t nm] & <- & Ht). exists "thread_name"%string, pid, (Z.of_N t), nm. split; [|apply meta_shows]. exists title, ths. split; [exact Hi|]. right. split; [reflexivity|]. now exists t.
Qed.

(** ** Along a history *)
Definition peer_fits (p : peer) : Prop :=
  int32 (pe_pid p) /\ Forall (fun e => utf8 (snd e) = true) (pe_names p) /\ utf8 (pe_title p) = true /\ Forall (fun t => word (fst t) /\ utf8 (snd t) = true) (pe_threads p).
Definition pc_fits (pc : wpc) : Prop :=
  match pc with WIdle | WSwapped => True | WNames _ m => map_fits m | WInfo _ m es => info_fits m /\ Forall entry_fits es end.
Definition out_fits (o : list entry * imap) : Prop := Forall entry_fits (fst o) /\ info_fits (snd o).
Definition view_fits (x : view) : Prop := pc_fits (vw_pc x) /\ Forall out_fits (vw_out x).
Definition src_fits (s : Provider_model.src chunk) : Prop := Forall chunk_fits (Provider_model.s_data s).
Definition prov_fits (p : Provider_model.prov chunk) : Prop := Forall src_fits (Provider_model.p_srcs p).
Record fits (w : world) : Prop := {
  f_peers : Forall peer_fits (w_peers w); f_prov : prov_fits (w_prov w); f_map : map_fits (w_map w); f_views : Forall view_fits (w_views w) }.

Lemma Forall_set {A} (P : A -> Prop) (l : list A) i x : Forall P l -> P x -> Forall P (UnixSystem_model.set_nth i x l).
Proof. revert i. induction l as [|y l IH]; intros [|i] H Hx; cbn; auto; inversion H; subst; constructor; auto. Qed.
Lemma prov_set i f p : (forall s, src_fits s -> src_fits (f s)) -> prov_fits p -> prov_fits (Provider_model.set_src i f p).
Proof.
  intros Hf H. unfold Provider_model.set_src. destruct (nth_error (Provider_model.p_srcs p) i) as [s|] eqn:E; [|exact H]. unfold prov_fits in *. cbn. apply Forall_set; [exact H|].
  apply Hf. eapply Forall_forall in H; [exact H|]. eapply nth_error_In, E.
Qed.
Lemma prov_store i b p : prov_fits p -> prov_fits (Provider_model.store i b p). Proof. apply prov_set. auto. Qed.
Lemma prov_clear i p : prov_fits p -> prov_fits (Provider_model.clear i p). Proof. apply prov_set. intros. constructor. Qed.
Lemma prov_incoming c p : chunk_fits c -> prov_fits p -> prov_fits (Provider_model.incoming c p).
Proof.
  intros Hc. unfold Provider_model.incoming. destruct (Provider_model.p_alive p); [|auto]. generalize (Provider_model.snapshot p) as l. intros l. revert p.
  induction l as [|i l IH]; intros p H; cbn [fold_left]; [exact H|]. apply IH. revert H. apply prov_set. intros s Hs. unfold src_fits in *. cbn. apply Forall_app. auto.
Qed.
Lemma goto_fits v pc w : pc_fits pc -> fits w -> fits (goto v pc w).
Proof.
  intros Hp [H1 H2 H3 H4]. unfold goto. destruct (nth_error (w_views w) v) as [x|] eqn:E; [|now constructor]. constructor; cbn; auto. apply Forall_set; [exact H4|].
  split; [exact Hp|]. cbn. eapply Forall_forall in H4; [|eapply nth_error_In, E]. apply H4.
Qed.
Lemma connect_same i w : w_peers (connect i w) = w_peers w /\ w_prov (connect i w) = w_prov w /\ w_map (connect i w) = w_map w /\ w_views (connect i w) = w_views w.
Proof. unfold connect. destruct (_ && _); auto. Qed.
Lemma manage_fits w : fits w -> fits (manage w).
Proof.
  intros H. unfold manage. assert (Hc : fits (clean w)) by (destruct H; constructor; auto). revert Hc. generalize (clean w) as w1. clear H. generalize (seq 0 (length (w_peers w))) as l.
  induction l as [|i l IH]; intros w1 H; cbn [fold_left]; [exact H|]. apply IH. destruct (connect_same i w1) as (E1 & E2 & E3 & E4). destruct H. constructor; congruence.
Qed.
Lemma add_fits m (e : Z * names) : map_fits m -> Forall (fun n => utf8 (snd n) = true) (snd e) -> map_fits (add_new m e).
Proof. intros Hm He. unfold add_new. destruct (mfind Z.ltb (fst e) m); [exact Hm|]. apply insert_Forall; auto. Qed.

Lemma step_fits l w w' : label_fits l -> fits w -> step l w = Some w' -> fits w'.
Proof.
  intros Hl I. unfold step. destruct (w_fate w) eqn:Ef; try discriminate. destruct l as [pid nm title ths|i|i| |t c| |v|v|v late|v|v|v]; cbn in Hl.
  - destruct (existsb _ _); [discriminate|]. intros H. injection H as <-. destruct I. constructor; cbn; auto. apply Forall_app. split; [assumption|]. constructor; [exact Hl|constructor].
  - destruct (nth_error (w_peers w) i) as [p|] eqn:E; [|discriminate]. destruct (pe_up p); [|discriminate]. intros H. injection H as <-. destruct I as [H1 H2 H3 H4]. constructor; cbn; auto.
    apply Forall_set; [exact H1|]. eapply Forall_forall in H1; [|eapply nth_error_In, E]. exact H1.
  - destruct (_ || _); [discriminate|]. intros H. injection H as <-. destruct I. constructor; auto.
  - intros H. injection H as <-. now apply manage_fits.
  - destruct (lost t w); [discriminate|]. intros H. injection H as <-. destruct I. constructor; cbn; auto. now apply prov_incoming.
  - intros H. injection H as <-. destruct I. constructor; cbn; auto.
    + unfold prov_fits. cbn. apply Forall_app. split; [assumption|]. constructor; [constructor|constructor].
    + apply Forall_app. split; [assumption|]. constructor; [split; constructor|constructor].
  - destruct (nth_error (w_views w) v) as [x|]; [|discriminate]. destruct (vw_pc x); try discriminate. intros H. injection H as <-. destruct I. constructor; cbn; auto.
    apply prov_store, prov_clear, prov_store. assumption.
  - destruct (nth_error (w_views w) v) as [x|]; [|discriminate]. destruct (vw_pc x); try discriminate. intros H. injection H as <-. apply goto_fits; [constructor|]. destruct I. constructor; cbn; auto.
    apply prov_store. assumption.
  - destruct (nth_error (w_views w) v) as [x|] eqn:Ex; [|discriminate]. pose proof (f_views _ I) as Hv. eapply Forall_forall in Hv; [|eapply nth_error_In, Ex]. destruct Hv as [Hv _].
    destruct (vw_pc x) as [|[|t todo] m| |[|t todo] m es]; try discriminate; cbn [pc_fits] in Hv.
    + destruct (gather _ m) as [|m'] eqn:E; intros H; injection H as <-; [destruct I; constructor; auto|]. apply goto_fits; [|exact I]. cbn [pc_fits].
      cbn [gather] in E. unfold names_answer in E. destruct (lost t w || negb (up (peer_of t w) w)); [discriminate|].
      destruct late as [junk|]; [cbn in E; injection E as <-; exact Hv|]. destruct (nth_error (w_peers w) (peer_of t w)) as [p|] eqn:Ep; cbn in E; injection E as <-; [|exact Hv].
      apply add_fits; [exact Hv|]. cbn [snd]. pose proof (f_peers _ I) as Hp. eapply Forall_forall in Hp; [|eapply nth_error_In, Ep]. apply Hp.
    + destruct Hv as [Hv1 Hv2]. destruct (info_answer t late w) as [[[pid nm] ths]|] eqn:E; intros H; injection H as <-; [|destruct I; constructor; auto].
      apply goto_fits; [|exact I]. cbn [pc_fits]. split; [|exact Hv2]. apply insert_Forall; [exact Hv1|]. cbn [fst snd].
      unfold info_answer in E. destruct (lost t w || negb (up (peer_of t w) w)); [discriminate|].
      destruct late as [junk|]; [injection E as <- <- <-; split; [exact Hl|split; [reflexivity|constructor]]|].
      destruct (nth_error (w_peers w) (peer_of t w)) as [p|] eqn:Ep; [|discriminate]. injection E as <- <- <-. pose proof (f_peers _ I) as Hp. eapply Forall_forall in Hp; [|eapply nth_error_In, Ep].
      destruct Hp as (P1 & P2 & P3 & P4). auto.
  - destruct (nth_error (w_views w) v) as [x|] eqn:Ex; [|discriminate]. pose proof (f_views _ I) as Hv. eapply Forall_forall in Hv; [|eapply nth_error_In, Ex]. destruct Hv as [Hv _].
    destruct (vw_pc x) as [|[|t todo] m| |todo m es]; try discriminate. intros H. injection H as <-. apply goto_fits; [constructor|]. destruct I. constructor; cbn; auto.
  - destruct (nth_error (w_views w) v) as [x|] eqn:Ex; [|discriminate]. destruct (vw_pc x); try discriminate.
    destruct (Provider_model.finish_src v (w_prov w)) as [|ds p] eqn:E1; [intros H; injection H as <-; destruct I; constructor; auto|].
    destruct (finish (w_map w) ds) as [|es] eqn:E2; intros H; injection H as <-; [destruct I; constructor; auto|].
    unfold Provider_model.finish_src in E1. destruct (Provider_model.p_alive _); [|discriminate]. injection E1 as <- <-.
    assert (Hs : prov_fits (Provider_model.stop v (w_prov w))) by (apply prov_store, (f_prov _ I)).
    apply goto_fits; [|destruct I; constructor; cbn; auto; now apply prov_clear]. cbn [pc_fits]. split; [constructor|].
    eapply finish_fits; [apply (f_map _ I)| |exact E2]. unfold Provider_model.data_of. destruct (nth_error (Provider_model.p_srcs (Provider_model.stop v (w_prov w))) v) as [s|] eqn:E; [|constructor].
    eapply Forall_forall in Hs; [|eapply nth_error_In, E]. exact Hs.
  - destruct (nth_error (w_views w) v) as [x|] eqn:Ex; [|discriminate]. pose proof (f_views _ I) as Hv. eapply Forall_forall in Hv; [|eapply nth_error_In, Ex]. destruct Hv as [Hv Ho].
    destruct (vw_pc x) as [|todo m| |[|t todo] m es]; try discriminate. intros H. injection H as <-. cbn [pc_fits] in Hv. destruct Hv as [Hv1 Hv2]. destruct I. constructor; cbn; auto.
    apply Forall_set; [assumption|]. split; [constructor|]. cbn. apply Forall_app. split; [exact Ho|]. constructor; [now split|constructor].
Qed.
Lemma run_fits h : forall w w', Forall label_fits h -> fits w -> run h w = Some w' -> fits w'.
Proof.
  induction h as [|l h IH]; intros w w' Hh I H; cbn in H; [injection H as <-; exact I|]. destruct (step l w) as [w1|] eqn:E; [|discriminate]. inversion Hh; subst.
  eapply IH; [assumption| |exact H]. eapply step_fits; eassumption.
Qed.
Lemma fits0 : fits w0.
Proof. constructor; constructor. Qed.

(** ** C79 *)
Lemma last_printed v w es im : last_sent v w es im -> pc_of v w = WIdle -> what_native v w = Some (map entry_json es) /\ what_general v w = Some (general_json im).
Proof.
  intros (x & out & E1 & E2) Hp. unfold pc_of in Hp. rewrite E1 in Hp. unfold what_native, what_general. rewrite E1, Hp, E2, rev_app_distr. auto.
Qed.
Lemma run_app h1 : forall h2 w w', run (h1 ++ h2) w = Some w' -> exists w1, run h1 w = Some w1 /\ run h2 w1 = Some w'.
Proof.
  induction h1 as [|l h1 IH]; intros h2 w w' H; cbn [app run] in *; [now exists w|]. destruct (step l w) as [w1|] eqn:E; [|discriminate]. now apply IH.
Qed.
Lemma sent_idle h v w w' : run (h ++ [Send v]) w = Some w' -> pc_of v w' = WIdle.
Proof.
  intros H. destruct (run_app _ _ _ _ H) as (w1 & _ & H2). cbn [run] in H2. destruct (step (Send v) w1) as [w2|] eqn:E; [|discriminate]. injection H2 as <-.
  destruct (send_step _ _ _ E) as (x & m & es & Hx & _ & -> & _). unfold pc_of. cbn [w_views with_views]. rewrite (nth_set _ _ _ _ _ Hx), Nat.eqb_refl. reflexivity.
Qed.
Theorem recorded b h1 h2 h3 v w1 w : Forall label_fits (h1 ++ Start v :: h2) -> Forall label_fits (Finish v :: h3) ->
  run (h1 ++ Start v :: h2) w0 = Some w1 -> run (Finish v :: h3 ++ [Send v]) w1 = Some w -> keeps_recording v h2 -> ~ In (Send v) h3 ->
  exists m es im t js gs, finish m (delivered h2) = FEntries es /\ last_sent v w es im /\
    printed fw b v w = (t, Normal) /\ parse fr t = Some (JArr (js ++ gs)) /\ Forall2 event_shown es js /\ names_shown im gs /\
    (undisturbed v h3 -> in_time v h3 -> forall i p, connected i w1 -> nth_error (w_peers w) i = Some p -> pe_up p = true ->
       (forall id n, mfind N.ltb id (pe_names p) = Some n -> scope_name m (pe_pid p) id = n) /\ mfind Z.ltb (pe_pid p) im = Some (pe_title p, pe_threads p)).
Proof.
  intros F1 F2 H1 H2 H3 H4. destruct (sent h1 h2 h3 v w1 w H1 H2 H3 H4) as (m & es & im & A & B & C). exists m, es, im.
  assert (I : fits w).
  { pose proof (run_fits _ _ _ F1 fits0 H1) as I1. refine (run_fits (Finish v :: h3 ++ [Send v]) _ _ _ I1 H2). change (Forall label_fits ((Finish v :: h3) ++ [Send v])). apply Forall_app. split; [exact F2|].
    constructor; [exact Logic.I|constructor]. }
  assert (Ho : out_fits (es, im)).
  { destruct A as (x & out & Ex & Eo). pose proof (f_views _ I) as Hv. eapply Forall_forall in Hv; [|eapply nth_error_In, Ex]. destruct Hv as [_ Hv]. rewrite Eo in Hv. apply Forall_app in Hv. destruct Hv as [_ Hv].
    now inversion Hv. }
  destruct Ho as [Ho1 Ho2]. cbn [fst snd] in *.
  assert (W1 : Forall wf (map entry_json es)).
  { rewrite Forall_forall in *. intros x Hx. apply in_map_iff in Hx. destruct Hx as (e & <- & He). apply entry_wf. auto. }
  destruct (output_parses fw fr b _ _ W1 (general_wf im Ho2)) as (t & E1 & E2). exists t, (map entry_json es), (general_json im).
  destruct (last_printed v w es im A) as [E3 E4]; [change (Finish v :: h3 ++ [Send v]) with ((Finish v :: h3) ++ [Send v]) in H2; exact (sent_idle _ _ _ _ H2)|].
  split; [exact B|]. split; [exact A|]. split; [unfold printed; rewrite E3, E4; exact E1|]. split; [exact E2|]. split; [apply entries_show|]. split; [apply general_shows|exact C].
Qed.

(** After the recording was stopped, and until everything is there, there is nothing to print. *)
Lemma goto_self v pc w x : nth_error (w_views w) v = Some x -> pc_of v (goto v pc w) = pc.
Proof. intros H. rewrite (goto_pc v pc w v x H), Nat.eqb_refl. reflexivity. Qed.
Lemma busy_step l w w' v : step l w = Some w' -> inv w -> l <> Send v -> pc_of v w <> WIdle -> pc_of v w' <> WIdle.
Proof.
  intros H I Hl Hp. assert (Hx : exists x, nth_error (w_views w) v = Some x) by (unfold pc_of in Hp; destruct (nth_error (w_views w) v) as [x|]; [now exists x|congruence]).
  destruct Hx as [x Hx].
  assert (Hc : actor l = Some v \/ actor l <> Some v) by (destruct (actor l) as [u|]; [destruct (Nat.eq_dec u v) as [->|]; [now left|right; congruence]|right; discriminate]).
  destruct Hc as [Ha|Ha]; [|pose proof (view_step _ _ _ _ _ H I Hx Ha) as E; unfold pc_of in *; rewrite E; rewrite Hx in Hp; exact Hp].
  destruct l as [pid nm title ths|i|i| |t0 c| |u|u|u late|u|u|u]; cbn in Ha; try discriminate; injection Ha as ->.
  - exfalso. pose proof (step_running _ _ _ H) as Hf. unfold step in H. rewrite Hf, Hx in H. rewrite (pc_at _ _ _ Hx) in Hp. destruct (vw_pc x); congruence.
  - destruct (finish_step _ _ _ H) as (y & Hy & E & _). rewrite (pc_at _ _ _ Hy) in Hp. congruence.
  - destruct (ask_step _ _ _ _ H) as (y & Hy & [(t & todo & m & E & [(m' & _ & ->)|[_ ->]])|(t & todo & m & es & E & [(pid & nm & ths & _ & ->)|[_ ->]])]).
    + rewrite (goto_self _ _ _ _ Hy). discriminate.
    + exact Hp.
    + rewrite (goto_self _ _ _ _ Hy). discriminate.
    + exact Hp.
  - destruct (swap_step _ _ _ H) as (y & m & _ & _ & _ & E & _). rewrite E. discriminate.
  - pose proof (step_running _ _ _ H) as Hf. unfold step in H. rewrite Hf, Hx in H. destruct (vw_pc x) eqn:Ex; try discriminate.
    destruct (Ended_model.P.finish_src v (w_prov w)) as [|ds p]; [injection H as <-; exact Hp|]. destruct (finish (w_map w) ds) as [|es]; injection H as <-; [exact Hp|].
    erewrite goto_self by exact Hx. discriminate.
  - congruence.
Qed.
Lemma busy_run h : forall w w' v, run h w = Some w' -> inv w -> ~ In (Send v) h -> pc_of v w <> WIdle -> pc_of v w' <> WIdle.
Proof.
  induction h as [|l h IH]; intros w w' v H I Hs Hp; cbn [run] in H; [injection H as <-; exact Hp|]. destruct (step l w) as [w1|] eqn:E; [|discriminate].
  eapply IH; [exact H| | |].
  - eapply inv_step; eassumption.
  - intro Hi. apply Hs. now right.
  - eapply busy_step; eauto. intros ->. apply Hs. now left.
Qed.
Theorem all_lost b h h' v w w' i : Forall label_fits h -> Forall label_fits h' -> run h w0 = Some w -> connected i w -> up i w = false -> run (Finish v :: h') w = Some w' ->
  printed fw b v w' = (opening ++ text "]", Normal) /\ parse fr (fst (printed fw b v w')) = Some (JArr []).
Proof.
  intros F1 F2 H1 Hc Hu H2. pose proof (never_sent _ _ _ _ _ _ H1 Hc Hu H2) as Hs. pose proof (run_fits _ _ _ F1 fits0 H1) as I1.
  assert (I2 : fits w') by (refine (run_fits (Finish v :: h') _ _ _ I1 H2); constructor; [exact Logic.I|exact F2]).
  assert (Hb : pc_of v w' <> WIdle).
  { cbn [run] in H2. destruct (step (Finish v) w) as [w1|] eqn:E; [|discriminate]. pose proof (inv_run _ _ _ inv0 H1) as Iw.
    eapply busy_run; [exact H2|eapply inv_step; eassumption|exact Hs|]. destruct (finish_step _ _ _ E) as (x & Hx & _ & ->). erewrite goto_self by exact Hx. discriminate. }
  assert (G : printed fw b v w' = quiet); [|rewrite G; split; reflexivity].
  unfold printed, what_native, what_general. unfold pc_of in Hb. destruct (nth_error (w_views w') v) as [x|] eqn:Ex; [|reflexivity].
  pose proof (f_views _ I2) as Hv. eapply Forall_forall in Hv; [|eapply nth_error_In, Ex]. destruct Hv as [Hv _]. destruct (vw_pc x) as [|todo m| |todo m es]; try reflexivity; [congruence|].
  cbn in Hv. destruct Hv as [_ Hv]. assert (W1 : Forall wf (map entry_json es)).
  { rewrite Forall_forall in *. intros y Hy. apply in_map_iff in Hy. destruct Hy as (e & <- & He). apply entry_wf. auto. }
  destruct (dumps_all fw fr _ W1) as (ps & ts & E1 & _). unfold record_output. rewrite E1. reflexivity.
Qed.
End Fits.
