(** Sources written in Python: proofs. *)
From Coq Require Import String List Arith NArith ZArith Ascii Bool Lia.
Import ListNotations.
From Verif Require Import OMap_model OMap_proofs Json_model Json_spec Json_proofs JsonRead_proofs Session_model Session_spec Session_proofs PyJson_model PyJson_spec PyText_proofs PyJson_proofs
  PySource_model PySource_spec.
Local Open Scope nat_scope.
Local Notation length := List.length.

Section Proofs.
Context {F : Type} (fw : F -> bytes) (fr : bytes -> option F) (braces : json F) (fcmp : F -> F -> comparison) (of_int : Z -> F) {Q : Type}.
Notation json := (json F). Notation py := (py F). Notation act := (act F). Notation given := (given F). Notation src := (src F Q). Notation cls := (cls F Q).
Notation to_json := (to_json fcmp of_int). Notation as_events := (as_events fcmp of_int).
Notation wf := (wf fw fr).

(** ** Values *)
Lemma utf8_of s b : a_str s -> to_utf8 s = Some b -> utf8 b = true.
Proof. intros Ha E. apply of_utf8_ok. rewrite (utf8_back s b Ha E). discriminate. Qed.
Lemma set_insert_Forall (P : json -> Prop) x l : P x -> Forall P l -> Forall P (set_insert fcmp of_int x l).
Proof.
  intros Hx Hl. induction Hl as [|y l Hy Hl IH]; cbn [set_insert]; [auto|].
  destruct (json_cmp fcmp of_int x y); constructor; auto.
Qed.
Lemma set_fold_Forall (P : json -> Prop) js : Forall P js -> forall acc, Forall P acc -> Forall P (fold_left (fun m x => set_insert fcmp of_int x m) js acc).
Proof. induction 1 as [|x js Hx Hjs IH]; intros acc Ha; cbn [fold_left]; [exact Ha|]. apply IH. now apply set_insert_Forall. Qed.
Lemma minsert_Forall {V} (P : bytes * V -> Prop) k v m : P (k, v) -> Forall P m -> Forall P (minsert str_ltb k v m).
Proof.
  intros Hx Hl. induction Hl as [|[k' v'] l Hy Hl IH]; cbn [minsert]; [auto|].
  destruct (str_ltb k k'); [auto|]. destruct (str_ltb k' k); auto.
Qed.
Lemma members_fold (P : bytes * json -> Prop) l : Forall P l -> forall acc, Forall P acc -> ordered str_ltb acc ->
  let m := fold_left (fun m kv => minsert str_ltb (fst kv) (snd kv) m) l acc in Forall P m /\ ordered str_ltb m.
Proof.
  induction 1 as [|[k v] l Hx Hl IH]; intros acc Ha Ho; cbn [fold_left fst snd]; [auto|]. apply IH; [now apply minsert_Forall|now apply (ordered_insert str_ltb str_order)].
Qed.

Lemma json_wf p : well (float_ok fw fr) p -> forall j, to_json p = Some j -> wf j.
Proof.
  assert (GL : forall l js, Forall (fun p => well (float_ok fw fr) p -> forall j, to_json p = Some j -> wf j) l -> Forall (well (float_ok fw fr)) l ->
    Forall2 (fun x y => to_json x = Some y) l js -> Forall wf js).
  { intros l js IH HW H. induction H as [|x y l js Hxy H IHl]; [constructor|]. apply Forall_cons_iff in IH as [Ix IH], HW as [Wx HW]. constructor; eauto. }
  induction p as [|b|z|f|s|b|l IH|l IH|l IH|d IH|] using py_full_ind; intros Hp j E; cbn [PyJson_model.to_json] in E.
  - injection E as <-. constructor.
  - injection E as <-. constructor.
  - destruct ((-9223372036854775808 <=? z) && (z <=? 9223372036854775807))%Z eqn:Ez; [|discriminate]. injection E as <-.
    apply andb_true_iff in Ez as [E1 E2]. apply Z.leb_le in E1, E2. constructor. unfold int_range. lia.
  - injection E as <-. inversion Hp; subst. now constructor.
  - destruct (to_utf8 s) as [t|] eqn:Es; [|discriminate]. injection E as <-. inversion Hp; subst. constructor. eapply utf8_of; eauto.
  - assert (j = JArr (map (fun c => JInt (Z.of_N (code c))) b)) by congruence. subst j. constructor. apply Forall_forall. intros x Hx.
    apply in_map_iff in Hx as (c & <- & _). constructor. unfold int_range, code. pose proof (N_ascii_bounded c). lia.
  - inversion Hp as [| | | | | |? Hl| | | |]; subst. destruct (all to_json l) as [js|] eqn:Ea; [|discriminate]. injection E as <-. apply all_some in Ea. constructor. eauto.
  - inversion Hp as [| | | | | | |? Hl| | |]; subst. destruct (all to_json l) as [js|] eqn:Ea; [|discriminate]. injection E as <-. apply all_some in Ea. constructor. eauto.
  - inversion Hp as [| | | | | | | |? Hl| |]; subst. destruct (all to_json l) as [js|] eqn:Ea; [|discriminate]. injection E as <-. apply all_some in Ea. constructor.
    apply set_fold_Forall; [eauto|constructor].
  - inversion Hp as [| | | | | | | | |? Hl|]; subst.
    change (all (fun kv : py * py => match fst kv with PStr k => match to_utf8 k, to_json (snd kv) with Some k', Some v => Some (k', v) | _, _ => None end | _ => None end) d) with (all (member_json fcmp of_int) d) in E.
    destruct (all (member_json fcmp of_int) d) as [js|] eqn:Ea; [|discriminate]. injection E as <-. apply all_some in Ea.
    assert (G : Forall (fun kv : bytes * json => utf8 (fst kv) = true /\ wf (snd kv)) js).
    { clear Hp GL. induction Ea as [|x [k v] l js Hxy H IHl]; [constructor|]. apply Forall_cons_iff in IH as [Ix IH], Hl as [[Wk Wv] Hl]. constructor; [|auto].
      apply member_json_some in Hxy as (s & Es & Us & Ev). rewrite Es in Wk. inversion Wk; subst. split; [eapply utf8_of; eauto|]. cbn [snd]. eauto. }
    destruct (members_fold _ js G [] (Forall_nil _) (ordered_nil _)) as [G1 G2]. apply wf_obj; [|exact G1]. exact G2.
  - injection E as <-. constructor.
Qed.
Lemma json_utf8 p : proper p -> forall j, to_json p = Some j -> in_utf8 j.
Proof.
  unfold proper. set (T := fun _ : F => True).
  assert (GL : forall l js, Forall (fun p => well T p -> forall j, to_json p = Some j -> in_utf8 j) l -> Forall (well T) l ->
    Forall2 (fun x y => to_json x = Some y) l js -> Forall in_utf8 js).
  { intros l js IH HW H. induction H as [|x y l js Hxy H IHl]; [constructor|]. apply Forall_cons_iff in IH as [Ix IH], HW as [Wx HW]. constructor; eauto. }
  induction p as [|b|z|f|s|b|l IH|l IH|l IH|d IH|] using py_full_ind; intros Hp j E; cbn [PyJson_model.to_json] in E.
  - injection E as <-. constructor.
  - injection E as <-. constructor.
  - destruct (_ && _)%bool; [|discriminate]. injection E as <-. constructor.
  - injection E as <-. constructor.
  - destruct (to_utf8 s) as [t|] eqn:Es; [|discriminate]. injection E as <-. inversion Hp; subst. constructor. eapply utf8_of; eauto.
  - assert (j = JArr (map (fun c => JInt (Z.of_N (code c))) b)) by congruence. subst j. constructor. apply Forall_forall. intros x Hx.
    apply in_map_iff in Hx as (c & <- & _). constructor.
  - inversion Hp as [| | | | | |? Hl| | | |]; subst. destruct (all to_json l) as [js|] eqn:Ea; [|discriminate]. injection E as <-. apply all_some in Ea. constructor. eauto.
  - inversion Hp as [| | | | | | |? Hl| | |]; subst. destruct (all to_json l) as [js|] eqn:Ea; [|discriminate]. injection E as <-. apply all_some in Ea. constructor. eauto.
  - inversion Hp as [| | | | | | | |? Hl| |]; subst. destruct (all to_json l) as [js|] eqn:Ea; [|discriminate]. injection E as <-. apply all_some in Ea. constructor.
    apply set_fold_Forall; [eauto|constructor].
  - inversion Hp as [| | | | | | | | |? Hl|]; subst.
    change (all (fun kv : py * py => match fst kv with PStr k => match to_utf8 k, to_json (snd kv) with Some k', Some v => Some (k', v) | _, _ => None end | _ => None end) d) with (all (member_json fcmp of_int) d) in E.
    destruct (all (member_json fcmp of_int) d) as [js|] eqn:Ea; [|discriminate]. injection E as <-. apply all_some in Ea.
    assert (G : Forall (fun kv : bytes * json => utf8 (fst kv) = true /\ in_utf8 (snd kv)) js).
    { clear Hp GL. induction Ea as [|x [k v] l js Hxy H IHl]; [constructor|]. apply Forall_cons_iff in IH as [Ix IH], Hl as [[Wk Wv] Hl]. constructor; [|auto].
      apply member_json_some in Hxy as (s & Es & Us & Ev). rewrite Es in Wk. inversion Wk; subst. split; [eapply utf8_of; eauto|]. cbn [snd]. eauto. }
    destruct (members_fold _ js G [] (Forall_nil _) (ordered_nil _)) as [G1 G2]. now apply in_obj.
  - injection E as <-. constructor.
Qed.

Lemma events_some p l : as_events p = Some l -> to_json p = Some (JArr l) /\ listlike p /\ fits p.
Proof.
  unfold PySource_model.as_events. destruct (to_json p) as [j|] eqn:E; [|discriminate]. intros H. destruct j as [| | | | |l0|]; try discriminate. injection H as ->.
  split; [reflexivity|]. split; [|apply (converts fcmp of_int); congruence].
  destruct p; cbn [PyJson_model.to_json] in E; try discriminate; try constructor.
  - destruct (_ && _)%bool; discriminate.
  - destruct (to_utf8 s); discriminate.
  - destruct (all _ l0); discriminate.
Qed.
Lemma events_none p : as_events p = None -> ~ (listlike p /\ fits p).
Proof.
  unfold PySource_model.as_events. intros H [HL HF]. apply (converts fcmp of_int) in HF. destruct (to_json p) as [j|] eqn:E; [|now apply HF].
  destruct HL as [l|l|l|b]; cbn [PyJson_model.to_json] in E.
  - destruct (all to_json l); [|discriminate]. injection E as <-. discriminate.
  - destruct (all to_json l); [|discriminate]. injection E as <-. discriminate.
  - destruct (all to_json l); [|discriminate]. injection E as <-. discriminate.
  - assert (j = JArr (map (fun c => JInt (Z.of_N (code c))) b)) by congruence. subst j. discriminate.
Qed.

(** ** Calls *)
Inductive kind := KNative | KPython (c : cls) | KNull.
Definition kind_of (x : src) : kind := match x with Native => KNative | Python c _ => KPython c | Null => KNull end.
Lemma kinds_class xs ys c : map kind_of xs = map kind_of ys -> class_in xs c -> class_in ys c.
Proof.
  revert ys. induction xs as [|x xs IH]; intros [|y ys] E; cbn [map] in E; try discriminate; [intros (s & [])|].
  injection E as E1 E2. intros (s & [->|Hs]).
  - destruct y; try discriminate. injection E1 as <-. eexists. left. reflexivity.
  - destruct (IH ys E2) as (s' & Hs'); [now exists s|]. exists s'. now right.
Qed.
Lemma kinds_null xs ys : map kind_of xs = map kind_of ys -> In Null xs -> In Null ys.
Proof.
  revert ys. induction xs as [|x xs IH]; intros [|y ys] E; cbn [map] in E; try discriminate; [intros []|].
  injection E as E1 E2. intros [->|Hs]; [destruct y; try discriminate; now left|right; auto].
Qed.
Lemma kinds_length xs ys : map kind_of xs = map kind_of ys -> length xs = length ys.
Proof. intros E. apply (f_equal (@length _)) in E. now rewrite !map_length in E. Qed.

(** One source after a call: the state its method left. *)
Definition moved (m : cls -> option (Q -> Q * bool)) (x y : src) : Prop :=
  match x with Python c s => exists s', y = Python c s' /\ method (m c) s s' | _ => y = x end.
Lemma call_all_cases m a xs : forall i,
  match call_all m a i xs with
  | Good xs' es => es = map (fun j => a j true) (seq i (length xs)) /\ map kind_of xs' = map kind_of xs /\ Forall2 (moved m) xs xs'
  | Threw es => exists k, k < length xs /\ es = map (fun j => a j true) (seq i k) ++ [a (i + k) false]
  | Undef es => In Null xs
  end.
Proof.
  induction xs as [|x xs IH]; intros i; [repeat split; constructor|].
  change (call_all m a i (x :: xs)) with (bind (call m (a i) x) (fun x' => bind (call_all m a (S i) xs) (fun r' => Good (x' :: r') []))).
  specialize (IH (S i)). destruct x as [|c s|]; cbn [call].
  - cbn [bind]. destruct (call_all m a (S i) xs) as [xs' es|es|es]; cbn [bind].
    + destruct IH as (-> & K & M). rewrite app_nil_r. cbn [length seq map app]. split; [reflexivity|]. split; [now rewrite K|]. now constructor.
    + destruct IH as (k & Hk & ->). exists (S k). cbn [length seq map app]. split; [lia|]. now rewrite <- plus_n_Sm.
    + now right.
  - destruct (m c) as [f|] eqn:Ef.
    + destruct (f s) as [s' [|]] eqn:Es; cbn [bind].
      * destruct (call_all m a (S i) xs) as [xs' es|es|es]; cbn [bind].
        -- destruct IH as (-> & K & M). rewrite app_nil_r. cbn [length seq map app]. split; [reflexivity|]. split; [cbn; now rewrite K|]. constructor; [|exact M].
           exists s'. split; [reflexivity|]. unfold method. now rewrite Ef.
        -- destruct IH as (k & Hk & ->). exists (S k). cbn [length seq map app]. split; [lia|]. now rewrite <- plus_n_Sm.
        -- now right.
      * exists 0. cbn [length seq map app]. split; [lia|]. now rewrite Nat.add_0_r.
    + cbn [bind]. destruct (call_all m a (S i) xs) as [xs' es|es|es]; cbn [bind].
      * destruct IH as (-> & K & M). rewrite app_nil_r. cbn [length seq map app]. split; [reflexivity|]. split; [cbn; now rewrite K|]. constructor; [|exact M].
        exists s. split; [reflexivity|]. unfold method. now rewrite Ef.
      * destruct IH as (k & Hk & ->). exists (S k). cbn [length seq map app]. split; [lia|]. now rewrite <- plus_n_Sm.
      * now right.
  - now left.
Qed.
Definition fin_at (i : nat) (gs : list given) : list act := map (fun ig => AFinish (fst ig) (snd ig)) (combine (seq i (length gs)) gs).
(** One source after [finishInterval]. *)
Definition gave (g : given) (x y : src) : Prop :=
  match x with
  | Native => y = x /\ exists l, g = GNative l
  | Python c s => match c_finish c with None => y = x /\ g = GDefault | Some f => exists s' p, g = GValue p /\ f s = (s', Some p) /\ y = Python c s' end
  | Null => False
  end.
Fixpoint gave_all (gs : list given) (xs ys : list src) : Prop :=
  match gs, xs, ys with
  | [], [], [] => True
  | g :: gs', x :: xs', y :: ys' => gave g x y /\ gave_all gs' xs' ys'
  | _, _, _ => False
  end.
Definition good_value (g : given) : Prop := match g with GRaised => False | GValue p => as_events p <> None | _ => True end.
Lemma finish_all_cases (R : given -> list json -> Prop) ev xs :
  (forall i, R (GNative (ev i)) (ev i)) -> R GDefault [] ->
  (forall c f s s' p l, class_in xs c -> c_finish c = Some f -> f s = (s', Some p) -> as_events p = Some l -> R (GValue p) l) ->
  forall i,
  match finish_all fcmp of_int ev i xs with
  | Good xe es => exists gs parts, length gs = length xs /\ es = fin_at i gs /\ snd xe = concat parts /\ Forall2 R gs parts /\ Forall good_value gs
      /\ map kind_of (fst xe) = map kind_of xs /\ gave_all gs xs (fst xe)
  | Threw es => exists gs g, length gs < length xs /\ es = fin_at i gs ++ [AFinish (i + length gs) g] /\ Forall good_value gs /\ ~ good_value g
      /\ exists parts, Forall2 R gs parts
  | Undef es => In Null xs
  end.
Proof.
  intros RN RD. induction xs as [|x xs IH]; intros RP i; [exists [], []; repeat split; constructor|].
  change (finish_all fcmp of_int ev i (x :: xs)) with (bind (finish fcmp of_int (ev i) i x) (fun xl => bind (finish_all fcmp of_int ev (S i) xs) (fun rl => Good (fst xl :: fst rl, snd xl ++ snd rl) []))).
  assert (RP' : forall c f s s' p l, class_in xs c -> c_finish c = Some f -> f s = (s', Some p) -> as_events p = Some l -> R (GValue p) l).
  { intros c f s s' p l (s0 & H0). apply RP. exists s0. now right. }
  specialize (IH RP' (S i)). clear RP'.
  assert (Step : forall g part y, R g part -> good_value g -> gave g x y -> kind_of y = kind_of x ->
    match bind (Good (y, part) [AFinish i g]) (fun xl => bind (finish_all fcmp of_int ev (S i) xs) (fun rl => Good (fst xl :: fst rl, snd xl ++ snd rl) [])) with
    | Good xe es => exists gs parts, length gs = length (x :: xs) /\ es = fin_at i gs /\ snd xe = concat parts /\ Forall2 R gs parts /\ Forall good_value gs
        /\ map kind_of (fst xe) = map kind_of (x :: xs) /\ gave_all gs (x :: xs) (fst xe)
    | Threw es => exists gs g, length gs < length (x :: xs) /\ es = fin_at i gs ++ [AFinish (i + length gs) g] /\ Forall good_value gs /\ ~ good_value g
        /\ exists parts, Forall2 R gs parts
    | Undef es => In Null (x :: xs)
    end).
  { intros g part y HR HG HY HK. cbn [bind]. destruct (finish_all fcmp of_int ev (S i) xs) as [xe es|es|es]; cbn [bind fst snd].
    - destruct IH as (gs & parts & L & -> & E & F2 & FG & K & GA). exists (g :: gs), (part :: parts). rewrite app_nil_r. cbn [length concat map gave_all].
      split; [now rewrite L|]. split; [reflexivity|]. split; [now rewrite E|]. split; [now constructor|]. split; [now constructor|]. split; [now rewrite K, HK|]. now split.
    - destruct IH as (gs & g' & L & -> & FG & NG & parts & F2). exists (g :: gs), g'. cbn [length]. split; [lia|]. split; [now rewrite <- plus_n_Sm|]. split; [now constructor|].
      split; [exact NG|]. exists (part :: parts). now constructor.
    - now right. }
  destruct x as [|c s|]; cbn [finish].
  - apply Step; cbn [good_value gave kind_of]; auto. split; [reflexivity|]. eauto.
  - destruct (c_finish c) as [f|] eqn:Ef.
    + destruct (f s) as [s' [p|]] eqn:Es.
      * destruct (as_events p) as [l|] eqn:Ep.
        -- apply Step; cbn [good_value gave kind_of]; [|congruence| |reflexivity].
           ++ apply (RP c f s s'); auto. exists s. now left.
           ++ rewrite Ef. exists s', p. auto.
        -- cbn [bind]. exists [], (GValue p). cbn [length]. rewrite Nat.add_0_r. split; [lia|]. split; [reflexivity|]. split; [constructor|]. split; [cbn; congruence|]. exists []. constructor.
      * cbn [bind]. exists [], GRaised. cbn [length]. rewrite Nat.add_0_r. split; [lia|]. split; [reflexivity|]. split; [constructor|]. split; [auto|]. exists []. constructor.
    + apply Step; cbn [good_value gave kind_of]; auto. now rewrite Ef.
  - now left.
Qed.

(** ** One text *)
Context (Hfloat : forall t f, fr t = Some f -> float_ok fw fr f) (Hbraces : wf braces).
Notation handle := (handle fw fr braces fcmp of_int).
Inductive handled_as (ev : nat -> list json) (t : bytes) (xs : list src) : res (F := F) (list src) -> Prop :=
| ha_refused : ~ acceptable fr t -> handled_as ev t xs (Threw [])
| ha_nothing : acceptable fr t -> (forall r id, ~ message fr t (name_of r) id) -> handled_as ev t xs (Good xs [])
| ha_categories id a r : message fr t "Tracing.getCategories" id -> answer fr a id r -> handled_as ev t xs (Good xs [ASend a])
| ha_start id a r : message fr t "Tracing.start" id -> answer fr a id r ->
    handled_as ev t xs (bind (call_all c_start AStart 0 xs) (fun xs' => Good xs' [ASend a]))
| ha_end id a c : message fr t "Tracing.end" id -> answer fr a id JNull -> completion fr c ->
    handled_as ev t xs (bind (call_all c_stop AStop 0 xs) (fun xs' => bind (Good tt [ASend a]) (fun _ =>
      bind (finish_all fcmp of_int ev 0 xs') (fun xe => bind (lift (chunked_transmit fw (snd xe))) (fun _ => Good (fst xe) [ASend c]))))).
Lemma handle_cases ev t xs : handled_as ev t xs (handle ev t xs).
Proof.
  unfold PySource_model.handle. destruct (parse fr t) as [j|] eqn:Ep.
  2:{ apply ha_refused. intros [H|(m & H)]; congruence. }
  assert (Hacc : acceptable fr t \/ ~ acceptable fr t /\ member j "method" = None).
  { destruct j; try (right; split; [intros [H|(m' & H)]; congruence|reflexivity]); left; [now left|right; eauto]. }
  destruct Hacc as [Hacc|[Hacc ->]]; [|now apply ha_refused].
  destruct Hacc as [Hn|(m & Hm)].
  { assert (j = JNull) by congruence. subst j. cbn [member]. cbn match. apply ha_nothing; [now left|]. intros r id (m & E & _). congruence. }
  assert (j = JObj m) by congruence. subst j. clear Ep.
  pose proof (parse_wf fw fr Hfloat _ _ Hm) as Hw. pose proof (obj_facts fw fr m Hw) as Ha.
  destruct (member_obj m "method" Ha) as (method & Em & Hmeth & Humeth). destruct (member_obj m "id" Ha) as (id & Ei & Hid & Huid).
  assert (Hwid : wf id) by (eapply member_wf; eauto).
  assert (Hmsg : forall s, method = JStr (text s) -> message fr t s id).
  { intros s ->. exists m. split; [exact Hm|]. split; [|exact Hid]. destruct Hmeth as [Hmeth|[Hmeth _]]; [exact Hmeth|discriminate]. }
  rewrite Em, Ei. cbn zeta.
  destruct (is_text method "Tracing.getCategories") eqn:E1.
  { apply is_text_spec in E1.
    destruct (send_ok fw fr (JObj [pair_of "id" id; pair_of "result" (JObj [pair_of "categories" (JArr [jtext "!foo"; jtext "!bar"; jtext "disabled-by-default-buz"])])])) as (a & -> & Hp).
    { apply answer_wf; [exact Hwid|]. apply wf_obj; [apply ascending_one|]. constructor; [|constructor]. split; [reflexivity|].
      cbn [snd pair_of]. apply wf_arr. repeat constructor. }
    cbn [lift flat_map app bind]. eapply ha_categories; [apply Hmsg; exact E1|exact Hp]. }
  destruct (is_text method "Tracing.start") eqn:E2.
  { apply is_text_spec in E2. destruct (send_ok fw fr _ (answer_wf fw fr id braces Hwid Hbraces)) as (a & -> & Hp).
    cbn [lift flat_map app bind]. eapply ha_start; [apply Hmsg; exact E2|exact Hp]. }
  destruct (is_text method "Tracing.end") eqn:E3.
  { apply is_text_spec in E3. destruct (send_ok fw fr _ (answer_wf fw fr id JNull Hwid (wf_null _ _))) as (a & -> & Hp).
    destruct (send_ok fw fr (JObj [pair_of "method" (jtext "Tracing.tracingComplete"); pair_of "params" (JArr [])])) as (c & -> & Hcp).
    { apply wf_obj; [apply ascending_two; reflexivity|]. constructor; [split; [reflexivity|constructor; reflexivity]|]. repeat constructor. }
    change (lift (F := F) (Done [ESend a])) with (Good (F := F) tt [ASend a]). change (lift (F := F) (Done [ESend c])) with (Good (F := F) tt [ASend c]).
    change (handled_as ev t xs (bind (call_all c_stop AStop 0 xs) (fun xs' => bind (Good tt [ASend a]) (fun _ =>
      bind (finish_all fcmp of_int ev 0 xs') (fun xe => bind (lift (chunked_transmit fw (snd xe))) (fun _ => Good (fst xe) [ASend c])))))).
    eapply ha_end; [apply Hmsg; exact E3|exact Hp|exact Hcp]. }
  apply ha_nothing; [right; eauto|].
  intros r id' (m' & Em' & Hm' & _). rewrite Hm in Em'. injection Em' as <-. apply Humeth in Hm'. subst method.
  assert (Hr : is_text (F := F) (JStr (text (name_of r))) (name_of r) = true) by (apply is_text_spec; reflexivity).
  destruct r; cbn [name_of] in *; congruence.
Qed.

Lemma good_no_fault i g : good_value g -> ~ fault (F := F) (AFinish i g).
Proof.
  intros H Hf. inversion Hf; subst; cbn [good_value] in H; [exact H|]. destruct (as_events p) as [l|] eqn:E; [|congruence]. apply events_some in E. tauto.
Qed.
Lemma bad_fault i g : ~ good_value g -> fault (F := F) (AFinish i g).
Proof.
  intros H. destruct g as [l| | |p]; cbn [good_value] in H; try tauto; [constructor|]. constructor. apply events_none. destruct (as_events p); [|reflexivity]. exfalso. apply H. discriminate.
Qed.
Lemma fin_at_no_fault i gs : Forall good_value gs -> Forall (fun a => ~ fault (F := F) a) (fin_at i gs).
Proof.
  intros H. unfold fin_at. apply Forall_forall. intros a Ha. apply in_map_iff in Ha as ([j g] & <- & Hj). cbn [fst snd]. apply good_no_fault. rewrite Forall_forall in H. apply H. eapply in_combine_r; eauto.
Qed.
Lemma sends_sends ps : flat_map (fun e => match e with ESend t => [ASend (F := F) t] | _ => [] end) (map ESend ps) = map ASend ps.
Proof. induction ps as [|p ps IH]; [reflexivity|]. cbn [map flat_map app]. now rewrite IH. Qed.

Lemma handle_result ev t xs : (forall c, class_in xs c -> returns (clean fw fr) c) -> (forall i, Forall wf (ev i)) ->
  match handle ev t xs with
  | Good xs' es => causes fr (length xs) t es /\ map kind_of xs' = map kind_of xs
  | Threw es => acceptable fr t -> broken fr (length xs) t es
  | Undef es => In Null xs
  end.
Proof.
  intros HC HE. destruct (handle_cases ev t xs) as [Hn|Hacc Hno|id a r Hm Ha|id a r Hm Ha|id a c Hm Ha Hc].
  - tauto.
  - split; [now constructor|reflexivity].
  - split; [econstructor; eauto|reflexivity].
  - pose proof (call_all_cases c_start AStart xs 0) as H. destruct (call_all c_start AStart 0 xs) as [xs' es|es|es]; cbn [bind].
    + destruct H as (-> & K & _). split; [|exact K]. eapply ca_start; eauto.
    + destruct H as (k & Hk & ->). intros _. eapply br_start; eauto.
    + exact H.
  - pose proof (call_all_cases c_stop AStop xs 0) as H. destruct (call_all c_stop AStop 0 xs) as [xs' es|es|es]; cbn [bind].
    2:{ destruct H as (k & Hk & ->). intros _. eapply br_stop; eauto. }
    2: exact H.
    destruct H as (-> & K & _). pose proof (kinds_length _ _ K) as KL.
    set (R := fun (g : given) (l : list json) => yields g l /\ Forall wf l).
    pose proof (finish_all_cases R ev xs') as H. specialize (H (fun i => conj (yi_native _) (HE i)) (conj yi_default (Forall_nil _))).
    assert (RP : forall (c0 : cls) f s s' p l, class_in xs' c0 -> c_finish c0 = Some f -> f s = (s', Some p) -> as_events p = Some l -> R (GValue p) l).
    { intros c0 f s s' p l Hin Hf Hs Hl. pose proof (HC c0 (kinds_class _ _ c0 K Hin) f s s' p Hf Hs) as [Hv Hw]. apply events_some in Hl as (Hj & _ & _).
      split.
      - destruct (nothing_lost fcmp of_int p Hv _ Hj) as (q & Hq & Hb). econstructor; eauto.
      - pose proof (json_wf p Hw _ Hj) as W. inversion W; subst. assumption. }
    specialize (H RP 0). destruct (finish_all fcmp of_int ev 0 xs') as [xe es|es|es]; cbn [bind].
    + destruct H as (gs & parts & L & -> & E & F2 & FG & K2 & _). rewrite E.
      assert (HW : Forall wf (concat parts)).
      { apply Forall_concat. clear - F2. induction F2 as [|g l gs parts [_ H] F2 IH]; constructor; auto. }
      destruct (chunked_ok fw fr (concat parts) HW) as (ps & groups & -> & Hps & Hg & Hcon). cbn [lift bind].
      rewrite sends_sends. split; [|congruence].
      change (all_ok AStop (length xs) ++ [ASend a] ++ fin_at 0 gs ++ map ASend ps ++ [ASend c]) with (all_ok AStop (length xs) ++ [ASend a] ++ finished gs ++ map ASend ps ++ [ASend c]).
      apply (ca_end fr (length xs) t id a gs parts ps groups c Hm Ha); auto; [congruence|].
      clear - F2. induction F2 as [|g l gs parts [H _] F2 IH]; constructor; auto.
    + destruct H as (gs & g & L & -> & FG & NG & parts & F2). intros _.
      change (broken fr (length xs) t (all_ok AStop (length xs) ++ [ASend a] ++ finished gs ++ [AFinish (length gs) g])).
      apply (br_finish fr (length xs) t id a (length gs) gs g Hm Ha eq_refl); [lia|now apply bad_fault|].
      intros i g' Hi. apply good_no_fault. rewrite Forall_forall in FG. apply FG. eapply in_combine_r; eauto.
    + apply (kinds_null xs' xs); auto.
Qed.
Lemma oks_no_fault (a : nat -> bool -> act) i n : a = AStart \/ a = AStop -> Forall (fun x => ~ fault (F := F) x) (map (fun j => a j true) (seq i n)).
Proof. intros Ha. apply Forall_forall. intros x Hx. apply in_map_iff in Hx as (j & <- & _). destruct Ha as [-> | ->]; intros H; inversion H. Qed.
Lemma send_no_fault t : ~ fault (F := F) (ASend t). Proof. intros H. inversion H. Qed.
Lemma handle_faults ev t xs : (forall c, class_in xs c -> returns proper c) -> (forall i, Forall in_utf8 (ev i)) ->
  match handle ev t xs with
  | Good xs' es => Forall (fun a => ~ fault a) es /\ map kind_of xs' = map kind_of xs
  | Threw es => acceptable fr t -> exists l a, es = l ++ [a] /\ Forall (fun a => ~ fault a) l /\ fault a
  | Undef es => In Null xs
  end.
Proof.
  intros HC HE. destruct (handle_cases ev t xs) as [Hn|Hacc Hno|id a r Hm Ha|id a r Hm Ha|id a c Hm Ha Hc].
  - tauto.
  - split; [constructor|reflexivity].
  - split; [repeat constructor; apply send_no_fault|reflexivity].
  - pose proof (call_all_cases c_start AStart xs 0) as H. destruct (call_all c_start AStart 0 xs) as [xs' es|es|es]; cbn [bind].
    + destruct H as (-> & K & _). split; [|exact K]. apply Forall_app. split; [apply oks_no_fault; auto|]. constructor; [apply send_no_fault|constructor].
    + destruct H as (k & Hk & ->). intros _. eexists _, _. split; [reflexivity|]. split; [apply oks_no_fault; auto|constructor].
    + exact H.
  - pose proof (call_all_cases c_stop AStop xs 0) as H. destruct (call_all c_stop AStop 0 xs) as [xs' es|es|es]; cbn [bind].
    2:{ destruct H as (k & Hk & ->). intros _. eexists _, _. split; [reflexivity|]. split; [apply oks_no_fault; auto|constructor]. }
    2: exact H.
    destruct H as (-> & K & _). pose proof (kinds_length _ _ K) as KL.
    set (R := fun (g : given) (l : list json) => Forall in_utf8 l).
    pose proof (finish_all_cases R ev xs' HE (Forall_nil _)) as H.
    assert (RP : forall (c0 : cls) f s s' p l, class_in xs' c0 -> c_finish c0 = Some f -> f s = (s', Some p) -> as_events p = Some l -> R (GValue p) l).
    { intros c0 f s s' p l Hin Hf Hs Hl. pose proof (HC c0 (kinds_class _ _ c0 K Hin) f s s' p Hf Hs) as Hw. apply events_some in Hl as (Hj & _ & _).
      pose proof (json_utf8 p Hw _ Hj) as W. inversion W; subst. assumption. }
    specialize (H RP 0). destruct (finish_all fcmp of_int ev 0 xs') as [xe es|es|es]; cbn [bind].
    + destruct H as (gs & parts & L & -> & E & F2 & FG & K2 & _). rewrite E.
      assert (HW : Forall in_utf8 (concat parts)).
      { apply Forall_concat. clear - F2. induction F2 as [|g l gs parts H F2 IH]; constructor; auto. }
      apply (chunked_iff fw) in HW as (ps & ->). cbn [lift bind].
      split; [|congruence]. apply Forall_app. split; [apply oks_no_fault; auto|]. constructor; [apply send_no_fault|]. apply Forall_app. split; [now apply fin_at_no_fault|].
      apply Forall_app. split; [|constructor; [apply send_no_fault|constructor]].
      apply Forall_forall. intros x Hx. apply in_flat_map in Hx as (e & _ & Hx). destruct e; cbn in Hx; try tauto. destruct Hx as [<-|[]]. apply send_no_fault.
    + destruct H as (gs & g & L & -> & FG & NG & parts & F2). intros _.
      exists (map (fun j => AStop j true) (seq 0 (length xs)) ++ [ASend a] ++ fin_at 0 gs), (AFinish (0 + length gs) g). split; [now rewrite <- !app_assoc|].
      split; [|now apply bad_fault]. apply Forall_app. split; [apply oks_no_fault; auto|]. constructor; [apply send_no_fault|]. now apply fin_at_no_fault.
    + apply (kinds_null xs' xs); auto.
Qed.

(** ** Runs *)
Notation step := (step fw fr braces fcmp of_int). Notation run := (run fw fr braces fcmp of_int).
Lemma change_kinds i s (xs : list src) : map kind_of (change i s xs) = map kind_of xs.
Proof. revert i. induction xs as [|x xs IH]; intros i; [destruct i; reflexivity|]. destruct i, x; cbn; rewrite ?IH; reflexivity. Qed.
Lemma texts_app (a b : list (label F Q)) : texts (a ++ b) = texts a ++ texts b.
Proof. induction a as [|[] a IH]; cbn; congruence. Qed.
Lemma work_null (xs : list src) : work xs = true -> In Null xs.
Proof. unfold work. rewrite existsb_exists. intros (x & Hx & E). destruct x; try discriminate. exact Hx. Qed.

Definition trace (n : nat) (ts : list bytes) (s : state F Q) : Prop :=
  match x_end s with
  | Alive => exists handled outs, ts = handled ++ x_in s /\ x_log s = concat outs /\ Forall2 (causes fr n) handled outs
  | Terminated => Forall (acceptable fr) ts -> exists handled t outs last, ts = handled ++ t :: x_in s /\ x_log s = concat outs ++ last /\ Forall2 (causes fr n) handled outs /\ broken fr n t last
  | UndefinedBehaviour => True
  end.
Lemma trace_run (xs : list src) (ls : list (label F Q)) : forall s s' ts, (forall c, class_in xs c -> returns (clean fw fr) c) -> native_events wf ls ->
  map kind_of (x_sources s) = map kind_of xs -> trace (length xs) ts s -> run ls s = Some s' -> trace (length xs) (ts ++ texts ls) s'.
Proof.
  induction ls as [|l ls IH]; intros s s' ts HC HE HK HT E; cbn [PySource_model.run] in E.
  - injection E as <-. cbn [texts]. now rewrite app_nil_r.
  - destruct (step l s) as [s1|] eqn:E1; [|discriminate]. unfold PySource_model.step in E1. unfold trace in HT. destruct (x_end s) eqn:Ee; try discriminate.
    destruct HT as (handled & outs & -> & Hlog & HF).
    assert (HE' : native_events wf ls) by (intros ev Hev; apply HE; now right).
    destruct l as [t|ev| |i v].
    + injection E1 as <-. change (texts (Arrives t :: ls)) with ([t] ++ texts ls). rewrite app_assoc. refine (IH _ _ _ HC HE' _ _ E); [exact HK|].
      unfold trace. cbn. exists handled, outs. rewrite app_assoc. auto.
    + destruct (x_in s) as [|t rest] eqn:Ei; [discriminate|].
      assert (HC' : forall c, class_in (x_sources s) c -> returns (clean fw fr) c) by (intros c Hc; apply HC; eapply kinds_class; eauto).
      pose proof (handle_result ev t (x_sources s) HC' (HE ev (or_introl eq_refl))) as H. rewrite (kinds_length _ _ HK) in H.
      change (texts (Handles ev :: ls)) with (texts ls).
      destruct (handle ev t (x_sources s)) as [xs' es|es|es]; injection E1 as <-.
      * destruct H as [H1 H2]. refine (IH _ _ _ HC HE' _ _ E); [cbn; congruence|]. unfold trace. cbn. exists (handled ++ [t]), (outs ++ [es]). rewrite <- app_assoc. split; [reflexivity|].
        rewrite concat_app, Hlog. cbn [concat]. rewrite app_nil_r. split; [reflexivity|]. apply Forall2_app; auto.
      * destruct ls as [|l ls]; cbn [PySource_model.run] in E; [|discriminate]. injection E as <-. cbn. rewrite app_nil_r. intros Hacc.
        exists handled, t, outs, es. rewrite Hlog. split; [reflexivity|]. split; [reflexivity|]. split; [exact HF|]. apply H. rewrite Forall_forall in Hacc. apply Hacc. apply in_or_app. right. now left.
      * destruct ls as [|l ls]; cbn [PySource_model.run] in E; [|discriminate]. injection E as <-. exact I.
    + injection E1 as <-. change (texts (Works :: ls)) with (texts ls). refine (IH _ _ _ HC HE' _ _ E); [exact HK|]. unfold trace. cbn. destruct (work (x_sources s)); cbn; eauto.
    + injection E1 as <-. change (texts (Changes i v :: ls)) with (texts ls). refine (IH _ _ _ HC HE' _ _ E); [cbn; now rewrite change_kinds|]. unfold trace. cbn. eauto.
Qed.
Theorem session_lemma (xs : list src) (ls : list (label F Q)) (s : state F Q) : (forall c, class_in xs c -> returns (clean fw fr) c) -> native_events wf ls -> run ls (state0 xs) = Some s -> x_end s = Alive ->
  exists handled outs, texts ls = handled ++ x_in s /\ x_log s = concat outs /\ Forall2 (causes fr (length xs)) handled outs.
Proof.
  intros HC HE E He. pose proof (trace_run xs ls (state0 xs) s [] HC HE eq_refl) as H. unfold trace at 2 in H. rewrite He in H. apply H; [|exact E]. exists [], []. repeat split; constructor.
Qed.
Theorem broken_lemma (xs : list src) (ls : list (label F Q)) (s : state F Q) : (forall c, class_in xs c -> returns (clean fw fr) c) -> native_events wf ls -> Forall (acceptable fr) (texts ls) ->
  run ls (state0 xs) = Some s -> x_end s = Terminated ->
  exists handled t outs last, texts ls = handled ++ t :: x_in s /\ x_log s = concat outs ++ last /\ Forall2 (causes fr (length xs)) handled outs /\ broken fr (length xs) t last.
Proof.
  intros HC HE Ha E He. pose proof (trace_run xs ls (state0 xs) s [] HC HE eq_refl) as H. unfold trace at 2 in H. rewrite He in H. apply H; [|exact E|exact Ha]. exists [], []. repeat split; constructor.
Qed.

Definition blame (s : state F Q) : Prop :=
  match x_end s with
  | Alive => Forall (fun a => ~ fault a) (x_log s)
  | Terminated => exists l a, x_log s = l ++ [a] /\ Forall (fun a => ~ fault a) l /\ fault a
  | UndefinedBehaviour => False
  end.
Lemma blame_run (xs : list src) (ls : list (label F Q)) : forall s s', (forall c, class_in xs c -> returns proper c) -> ~ In Null xs -> native_events in_utf8 ls ->
  Forall (acceptable fr) (x_in s ++ texts ls) ->
  map kind_of (x_sources s) = map kind_of xs -> blame s -> run ls s = Some s' -> blame s'.
Proof.
  induction ls as [|l ls IH]; intros s s' HC HN HE HA HK HT E; cbn [PySource_model.run] in E.
  - injection E as <-. exact HT.
  - destruct (step l s) as [s1|] eqn:E1; [|discriminate]. unfold PySource_model.step in E1. unfold blame in HT. destruct (x_end s) eqn:Ee; try discriminate.
    assert (HE' : native_events in_utf8 ls) by (intros ev Hev; apply HE; now right).
    assert (HN' : ~ In Null (x_sources s)) by (intros H; apply HN; eapply kinds_null; eauto).
    destruct l as [t|ev| |i v].
    + injection E1 as <-. apply (IH _ _ HC HN HE') in E; auto. cbn. rewrite <- app_assoc. exact HA.
    + destruct (x_in s) as [|t rest] eqn:Ei; [discriminate|].
      assert (HC' : forall c, class_in (x_sources s) c -> returns proper c) by (intros c Hc; apply HC; eapply kinds_class; eauto).
      pose proof (handle_faults ev t (x_sources s) HC' (HE ev (or_introl eq_refl))) as H.
      cbn [texts] in HA. apply Forall_cons_iff in HA as [At HA].
      destruct (handle ev t (x_sources s)) as [xs' es|es|es]; injection E1 as <-.
      * destruct H as [H1 H2]. apply (IH _ _ HC HN HE') in E; [exact E|exact HA|cbn; congruence|]. cbn. apply Forall_app. auto.
      * destruct ls as [|l ls]; cbn [PySource_model.run] in E; [|discriminate]. injection E as <-. cbn. destruct (H At) as (l & a & -> & H1 & H2).
        exists (x_log s ++ l), a. rewrite app_assoc. split; [reflexivity|]. split; [apply Forall_app; auto|exact H2].
      * tauto.
    + injection E1 as <-. apply (IH _ _ HC HN HE') in E; auto. cbn. destruct (work (x_sources s)) eqn:Ew; cbn; [|exact HT]. apply HN'. now apply work_null.
    + injection E1 as <-. apply (IH _ _ HC HN HE') in E; auto. cbn. now rewrite change_kinds.
Qed.
Theorem blame_lemma (xs : list src) (ls : list (label F Q)) (s : state F Q) : (forall c, class_in xs c -> returns proper c) -> ~ In Null xs -> native_events in_utf8 ls -> Forall (acceptable fr) (texts ls) ->
  run ls (state0 xs) = Some s ->
  (x_end s = Alive /\ Forall (fun a => ~ fault a) (x_log s)) \/
  (x_end s = Terminated /\ exists l a, x_log s = l ++ [a] /\ Forall (fun a => ~ fault a) l /\ fault a).
Proof.
  intros HC HN HE HA E. pose proof (blame_run xs ls (state0 xs) s HC HN HE HA eq_refl (Forall_nil _) E) as H. unfold blame in H. destruct (x_end s); [left; auto|right; auto|destruct H].
Qed.

(** ** Sources that always do what they should *)
Lemma call_all_sane m a (xs : list src) : (forall c f s s', class_in xs c -> m c = Some f -> f s <> (s', false)) -> forall i es, call_all m a i xs <> Threw es.
Proof.
  induction xs as [|x xs IH]; intros H i es; [discriminate|].
  change (call_all m a i (x :: xs)) with (bind (call m (a i) x) (fun x' => bind (call_all m a (S i) xs) (fun r' => Good (x' :: r') []))).
  assert (IH' : forall es, call_all m a (S i) xs <> Threw es) by (apply IH; intros c f s s' (s0 & H0); apply H; exists s0; now right).
  assert (G : forall y e0, bind (Good y e0) (fun x' => bind (call_all m a (S i) xs) (fun r' => Good (x' :: r') [])) <> Threw es).
  { intros y e0. cbn [bind]. destruct (call_all m a (S i) xs) as [xs' es'|es'|es']; cbn [bind]; try discriminate. exfalso. now apply (IH' es'). }
  destruct x as [|c s|]; cbn [call]; [apply G| |discriminate]. destruct (m c) as [f|] eqn:Ef; [|apply G]. destruct (f s) as [s' [|]] eqn:Es; [apply G|].
  exfalso. apply (H c f s s'); auto. exists s. now left.
Qed.
Lemma finish_all_sane ev (xs : list src) : (forall c, class_in xs c -> sane c) -> forall i es, finish_all fcmp of_int ev i xs <> Threw es.
Proof.
  induction xs as [|x xs IH]; intros H i es; [discriminate|].
  change (finish_all fcmp of_int ev i (x :: xs)) with (bind (finish fcmp of_int (ev i) i x) (fun xl => bind (finish_all fcmp of_int ev (S i) xs) (fun rl => Good (fst xl :: fst rl, snd xl ++ snd rl) []))).
  assert (IH' : forall es, finish_all fcmp of_int ev (S i) xs <> Threw es) by (apply IH; intros c (s0 & H0); apply H; exists s0; now right).
  assert (G : forall y e0, bind (Good y e0) (fun xl : src * list json => bind (finish_all fcmp of_int ev (S i) xs) (fun rl => Good (fst xl :: fst rl, snd xl ++ snd rl) [])) <> Threw es).
  { intros y e0. cbn [bind]. destruct (finish_all fcmp of_int ev (S i) xs) as [xs' es'|es'|es']; cbn [bind]; try discriminate. exfalso. now apply (IH' es'). }
  destruct x as [|c s|]; cbn [finish]; [apply G| |discriminate]. destruct (c_finish c) as [f|] eqn:Ef; [|apply G].
  assert (HS : sane c) by (apply H; exists s; now left). destruct HS as [(_ & _ & HF) HR].
  destruct (f s) as [s' [p|]] eqn:Es; [|exfalso; now apply (HF f s s')].
  destruct (as_events p) as [l|] eqn:Ep; [apply G|]. apply events_none in Ep. destruct (HR f s s' p Ef Es) as (? & ? & _). tauto.
Qed.
Theorem survive_lemma (xs : list src) (ls : list (label F Q)) (s : state F Q) : (forall c, class_in xs c -> sane c) -> ~ In Null xs -> native_events in_utf8 ls -> Forall (acceptable fr) (texts ls) ->
  run ls (state0 xs) = Some s -> x_end s = Alive.
Proof.
  intros HC HN HE HA.
  assert (G : forall ls s s', native_events in_utf8 ls -> Forall (acceptable fr) (x_in s ++ texts ls) -> map kind_of (x_sources s) = map kind_of xs -> x_end s = Alive ->
    run ls s = Some s' -> x_end s' = Alive).
  2:{ intros E. apply (G ls (state0 xs) s HE HA eq_refl eq_refl E). }
  clear ls s HE HA. induction ls as [|l ls IH]; intros s s' HE HA HK Ee E; cbn [PySource_model.run] in E.
  - injection E as <-. exact Ee.
  - destruct (step l s) as [s1|] eqn:E1; [|discriminate]. unfold PySource_model.step in E1. rewrite Ee in E1.
    assert (HE' : native_events in_utf8 ls) by (intros ev Hev; apply HE; now right).
    assert (HN' : ~ In Null (x_sources s)) by (intros H; apply HN; eapply kinds_null; eauto).
    assert (HC' : forall c, class_in (x_sources s) c -> sane c) by (intros c Hc; apply HC; eapply kinds_class; eauto).
    destruct l as [t|ev| |i v].
    + injection E1 as <-. apply (IH _ _ HE') in E; auto. cbn. rewrite <- app_assoc. exact HA.
    + destruct (x_in s) as [|t rest] eqn:Ei; [discriminate|]. cbn [texts] in HA. apply Forall_cons_iff in HA as [At HA].
      assert (HP : forall c, class_in (x_sources s) c -> returns proper c) by (intros c Hc f q q' p H1 H2; destruct (proj2 (HC' c Hc) f q q' p H1 H2) as (_ & _ & H3); exact H3).
      pose proof (handle_faults ev t (x_sources s) HP (HE ev (or_introl eq_refl))) as H.
      assert (NT : forall es, handle ev t (x_sources s) <> Threw es).
      { intros es. destruct (handle_cases ev t (x_sources s)) as [Hn|Hacc Hno|id a r Hm Ha|id a r Hm Ha|id a c Hm Ha Hc]; try discriminate; [tauto| |].
        - pose proof (call_all_sane c_start AStart (x_sources s)) as N. specialize (N (fun c f q q' Hc => proj1 (proj1 (HC' c Hc)) f q q') 0).
          destruct (call_all c_start AStart 0 (x_sources s)) as [xs' es'|es'|es']; cbn [bind]; try discriminate. exfalso. now apply (N es').
        - pose proof (call_all_sane c_stop AStop (x_sources s)) as N. specialize (N (fun c f q q' Hc => proj1 (proj2 (proj1 (HC' c Hc))) f q q') 0).
          pose proof (call_all_cases c_stop AStop (x_sources s) 0) as Hca.
          destruct (call_all c_stop AStop 0 (x_sources s)) as [xs' es'|es'|es']; cbn [bind]; try discriminate; [|exfalso; now apply (N es')].
          destruct Hca as (_ & K & _).
          assert (HC2 : forall c, class_in xs' c -> sane c) by (intros c0 Hc0; apply HC'; eapply kinds_class; eauto).
          pose proof (finish_all_sane ev xs' HC2 0) as N2.
          pose proof (finish_all_cases (fun _ l => Forall in_utf8 l) ev xs' (HE ev (or_introl eq_refl)) (Forall_nil _)) as Hfa.
          assert (RP : forall (c0 : cls) f q q' p l, class_in xs' c0 -> c_finish c0 = Some f -> f q = (q', Some p) -> as_events p = Some l -> Forall in_utf8 l).
          { intros c0 f q q' p l Hin Hf Hs Hl. destruct (proj2 (HC2 c0 Hin) f q q' p Hf Hs) as (_ & _ & Hw). apply events_some in Hl as (Hj & _ & _).
            pose proof (json_utf8 p Hw _ Hj) as W. inversion W; subst. assumption. }
          specialize (Hfa RP 0).
          destruct (finish_all fcmp of_int ev 0 xs') as [xe es2|es2|es2]; cbn [bind]; try discriminate; [|exfalso; now apply (N2 es2)].
          destruct Hfa as (gs & parts & _ & _ & E2 & F2 & _). rewrite E2.
          assert (HW : Forall in_utf8 (concat parts)) by (apply Forall_concat; clear - F2; induction F2; constructor; auto).
          apply (chunked_iff fw) in HW as (ps & ->). cbn [lift bind]. discriminate. }
      destruct (handle ev t (x_sources s)) as [xs' es|es|es]; injection E1 as <-.
      * destruct H as [H1 H2]. apply (IH _ _ HE') in E; [exact E|exact HA|cbn; congruence|reflexivity].
      * exfalso. now apply (NT es).
      * tauto.
    + injection E1 as <-. apply (IH _ _ HE') in E; auto. cbn. destruct (work (x_sources s)) eqn:Ew; cbn; [|reflexivity]. exfalso. apply HN'. now apply work_null.
    + injection E1 as <-. apply (IH _ _ HE') in E; auto. cbn. now rewrite change_kinds.
Qed.

(** ** The state of one source *)
Lemma lives_app (c : cls) i es1 es2 : forall s s1 s2, lives c i es1 s s1 -> lives c i es2 s1 s2 -> lives c i (es1 ++ es2) s s2.
Proof. intros s s1 s2 H. revert s2. induction H; intros s2 H2; cbn [app]; [exact H2|apply li_other; auto|eapply li_start; eauto|eapply li_stop; eauto|apply li_default; auto|eapply li_value; eauto]. Qed.
Lemma lives_other (c : cls) i es s : Forall (fun a => ~ about i a) es -> lives c i es s s.
Proof. induction 1; [apply li_end|apply li_other; auto]. Qed.
Definition follows (xs ys : list src) (es : list act) (k : nat) : Prop :=
  forall i c s, nth_error xs i = Some (Python c s) -> exists s', nth_error ys i = Some (Python c s') /\ lives c (k + i) es s s'.
Lemma follows_refl xs k es : (forall i, Forall (fun a => ~ about (k + i) a) es) -> follows xs xs es k.
Proof. intros H i c s E. exists s. split; [exact E|]. apply lives_other. apply H. Qed.
Lemma follows_trans xs ys zs es1 es2 k : follows xs ys es1 k -> follows ys zs es2 k -> follows xs zs (es1 ++ es2) k.
Proof. intros H1 H2 i c s E. destruct (H1 i c s E) as (s1 & E1 & L1). destruct (H2 i c s1 E1) as (s2 & E2 & L2). exists s2. split; [exact E2|]. eapply lives_app; eauto. Qed.
Lemma follows_calls m a xs ys : (m = c_start /\ a = AStart) \/ (m = c_stop /\ a = AStop) -> Forall2 (moved m) xs ys ->
  forall k, follows xs ys (map (fun j => a j true) (seq k (length xs))) k.
Proof.
  intros Hma H. induction H as [|x y xs ys Hxy H IH]; intros k i c s E; [destruct i; discriminate|].
  assert (About : forall j, about j (a k true) <-> k = j) by (destruct Hma as [[_ ->]|[_ ->]]; reflexivity).
  destruct i as [|i]; cbn [nth_error] in *.
  - injection E as ->. cbn [moved] in Hxy. destruct Hxy as (s' & -> & Hm). exists s'. split; [reflexivity|]. rewrite Nat.add_0_r. cbn [length seq map].
    assert (L : lives c k (map (fun j => a j true) (seq (S k) (length xs))) s' s').
    { apply lives_other. apply Forall_forall. intros x Hx. apply in_map_iff in Hx as (j & <- & Hj). apply in_seq in Hj. destruct Hma as [[_ ->]|[_ ->]]; cbn [about]; lia. }
    destruct Hma as [[-> ->]|[-> ->]]; [eapply li_start; eauto|eapply li_stop; eauto].
  - destruct (IH (S k) i c s E) as (s' & E' & L). exists s'. split; [exact E'|]. cbn [length seq map]. rewrite <- plus_n_Sm. apply li_other; [rewrite About; lia|exact L].
Qed.
Lemma follows_finish gs : forall xs ys, gave_all gs xs ys -> forall k, follows xs ys (fin_at k gs) k.
Proof.
  induction gs as [|g gs IH]; intros [|x xs] [|y ys] H; try (cbn in H; tauto); intros k i c s E; [destruct i; discriminate|]. cbn [gave_all] in H. destruct H as [H1 H2].
  change (fin_at k (g :: gs)) with (AFinish k g :: fin_at (S k) gs).
  destruct i as [|i]; cbn [nth_error] in *.
  - injection E as ->. rewrite Nat.add_0_r. cbn [gave] in H1.
    assert (L : forall s', lives c k (fin_at (S k) gs) s' s').
    { intros s'. apply lives_other. apply Forall_forall. intros a Ha. apply in_map_iff in Ha as ([j g'] & <- & Hj). apply in_combine_l, in_seq in Hj. cbn [about fst snd]. lia. }
    destruct (c_finish c) as [f|] eqn:Ef.
    + destruct H1 as (s' & p & -> & Hf & ->). exists s'. split; [reflexivity|]. eapply li_value; eauto.
    + destruct H1 as (-> & ->). exists s. split; [reflexivity|]. now apply li_default.
  - destruct (IH xs ys H2 (S k) i c s E) as (s' & E' & L). exists s'. split; [exact E'|]. rewrite <- plus_n_Sm. apply li_other; [cbn [about]; lia|exact L].
Qed.
Lemma follows_handle ev t xs xs' es : handle ev t xs = Good xs' es -> follows xs xs' es 0.
Proof.
  assert (Sends : forall (l : list bytes) k i, Forall (fun a => ~ about (k + i) a) (map (ASend (F := F)) l)).
  { intros l k i. apply Forall_forall. intros a Ha. apply in_map_iff in Ha as (x & <- & _). cbn. auto. }
  destruct (handle_cases ev t xs) as [Hn|Hacc Hno|id a r Hm Ha|id a r Hm Ha|id a c Hm Ha Hc]; intros E.
  - discriminate.
  - injection E as <- <-. apply follows_refl. intros i. constructor.
  - injection E as <- <-. apply follows_refl. intros i. exact (Sends [a] 0 i).
  - pose proof (call_all_cases c_start AStart xs 0) as H. destruct (call_all c_start AStart 0 xs) as [ys es'|es'|es']; cbn [bind] in E; try discriminate. injection E as <- <-.
    destruct H as (-> & _ & M). eapply follows_trans; [exact (follows_calls c_start AStart xs ys (or_introl (conj eq_refl eq_refl)) M 0)|]. apply follows_refl. intros i. exact (Sends [a] 0 i).
  - pose proof (call_all_cases c_stop AStop xs 0) as H. destruct (call_all c_stop AStop 0 xs) as [ys es'|es'|es']; cbn [bind] in E; try discriminate.
    destruct H as (-> & _ & M). pose proof (finish_all_cases (fun _ _ => True) ev ys (fun _ => I) I (fun _ _ _ _ _ _ _ _ _ _ => I) 0) as H2.
    destruct (finish_all fcmp of_int ev 0 ys) as [xe es2|es2|es2]; cbn [bind] in E; try discriminate.
    destruct H2 as (gs & parts & _ & -> & _ & _ & _ & _ & GA).
    destruct (chunked_transmit fw (snd xe)) as [ps|ps|]; cbn [lift bind] in E; try discriminate. injection E as <- <-.
    eapply follows_trans; [exact (follows_calls c_stop AStop xs ys (or_intror (conj eq_refl eq_refl)) M 0)|].
    change (ASend a :: fin_at 0 gs ++ flat_map (fun e => match e with ESend t0 => [ASend t0] | _ => [] end) ps ++ [ASend c]) with ([ASend a] ++ fin_at 0 gs ++ flat_map (fun e => match e with ESend t0 => [ASend t0] | _ => [] end) ps ++ [ASend c]).
    eapply follows_trans; [apply follows_refl; intros i; exact (Sends [a] 0 i)|].
    eapply follows_trans; [apply follows_finish; exact GA|]. apply follows_refl. intros i. apply Forall_app. split; [|exact (Sends [c] 0 i)].
    apply Forall_forall. intros x Hx. apply in_flat_map in Hx as (e & _ & Hx). destruct e; cbn in Hx; try tauto. destruct Hx as [<-|[]]. cbn. auto.
Qed.
Theorem state_lemma (ls : list (label F Q)) : forall s s', undisturbed ls -> run ls s = Some s' -> x_end s' = Alive ->
  exists es, x_log s' = x_log s ++ es /\
  forall i c q, nth_error (x_sources s) i = Some (Python c q) -> exists q', nth_error (x_sources s') i = Some (Python c q') /\ lives c i es q q'.
Proof.
  induction ls as [|l ls IH]; intros s s' HU E He; cbn [PySource_model.run] in E.
  - injection E as <-. exists []. rewrite app_nil_r. split; [reflexivity|]. intros i c q Hq. exists q. split; [exact Hq|constructor].
  - destruct (step l s) as [s1|] eqn:E1; [|discriminate].
    assert (HU' : undisturbed ls) by (intros i v H; apply (HU i v); now right).
    destruct (IH s1 s' HU' E He) as (es & EL & H).
    assert (G : exists es1, x_log s1 = x_log s ++ es1 /\ (x_end s1 = Alive -> follows (x_sources s) (x_sources s1) es1 0)).
    { assert (Same : forall i, Forall (fun a : act => ~ about (0 + i) a) []) by constructor.
      unfold PySource_model.step in E1. destruct (x_end s) eqn:Ee; try discriminate. destruct l as [t|ev| |i v].
      - injection E1 as <-. exists []. rewrite app_nil_r. split; [reflexivity|]. intros _. now apply follows_refl.
      - destruct (x_in s) as [|t rest]; [discriminate|]. pose proof (follows_handle ev t (x_sources s)) as FH.
        destruct (handle ev t (x_sources s)) as [xs' es0|es0|es0]; injection E1 as <-; cbn [x_log x_end x_sources]; exists es0; (split; [reflexivity|]); intros; try discriminate. now apply FH.
      - injection E1 as <-. exists []. rewrite app_nil_r. split; [reflexivity|]. intros _. now apply follows_refl.
      - exfalso. apply (HU i v). now left. }
    destruct G as (es1 & EL1 & HF).
    assert (A1 : x_end s1 = Alive).
    { destruct ls as [|l2 ls]; cbn [PySource_model.run] in E; [congruence|]. unfold PySource_model.step in E. destruct (x_end s1); [reflexivity|discriminate..]. }
    exists (es1 ++ es). rewrite EL, EL1, app_assoc. split; [reflexivity|]. intros i c q Hq. destruct (HF A1 i c q Hq) as (q1 & Hq1 & L1). destruct (H i c q1 Hq1) as (q' & Hq' & L).
    exists q'. split; [exact Hq'|]. eapply lives_app; eauto.
Qed.

(** ** Making sources *)
Lemma make_lemma (ps : list (provider F Q)) xs : make_sources ps = Some xs <-> Forall2 makes ps xs.
Proof.
  revert xs. induction ps as [|p ps IH]; intros xs; cbn [make_sources].
  - split; [intros E; injection E as <-; constructor|inversion 1; reflexivity].
  - assert (G : forall x, (forall y, makes p y <-> y = x) -> option_map (cons x) (make_sources ps) = Some xs <-> Forall2 makes (p :: ps) xs).
    { intros x Hx. split.
      - destruct (make_sources ps) as [r|]; cbn [option_map]; [|discriminate]. intros E. injection E as <-. constructor; [now apply Hx|]. now apply IH.
      - inversion 1 as [|? y ? r H1 H2]; subst. apply Hx in H1. subst y. apply IH in H2. rewrite H2. reflexivity. }
    destruct p; try (apply G; intros y; split; [inversion 1; reflexivity|intros ->; constructor]).
    split; [discriminate|]. inversion 1 as [|? y ? r H1 H2]; subst. inversion H1.
Qed.
Lemma make_raise (ps : list (provider F Q)) : In MakesRaise ps -> make_sources ps = None.
Proof.
  intros H. destruct (make_sources ps) as [xs|] eqn:E; [|reflexivity]. apply make_lemma in E. exfalso.
  induction E as [|p x ps xs Hp E IH]; [destruct H|]. destruct H as [->|H]; [inversion Hp|auto].
Qed.
(** A null pointer among the sources: the first thing the worker does with its sources is undefined. *)
Lemma handle_kinds ev t xs xs' es : handle ev t xs = Good xs' es -> map kind_of xs' = map kind_of xs.
Proof.
  destruct (handle_cases ev t xs) as [Hn|Hacc Hno|id a r Hm Ha|id a r Hm Ha|id a c Hm Ha Hc]; intros E.
  - discriminate.
  - now injection E as <- <-.
  - now injection E as <- <-.
  - pose proof (call_all_cases c_start AStart xs 0) as H. destruct (call_all c_start AStart 0 xs) as [ys es'|es'|es']; cbn [bind] in E; try discriminate. injection E as <- <-. tauto.
  - pose proof (call_all_cases c_stop AStop xs 0) as H. destruct (call_all c_stop AStop 0 xs) as [ys es'|es'|es']; cbn [bind] in E; try discriminate.
    destruct H as (_ & K & M). pose proof (finish_all_cases (fun _ _ => True) ev ys (fun _ => I) I (fun _ _ _ _ _ _ _ _ _ _ => I) 0) as H2.
    destruct (finish_all fcmp of_int ev 0 ys) as [xe es2|es2|es2]; cbn [bind] in E; try discriminate.
    destruct H2 as (gs & parts & _ & _ & _ & _ & _ & K2 & _).
    destruct (chunked_transmit fw (snd xe)) as [ps|ps|]; cbn [lift bind] in E; try discriminate. injection E as <- <-. congruence.
Qed.
Theorem null_lemma (xs : list src) (ls : list (label F Q)) (s : state F Q) : In Null xs -> In Works ls -> run ls (state0 xs) = Some s -> x_end s = UndefinedBehaviour.
Proof.
  assert (G : forall (ls : list (label F Q)) (s s' : state F Q), In Null (x_sources s) -> In Works ls -> run ls s = Some s' -> x_end s' = UndefinedBehaviour).
  2:{ intros H1 H2 E. exact (G ls (state0 xs) s H1 H2 E). }
  clear ls s. induction ls as [|l ls IH]; intros s s' HN HW E; [destruct HW|]. cbn [PySource_model.run] in E.
  destruct (step l s) as [s1|] eqn:E1; [|discriminate]. unfold PySource_model.step in E1. destruct (x_end s) eqn:Ee; try discriminate.
  assert (W : work (x_sources s) = true) by (unfold work; apply existsb_exists; exists Null; auto).
  destruct l as [t|ev| |i v].
  - destruct HW as [HW|HW]; [discriminate|]. injection E1 as <-. refine (IH _ _ _ HW E). exact HN.
  - destruct HW as [HW|HW]; [discriminate|]. destruct (x_in s) as [|t rest]; [discriminate|]. pose proof (handle_kinds ev t (x_sources s)) as HK.
    destruct (handle ev t (x_sources s)) as [xs' es|es|es]; injection E1 as <-.
    + refine (IH _ _ _ HW E). cbn. apply (kinds_null (x_sources s)); [|exact HN]. symmetry. now apply (HK xs' es).
    + destruct ls as [|l ls]; [destruct HW|]. discriminate E.
    + destruct ls as [|l ls]; [destruct HW|]. discriminate E.
  - injection E1 as <-. rewrite W in E. destruct ls as [|l ls]; [|discriminate E]. cbn in E. now injection E as <-.
  - destruct HW as [HW|HW]; [discriminate|]. injection E1 as <-. refine (IH _ _ _ HW E). cbn. apply (kinds_null (x_sources s)); [|exact HN]. symmetry. apply change_kinds.
Qed.
End Proofs.
