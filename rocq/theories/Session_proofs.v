From Coq Require Import String List Arith NArith ZArith Ascii Bool Lia Sorting.Sorted.
Import ListNotations.
From Verif Require Import OMap_model OMap_proofs Json_model Json_spec Json_proofs JsonRead_proofs Session_model Session_spec.
Local Open Scope nat_scope.
Local Opaque chunk_size.

Lemma firstn_plus {A} a b (l : list A) : firstn (a + b) l = firstn a l ++ firstn b (skipn a l).
Proof. revert l. induction a as [|a IH]; intros l; [reflexivity|]. destruct l as [|x l]; cbn; [now rewrite firstn_nil|]. now rewrite IH. Qed.
Lemma firstn_min_length {A} k (l : list A) : firstn (Nat.min k (length l)) l = firstn k l.
Proof.
  destruct (Nat.le_ge_cases k (length l)) as [H|H]; [rewrite Nat.min_l by exact H; reflexivity|].
  rewrite Nat.min_r by exact H. rewrite firstn_all, firstn_all2 by exact H. reflexivity.
Qed.

Section S.
Context {F : Type} (fw : F -> bytes) (fr : bytes -> option F) (braces : json F).
Notation json := (json F). Notation wf := (wf fw fr). Notation val := (val fw fr). Notation items := (items fw fr).
Implicit Types (es : list json) (ev : list (list json)).

Lemma slice_eq i es : slice i es = firstn chunk_size (skipn (i * chunk_size) es).
Proof. unfold slice. cbn zeta. rewrite <- (skipn_length (i * chunk_size) es). apply firstn_min_length. Qed.
Lemma slice_length i es : length (slice i es) <= chunk_size.
Proof. rewrite slice_eq. rewrite firstn_length. lia. Qed.
Lemma slices_concat m es : concat (map (fun i => slice i es) (seq 0 m)) = firstn (m * chunk_size) es.
Proof.
  induction m as [|m IH]; [reflexivity|]. rewrite seq_S, map_app, concat_app, IH. cbn [map concat]. rewrite app_nil_r, slice_eq. cbn [plus].
  rewrite <- firstn_plus. f_equal. lia.
Qed.
Lemma chunk_pos : 0 < chunk_size.
Proof. Transparent chunk_size. unfold chunk_size. lia. Opaque chunk_size. Qed.
Lemma all_slices es : concat (map (fun i => slice i es) (seq 0 (chunks_needed (length es)))) = es.
Proof.
  rewrite slices_concat. apply firstn_all2. unfold chunks_needed. pose proof chunk_pos.
  pose proof (Nat.mod_upper_bound (length es) chunk_size ltac:(lia)). pose proof (Nat.div_mod_eq (length es) chunk_size). lia.
Qed.
Lemma slice_wf i es : Forall wf es -> Forall wf (slice i es).
Proof.
  intro H. rewrite slice_eq. rewrite Forall_forall in *. intros x Hx. apply H.
  rewrite <- (firstn_skipn (i * chunk_size) es). apply in_or_app. right.
  rewrite <- (firstn_skipn chunk_size (skipn (i * chunk_size) es)). apply in_or_app. left. exact Hx.
Qed.

(** ** Texts *)
Lemma dump_all_ok es : Forall wf es -> exists ts, dump_all fw es = Some ts /\ Forall2 val es ts.
Proof.
  induction 1 as [|e es He _ (ts & E & H)]; [exists []; split; [reflexivity|constructor]|].
  destruct (dump_ok fw fr e He) as (t & Et & Hv). exists (t :: ts). cbn [dump_all]. rewrite Et, E. split; [reflexivity|]. constructor; assumption.
Qed.
Lemma newline_ws : ws [newline]. Proof. reflexivity. Qed.
Lemma items_join es ts w : Forall2 val es ts -> es <> [] -> ws w -> items es (newline :: join (","%char :: [newline]) ts ++ w).
Proof.
  induction 1 as [|e t es ts Hv H IH]; intros Hne Hw; [congruence|]. inversion H as [|e2 t2 es2 ts2 Hv2 H2]; subst.
  - cbn [join]. apply (i_one fw fr e t [newline] w newline_ws Hw Hv).
  - cbn [join]. do 20 (rewrite <- ?app_assoc; cbn [app]).
    apply (i_more fw fr e t (e2 :: es2) _ [newline] [] newline_ws ws_nil Hv). apply IH; [discriminate|exact Hw].
Qed.
Lemma array_text es ts w : Forall2 val es ts -> ws w ->
  val (JArr es) ("["%char :: (newline :: join (","%char :: [newline]) ts ++ w) ++ ["]"%char]).
Proof.
  intros H Hw. destruct es as [|e es].
  - inversion H; subst. cbn [join app]. apply (v_arr0 fw fr (newline :: w)). apply (ws_app [newline] w newline_ws Hw).
  - apply v_arr. apply items_join; [exact H|discriminate|exact Hw].
Qed.
Lemma collect_ok es : Forall wf es -> exists t, collect_text fw es = Some t /\ parse fr t = Some (JArr es).
Proof.
  intro H. destruct (dump_all_ok es H) as (ts & E & Hv). unfold collect_text. rewrite E. eexists. split; [reflexivity|].
  apply (parse_document fw). eexists []. eexists. exists [newline]. split; [|split; [reflexivity|split; [reflexivity|]]].
  2:{ apply (array_text es ts [newline] Hv newline_ws). }
  do 20 (rewrite <- ?app_assoc; cbn [app]). reflexivity.
Qed.

Definition piece_value es : json :=
  JObj [(text "method", JStr (text "Tracing.dataCollected")); (text "params", JObj [(text "value", JArr es)])].
Lemma ascending_one {V} (k : bytes) (v : V) : ascending [(k, v)].
Proof. constructor; constructor. Qed.
Lemma ascending_two {V} (k1 k2 : bytes) (v1 v2 : V) : str_ltb k1 k2 = true -> ascending [(k1, v1); (k2, v2)].
Proof. intro H. constructor; [constructor; constructor|]. repeat constructor. exact H. Qed.
Lemma format_ok es : Forall wf es -> exists t, format_events fw es = Some t /\ data_piece fr t es.
Proof.
  intro H. destruct (dump_all_ok es H) as (ts & E & Hv). unfold format_events. rewrite E. eexists. split; [reflexivity|].
  unfold data_piece. fold (piece_value es). apply (parse_document fw). eexists []. eexists. exists []. split; [|split; [reflexivity|split; [reflexivity|]]].
  2:{ unfold piece_value. apply v_obj.
      - apply ascending_two. reflexivity.
      - eapply (m_more fw fr) with (w1 := text " ") (w2 := []) (w3 := text " ") (w4 := []); [reflexivity|reflexivity|reflexivity|reflexivity| | | ]; [apply quoted_dump; reflexivity|apply v_str, quoted_dump; reflexivity|].
        eapply (m_one fw fr) with (w1 := text " ") (w2 := []) (w3 := text " ") (w4 := []); [reflexivity|reflexivity|reflexivity|reflexivity| | ]; [apply quoted_dump; reflexivity|]. apply v_obj.
        + apply ascending_one.
        + eapply (m_one fw fr) with (w1 := text " ") (w2 := []) (w3 := text " ") (w4 := []); [reflexivity|reflexivity|reflexivity|reflexivity| | ]; [apply quoted_dump; reflexivity|].
          apply (array_text es ts [] Hv ws_nil). }
  unfold format_head, format_tail. rewrite app_nil_r.
  change (dump_str (text "method")) with (q "method"). change (dump_str (text "Tracing.dataCollected")) with (q "Tracing.dataCollected").
  change (dump_str (text "params")) with (q "params"). change (dump_str (text "value")) with (q "value").
  change (text "{ ") with ("{"%char :: text " "). change (text ": ") with (":"%char :: text " "). change (text ", ") with (","%char :: text " ").
  change (text ": { ") with (":"%char :: text " " ++ "{"%char :: text " "). change (text ": [") with (":"%char :: text " " ++ ["["%char]).
  change (text "]}}") with ["]"%char; "}"%char; "}"%char].
  do 20 (rewrite <- ?app_assoc; cbn [app]). reflexivity.
Qed.

Lemma transmit_ok es is : Forall wf es -> Forall (fun i => i * chunk_size <= length es) is ->
  exists ps, transmit fw is es = Done (map ESend ps) /\ Forall2 (data_piece fr) ps (map (fun i => slice i es) is).
Proof.
  intros H. induction 1 as [|i is Hi _ (ps & E & Hp)]; [exists []; split; [reflexivity|constructor]|].
  destruct (format_ok (slice i es) (slice_wf i es H)) as (t & Et & Ht). exists (t :: ps). cbn [transmit].
  rewrite (proj2 (Nat.ltb_ge _ _) Hi), Et, E. split; [reflexivity|]. cbn [map]. constructor; assumption.
Qed.
Lemma chunked_ok es : Forall wf es -> exists ps groups, chunked_transmit fw es = Done (map ESend ps) /\ Forall2 (data_piece fr) ps groups
  /\ Forall (fun g => length g <= chunk_size) groups /\ concat groups = es.
Proof.
  intro H. destruct (transmit_ok es (seq 0 (chunks_needed (length es))) H) as (ps & E & Hp).
  { apply Forall_forall. intros i Hi. apply in_seq in Hi. unfold chunks_needed in Hi. pose proof chunk_pos.
    pose proof (Nat.div_mod_eq (length es) chunk_size). nia. }
  exists ps. eexists. split; [exact E|]. split; [exact Hp|]. split; [|apply all_slices].
  apply Forall_forall. intros g Hg. apply in_map_iff in Hg as (i & <- & _). apply slice_length.
Qed.

(** ** What can be written at all *)
Lemma dump_rest_iff {A} (d : A -> option bytes) l : (exists t, dump_rest d l = Some t) <-> Forall (fun x => exists t, d x = Some t) l.
Proof.
  induction l as [|x l IH]; cbn [dump_rest]; [split; intros; [constructor|eauto]|]. split.
  - intros (t & H). destruct (d x) as [tx|] eqn:E; cbn in H; [|discriminate]. destruct (dump_rest d l) as [tl|]; [|discriminate].
    constructor; [eauto|]. apply IH. eauto.
  - intro H. inversion H as [|? ? (tx & Ex) Hl]; subst. apply IH in Hl as (tl & El). rewrite Ex, El. cbn. eauto.
Qed.
Lemma dump_items_iff {A} (d : A -> option bytes) l : (exists t, dump_items d l = Some t) <-> Forall (fun x => exists t, d x = Some t) l.
Proof.
  destruct l as [|x l]; cbn [dump_items]; [split; intros; [constructor|eauto]|]. split.
  - intros (t & H). destruct (d x) as [tx|] eqn:E; [|discriminate]. destruct (dump_rest d l) as [tl|] eqn:El; [|discriminate].
    constructor; [eauto|]. apply dump_rest_iff. eauto.
  - intro H. inversion H as [|? ? (tx & Ex) Hl]; subst. apply dump_rest_iff in Hl as (tl & El). rewrite Ex, El. cbn. eauto.
Qed.
Lemma wrap_iff a b o : (exists t, wrap a b o = Some t) <-> exists t, o = Some t.
Proof. destruct o; cbn; split; intros (t & H); try discriminate; eauto. Qed.
Lemma opt_str_iff s : (exists t, opt_str s = Some t) <-> utf8 s = true.
Proof. unfold opt_str. destruct (utf8 s); split; try (intros (t & H); discriminate); eauto; discriminate. Qed.
Lemma Forall_iff {A} (P Q : A -> Prop) l : Forall (fun x => P x <-> Q x) l -> Forall P l <-> Forall Q l.
Proof. intro H. rewrite !Forall_forall in *. split; intros G x Hx; apply H; auto. Qed.
Lemma dump_iff (j : json) : (exists t, dump fw j = Some t) <-> in_utf8 j.
Proof.
  induction j as [|b|z|f|s|l IH|m IH] using json_full_ind.
  - split; [constructor|]. intros _. eexists. reflexivity.
  - split; [constructor|]. intros _. destruct b; eexists; reflexivity.
  - split; [constructor|]. intros _. eexists. reflexivity.
  - split; [constructor|]. intros _. eexists. reflexivity.
  - cbn [dump]. rewrite opt_str_iff. split; [constructor; assumption|]. intro H. inversion H; assumption.
  - change (dump fw (JArr l)) with (wrap "["%char "]"%char (dump_items (dump fw) l)). rewrite wrap_iff, dump_items_iff, (Forall_iff _ _ _ IH).
    split; [constructor; assumption|]. intro H. inversion H; assumption.
  - change (dump fw (JObj m)) with (wrap "{"%char "}"%char (dump_items (dump_member fw) m)). rewrite wrap_iff, dump_items_iff.
    rewrite (Forall_iff _ (fun kv => utf8 (fst kv) = true /\ in_utf8 (snd kv)) m).
    + split; [constructor; assumption|]. intro H. inversion H; assumption.
    + eapply Forall_impl; [|exact IH]. intros [k v] Hv. unfold dump_member. cbn [fst snd] in *. rewrite <- Hv, <- opt_str_iff.
      destruct (opt_str k) as [tk|], (dump fw v) as [tv|]; cbn; split; try (intros [(? & ?) (? & ?)]; discriminate); try (intros (? & ?); discriminate); eauto.
Qed.
Lemma dump_all_iff es : (exists ts, dump_all fw es = Some ts) <-> Forall in_utf8 es.
Proof.
  induction es as [|e es IH]; cbn [dump_all]; [split; intros; [constructor|eauto]|]. split.
  - intros (ts & H). destruct (dump fw e) as [t|] eqn:E; [|discriminate]. destruct (dump_all fw es) as [ts'|]; [|discriminate].
    constructor; [apply dump_iff; eauto|apply IH; eauto].
  - intro H. inversion H as [|? ? He Hes]; subst. apply dump_iff in He as (t & ->). apply IH in Hes as (ts & ->). eauto.
Qed.
Lemma collect_iff es : (exists t, collect_text fw es = Some t) <-> Forall in_utf8 es.
Proof. rewrite <- dump_all_iff. unfold collect_text. destruct (dump_all fw es); cbn; split; intros (t & H); try discriminate; eauto. Qed.
Lemma transmit_iff es is : Forall (fun i => i * chunk_size <= length es) is ->
  (exists xs, transmit fw is es = Done xs) <-> Forall (fun i => Forall in_utf8 (slice i es)) is.
Proof.
  induction 1 as [|i is Hi _ IH]; cbn [transmit]; [split; intros; [constructor|eauto]|]. rewrite (proj2 (Nat.ltb_ge _ _) Hi).
  assert (Hf : (exists t, format_events fw (slice i es) = Some t) <-> Forall in_utf8 (slice i es)).
  { rewrite <- dump_all_iff. unfold format_events. destruct (dump_all fw (slice i es)); cbn; split; intros (t & H); try discriminate; eauto. }
  split.
  - intros (xs & H). destruct (format_events fw (slice i es)) as [t|]; [|discriminate].
    destruct (transmit fw is es) as [ys| |]; try discriminate. constructor; [apply Hf; eauto|apply IH; eauto].
  - intro H. inversion H as [|? ? H1 H2]; subst. apply Hf in H1 as (t & ->). apply IH in H2 as (ys & ->). cbn. eauto.
Qed.
Lemma needed_bound es : Forall (fun i => i * chunk_size <= length es) (seq 0 (chunks_needed (length es))).
Proof.
  apply Forall_forall. intros i Hi. apply in_seq in Hi. unfold chunks_needed in Hi. pose proof chunk_pos.
  pose proof (Nat.div_mod_eq (length es) chunk_size). nia.
Qed.
Lemma chunked_iff es : (exists xs, chunked_transmit fw es = Done xs) <-> Forall in_utf8 es.
Proof.
  unfold chunked_transmit. rewrite (transmit_iff es _ (needed_bound es)).
  pose proof (Forall_concat in_utf8 (map (fun i => slice i es) (seq 0 (chunks_needed (length es))))) as H. rewrite all_slices in H.
  rewrite H, Forall_map. reflexivity.
Qed.
Lemma transmit_cases es is : Forall (fun i => i * chunk_size <= length es) is -> transmit fw is es <> Undefined.
Proof.
  induction 1 as [|i is Hi _ IH]; cbn [transmit]; [discriminate|]. rewrite (proj2 (Nat.ltb_ge _ _) Hi).
  destruct (format_events fw (slice i es)); [|discriminate]. destruct (transmit fw is es); cbn; congruence.
Qed.

(** ** Messages *)
Lemma send_ok j : wf j -> exists t, send fw j = Done [ESend t] /\ parse fr t = Some j.
Proof. intro H. destruct (parse_dump fw fr j H) as (t & E & Hp). unfold send. rewrite E. eauto. Qed.
Lemma text_utf8 s : forallb (between 0 127) (text s) = true -> utf8 (text s) = true.
Proof.
  intro H. apply utf8_U. induction (text s) as [|c t IH]; [constructor|]. cbn [forallb] in H. apply andb_true_iff in H as [Hc H].
  apply (U_app [c] t); [apply U_ascii; exact Hc|apply IH; exact H].
Qed.
Lemma answer_wf id r : wf id -> wf r -> wf (JObj [pair_of "id" id; pair_of "result" r]).
Proof. intros H1 H2. apply wf_obj; [apply ascending_two; reflexivity|]. repeat constructor; assumption. Qed.
Lemma beq_spec a b : beq a b = true <-> a = b.
Proof.
  revert b. induction a as [|x a IH]; intros [|y b]; cbn [beq]; split; intro H; try discriminate; auto.
  - apply andb_true_iff in H as [H1 H2]. apply Ascii.eqb_eq in H1. apply IH in H2. congruence.
  - injection H as -> ->. rewrite Ascii.eqb_refl. apply IH. reflexivity.
Qed.
Lemma is_text_spec (j : json) s : is_text j s = true <-> j = JStr (text s).
Proof. destruct j; cbn; split; intro H; try discriminate; [apply beq_spec in H; congruence|]. injection H as ->. apply beq_spec. reflexivity. Qed.

Hypothesis Hfloat : forall t f, fr t = Some f -> float_ok fw fr f.
Hypothesis Hbraces : wf braces.

Lemma obj_facts m : wf (JObj m) -> ascending m.
Proof. intro H. inversion H; assumption. Qed.
Lemma member_obj (m : list (bytes * json)) key : ascending m -> exists v, member (JObj m) key = Some v /\
  (has m key v \/ (v = JNull /\ forall v', ~ has m key v')) /\ (forall v', has m key v' -> v' = v).
Proof.
  intro Ha. unfold member, has. destruct (mfind str_ltb (text key) m) as [v|] eqn:E.
  - exists v. split; [reflexivity|]. split; [left; apply (find_in _ str_order); exact E|].
    intros v' Hv'. apply (in_find _ str_order _ _ _ Ha) in Hv'. congruence.
  - exists JNull. split; [reflexivity|].
    assert (N : forall v', ~ In (text key, v') m) by (intros v' Hv'; apply (in_find _ str_order _ _ _ Ha) in Hv'; congruence).
    split; [right; auto|]. intros v' Hv'. exfalso. eapply N. exact Hv'.
Qed.
Lemma member_wf m key v : wf (JObj m) -> member (JObj m) key = Some v -> wf v.
Proof.
  intros H. inversion H as [| | | | | |m0 Ha Hm]; subst. cbn [member]. destruct (mfind str_ltb (text key) m) as [x|] eqn:E; intro G; injection G as <-.
  - apply (find_in _ str_order) in E. rewrite Forall_forall in Hm. apply Hm in E. apply E.
  - constructor.
Qed.

Lemma process_ok ev t : Forall (Forall wf) ev -> acceptable fr t ->
  exists xs, process fw fr braces ev t = Done xs /\ reaction fr ev t xs.
Proof.
  intros Hev [Hn|(m & Hm)].
  - exists []. unfold process. rewrite Hn. split; [reflexivity|]. right. split; [|reflexivity].
    intros r id (m & E & _). congruence.
  - pose proof (parse_wf fw fr Hfloat _ _ Hm) as Hw. pose proof (obj_facts m Hw) as Ha.
    destruct (member_obj m "method" Ha) as (method & Em & Hmeth & Humeth). destruct (member_obj m "id" Ha) as (id & Ei & Hid & Huid).
    assert (Hwid : wf id) by (eapply member_wf; eauto).
    assert (Hmsg : forall s, method = JStr (text s) -> message fr t s id).
    { intros s ->. exists m. split; [exact Hm|]. split; [|exact Hid]. destruct Hmeth as [Hmeth|[Hmeth _]]; [exact Hmeth|discriminate]. }
    unfold process. rewrite Hm, Em, Ei.
    destruct (is_text method "Tracing.getCategories") eqn:E1.
    { apply is_text_spec in E1. destruct (send_ok (JObj [pair_of "id" id; pair_of "result" (JObj [pair_of "categories" (JArr [jtext "!foo"; jtext "!bar"; jtext "disabled-by-default-buz"])])])) as (a & -> & Hp).
      { apply answer_wf; [exact Hwid|]. apply wf_obj; [apply ascending_one|]. constructor; [|constructor]. split; [reflexivity|].
        cbn [snd pair_of]. apply wf_arr. repeat constructor. }
      exists [ESend a]. split; [reflexivity|]. left. exists RCategories, id. split; [apply Hmsg; exact E1|].
      exists a. eexists. split; [reflexivity|]. exact Hp. }
    destruct (is_text method "Tracing.start") eqn:E2.
    { apply is_text_spec in E2. destruct (send_ok _ (answer_wf id braces Hwid Hbraces)) as (a & -> & Hp).
      eexists. split; [reflexivity|]. left. exists RStart, id. split; [apply Hmsg; exact E2|].
      exists a. eexists. split; [reflexivity|]. exact Hp. }
    destruct (is_text method "Tracing.end") eqn:E3.
    { apply is_text_spec in E3. destruct (send_ok _ (answer_wf id JNull Hwid (wf_null _ _))) as (a & -> & Hp).
      assert (Hc : Forall wf (concat ev)) by (apply Forall_concat; exact Hev).
      destruct (chunked_ok (concat ev) Hc) as (ps & groups & -> & Hps & Hg & Hcon).
      destruct (send_ok (JObj [pair_of "method" (jtext "Tracing.tracingComplete"); pair_of "params" (JArr [])])) as (c & -> & Hcp).
      { apply wf_obj; [apply ascending_two; reflexivity|]. constructor; [split; [reflexivity|constructor; reflexivity]|]. repeat constructor. }
      eexists. cbn [andthen before]. split; [reflexivity|]. left. exists REnd, id. split; [apply Hmsg; exact E3|].
      exists a, ps, c, groups. split; [reflexivity|]. split; [exact Hp|]. split; [exact Hps|]. split; [exact Hg|]. split; [exact Hcon|exact Hcp]. }
    exists []. split; [reflexivity|]. right. split; [|reflexivity].
    intros r id' (m' & Em' & Hm' & _). rewrite Hm in Em'. injection Em' as <-. apply Humeth in Hm'. subst method.
    assert (Hr : is_text (JStr (text (name_of r))) (name_of r) = true) by (apply is_text_spec; reflexivity).
    destruct r; cbn [name_of] in *; congruence.
Qed.
(** Anything else ends the process. *)
Lemma process_throws ev t : ~ acceptable fr t -> process fw fr braces ev t = Throws [].
Proof.
  intro H. unfold process. destruct (parse fr t) as [j|] eqn:E; [|reflexivity].
  destruct j; try reflexivity; exfalso; apply H; [left; exact E|right; eauto].
Qed.

(** An end request is handled to its end exactly when every text can be written. *)
Lemma end_iff ev t id : message fr t "Tracing.end" id ->
  (exists xs, process fw fr braces ev t = Done xs) <-> Forall (Forall in_utf8) ev.
Proof.
  intros (m & Hm & Hmeth & Hid). pose proof (parse_wf fw fr Hfloat _ _ Hm) as Hw. pose proof (obj_facts m Hw) as Ha.
  destruct (member_obj m "method" Ha) as (method & Em & _ & Humeth). destruct (member_obj m "id" Ha) as (id' & Ei & _ & _).
  assert (Hwid : wf id') by (eapply member_wf; eauto). apply Humeth in Hmeth. subst method.
  unfold process. rewrite Hm, Em, Ei. change (is_text (JStr (text "Tracing.end")) "Tracing.getCategories") with false.
  change (is_text (JStr (text "Tracing.end")) "Tracing.start") with false. change (is_text (JStr (text "Tracing.end")) "Tracing.end") with true.
  cbn match. destruct (send_ok _ (answer_wf id' JNull Hwid (wf_null _ _))) as (a & -> & Hp).
  destruct (send_ok (JObj [pair_of "method" (jtext "Tracing.tracingComplete"); pair_of "params" (JArr [])])) as (c & -> & Hcp).
  { apply wf_obj; [apply ascending_two; reflexivity|]. constructor; [split; [reflexivity|constructor; reflexivity]|]. repeat constructor. }
  rewrite <- Forall_concat, <- chunked_iff. destruct (chunked_transmit fw (concat ev)) as [xs|xs|]; cbn [andthen before]; split; intros (ys & H); try discriminate; eauto.
Qed.
Lemma never_undefined ev t : process fw fr braces ev t <> Undefined.
Proof.
  unfold process. destruct (parse fr t) as [j|]; [|discriminate]. destruct (member j "method") as [me|]; [|discriminate].
  assert (Hs : forall x, send fw x <> Undefined) by (intro x; unfold send; destruct (dump fw x); discriminate).
  assert (Hb : forall xs o, o <> Undefined -> before xs o <> Undefined) by (intros xs [] Ho; cbn; congruence).
  assert (Ht : forall a b, a <> Undefined -> b <> Undefined -> andthen a b <> Undefined) by (intros [] b ? ?; cbn; auto).
  cbn zeta. destruct (is_text me "Tracing.getCategories"); [apply Hs|]. destruct (is_text me "Tracing.start"); [apply Hb, Hs|].
  destruct (is_text me "Tracing.end"); [|discriminate]. apply Hb, Ht; [apply Hs|]. apply Hb, Ht; [|apply Hs].
  apply transmit_cases. apply needed_bound.
Qed.
Lemma text_inj a b : text a = text b -> a = b.
Proof. revert b. induction a as [|c a IH]; intros [|d b] H; cbn in H; try discriminate; auto. injection H as -> H. f_equal. apply IH. exact H. Qed.
Lemma message_fun t a b i j : message fr t a i -> message fr t b j -> a = b /\ i = j.
Proof.
  intros (m & Em & Ha & Hi) (m' & Em' & Hb & Hj). rewrite Em in Em'. injection Em' as <-.
  pose proof (obj_facts m (parse_wf fw fr Hfloat _ _ Em)) as Has.
  destruct (member_obj m "method" Has) as (vm & _ & _ & Hum). destruct (member_obj m "id" Has) as (vi & _ & _ & Hui).
  split.
  - apply Hum in Ha, Hb. apply text_inj. congruence.
  - destruct Hi as [Hi|[-> Ni]], Hj as [Hj|[-> Nj]]; auto; [apply Hui in Hi, Hj; congruence| |]; exfalso; [eapply Nj|eapply Ni]; eassumption.
Qed.
Lemma request_lemma ev t r id : Forall (Forall wf) ev -> message fr t (name_of r) id ->
  exists xs, process fw fr braces ev t = Done xs /\ handled fr (length ev) r id (concat ev) xs.
Proof.
  intros He Hm. destruct (process_ok ev t He) as (xs & E & [(r' & id' & Hm' & Hh)|[Hn _]]).
  - right. destruct Hm as (m & E & _). eauto.
  - exists xs. split; [exact E|]. destruct (message_fun _ _ _ _ _ Hm Hm') as [En <-].
    assert (r = r') by (destruct r, r'; cbn in En; congruence). subst r'. exact Hh.
  - exfalso. eapply Hn. exact Hm.
Qed.
Lemma process_iff ev t : Forall (Forall wf) ev -> (exists xs, process fw fr braces ev t = Done xs) <-> acceptable fr t.
Proof.
  intro He. split; [|intro Ha; destruct (process_ok ev t He Ha) as (xs & E & _); eauto].
  intros (xs & H). unfold process in H. destruct (parse fr t) as [j|] eqn:E; [|discriminate].
  destruct j; try discriminate; [left; exact E|right; eauto].
Qed.
(** ** The queue *)
Lemma arrivals_app (a b : list (slabel (F := F))) : arrivals (a ++ b) = arrivals a ++ arrivals b.
Proof. induction a as [|[] a IH]; cbn; auto. now rewrite IH. Qed.
Lemma turns_app (a b : list (slabel (F := F))) : turns (a ++ b) = turns a ++ turns b.
Proof. induction a as [|[] a IH]; cbn; auto. now rewrite IH. Qed.
Lemma srun_app a b s : srun fw fr braces (a ++ b) s = match srun fw fr braces a s with Some s' => srun fw fr braces b s' | None => None end.
Proof. revert s. induction a as [|l a IH]; intro s; cbn; [reflexivity|]. destruct (sstep fw fr braces l s); [apply IH|reflexivity]. Qed.

Lemma queue_lemma ls s :
  Forall (acceptable fr) (arrivals ls) -> Forall (Forall (Forall wf)) (turns ls) ->
  srun fw fr braces ls sess0 = Some s ->
  q_dead s = false /\
  exists done outs, arrivals ls = done ++ q_in s /\ q_log s = concat outs /\ length outs = length done
    /\ Forall2 (fun te xs => reaction fr (snd te) (fst te) xs) (combine done (turns ls)) outs /\ length done = length (turns ls).
Proof.
  revert s. induction ls as [|l ls IH] using rev_ind; intros s Hacc Hev H.
  - cbn in H. injection H as <-. split; [reflexivity|]. exists [], []. repeat split; constructor.
  - rewrite arrivals_app, turns_app in *. rewrite Forall_app in Hacc, Hev. destruct Hacc as [Ha1 Ha2], Hev as [He1 He2].
    rewrite srun_app in H. destruct (srun fw fr braces ls sess0) as [s1|] eqn:E; [|discriminate].
    destruct (IH s1 Ha1 He1 eq_refl) as (Hd & done & outs & Hq & Hlog & Hlen & Hf & Hlt). clear IH.
    cbn in H. unfold sstep in H. rewrite Hd in H. destruct l as [t|ev]; cbn [arrivals turns] in *.
    + injection H as <-. split; [reflexivity|]. exists done, outs. cbn [q_in q_log]. rewrite Hq, <- app_assoc, app_nil_r. repeat split; auto.
    + destruct (q_in s1) as [|t rest] eqn:Eq; [discriminate|].
      assert (Hta : acceptable fr t).
      { rewrite Forall_forall in Ha1. apply Ha1. rewrite Hq. apply in_or_app. right. left. reflexivity. }
      destruct (process_ok ev t) as (es & Ep & Hr); [inversion He2; assumption|exact Hta|]. rewrite Ep in H. injection H as <-. cbn [q_in q_log q_dead].
      split; [reflexivity|]. exists (done ++ [t]), (outs ++ [es]). rewrite Hq, Hlog, app_nil_r, concat_app, !app_length. cbn [concat]. rewrite app_nil_r, <- app_assoc.
      repeat split; auto; try lia.
      * assert (Ec : combine (done ++ [t]) (turns ls ++ [ev]) = combine done (turns ls) ++ [(t, ev)]).
        { clear - Hlt. revert Hlt. generalize (turns ls) as us. induction done as [|d done IHd]; intros [|u us] Hl; cbn in *; try discriminate; auto.
          now rewrite IHd by lia. }
        rewrite Ec. apply Forall2_app; [exact Hf|]. constructor; [exact Hr|constructor].
Qed.
(** The worker can always go on. *)
Lemma progress_lemma ls s ev :
  Forall (acceptable fr) (arrivals ls) -> Forall (Forall (Forall wf)) (turns ls) -> Forall (Forall wf) ev ->
  srun fw fr braces ls sess0 = Some s -> q_in s <> [] -> exists s', sstep fw fr braces (Handle ev) s = Some s'.
Proof.
  intros Ha Ht He H Hq. destruct (queue_lemma ls s Ha Ht H) as (Hd & done & outs & Hqs & _). unfold sstep. rewrite Hd.
  destruct (q_in s) as [|t rest] eqn:E; [congruence|].
  destruct (process_ok ev t) as (es & Ep & _); [exact He| |rewrite Ep; eauto].
  rewrite Forall_forall in Ha. apply Ha. rewrite Hqs. apply in_or_app. right. left. reflexivity.
Qed.
End S.
