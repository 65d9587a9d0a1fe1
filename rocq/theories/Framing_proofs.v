(** Messages of several threads neither mix nor lose parts. *)
From Coq Require Import List Arith NArith Ascii Bool Lia.
Import ListNotations.
From Verif Require Import Protocol_model Protocol_spec Protocol_proofs Framing_model Framing_spec.
Local Open Scope nat_scope.

(** The five parts of a message that fits. *)
Lemma parts_of m : fits m -> send_buffers m = [le_encode 8 (req_id m); le_encode 2 (N.of_nat (length (ep_name m))); ep_name m; le_encode 4 (N.of_nat (length (payload m))); payload m].
Proof.
  intros (H1 & H2 & H3). unfold send_buffers. rewrite (N.mod_small _ _ H2), (N.mod_small _ _ H3), Nat2N.id, firstn_all. reflexivity.
Qed.
Lemma send_buffers_len m : length (send_buffers m) = 5. Proof. reflexivity. Qed.

Definition ne (l : list bytes) : list bytes := filter (fun b => negb (length b =? 0)) l.
Lemma ne_app a b : ne (a ++ b) = ne a ++ ne b. Proof. apply filter_app. Qed.

(** What [receive] knows after [f] parts of [m], and which length the next part has. *)
Definition knows (r : reader) (m : msg) : Prop :=
  match field r with
  | 0 => need r = 8
  | 1 => need r = 2 /\ r_id r = req_id m
  | 2 => need r = length (ep_name m) /\ r_id r = req_id m
  | 3 => need r = 4 /\ r_id r = req_id m /\ r_name r = ep_name m
  | 4 => need r = length (payload m) /\ r_id r = req_id m /\ r_name r = ep_name m
  | _ => False
  end.
(** The parts that are not read yet, of the messages [rest]: those of the first without the ones [receive] has taken. *)
Definition unread (r : reader) (rest : list msg) : list bytes :=
  match rest with [] => [] | m :: rest' => skipn (field r) (send_buffers m) ++ flat_map send_buffers rest' end.

Record inv (limit : nat) (s : state) : Prop := {
  i_fine : hp s = Fine;
  i_small : forall t m, In m (todo (ws s t)) -> small limit m;
  i_parts : forall t, lock s <> Some t -> parts (ws s t) = [];
  i_bound : forall t b, In b (parts (ws s t)) -> length b <= limit;
  i_begun : exists rest Q,
      map snd (begun s) = out s ++ rest /\ Forall (small limit) rest /\
      ne (unread (rd s) rest) = Q ++ ne (match lock s with Some t => parts (ws s t) | None => [] end) /\
      pipe s = skipn (length (acc (rd s))) (concat Q) /\ acc (rd s) = firstn (length (acc (rd s))) (concat Q) /\ length (acc (rd s)) <= need (rd s) /\
      (acc (rd s) <> [] -> length (acc (rd s)) < need (rd s)) /\
      match rest with [] => rd s = reader0 | m :: _ => knows (rd s) m end
}.

Lemma set_w_same f t w : set_w f t w t = w. Proof. unfold set_w. now rewrite Nat.eqb_refl. Qed.
Lemma set_w_other f t w u : u <> t -> set_w f t w u = f u. Proof. intros H. unfold set_w. destruct (Nat.eqb_spec u t); congruence. Qed.
Lemma unread_snoc r rest m : (rest = [] -> field r = 0) -> unread r (rest ++ [m]) = unread r rest ++ send_buffers m.
Proof.
  intros H. destruct rest as [|m0 rest]; cbn [app unread flat_map].
  - rewrite H by reflexivity. cbn [skipn]. now rewrite app_nil_r.
  - rewrite flat_map_app. cbn [flat_map]. rewrite app_nil_r. apply app_assoc.
Qed.
Lemma le_bound m b : small 8 m \/ True -> In b (send_buffers m) -> fits m -> length b <= Nat.max 8 (Nat.max (length (ep_name m)) (length (payload m))).
Proof.
  intros _ Hb Hf. rewrite (parts_of m Hf) in Hb. cbn [In] in Hb. destruct Hb as [<-|[<-|[<-|[<-|[<-|[]]]]]]; rewrite ?le_encode_length; lia.
Qed.
Lemma small_parts limit m b : small limit m -> In b (send_buffers m) -> length b <= limit.
Proof. intros (Hf & H8 & Hn & Hp) Hb. pose proof (le_bound m b (or_intror I) Hb Hf). lia. Qed.

Lemma decode8 m : fits m -> le_decode (firstn 8 (le_encode 8 (req_id m))) = req_id m.
Proof. intros (H & _). rewrite firstn_all2 by (rewrite le_encode_length; lia). rewrite le_decode_encode. now apply N.mod_small. Qed.
Lemma decode2 m : fits m -> N.to_nat (le_decode (firstn 2 (le_encode 2 (N.of_nat (length (ep_name m)))))) = length (ep_name m).
Proof. intros (_ & H & _). rewrite firstn_all2 by (rewrite le_encode_length; lia). rewrite le_decode_encode, N.mod_small by exact H. apply Nat2N.id. Qed.
Lemma decode4 m : fits m -> N.to_nat (le_decode (firstn 4 (le_encode 4 (N.of_nat (length (payload m)))))) = length (payload m).
Proof. intros (_ & _ & H). rewrite firstn_all2 by (rewrite le_encode_length; lia). rewrite le_decode_encode, N.mod_small by exact H. apply Nat2N.id. Qed.

(** The next part, and what [receive] makes of it. *)
Lemma got_part r m rest' : fits m -> knows r m -> exists b more, unread r (m :: rest') = b :: more /\ length b = need r /\ exists r' ms rest2, got r b = Some (r', ms) /\ acc r' = [] /\ m :: rest' = ms ++ rest2 /\ unread r' rest2 = more /\ match rest2 with [] => r' = reader0 | m2 :: _ => knows r' m2 end.
Proof.
  intros Hf Hk. unfold unread. pose proof (parts_of m Hf) as E. unfold knows in Hk. unfold got.
  destruct (field r) as [|[|[|[|[|?]]]]]; [| | | | |destruct Hk]; rewrite E; cbn [skipn app].
  - exists (le_encode 8 (req_id m)). eexists. split; [reflexivity|]. rewrite le_encode_length. split; [now rewrite Hk|]. cbn [Nat.ltb Nat.leb].
    eexists _, [], (m :: rest'). split; [reflexivity|]. split; [reflexivity|]. split; [reflexivity|]. unfold unread, knows. cbn [field need r_id]. rewrite E. split; [reflexivity|]. split; [reflexivity|now apply decode8].
  - exists (le_encode 2 (N.of_nat (length (ep_name m)))). eexists. split; [reflexivity|]. rewrite le_encode_length. split; [now rewrite (proj1 Hk)|]. cbn [Nat.ltb Nat.leb].
    eexists _, [], (m :: rest'). split; [reflexivity|]. split; [reflexivity|]. split; [reflexivity|]. unfold unread, knows. cbn [field need r_id]. rewrite E. split; [reflexivity|]. split; [now apply decode2|apply Hk].
  - exists (ep_name m). eexists. split; [reflexivity|]. destruct Hk as [Hn Hi]. split; [now rewrite Hn|]. rewrite Hn, Nat.ltb_irrefl.
    eexists _, [], (m :: rest'). split; [reflexivity|]. split; [reflexivity|]. split; [reflexivity|]. unfold unread, knows. cbn [field need r_id r_name]. rewrite E. split; [reflexivity|]. split; [reflexivity|]. split; [exact Hi|apply firstn_all].
  - exists (le_encode 4 (N.of_nat (length (payload m)))). eexists. split; [reflexivity|]. rewrite le_encode_length. split; [now rewrite (proj1 Hk)|]. cbn [Nat.ltb Nat.leb].
    eexists _, [], (m :: rest'). split; [reflexivity|]. split; [reflexivity|]. split; [reflexivity|]. unfold unread, knows. cbn [field need r_id r_name]. rewrite E. split; [reflexivity|]. split; [now apply decode4|apply Hk].
  - exists (payload m). eexists. split; [reflexivity|]. destruct Hk as (Hn & Hi & Hm). split; [now rewrite Hn|].
    eexists reader0, [_], rest'. split; [reflexivity|]. split; [reflexivity|]. split; [rewrite Hi, Hm; now rewrite msg_eta|]. split; [destruct rest'; reflexivity|]. destruct rest'; reflexivity.
Qed.
Lemma ne_cons b l : ne (b :: l) = (if length b =? 0 then [] else [b]) ++ ne l.
Proof. unfold ne. cbn [filter]. destruct (length b =? 0); reflexivity. Qed.
Lemma concat_ne l : concat (ne l) = concat l.
Proof. induction l as [|b l IH]; [reflexivity|]. rewrite ne_cons. destruct (Nat.eqb_spec (length b) 0) as [H|H]; cbn [app concat]; [|now rewrite IH]. apply length_zero_iff_nil in H. now subst b. Qed.

Lemma inv_read limit s s' : inv limit s -> w_read s = Some s' -> inv limit s'.
Proof.
  intros [Hf Hs Hp Hb (rest & Q & Eb & Hr & Eu & Ep & Ea & Hl & Hl' & Hk)] E. unfold w_read in E. rewrite Hf in E.
  destruct rest as [|m rest'].
  { rewrite Hk in *. cbn [unread ne filter] in Eu. symmetry in Eu. apply app_eq_nil in Eu as [-> Eu]. cbn in Ep. rewrite Ep in E. cbn in E. discriminate. }
  assert (Hfm : fits m) by (inversion Hr as [|? ? Hsm]; apply Hsm).
  destruct (got_part (rd s) m rest' Hfm Hk) as (b & more & Em & El & r' & ms & rest2 & Eg & Eacc & Erest & Emore & Hk2).
  rewrite Em, ne_cons, El in Eu.
  destruct (Nat.eqb_spec (need (rd s)) 0) as [H0|H0].
  - (* an empty part *)
    rewrite H0 in *. assert (Ea0 : acc (rd s) = []) by (apply length_zero_iff_nil; lia). rewrite Ea0 in *. cbn [length Nat.sub Nat.min Nat.ltb Nat.leb andb firstn app skipn] in E.
    cbn [Nat.min Nat.ltb Nat.leb andb firstn app length Nat.eqb negb skipn] in E. assert (b = []) as -> by (now apply length_zero_iff_nil). rewrite Eg in E. injection E as <-.
    constructor; cbn [hp ws lock parts todo]; auto. exists rest2, Q. cbn [begun out rd pipe lock ws]. rewrite Eacc. split; [now rewrite Eb, <- app_assoc, <- Erest|].
    split; [rewrite Erest in Hr; now apply Forall_app in Hr|]. split; [rewrite Emore; exact Eu|]. split; [exact Ep|]. split; [reflexivity|]. split; [cbn; lia|]. split; [congruence|exact Hk2].
  - assert (Hlt : length (acc (rd s)) < need (rd s)) by (destruct (acc (rd s)); [cbn; lia|apply Hl'; discriminate]).
    set (n := Nat.min (need (rd s) - length (acc (rd s))) chunk_size) in *. assert (Hn : 0 < n) by (pose proof chunk_pos; lia).
    rewrite (proj2 (Nat.ltb_lt _ _) Hn) in E. cbn [andb] in E. destruct (Nat.eqb_spec (length (pipe s)) 0) as [|Hpipe]; [discriminate|].
    destruct Q as [|b' Q']. { rewrite Ep in Hpipe. cbn in Hpipe. rewrite skipn_nil in Hpipe. now destruct Hpipe. }
    cbn [app] in Eu. injection Eu as <- Eu. cbn [concat] in Ep, Ea.
    assert (Epipe : pipe s = skipn (length (acc (rd s))) b ++ concat Q') by (rewrite Ep, skipn_app; f_equal; replace (length (acc (rd s)) - length b) with 0 by lia; reflexivity).
    assert (Ed : acc (rd s) ++ firstn n (pipe s) = firstn (length (acc (rd s)) + n) (b ++ concat Q')).
    { rewrite firstn_split, <- Ea. f_equal. now rewrite Ep. }
    assert (Hlen : length (firstn n (pipe s)) = n). { apply firstn_length_le. rewrite Epipe, app_length, skipn_length. lia. }
    assert (Edl : length (acc (rd s) ++ firstn n (pipe s)) = length (acc (rd s)) + n) by (rewrite app_length; lia).
    rewrite Edl, Hlen in E.
    destruct (Nat.eqb_spec (length (acc (rd s)) + n) (need (rd s))) as [He|He]; cbn [negb andb] in E.
    + assert (Edb : acc (rd s) ++ firstn n (pipe s) = b). { rewrite Ed, He, <- El, firstn_app, firstn_all, Nat.sub_diag. cbn [firstn]. apply app_nil_r. }
      rewrite Edb, Eg in E. injection E as <-. constructor; cbn [hp ws lock parts todo]; auto. exists rest2, Q'. cbn [begun out rd pipe lock ws]. rewrite Eacc.
      split; [now rewrite Eb, <- app_assoc, <- Erest|]. split; [rewrite Erest in Hr; now apply Forall_app in Hr|]. split; [rewrite Emore; exact Eu|].
      split; [rewrite Ep, skipn_skipn', He, <- El, skipn_app, skipn_all, Nat.sub_diag; reflexivity|]. split; [reflexivity|]. split; [cbn; lia|]. split; [congruence|exact Hk2].
    + destruct (Nat.eqb_spec n chunk_size) as [Hc|Hc].
      * injection E as <-. constructor; cbn [hp ws lock parts todo]; auto. exists (m :: rest'), (b :: Q'). cbn [begun out rd pipe lock ws acc need field].
        rewrite app_nil_r. split; [exact Eb|]. split; [exact Hr|]. split. { unfold unread in *. cbn [field]. rewrite Em, ne_cons, El, (proj2 (Nat.eqb_neq _ _) H0). cbn [app]. now rewrite Eu. }
        cbn [concat]. rewrite Edl. split; [now rewrite Ep, skipn_skipn'|]. split; [exact Ed|]. split; [lia|]. split; [intros _; lia|]. exact Hk.
      * exfalso. lia.
Qed.
Lemma inv_step limit o s s' : (forall t k, o <> Cut t k) -> inv limit s -> step limit o s = Some s' -> inv limit s'.
Proof.
  intros Ho I E. destruct o as [t|t k|t|t|t k|]; cbn [step] in E; [| | | |now destruct (Ho t k)|now apply (inv_read limit s)].
  - destruct I as [Hf Hs Hp Hb (rest & Q & Eb & Hr & Eu & Ep & Ea & Hl & Hl' & Hk)]. unfold w_begin in E. destruct (lock s) eqn:El; [discriminate|]. destruct (todo (ws s t)) as [|m r] eqn:Et; [discriminate|]. injection E as <-.
    assert (Hm : small limit m) by (apply (Hs t); rewrite Et; now left).
    constructor; cbn [hp ws lock]; auto.
    + intros u m' Hi. destruct (Nat.eq_dec u t) as [->|Hn]; [rewrite set_w_same in Hi; apply (Hs t); rewrite Et; now right|rewrite set_w_other in Hi by auto; eauto].
    + intros u Hu. rewrite set_w_other by congruence. apply Hp. congruence.
    + intros u b Hi. destruct (Nat.eq_dec u t) as [->|Hn]; [rewrite set_w_same in Hi; now apply (small_parts limit m)|rewrite set_w_other in Hi by auto; eauto].
    + exists (rest ++ [m]), Q. cbn [begun out rd pipe]. rewrite set_w_same. cbn [parts]. rewrite map_app, Eb. split; [cbn [map snd]; now rewrite <- app_assoc|].
      split; [apply Forall_app; auto|]. cbn [ne filter] in Eu. rewrite app_nil_r in Eu. split. { rewrite unread_snoc, ne_app, Eu; [reflexivity|]. intros ->. now rewrite Hk. }
      repeat (split; [assumption|]). destruct rest; cbn [app]; [rewrite Hk; reflexivity|exact Hk].
  - unfold w_put in E. destruct (holds s t) eqn:Eh; [|discriminate]. unfold holds in Eh. destruct (lock s) as [u|] eqn:El; [|discriminate]. apply Nat.eqb_eq in Eh as ->.
    destruct (parts (ws s t)) as [|b r] eqn:Et; [discriminate|]. destruct I as [Hf Hs Hp Hb (rest & Q & Eb & Hr & Eu & Ep & Ea & Hl & Hl' & Hk)].
    assert (Hlb : length b <= limit) by (apply (Hb t); rewrite Et; now left).
    destruct (Nat.leb_spec (length b) k) as [Hk1|Hk1]; [|destruct (Nat.leb_spec limit k); [exfalso; lia|discriminate]].
    injection E as <-. constructor; cbn [hp ws lock]; auto.
    + intros u m' Hi. destruct (Nat.eq_dec u t) as [->|Hn]; [rewrite set_w_same in Hi; now apply (Hs t)|rewrite set_w_other in Hi by auto; eauto].
    + intros u Hu. rewrite set_w_other by congruence. apply Hp. congruence.
    + intros u b' Hi. destruct (Nat.eq_dec u t) as [->|Hn]; [rewrite set_w_same in Hi; apply (Hb t); rewrite Et; now right|rewrite set_w_other in Hi by auto; eauto].
    + rewrite El in Eu. exists rest, (Q ++ if length b =? 0 then [] else [b]). cbn [begun out rd pipe]. rewrite set_w_same. cbn [parts]. rewrite Et, ne_cons in Eu.
      assert (Ec : concat (Q ++ if length b =? 0 then [] else [b]) = concat Q ++ b). { rewrite concat_app. f_equal. destruct (Nat.eqb_spec (length b) 0) as [H|H]; [apply length_zero_iff_nil in H; now subst|apply app_nil_r]. }
      split; [exact Eb|]. split; [exact Hr|]. split; [now rewrite Eu, app_assoc|]. rewrite Ec. assert (Hle : length (acc (rd s)) <= length (concat Q)) by (rewrite Ea, firstn_length; lia).
      split; [rewrite skipn_app, <- Ep; f_equal; replace (length (acc (rd s)) - length (concat Q)) with 0 by lia; reflexivity|].
      split; [rewrite firstn_app; replace (length (acc (rd s)) - length (concat Q)) with 0 by lia; cbn [firstn]; now rewrite app_nil_r|]. split; [exact Hl|]. split; [exact Hl'|exact Hk].
  - unfold w_done in E. destruct (holds s t) eqn:Eh; [|discriminate]. unfold holds in Eh. destruct (lock s) as [u|] eqn:El; [|discriminate]. apply Nat.eqb_eq in Eh as ->.
    destruct (parts (ws s t)) as [|b r] eqn:Et; [|discriminate]. injection E as <-. destruct I as [Hf Hs Hp Hb (rest & Q & Eb & Hr & Eu & Ep & Ea & Hl & Hl' & Hk)].
    constructor; cbn [hp ws lock]; auto.
    + intros u _. destruct (Nat.eq_dec u t) as [->|Hn]; [exact Et|apply Hp; congruence].
    + exists rest, Q. cbn [begun out rd pipe lock ws]. rewrite El, Et in Eu. auto 10.
  - destruct I as [Hf Hs Hp Hb (rest & Q & Eb & Hr & Eu & Ep & Ea & Hl & Hl' & Hk)]. unfold w_fail in E. destruct (lock s) eqn:El; [discriminate|]. destruct (todo (ws s t)) as [|m r] eqn:Et; [discriminate|]. injection E as <-.
    constructor; cbn [hp ws lock]; auto.
    + intros u m' Hi. destruct (Nat.eq_dec u t) as [->|Hn]; [rewrite set_w_same in Hi; apply (Hs t); rewrite Et; now right|rewrite set_w_other in Hi by auto; eauto].
    + intros u _. destruct (Nat.eq_dec u t) as [->|Hn]; [now rewrite set_w_same|rewrite set_w_other by auto; apply Hp; congruence].
    + intros u b Hi. destruct (Nat.eq_dec u t) as [->|Hn]; [rewrite set_w_same in Hi; destruct Hi|rewrite set_w_other in Hi by auto; eauto].
    + exists rest, Q. cbn [begun out rd pipe lock ws]. auto 10.
Qed.
Lemma inv_start limit prog : (forall t m, In m (prog t) -> small limit m) -> inv limit (start prog).
Proof.
  intros H. constructor; cbn [start hp ws lock todo parts]; auto; [intros t b []|]. exists [], []. cbn. split; [reflexivity|]. split; [constructor|]. do 3 (split; [reflexivity|]). split; [lia|]. split; [congruence|reflexivity].
Qed.
Lemma inv_run limit os : forall s s', uncut os -> inv limit s -> run limit os s = Some s' -> inv limit s'.
Proof.
  induction os as [|o os IH]; intros s s' Hu I E; cbn [run] in E; [congruence|]. destruct (step limit o s) as [s1|] eqn:E1; [|discriminate].
  apply (IH s1); [intros t k Hi; apply (Hu t k); now right| |exact E]. apply (inv_step limit o s); [|exact I|exact E1]. intros t k ->. apply (Hu t k). now left.
Qed.

(** Nothing happens behind the lock; the books. *)
Record books (prog : nat -> list msg) (s : state) : Prop := {
  b_told : exists more, begun s = told s ++ more /\ (lock s = None -> more = []) /\ (lock s <> None -> length more = 1);
  b_thread : forall t, sub (of_thread t (begun s) ++ todo (ws s t)) (prog t)
}.
Lemma sub_refl {A} (l : list A) : sub l l. Proof. induction l; [constructor|now constructor]. Qed.
Lemma sub_drop {A} (a b : list A) x l : sub (a ++ x :: b) l -> sub (a ++ b) l.
Proof.
  revert a. induction l as [|y l IH]; intros a H.
  - inversion H as [? E E'| |]; destruct a; discriminate.
  - inversion H as [? E E'|? ? ? H' E E'|? ? ? H' E E']; subst.
    + destruct a; discriminate.
    + destruct a as [|z a]; cbn [app] in *; [injection E as -> <-; now constructor|injection E as -> ->; constructor; now apply IH].
    + constructor. now apply IH.
Qed.
Lemma of_thread_snoc t l u m : of_thread t (l ++ [(u, m)]) = of_thread t l ++ (if u =? t then [m] else []).
Proof. unfold of_thread. rewrite filter_app, map_app. f_equal. cbn [filter fst]. now destruct (u =? t). Qed.
Lemma books_step prog limit o s s' : (forall t k, o <> Cut t k) -> books prog s -> step limit o s = Some s' -> books prog s'.
Proof.
  intros Ho [(more & Em & Hm & Hl) Ht] E. destruct o as [t|t k|t|t|t k|]; cbn [step] in E; [| | | |now destruct (Ho t k)|].
  - unfold w_begin in E. destruct (lock s) eqn:El; [discriminate|]. destruct (todo (ws s t)) as [|m r] eqn:Et; [discriminate|]. injection E as <-. rewrite Hm, app_nil_r in Em by reflexivity. constructor; cbn [begun told lock ws].
    + exists [(t, m)]. rewrite Em. split; [reflexivity|]. split; [discriminate|reflexivity].
    + intros u. rewrite of_thread_snoc. destruct (Nat.eqb_spec t u) as [<-|Hn].
      * rewrite set_w_same. cbn [todo]. rewrite <- app_assoc. cbn [app]. rewrite <- Et. apply Ht.
      * rewrite set_w_other by congruence. rewrite app_nil_r. apply Ht.
  - unfold w_put in E. destruct (holds s t); [|discriminate]. destruct (parts (ws s t)) as [|b r]; [discriminate|]. destruct (length b <=? k); [|destruct (limit <=? k); [|discriminate]];
      injection E as <-; constructor; cbn [begun told lock ws]; eauto; intros u; (destruct (Nat.eq_dec u t) as [->|Hn]; [rewrite set_w_same; cbn [todo]; apply Ht|rewrite set_w_other by auto; apply Ht]).
  - unfold w_done in E. destruct (holds s t) eqn:Eh; [|discriminate]. destruct (parts (ws s t)); [|discriminate]. injection E as <-. constructor; cbn [begun told lock ws]; [|exact Ht].
    exists []. rewrite app_nil_r. split; [|split; [reflexivity|congruence]]. unfold holds in Eh. destruct (lock s); [|discriminate]. specialize (Hl ltac:(discriminate)).
    rewrite Em at 2. rewrite Em, app_length, Hl, Nat.add_sub, skipn_app, skipn_all, Nat.sub_diag. reflexivity.
  - unfold w_fail in E. destruct (lock s) eqn:El; [discriminate|]. destruct (todo (ws s t)) as [|m r] eqn:Et; [discriminate|]. injection E as <-. constructor; cbn [begun told lock ws]; [exists more; repeat split; auto; congruence|].
    intros u. destruct (Nat.eq_dec u t) as [->|Hn]; [rewrite set_w_same; cbn [todo]; apply (sub_drop _ _ m); rewrite <- Et; apply Ht|rewrite set_w_other by auto; apply Ht].
  - unfold w_read in E. destruct (hp s); [|discriminate]. destruct ((0 <? _) && _); [discriminate|].
    match type of E with (if ?c then _ else _) = _ => destruct c end; [|destruct (got _ _) as [[r' ms]|]]; injection E as <-; constructor; cbn [begun told lock ws]; eauto.
Qed.
Lemma books_run prog limit os : forall s s', uncut os -> books prog s -> run limit os s = Some s' -> books prog s'.
Proof.
  induction os as [|o os IH]; intros s s' Hu I E; cbn [run] in E; [congruence|]. destruct (step limit o s) as [s1|] eqn:E1; [|discriminate].
  apply (IH s1); [intros t k Hi; apply (Hu t k); now right| |exact E]. apply (books_step prog limit o s); [|exact I|exact E1]. intros t k ->. apply (Hu t k). now left.
Qed.
Lemma books_start prog : books prog (start prog).
Proof. constructor; cbn [start begun told lock ws todo]; [exists []; repeat split; auto; congruence|]. intros t. apply sub_refl. Qed.

(** When nobody sends and there is nothing to read, all that was sent has been received. *)
Lemma inv_quiet limit s : inv limit s -> lock s = None -> w_read s = None -> out s = map snd (begun s).
Proof.
  intros [Hf Hs Hp Hb (rest & Q & Eb & Hr & Eu & Ep & Ea & Hl & Hl' & Hk)] El E. destruct rest as [|m rest']; [now rewrite app_nil_r in Eb|]. exfalso.
  assert (Hfm : fits m) by (inversion Hr as [|? ? Hsm]; apply Hsm).
  destruct (got_part (rd s) m rest' Hfm Hk) as (b & more & Em & El' & _). rewrite Em, ne_cons, El' in Eu. rewrite El in Eu. cbn [ne filter] in Eu. rewrite app_nil_r in Eu.
  unfold w_read in E. rewrite Hf in E. cbv zeta in E.
  destruct (andb _ _) eqn:Ec in E.
  - apply andb_prop in Ec as [E1 E2]. apply Nat.ltb_lt in E1. apply Nat.eqb_eq, length_zero_iff_nil in E2. assert (Hn : length (acc (rd s)) < need (rd s)) by lia.
    rewrite (proj2 (Nat.eqb_neq (need (rd s)) 0)) in Eu by lia. rewrite <- Eu in Ep. cbn [app concat] in Ep. rewrite skipn_app, E2 in Ep. symmetry in Ep. apply app_eq_nil in Ep as [Ep _].
    apply (f_equal (@length _)) in Ep. rewrite skipn_length in Ep. cbn in Ep. lia.
  - match type of E with (if ?c then _ else _) = _ => destruct c end; [discriminate|]. destruct (got _ _) as [[r' ms]|]; discriminate.
Qed.

Theorem framing limit prog os s : (forall t m, In m (prog t) -> small limit m) -> uncut os -> run limit os (start prog) = Some s ->
  hp s = Fine /\
  (exists rest, map snd (begun s) = out s ++ rest) /\
  (forall t, sub (of_thread t (begun s)) (prog t)) /\
  (exists more, begun s = told s ++ more /\ length more <= 1) /\
  (lock s = None -> step limit Read s = None -> out s = map snd (told s)).
Proof.
  intros H Hu E. pose proof (inv_run limit os _ _ Hu (inv_start limit prog H) E) as I. pose proof (books_run prog limit os _ _ Hu (books_start prog) E) as [(more & Em & Hm & Hl) Ht].
  split; [apply I|]. split; [destruct (i_begun _ _ I) as (rest & Q & Eb & _); eauto|]. split.
  - intros t. specialize (Ht t). remember (todo (ws s t)) as r. clear Heqr. induction r as [|x r IH]; [now rewrite app_nil_r in Ht|apply IH; now apply (sub_drop _ _ x)].
  - split; [exists more; split; [exact Em|]; destruct (lock s); [rewrite Hl by discriminate; lia|rewrite Hm by reflexivity; cbn; lia]|]. intros El Er. rewrite (inv_quiet limit s I El Er). now rewrite Em, (Hm El), app_nil_r.
Qed.
