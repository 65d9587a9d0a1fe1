(** Proofs about endpoints written in Python (C117). *)
From Coq Require Import List Arith Bool Ascii Lia.
Import ListNotations.
From Verif Require Import OMap_model OMap_proofs Json_model PyJson_model PyJson_spec PyJson_proofs PyText_proofs PyAdd_model PyAdd_spec.

Section Endpoints.
Context {F Q : Type}.
Notation state := (state F Q). Notation obs := (obs F Q). Notation op := (op F Q). Notation cls := (cls F Q).

Lemma same_spec a b : same a b = true <-> a = b.
Proof. unfold same. destruct (list_eq_dec ascii_dec a b); split; congruence. Qed.

Lemma serving_app (tr l : list obs) t n : serving (tr ++ l) t n =
  fold_left (fun r e => match e with OName t' o (Some n') => if (t' =? t) && same n' n then Some o else r | _ => r end) l (serving tr t n).
Proof. apply fold_left_app. Qed.
Lemma place_app (tr l : list obs) o : place (tr ++ l) o =
  fold_left (fun r e => match e with OName t o' (Some _) => if o' =? o then Some t else r | _ => r end) l (place tr o).
Proof. apply fold_left_app. Qed.
Lemma now_app (tr l : list obs) o c q : now (tr ++ l) o c q = now l o c (now tr o c q).
Proof. apply fold_left_app. Qed.
Definition news (tr : list obs) := flat_map (fun e => match e with OMade c q => [(c, q)] | _ => [] end) tr.
Lemma news_app (tr l : list obs) : news (tr ++ l) = news tr ++ news l.
Proof. apply flat_map_app. Qed.
Lemma made_quiet (tr l : list obs) o : news l = [] -> made (tr ++ l) o = made tr o.
Proof. intros E. unfold made. fold (news (tr ++ l)) (news tr). now rewrite news_app, E, app_nil_r. Qed.

Lemma nth_set {A} (l : list A) o x y o' : nth_error l o = Some y -> nth_error (firstn o l ++ x :: skipn (S o) l) o' = if o' =? o then Some x else nth_error l o'.
Proof.
  revert o o'. induction l as [|z l IH]; intros [|o] [|o'] E; try discriminate; cbn; try reflexivity.
  exact (IH o o' E).
Qed.
Lemma length_set {A} (l : list A) o x y : nth_error l o = Some y -> length (firstn o l ++ x :: skipn (S o) l) = length l.
Proof. revert o. induction l as [|z l IH]; intros [|o] E; try discriminate; cbn; [reflexivity|]. f_equal. now apply IH. Qed.

(** What the library has of an endpoint, by what was seen of it. *)
Definition kept (tr : list obs) (o : nat) : option obj :=
  match made tr o with
  | Some (c, q) => Some {| o_cls := c; o_state := now tr o c q; o_at := match c_set c with Some _ => None | None => place tr o end |}
  | None => None
  end.
Record inv (tr : list obs) (s : state) : Prop := {
  i_ord : forall t, ordered str_ltb (s_ends s t);
  i_find : forall t n, mfind str_ltb n (s_ends s t) = serving tr t n;
  i_objs : forall o, nth_error (s_objs s) o = kept tr o;
  i_len : length (news tr) = length (s_objs s);
  i_new : forall o, length (s_objs s) <= o -> (forall c q, now tr o c q = q) /\ place tr o = None;
  i_made : forall t n o, serving tr t n = Some o -> o < length (s_objs s)
}.
Lemma inv_start : inv [] start.
Proof.
  split; cbn; try reflexivity; try discriminate.
  - intros. apply ordered_nil.
  - intros o. unfold kept, made. cbn. now destruct o.
  - intros. split; reflexivity.
Qed.

(** Calls on endpoint [o]. *)
Lemma inv_call tr s o x x' l ends d : inv tr s -> nth_error (s_objs s) o = Some x -> news l = [] ->
  (forall t, ordered str_ltb (ends t)) -> (forall t n, mfind str_ltb n (ends t) = serving (tr ++ l) t n) ->
  (forall t n o', serving (tr ++ l) t n = Some o' -> o' = o \/ serving tr t n = Some o') ->
  (forall o', o' <> o -> place (tr ++ l) o' = place tr o' /\ forall c q, now l o' c q = q) ->
  kept (tr ++ l) o = Some x' -> inv (tr ++ l) {| s_objs := firstn o (s_objs s) ++ x' :: skipn (S o) (s_objs s); s_ends := ends; s_dead := d |}.
Proof.
  intros [I1 I2 I3 I4 I5 I6] Ex Nl Od Fd Hs Ho Hx. split; cbn; auto.
  - intros o'. rewrite (nth_set _ _ _ _ _ Ex). destruct (Nat.eqb_spec o' o) as [->|N]; [now symmetry|].
    rewrite I3. unfold kept. rewrite made_quiet by exact Nl. destruct (made tr o') as [[c q]|]; [|reflexivity]. destruct (Ho o' N) as [-> H]. rewrite now_app, H. reflexivity.
  - rewrite news_app, Nl, app_nil_r, I4. symmetry. eapply length_set, Ex.
  - intros o' L. rewrite (length_set _ _ _ _ Ex) in L. assert (o' <> o) as N. { intros ->. apply nth_error_None in L. congruence. }
    destruct (Ho o' N) as [-> H]. destruct (I5 o' L) as [H1 H2]. split; [|exact H2]. intros. now rewrite now_app, H1, H.
  - intros t n o' E. rewrite (length_set _ _ _ _ Ex). destruct (Hs _ _ _ E) as [->|E']; [|eapply I6, E']. apply nth_error_Some. congruence.
Qed.
Lemma put_find tr s t n o : inv tr s -> forall t' n', mfind str_ltb n' (s_ends (put t n o s) t') = if (t =? t') && same n n' then Some o else serving tr t' n'.
Proof.
  intros I t' n'. cbn. rewrite Nat.eqb_sym. destruct (Nat.eqb_spec t t') as [<-|N]; cbn; [|apply (i_find _ _ I)].
  destruct (same n n') eqn:E.
  - apply same_spec in E as <-. apply find_insert_same, str_order.
  - rewrite find_insert_other; [apply (i_find _ _ I)|apply str_order|apply (i_ord _ _ I)|]. intros ->. rewrite (proj2 (same_spec n n) eq_refl) in E. discriminate.
Qed.
Lemma put_ordered tr s t n o : inv tr s -> forall t', ordered str_ltb (s_ends (put t n o s) t').
Proof. intros I t'. cbn. destruct (t' =? t); [apply ordered_insert; [apply str_order|]|]; apply (i_ord _ _ I). Qed.

Lemma kept_made (tr : list obs) o x : kept tr o = Some x -> exists q, made tr o = Some (o_cls x, q) /\ o_state x = now tr o (o_cls x) q /\ o_at x = match c_set (o_cls x) with Some _ => None | None => place tr o end.
Proof. unfold kept. destruct (made tr o) as [[c q]|]; [|discriminate]. injection 1 as <-. exists q. auto. Qed.
Lemma kept_after (tr l : list obs) o x x' : kept tr o = Some x -> news l = [] -> o_cls x' = o_cls x -> o_state x' = now l o (o_cls x) (o_state x) ->
  o_at x' = match c_set (o_cls x) with Some _ => None | None => place (tr ++ l) o end -> kept (tr ++ l) o = Some x'.
Proof.
  intros K N E1 E2 E3. destruct (kept_made _ _ _ K) as (q & M & Sx & _). unfold kept. rewrite made_quiet by exact N. rewrite M, now_app, <- Sx. f_equal. destruct x'; cbn in *. subst. reflexivity.
Qed.
Lemma other o o' : o' <> o -> (o =? o') = false.
Proof. intros. apply Nat.eqb_neq. congruence. Qed.

Lemma inv_skip tr s l : inv tr s -> Forall (fun e => match e with ORaised | OWhere _ _ => True | _ => False end) l -> inv (tr ++ l) s.
Proof.
  intros I H. assert (news l = [] /\ (forall t n, serving (tr ++ l) t n = serving tr t n) /\ (forall o, place (tr ++ l) o = place tr o) /\ (forall o c q, now l o c q = q)) as (N & E1 & E2 & E3).
  { repeat split; intros; rewrite ?serving_app, ?place_app; [|generalize (serving tr t n) as r; intros r; revert r|generalize (place tr o) as r; intros r; revert r|revert q];
      induction H as [|e l He Hl IH]; try reflexivity; destruct e; try contradiction; cbn; auto. }
  destruct I as [I1 I2 I3 I4 I5 I6]. split; auto.
  - intros. now rewrite E1.
  - intros o. rewrite I3. unfold kept. rewrite made_quiet by exact N. destruct (made tr o) as [[c q]|]; [|reflexivity]. now rewrite now_app, E3, E2.
  - now rewrite news_app, N, app_nil_r.
  - intros o L. rewrite E2. destruct (I5 o L) as [H1 H2]. split; [|exact H2]. intros. now rewrite now_app, E3.
  - intros t n o. rewrite E1. apply I6.
Qed.

Lemma add_inv tr s t o x : inv tr s -> nth_error (s_objs s) o = Some x -> inv (tr ++ snd (add t o x s)) (fst (add t o x s)).
Proof.
  intros I Ex. assert (kept tr o = Some x) as K by (rewrite <- (i_objs _ _ I); exact Ex).
  destruct (kept_made _ _ _ K) as (q0 & M & Sx & Ax). unfold add. destruct (c_name (o_cls x)) as [f|] eqn:Ef.
  - destruct (f (o_state x)) as [q r] eqn:Er.
    destruct (match r with Some p => name_of p | None => None end) as [n|] eqn:En.
    + cbn [o_cls with_state]. destruct (c_set (o_cls x)) as [g|] eqn:Eg.
      * destruct (g q) as [q1 ok] eqn:Eq. cbn [fst snd]. unfold set_obj. apply (inv_call _ s _ x); auto.
        -- now destruct ok.
        -- eapply put_ordered, I.
        -- intros. rewrite (put_find _ _ _ _ _ I), serving_app. cbn. now destruct ok.
        -- intros t' n' o'. rewrite serving_app. cbn. destruct ok; destruct ((t =? t') && same n n'); intros E; try (left; congruence); now right.
        -- intros o' N. rewrite place_app. cbn. rewrite (other _ _ N). destruct ok; auto.
        -- eapply kept_after; eauto; cbn.
           ++ now destruct ok.
           ++ rewrite Nat.eqb_refl, Ef, Er. cbn. rewrite Eg, Eq. now destruct ok.
           ++ rewrite Eg, Ax. reflexivity.
      * cbn [fst snd]. unfold set_obj. apply (inv_call _ s _ x); auto.
        -- eapply put_ordered, I.
        -- intros. rewrite (put_find _ _ _ _ _ I), serving_app. reflexivity.
        -- intros t' n' o'. rewrite serving_app. cbn. destruct ((t =? t') && same n n'); intros E; [left; congruence|now right].
        -- intros o' N. rewrite place_app. cbn. rewrite (other _ _ N). auto.
        -- eapply kept_after; eauto; cbn.
           ++ now rewrite Nat.eqb_refl, Ef, Er.
           ++ rewrite Eg, place_app. cbn. now rewrite Nat.eqb_refl.
    + cbn [fst snd]. unfold set_obj. apply (inv_call _ s _ x); auto.
      * apply (i_ord _ _ I).
      * intros. rewrite serving_app. apply (i_find _ _ I).
      * intros t' n' o'. rewrite serving_app. cbn. now right.
      * intros o' N. rewrite place_app. cbn. rewrite (other _ _ N). auto.
      * eapply kept_after; eauto; cbn; [now rewrite Nat.eqb_refl, Ef, Er|]. rewrite place_app. exact Ax.
  - cbn [fst snd]. replace s with {| s_objs := firstn o (s_objs s) ++ x :: skipn (S o) (s_objs s); s_ends := s_ends s; s_dead := s_dead s |}.
    + apply (inv_call _ s _ x); auto.
      * apply (i_ord _ _ I).
      * intros. rewrite serving_app. apply (i_find _ _ I).
      * intros t' n' o'. rewrite serving_app. cbn. now right.
      * intros o' N. rewrite place_app. cbn. rewrite (other _ _ N). auto.
      * eapply kept_after; eauto; cbn; [now rewrite Nat.eqb_refl, Ef|]. rewrite place_app. exact Ax.
    + destruct s as [ob en de]. cbn in *. f_equal. clear -Ex. revert o Ex. induction ob as [|z ob IH]; intros [|o] Ex; try discriminate; cbn in *; [congruence|]. f_equal. now apply IH.
Qed.

Lemma step_inv tr s a : inv tr s -> inv (tr ++ snd (step a s)) (fst (step a s)).
Proof.
  intros I. unfold step. destruct (s_dead s); [cbn; now rewrite app_nil_r|]. destruct a as [c q|t o|k t n b|o].
  - cbn [fst snd]. destruct I as [I1 I2 I3 I4 I5 I6]. split; cbn; auto.
    + intros. rewrite serving_app. apply I2.
    + intros o. unfold kept, made. fold (news (tr ++ [OMade c q])). rewrite news_app. cbn. destruct (lt_eq_lt_dec o (length (s_objs s))) as [[L| ->]|L].
      * rewrite nth_error_app1 by exact L. rewrite I3. unfold kept, made. fold (news tr). rewrite nth_error_app1 by lia. destruct (nth_error (news tr) o) as [[c' q']|]; [|reflexivity]. now rewrite now_app, place_app.
      * rewrite nth_error_app2, Nat.sub_diag by lia. rewrite nth_error_app2, I4, Nat.sub_diag by lia. cbn. destruct (I5 (length (s_objs s)) (le_n _)) as [H1 H2]. rewrite now_app, place_app. cbn. rewrite H1, H2. now destruct (c_set c).
      * rewrite !(proj2 (nth_error_None _ _)); [reflexivity| |]; rewrite app_length; cbn; lia.
    + rewrite news_app, !app_length, I4. reflexivity.
    + intros o. rewrite app_length. cbn. intros L. rewrite place_app. destruct (I5 o) as [H1 H2]; [lia|]. split; [|exact H2]. intros. rewrite now_app. cbn. apply H1.
    + intros t n o E. rewrite serving_app in E. cbn in E. apply I6 in E. rewrite app_length. cbn. lia.
  - destruct (nth_error (s_objs s) o) as [x|] eqn:Ex; [now apply add_inv|]. apply inv_skip; [exact I|]. now constructor.
  - destruct (mfind str_ltb n (s_ends s t)) as [o|] eqn:Em; [|cbn; now rewrite app_nil_r].
    destruct (nth_error (s_objs s) o) as [x|] eqn:Ex; [|cbn; now rewrite app_nil_r].
    destruct (method k (o_cls x)) as [f|] eqn:Ef; [|cbn; now rewrite app_nil_r].
    destruct (f (o_state x) b) as [q r] eqn:Er.
    assert (kept tr o = Some x) as K by (rewrite <- (i_objs _ _ I); exact Ex). destruct (kept_made _ _ _ K) as (q0 & M & Sx & Ax).
    assert (forall l d, Forall (fun e => match e with ODied | OReply _ _ _ => True | _ => False end) l -> l = [] \/ (exists e, l = [e]) ->
      inv (tr ++ OCall k t n b o :: l) {| s_objs := firstn o (s_objs s) ++ with_state q x :: skipn (S o) (s_objs s); s_ends := s_ends s; s_dead := d |}) as G.
    { intros l d Fl Hl. assert (l = [] \/ exists e, l = [e] /\ match e with ODied | OReply _ _ _ => True | _ => False end) as Hl'.
      { destruct Hl as [->|[e ->]]; [now left|right]. exists e. split; [reflexivity|]. now inversion Fl. }
      clear Fl Hl. apply (inv_call _ s _ x); auto.
      - destruct Hl' as [->|(e & -> & He)]; [reflexivity|]. now destruct e.
      - apply (i_ord _ _ I).
      - intros. rewrite serving_app, (i_find _ _ I). destruct Hl' as [->|(e & -> & He)]; [reflexivity|]. now destruct e.
      - intros t' n' o'. rewrite serving_app. destruct Hl' as [->|(e & -> & He)]; [now right|]. destruct e; try contradiction; now right.
      - intros o' N. rewrite place_app. destruct Hl' as [->|(e & -> & He)]; [|destruct e; try contradiction]; cbn; rewrite (other _ _ N); auto.
      - eapply kept_after; eauto; cbn.
        + destruct Hl' as [->|(e & -> & He)]; [reflexivity|]. now destruct e.
        + rewrite Nat.eqb_refl, Ef, Er. destruct Hl' as [->|(e & -> & He)]; [reflexivity|]. now destruct e.
        + rewrite place_app, Ax. destruct Hl' as [->|(e & -> & He)]; [reflexivity|]. destruct e; now try contradiction. }
    destruct (match r with Some p => to_data p | None => PRaise end); cbn [fst snd set_obj die s_objs s_ends s_dead]; apply G; try (now left); try (right; eexists; reflexivity); now repeat constructor.
  - destruct (nth_error (s_objs s) o); (apply inv_skip; [exact I|]; now constructor).
Qed.
Lemma run_inv h : forall tr s, inv tr s -> inv (tr ++ snd (run h s)) (fst (run h s)).
Proof.
  induction h as [|a h IH]; intros tr s I; cbn [run]; [now rewrite app_nil_r|].
  pose proof (step_inv tr s a I) as I1. destruct (step a s) as [s1 o1]. cbn [fst snd] in I1. specialize (IH _ _ I1). destruct (run h s1) as [s2 o2]. cbn [fst snd] in *. now rewrite app_assoc.
Qed.
Lemma reached (h : list op) s tr : run h start = (s, tr) -> inv tr s.
Proof. intros E. pose proof (run_inv h [] start inv_start) as I. rewrite E in I. exact I. Qed.

(** Only a terminated process has died. *)
Lemma step_dead (a : op) (s : state) : s_dead (fst (step a s)) = true -> s_dead s = true \/ In ODied (snd (step a s)).
Proof.
  unfold step. destruct (s_dead s) eqn:E; [now left|]. intros H. right. destruct a as [c q|t o|k t n b|o]; cbn in *; try congruence.
  - destruct (nth_error (s_objs s) o) as [x|]; [|cbn in H; congruence]. exfalso. revert H. unfold add.
    destruct (c_name (o_cls x)) as [f|]; [|cbn; congruence]. destruct (f (o_state x)) as [q r]. destruct (match r with Some p => name_of p | None => None end) as [n|]; [|cbn; congruence].
    cbn. destruct (c_set (o_cls x)) as [g|]; [destruct (g q)|]; cbn; congruence.
  - destruct (mfind str_ltb n (s_ends s t)) as [o|]; [|cbn in H; congruence]. destruct (nth_error (s_objs s) o) as [x|]; [|cbn in H; congruence].
    destruct (method k (o_cls x)) as [f|]; [|cbn in H; congruence]. destruct (f (o_state x) b) as [q r]. destruct (match r with Some p => to_data p | None => PRaise end); cbn in *; try congruence. auto.
  - destruct (nth_error (s_objs s) o); cbn in H; congruence.
Qed.
Lemma run_dead (h : list op) : forall s : state, s_dead (fst (run h s)) = true -> s_dead s = true \/ In ODied (snd (run h s)).
Proof.
  induction h as [|a h IH]; intros s; cbn [run]; [now left|]. pose proof (step_dead a s) as Sd. destruct (step a s) as [s1 o1]. specialize (IH s1). destruct (run h s1) as [s2 o2]. cbn [fst snd] in *.
  intros H. destruct (IH H) as [D|D]; [destruct (Sd D) as [D'|D']; [now left|]|]; right; apply in_or_app; auto.
Qed.
Lemma running (h : list op) s tr : run h start = (s, tr) -> ~ In ODied tr -> s_dead s = false.
Proof. intros E N. pose proof (run_dead h start) as D. rewrite E in D. cbn in D. destruct (s_dead s); [|reflexivity]. destruct (D eq_refl); [discriminate|contradiction]. Qed.

Lemma served_obj tr s t n o : inv tr s -> serving tr t n = Some o -> exists c q0, made tr o = Some (c, q0).
Proof.
  intros I E. pose proof (i_made _ _ I _ _ _ E) as L. apply nth_error_Some in L. rewrite (i_objs _ _ I) in L. unfold kept in L. destruct (made tr o) as [[c q]|]; [|congruence]. eauto.
Qed.

(** What becomes of a message. *)
Theorem message_to (h : list op) s tr k t n b : run h start = (s, tr) -> ~ In ODied tr ->
  match serving tr t n with
  | None => step (F := F) (Message k t n b) s = (s, [])
  | Some o => exists c q0, made tr o = Some (c, q0) /\
      match method k c with
      | None => step (F := F) (Message k t n b) s = (s, [])
      | Some f =>
          match snd (f (now tr o c q0) b) with
          | None => snd (step (Message k t n b) s) = [OCall k t n b o; ODied]
          | Some p => proper p ->
              (forall d, says p d -> snd (step (Message k t n b) s) = [OCall k t n b o; OReply t n d]) /\
              (silent p -> snd (step (Message k t n b) s) = [OCall k t n b o]) /\
              (~ silent p -> (forall d, ~ says p d) -> snd (step (Message k t n b) s) = [OCall k t n b o; ODied])
          end
      end
  end.
Proof.
  intros R N. pose proof (reached _ _ _ R) as I. pose proof (running _ _ _ R N) as D. unfold step. rewrite D, (i_find _ _ I).
  destruct (serving tr t n) as [o|] eqn:Es; [|reflexivity]. destruct (served_obj _ _ _ _ _ I Es) as (c & q0 & M). exists c, q0. split; [exact M|].
  rewrite (i_objs _ _ I). unfold kept. rewrite M. cbn [o_cls o_state]. destruct (method k c) as [f|]; [|reflexivity].
  destruct (f (now tr o c q0) b) as [q [p|]]; cbn [snd]; [|reflexivity]. intros P. repeat split.
  - intros d Sd. rewrite (proj2 (payload_exact p d P) Sd). reflexivity.
  - intros Hs. destruct p; try contradiction; reflexivity.
  - intros Hs Hn. destruct (to_data p) as [| |d] eqn:E; [reflexivity| |exfalso; apply (Hn d), payload_exact; auto].
    exfalso. destruct p; try (apply Hs; exact Logic.I); cbn in E.
    + destruct (to_utf8 s0); discriminate.
    + discriminate.
    + destruct (all byte_of l); discriminate.
Qed.

Lemma name_exact (p : py F) n : proper p -> (name_of p = Some n <-> named p n).
Proof.
  intros P. split.
  - destruct p; cbn; try discriminate; [|injection 1 as <-; constructor]. intros E. constructor. apply utf8_back; auto.
  - intros H. destruct H as [s n H|n]; cbn; [|reflexivity]. now apply utf8_there in H as [-> _].
Qed.

(** [addEndpoint] of an endpoint that leaves [setTransport] to the library. *)
Theorem all_or_nothing (h : list op) s tr t o c q0 : run h start = (s, tr) -> ~ In ODied tr -> made tr o = Some (c, q0) -> c_set c = None ->
  (forall f p, c_name c = Some f -> snd (f (now tr o c q0)) = Some p -> proper p) ->
  forall s' l, step (Add t o) s = (s', l) ->
  ((exists n f p, c_name c = Some f /\ snd (f (now tr o c q0)) = Some p /\ named p n /\ In OReturned l /\ ~ In ORaised l /\ serving (tr ++ l) t n = Some o /\
     (forall t' n', (t', n') <> (t, n) -> serving (tr ++ l) t' n' = serving tr t' n') /\
     snd (step (Where o) s') = [OWhere o (Some t)] /\ (forall o', o' <> o -> snd (step (Where o') s') = snd (step (Where o') s)))
   \/ ((forall f p n, c_name c = Some f -> snd (f (now tr o c q0)) = Some p -> ~ named p n) /\ In ORaised l /\ ~ In OReturned l /\
       (forall t' n', serving (tr ++ l) t' n' = serving tr t' n') /\ (forall o', snd (step (Where o') s') = snd (step (Where o') s)))).
Proof.
  intros R N M Cs P s' l E. pose proof (reached _ _ _ R) as I. pose proof (running _ _ _ R N) as D. revert E. unfold step. rewrite D.
  assert (nth_error (s_objs s) o = kept tr o) as Ex by apply (i_objs _ _ I). unfold kept in Ex. rewrite M, Cs in Ex. rewrite Ex. unfold add. cbn [o_cls o_state].
  destruct (c_name c) as [f|] eqn:Ef.
  - specialize (P f). destruct (f (now tr o c q0)) as [q r] eqn:Er. destruct (match r with Some p => name_of p | None => None end) as [n|] eqn:En.
    + destruct r as [p|]; [|discriminate]. specialize (P p eq_refl eq_refl). apply (name_exact p n P) in En.
      cbn [o_cls with_state]. rewrite Cs. injection 1 as <- <-. left. exists n, f, p. rewrite Er. repeat split; auto.
      * right. now left.
      * intros [H|[H|[]]]; discriminate.
      * rewrite serving_app. cbn. rewrite Nat.eqb_refl, (proj2 (same_spec n n) eq_refl). reflexivity.
      * intros t' n' Ne. rewrite serving_app. cbn. destruct (Nat.eqb_spec t t') as [<-|]; [|reflexivity]. cbn. destruct (same n n') eqn:E; [|reflexivity]. apply same_spec in E as <-. congruence.
      * cbn. rewrite D, (nth_set _ _ _ _ _ Ex), Nat.eqb_refl. reflexivity.
      * intros o' No. cbn. rewrite D, (nth_set _ _ _ _ _ Ex). rewrite (proj2 (Nat.eqb_neq o' o) No). now destruct (nth_error (s_objs s) o').
    + injection 1 as <- <-. right. repeat split.
      * intros f' p n E1 E2 H. injection E1 as <-. rewrite Er in E2. cbn in E2. subst r. specialize (P p eq_refl eq_refl). apply (name_exact p n P) in H. congruence.
      * right. now left.
      * intros [H|[H|[]]]; discriminate.
      * intros. now rewrite serving_app.
      * intros o'. cbn. rewrite D, (nth_set _ _ _ _ _ Ex). destruct (Nat.eqb_spec o' o) as [->|]; [now rewrite Ex|]. now destruct (nth_error (s_objs s) o').
  - injection 1 as <- <-. right. repeat split; try discriminate.
    + right. now left.
    + intros [H|[H|[]]]; discriminate.
    + intros. now rewrite serving_app.
    + intros o'. now rewrite D.
Qed.

(** Where an endpoint is. *)
Theorem where_is (h : list op) s tr o c q0 : run h start = (s, tr) -> ~ In ODied tr -> made tr o = Some (c, q0) ->
  step (Where o) s = (s, [OWhere o (match c_set c with None => place tr o | Some _ => None end)]).
Proof.
  intros R N M. pose proof (reached _ _ _ R) as I. unfold step. rewrite (running _ _ _ R N), (i_objs _ _ I). unfold kept. rewrite M. cbn. now destruct (c_set c).
Qed.
End Endpoints.
