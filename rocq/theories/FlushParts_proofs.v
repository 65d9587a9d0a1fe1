(** The transports and the provider can come to rest by the steps of their own threads (C107). *)
From Coq Require Import List Arith NArith Bool Lia.
Import ListNotations.
From Verif Require Import Protocol_model EndToEnd_model.
From Verif Require EndToEnd_parts.
From Verif Require Import UnixSystem_model UnixSystem_proofs.
Local Notation length := List.length.

(** ** A transport *)
Definition whole_item (i : item) : Prop := match i with Full _ _ => True | _ => False end.
Record netok (s : sys) : Prop := {
  no_in : s_up s = true -> Forall whole_item (c_in (s_cl s 0));
  no_run : c_run (s_cl s 0) = c_open (s_cl s 0)
}.
Lemma process_keeps m g ua c : c_in (process m g ua c) = c_in c /\ c_open (process m g ua c) = c_open c /\ c_run (process m g ua c) = c_run c /\ c_eps (process m g ua c) = c_eps c.
Proof.
  unfold process. destruct (p_find _ _) as [r|].
  - destruct (nth_error _ _) as [q|]; [|auto]. destruct (r_held q); [destruct (r_val q)|]; cbn; auto.
  - destruct (mem _ _); [|cbn; auto]. destruct ua as [d|]; [|cbn; auto]. cbn [set_log c_open]. destruct (c_open c) eqn:E; cbn; auto.
Qed.
Lemma push_in_ok x c : whole_item x -> Forall whole_item (c_in c) -> Forall whole_item (c_in (push_in x c)).
Proof. intros X F. unfold push_in. destruct (c_open c); [|exact F]. cbn. apply Forall_app. auto. Qed.
Lemma push_in_flags x c : c_open (push_in x c) = c_open c /\ c_run (push_in x c) = c_run c /\ c_eps (push_in x c) = c_eps c /\ c_log (push_in x c) = c_log c.
Proof. unfold push_in. destruct (c_open c) eqn:E; auto. Qed.

Lemma cl_case (f : client -> Prop) c x s : f (s_cl s 0) -> (c = 0 -> f x) -> f (s_cl (with_cl c x s) 0).
Proof. intros A B. cbn [with_cl s_cl]. unfold upd. destruct c; [apply B; reflexivity|exact A]. Qed.
Definition okc (up : bool) (c : client) : Prop := (up = true -> Forall whole_item (c_in c)) /\ c_run c = c_open c.
Lemma netok_of s : okc (s_up s) (s_cl s 0) <-> netok s.
Proof. split; [intros (A & B); constructor; auto|intros [A B]; split; auto]. Qed.

Lemma recv_ok up eof ua c c' : okc up c -> client_recv eof ua c = Some c' -> okc up c'.
Proof.
  intros (A & B) H. unfold client_recv in H. destruct (negb (c_run c)); [discriminate H|].
  assert (P : forall m g c1, okc up c1 -> okc up (process m g ua c1)). { intros m g c1 (X & Y). destruct (process_keeps m g ua c1) as (E1 & E2 & E3 & _). split; [rewrite E1; exact X|congruence]. }
  destruct (c_in c) as [|[m g|m|] r] eqn:Ei.
  - destruct eof; [|discriminate H]. injection H as <-. apply P. split; [cbn [set_flags c_in]; rewrite Ei; constructor|reflexivity].
  - injection H as <-. apply P. split; [cbn; intro U; specialize (A U); inversion A; assumption|exact B].
  - injection H as <-. apply P. split; [cbn; intro U; specialize (A U); inversion A; assumption|reflexivity].
  - injection H as <-. apply P. split; [cbn; intro U; specialize (A U); inversion A; assumption|reflexivity].
Qed.

Lemma netok_step l s s' : netok s -> step l s = Some s' -> netok s'.
Proof.
  rewrite <- !netok_of. intros K H. destruct l; cbn [step] in H.
  - destruct (c_born _ || _); [discriminate H|]. injection H as <-. cbn [with_conn with_cl s_up s_cl]. unfold upd. destruct c; [|exact K]. destruct K as (A & _). split; [exact A|reflexivity].
  - destruct (s_up s) eqn:U; [|discriminate H]. destruct (s_conn s c); try discriminate H. injection H as <-. cbn [with_conn s_up s_cl]. rewrite U. exact K.
  - injection H as <-. apply (cl_case (okc _)); [exact K|]. intros ->. exact K.
  - injection H as <-. exact K.
  - destruct (negb _); [discriminate H|]. injection H as <-. apply (cl_case (okc _)); [exact K|]. intros ->. exact K.
  - destruct (nth_error _ _) as [q|]; [|discriminate H]. destruct (r_stage q); try discriminate H. destruct (c_open _ && ok); injection H as <-; (apply (cl_case (okc _)); [exact K|]; intros ->; exact K).
  - destruct (nth_error _ _) as [q|]; [|discriminate H]. destruct (r_stage q); try discriminate H. injection H as <-. apply (cl_case (okc _)); [exact K|]. intros ->. exact K.
  - destruct (nth_error _ _) as [q|]; [|discriminate H]. destruct (in_call q); [discriminate H|]. injection H as <-. apply (cl_case (okc _)); [exact K|]. intros ->. exact K.
  - destruct (client_recv _ _ _) as [x|] eqn:E; [|discriminate H]. injection H as <-. apply (cl_case (okc _)); [exact K|]. intros ->. eapply recv_ok; eauto.
  - injection H as <-. apply (cl_case (okc _)); [exact K|]. intros ->. exact K.
  - destruct (_ && _); [|discriminate H]. injection H as <-. apply (cl_case (okc _)); [exact K|]. intros ->. exact K.
  - destruct (c_open _); [|discriminate H]. injection H as <-. apply (cl_case (okc _)); [exact K|]. intros ->. exact K.
  - destruct (_ || _); [discriminate H|]. injection H as <-. apply (cl_case (okc _)); [exact K|]. intros ->. split; [intros _; constructor|reflexivity].
  - destruct (s_up s) eqn:U; [|discriminate H]. destruct (s_conn s c); try discriminate H. destruct (c_out (s_cl s c)) as [|[m g|m|] r]; try discriminate H.
    + destruct (mem _ _).
      * destruct ans as [d|]; injection H as <-.
        -- cbn [with_cl with_calls s_up s_cl]. rewrite U. unfold upd. destruct c as [|c]; cbn [Nat.eqb]; [|exact K]. destruct K as (A & B).
           match goal with |- okc true (push_in ?i ?x) => destruct (push_in_flags i x) as (E1 & E2 & _) end. split; [|rewrite E1, E2; exact B].
           intros _. apply push_in_ok; [exact Logic.I|]. exact (A eq_refl).
        -- cbn [with_calls s_up s_cl]. change (s_up (with_cl c (set_out r (s_cl s c)) s)) with (s_up s). rewrite U. apply (cl_case (okc true)); [exact K|]. intros ->. exact K.
      * injection H as <-. change (s_up (with_cl c (set_out r (s_cl s c)) s)) with (s_up s). rewrite U. apply (cl_case (okc true)); [exact K|]. intros ->. exact K.
    + injection H as <-. cbn [with_conn s_up s_cl]. change (s_up (with_cl c (set_out r (s_cl s c)) s)) with (s_up s). rewrite U. apply (cl_case (okc true)); [exact K|]. intros ->. exact K.
    + injection H as <-. cbn [with_conn s_up s_cl]. change (s_up (with_cl c (set_out r (s_cl s c)) s)) with (s_up s). rewrite U. apply (cl_case (okc true)); [exact K|]. intros ->. exact K.
  - destruct (s_up s) eqn:U; [|discriminate H]. destruct (s_conn s c); try discriminate H. destruct (c_open _); [discriminate H|]. injection H as <-. cbn [with_conn s_up s_cl]. rewrite U. exact K.
  - injection H as <-. exact K.
  - destruct (negb (s_up s)); [discriminate H|]. destruct (rev (s_queue s)) as [|[nm d] rq]; [discriminate H|]. injection H as <-. cbn [s_up s_cl].
    destruct (is_accepted _); [|exact K]. destruct K as (A & B). match goal with |- okc _ (push_in ?i ?x) => destruct (push_in_flags i x) as (E1 & E2 & _) end.
    split; [intro U; apply push_in_ok; [exact Logic.I|exact (A U)]|congruence].
  - destruct (s_up s) eqn:U; [|discriminate H]. injection H as <-. destruct K as (A & B). split; [discriminate|exact B].
  - destruct (s_up s) eqn:U; [|discriminate H]. destruct (s_conn s c); try discriminate H. destruct (c_out (s_cl s c)) as [|[m g|m|] r]; try discriminate H.
    destruct (_ && _); [|discriminate H]. match type of H with context [push_in ?i _] => set (i0 := i) in H; clearbody i0 end. injection H as <-. split; [discriminate|]. destruct K as (_ & B). cbn [with_up with_calls with_cl s_cl]. unfold upd. destruct c as [|c]; cbn [Nat.eqb]; [|exact B].
    match goal with |- c_run (push_in ?i ?x) = _ => destruct (push_in_flags i x) as (E1 & E2 & _) end. rewrite E1, E2. exact B.
Qed.
Lemma netok0 : netok sys0. Proof. constructor; [intros _; constructor|reflexivity]. Qed.

(** The connection of client 0 stays as it is. *)
Definition still (s s' : sys) : Prop :=
  s_up s' = s_up s /\ s_conn s' 0 = s_conn s 0 /\ c_open (s_cl s' 0) = c_open (s_cl s 0) /\ c_eps (s_cl s' 0) = c_eps (s_cl s 0).
Lemma still_refl s : still s s. Proof. unfold still. auto. Qed.
Lemma still_trans a b c : still a b -> still b c -> still a c. Proof. unfold still. intros (A1 & A2 & A3 & A4) (B1 & B2 & B3 & B4). repeat split; congruence. Qed.

Lemma disp_one s : s_up s = true -> s_queue s <> [] -> exists s', step DispBcast s = Some s' /\ still s s' /\ S (length (s_queue s')) = length (s_queue s) /\ s_queue s' = removelast (s_queue s).
Proof.
  intros U Q. destruct (exists_last Q) as (l & [nm d] & E). cbn [step]. rewrite U. cbn [negb]. rewrite E, rev_app_distr. cbn [rev app]. eexists. split; [reflexivity|]. cbn [s_queue].
  rewrite rev_involutive, app_length, removelast_last. cbn [length]. split; [|split; [lia|reflexivity]]. unfold still. cbn [s_up s_conn s_cl]. split; [auto|]. split; [reflexivity|].
  destruct (is_accepted _); [|auto]. match goal with |- c_open (push_in ?i ?x) = _ /\ _ => destruct (push_in_flags i x) as (E1 & _ & E3 & _) end. auto.
Qed.
Lemma recv_one s i r : netok s -> s_up s = true -> c_open (s_cl s 0) = true -> c_in (s_cl s 0) = i :: r ->
  exists s', step (CliRecv 0 None) s = Some s' /\ still s s' /\ c_in (s_cl s' 0) = r /\ s_queue s' = s_queue s.
Proof.
  intros K U O E. pose proof (no_in _ K U) as F. rewrite E in F. inversion F as [|? ? F1 F2]; subst. destruct i as [m g|m|]; try contradiction.
  cbn [step]. unfold client_recv. rewrite (no_run _ K), O, E. cbn [negb]. eexists. split; [reflexivity|]. destruct (process_keeps m g None (set_in r (s_cl s 0))) as (E1 & E2 & E3 & E4).
  unfold still. cbn [with_cl s_up s_conn s_cl s_queue]. unfold upd. cbn [Nat.eqb]. rewrite E1, E2, E4. auto 6.
Qed.

(** ** The provider *)
Section Prov.
Context {D : Type}.
Local Notation prov := (P.prov D).
Definition to_do (c : P.call D) : nat := 2 * length (P.c_look c) + length (P.c_todo c).
Definition done (c : P.call D) : Prop := P.c_look c = [] /\ P.c_todo c = [].
Definition amount (p : prov) : nat := list_sum (map to_do (P.p_inc p)).
Definition serving (l : P.label D) : Prop := match l with P.LLook _ | P.LAdd _ _ => True | _ => False end.

Lemma filter_less (i : nat) (l : list nat) : existsb (Nat.eqb i) l = true -> length (filter (fun j => negb (Nat.eqb i j)) l) < length l.
Proof.
  assert (W : forall l, length (filter (fun j => negb (Nat.eqb i j)) l) <= length l) by (induction l0 as [|x l0 IH]; cbn; [lia|destruct (i =? x); cbn; lia]).
  induction l as [|x l IH]; cbn; [discriminate|]. intros H. specialize (W l). destruct (i =? x); cbn in *; [lia|]. specialize (IH H). lia.
Qed.
Lemma add_keeps i (d : D) (p : prov) : P.p_inc (P.add i d p) = P.p_inc p.
Proof. unfold P.add, P.set_src. destruct (nth_error _ _); reflexivity. Qed.

Lemma look_or_done (p : prov) : (exists r c, nth_error (P.p_inc p) r = Some c /\ ~ done c) \/ forall c, In c (P.p_inc p) -> done c.
Proof.
  induction (P.p_inc p) as [|c l [(r & c' & H & N)|H]].
  - right. intros c [].
  - left. exists (S r), c'. auto.
  - destruct (P.c_look c) as [|x lk] eqn:E1; [destruct (P.c_todo c) as [|x t] eqn:E2|].
    + right. intros c' [<-|Hc]; [split; assumption|auto].
    + left. exists 0, c. split; [reflexivity|]. intros (_ & X). congruence.
    + left. exists 0, c. split; [reflexivity|]. intros (X & _). congruence.
Qed.

Lemma serve_one (p : prov) : (exists r c, nth_error (P.p_inc p) r = Some c /\ ~ done c) -> exists l p', P.lstep l p = Some p' /\ serving l /\ amount p' < amount p.
Proof.
  intros (r & c & H & N). destruct (P.c_look c) as [|x lk] eqn:E1.
  - destruct (P.c_todo c) as [|x t] eqn:E2; [exfalso; apply N; split; assumption|].
    exists (P.LAdd r x). cbn [P.lstep]. rewrite H, E1. assert (X : existsb (Nat.eqb x) (P.c_todo c) = true) by (rewrite E2; cbn; now rewrite Nat.eqb_refl). rewrite X.
    eexists. split; [reflexivity|]. split; [exact Logic.I|]. unfold amount. rewrite add_keeps. cbn [P.with_inc P.p_inc].
    match goal with |- context [U.set_nth r ?c' _] => pose proof (EndToEnd_parts.sum_set to_do _ _ _ c' H) as Q end.
    pose proof (filter_less _ _ X) as W. unfold to_do in *. cbn [P.c_look P.c_todo] in *. rewrite E1 in Q. cbn [length] in Q. lia.
  - exists (P.LLook r). cbn [P.lstep]. rewrite H, E1. eexists. split; [reflexivity|]. split; [exact Logic.I|]. unfold amount. cbn [P.with_inc P.p_inc].
    match goal with |- context [U.set_nth r ?c' _] => pose proof (EndToEnd_parts.sum_set to_do _ _ _ c' H) as Q end.
    unfold to_do in *. cbn [P.c_look P.c_todo] in *. rewrite E1 in Q. cbn [length] in Q. destruct (P.rec_of x p); cbn [length] in *; lia.
Qed.
Lemma serve_all : forall k (p : prov), amount p <= k -> exists ls p', P.lrun ls p = Some p' /\ Forall serving ls /\ forall c, In c (P.p_inc p') -> done c.
Proof.
  induction k as [|k IH]; intros p A; destruct (look_or_done p) as [X|X].
  - destruct (serve_one _ X) as (l & p' & _ & _ & L). lia.
  - exists [], p. split; [reflexivity|]. split; [constructor|exact X].
  - destruct (serve_one _ X) as (l & p1 & E & Sv & L). destruct (IH p1) as (ls & p2 & R & F & Dn); [lia|]. exists (l :: ls), p2. cbn [P.lrun]. rewrite E. split; [exact R|]. split; [constructor; assumption|exact Dn].
  - exists [], p. split; [reflexivity|]. split; [constructor|exact X].
Qed.
End Prov.
