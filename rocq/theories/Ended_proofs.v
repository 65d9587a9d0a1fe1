(** Proofs about the end of traced processes. *)
From Coq Require Import String List Arith NArith ZArith Ascii Bool Lia.
Import ListNotations.
From Verif Require Import OMap_model OMap_proofs UnixSystem_model Names_model Native_model.
From Verif Require UnixSystem_proofs Names_proofs Provider_model Provider_spec Provider_proofs.
From Verif Require Import Ended_model Ended_spec.
Module PS := Provider_spec.
Module PP := Provider_proofs.
Module U := UnixSystem_proofs.
Local Notation length := List.length.

Lemma run_app a b w : run (a ++ b) w = match run a w with Some x => run b x | None => None end.
Proof. revert w. induction a as [|l a IH]; intros w; [reflexivity|]. cbn [app run]. destruct (step l w); auto. Qed.
Lemma run_snoc a l w w' : run (a ++ [l]) w = Some w' -> exists x, run a w = Some x /\ step l x = Some w'.
Proof. rewrite run_app. destruct (run a w) as [x|]; [|discriminate]. cbn [run]. intros H. exists x. split; [reflexivity|]. destruct (step l x); congruence. Qed.

Lemma set_nth_length {A} (l : list A) i x : length (set_nth i x l) = length l.
Proof. revert i. induction l as [|y l IH]; intros [|i]; cbn; auto. Qed.
Lemma nth_set {A} (l : list A) i j x y : nth_error l i = Some y -> nth_error (set_nth i x l) j = if Nat.eqb i j then Some x else nth_error l j.
Proof. revert i j. induction l as [|z l IH]; intros [|i] [|j] H; cbn in *; try discriminate; auto. Qed.

(** ** Views *)
Definition pc_of (v : nat) (w : world) : wpc := match nth_error (w_views w) v with Some x => vw_pc x | None => WIdle end.
Definition todo_of (pc : wpc) : list nat := match pc with WNames todo _ | WInfo todo _ _ => todo | _ => [] end.

Lemma goto_peers v pc w : w_peers (goto v pc w) = w_peers w. Proof. unfold goto. now destruct (nth_error (w_views w) v). Qed.
Lemma goto_conns v pc w : w_conns (goto v pc w) = w_conns w. Proof. unfold goto. now destruct (nth_error (w_views w) v). Qed.
Lemma goto_held v pc w : w_held (goto v pc w) = w_held w. Proof. unfold goto. now destruct (nth_error (w_views w) v). Qed.
Lemma goto_prov v pc w : w_prov (goto v pc w) = w_prov w. Proof. unfold goto. now destruct (nth_error (w_views w) v). Qed.
Lemma goto_map v pc w : w_map (goto v pc w) = w_map w. Proof. unfold goto. now destruct (nth_error (w_views w) v). Qed.
Lemma goto_fate v pc w : w_fate (goto v pc w) = w_fate w. Proof. unfold goto. now destruct (nth_error (w_views w) v). Qed.
Lemma goto_views v pc w : length (w_views (goto v pc w)) = length (w_views w).
Proof. unfold goto. destruct (nth_error (w_views w) v); [|reflexivity]. apply set_nth_length. Qed.
Lemma goto_pc v pc w u x : nth_error (w_views w) v = Some x -> pc_of u (goto v pc w) = if Nat.eqb v u then pc else pc_of u w.
Proof.
  intros H. unfold pc_of, goto. rewrite H. cbn [w_views with_views]. rewrite (nth_set _ _ _ _ _ H). destruct (Nat.eqb v u); reflexivity.
Qed.
Lemma goto_out v pc w u x : nth_error (w_views w) v = Some x ->
  option_map vw_out (nth_error (w_views (goto v pc w)) u) = option_map vw_out (nth_error (w_views w) u).
Proof.
  intros H. unfold goto. rewrite H. cbn [w_views with_views]. rewrite (nth_set _ _ _ _ _ H). destruct (Nat.eqb_spec v u) as [<-|]; [|reflexivity].
  now rewrite H.
Qed.

(** ** A cycle of the manager *)
Definition fresh_conns (cs : list nat) : list conn := map (fun i => {| cn_peer := i; cn_lost := false |}) cs.
Definition pid_by (t : nat) (w : world) : Z := pid_of (peer_of t w) w.
Definition like (w w' : world) : Prop :=
  w_peers w' = w_peers w /\ w_prov w' = w_prov w /\ w_map w' = w_map w /\ w_views w' = w_views w /\ w_fate w' = w_fate w.

Lemma up_like i w w' : w_peers w' = w_peers w -> up i w' = up i w. Proof. unfold up. now intros ->. Qed.
Lemma up_lt i w : up i w = true -> i < length (w_peers w).
Proof. unfold up. destruct (nth_error (w_peers w) i) eqn:E; [|discriminate]. intros _. apply nth_error_Some. congruence. Qed.

Lemma peer_of_app t w w' cs : w_conns w' = w_conns w ++ cs -> t < length (w_conns w) -> peer_of t w' = peer_of t w.
Proof. intros H L. unfold peer_of. rewrite H, nth_error_app1 by exact L. reflexivity. Qed.

Lemma connect_all_spec is : forall w, (forall t, In t (w_held w) -> t < length (w_conns w)) -> NoDup (map (fun t => pid_by t w) (w_held w)) ->
  let w' := fold_left (fun w i => connect i w) is w in
  like w w' /\ exists cs, w_conns w' = w_conns w ++ fresh_conns cs /\ w_held w' = w_held w ++ seq (length (w_conns w)) (length cs)
    /\ Forall (fun i => up i w = true) cs /\ NoDup (map (fun t => pid_by t w') (w_held w'))
    /\ (forall i, In i is -> up i w = true -> exists t, In t (w_held w') /\ pid_by t w' = pid_of i w).
Proof.
  induction is as [|i is IH]; intros w HL HN; cbn [fold_left].
  - split; [repeat split|]. exists []. cbn [fresh_conns map length seq]. rewrite !app_nil_r. repeat split; auto. intros i [].
  - set (w1 := connect i w). cbn zeta.
    assert (Hc : (w1 = w /\ (up i w = true -> exists t, In t (w_held w) /\ pid_by t w = pid_of i w)) \/
      (up i w = true /\ like w w1 /\ w_conns w1 = w_conns w ++ [{| cn_peer := i; cn_lost := false |}] /\ w_held w1 = w_held w ++ [length (w_conns w)]
        /\ forall t, In t (w_held w) -> pid_by t w <> pid_of i w)).
    { unfold w1, connect. destruct (up i w) eqn:Eu; cbn [andb]; [|left; split; [reflexivity|discriminate]].
      destruct (existsb _ (w_held w)) eqn:Ex; cbn [negb].
      - left. split; [reflexivity|]. intros _. apply existsb_exists in Ex. destruct Ex as (t & Ht & He). exists t. split; [exact Ht|]. now apply Z.eqb_eq in He.
      - right. split; [reflexivity|]. split; [repeat split|]. split; [reflexivity|]. split; [reflexivity|]. intros t Ht He.
        assert (existsb (fun t => Z.eqb (pid_of (peer_of t w) w) (pid_of i w)) (w_held w) = true) by (apply existsb_exists; exists t; split; [exact Ht|now apply Z.eqb_eq]). congruence. }
    destruct Hc as [[E1 Hi]|(Eu & Hlike & Ec & Eh & Hnew)].
    + rewrite E1. destruct (IH w HL HN) as (Hl & cs & H1 & H2 & H3 & H4 & H5). split; [exact Hl|]. exists cs. repeat split; auto.
      intros j [<-|Hj] Hu; [|now apply H5]. destruct (Hi Hu) as (t & Ht & He). exists t. split; [rewrite H2; apply in_or_app; now left|].
      unfold pid_by in *. rewrite (peer_of_app _ _ _ _ H1 (HL t Ht)). unfold pid_of in *. destruct Hl as (-> & _). exact He.
    + destruct Hlike as (L1 & L2 & L3 & L4 & L5).
      assert (Hp : forall t, In t (w_held w) -> pid_by t w1 = pid_by t w).
      { intros t Ht. unfold pid_by. rewrite (peer_of_app _ _ _ _ Ec (HL t Ht)). unfold pid_of. now rewrite L1. }
      assert (Hp' : pid_by (length (w_conns w)) w1 = pid_of i w).
      { unfold pid_by, peer_of. rewrite Ec, nth_error_app2, Nat.sub_diag by lia. cbn. unfold pid_of. now rewrite L1. }
      destruct (IH w1) as (Hl & cs & H1 & H2 & H3 & H4 & H5).
      { intros t Ht. rewrite Ec, app_length. cbn [length]. rewrite Eh in Ht. apply in_app_or in Ht. destruct Ht as [Ht|[<-|[]]]; [specialize (HL t Ht)|]; lia. }
      { rewrite Eh, map_app. cbn [map]. apply U.NoDup_snoc.
        - rewrite (map_ext_in _ (fun t => pid_by t w)); [exact HN|exact Hp].
        - rewrite (map_ext_in _ (fun t => pid_by t w)); [|exact Hp]. rewrite Hp'. intros Hin. apply in_map_iff in Hin. destruct Hin as (t & He & Ht). exact (Hnew t Ht He). }
      destruct Hl as (M1 & M2 & M3 & M4 & M5).
      split; [repeat split; congruence|]. exists (i :: cs). split; [|split; [|split; [|split]]].
      * rewrite H1, Ec, <- app_assoc. reflexivity.
      * rewrite H2, Eh, Ec, <- app_assoc, app_length. cbn [length seq app]. now rewrite Nat.add_1_r.
      * constructor; [exact Eu|]. rewrite Forall_forall in H3 |- *. intros j Hj. rewrite <- (up_like j w w1 L1). auto.
      * exact H4.
      * intros j [<-|Hj] Hu.
        { exists (length (w_conns w)). assert (Hin : In (length (w_conns w)) (w_held w1)) by (rewrite Eh; apply in_or_app; right; now left).
          split; [rewrite H2; apply in_or_app; now left|]. unfold pid_by in *.
          rewrite (peer_of_app _ _ _ _ H1) by (rewrite Ec, app_length; cbn; lia).
          transitivity (pid_of (peer_of (length (w_conns w)) w1) w1); [unfold pid_of; now rewrite M1|exact Hp']. }
        { destruct (H5 j Hj) as (t & Ht & He); [now rewrite (up_like j w w1 L1)|]. exists t. split; [exact Ht|]. rewrite He. unfold pid_of. now rewrite L1. }
Qed.

Lemma NoDup_map_filter {A B} (f : A -> B) g l : NoDup (map f l) -> NoDup (map f (filter g l)).
Proof.
  induction l as [|x l IH]; [auto|]. cbn [map filter]. intros H. inversion H as [|? ? Hn Hd]; subst. destruct (g x); [|auto]. cbn [map].
  constructor; [|auto]. intros Hin. apply Hn. apply in_map_iff in Hin. destruct Hin as (y & He & Hy). apply filter_In in Hy. apply in_map_iff. exists y. tauto.
Qed.

Lemma manage_spec w : (forall t, In t (w_held w) -> t < length (w_conns w)) -> NoDup (map (fun t => pid_by t w) (w_held w)) ->
  like w (manage w) /\ exists cs, w_conns (manage w) = w_conns w ++ fresh_conns cs
    /\ w_held (manage w) = filter (fun t => negb (lost t w)) (w_held w) ++ seq (length (w_conns w)) (length cs)
    /\ Forall (fun i => up i w = true) cs /\ NoDup (map (fun t => pid_by t (manage w)) (w_held (manage w)))
    /\ (forall i, up i w = true -> exists t, In t (w_held (manage w)) /\ pid_by t (manage w) = pid_of i w).
Proof.
  intros HL HN. unfold manage. destruct (connect_all_spec (seq 0 (length (w_peers w))) (clean w)) as (Hl & cs & H1 & H2 & H3 & H4 & H5).
  - intros t Ht. cbn in Ht. apply filter_In in Ht. cbn. now apply HL.
  - exact (NoDup_map_filter _ _ _ HN).
  - split; [exact Hl|]. exists cs. split; [exact H1|]. split; [exact H2|]. split; [exact H3|]. split; [exact H4|].
    intros i Hu. destruct (H5 i) as (t & Ht & He); [|exact Hu|exists t; split; [exact Ht|exact He]].
    apply in_seq. apply up_lt in Hu. lia.
Qed.

(** ** What holds in every state *)
Record inv (w : world) : Prop := {
  i_peer : forall t c, nth_error (w_conns w) t = Some c -> cn_peer c < length (w_peers w);
  i_lost : forall t c, nth_error (w_conns w) t = Some c -> cn_lost c = true -> up (cn_peer c) w = false;
  i_held : forall t, In t (w_held w) -> t < length (w_conns w);
  i_pids : NoDup (map (fun t => pid_by t w) (w_held w));
  i_srcs : length (P.p_srcs (w_prov w)) = length (w_views w);
  i_alive : P.p_alive (w_prov w) = true;
  i_todo : forall v t, In t (todo_of (pc_of v w)) -> t < length (w_conns w) }.

Lemma inv0 : inv w0.
Proof. constructor; cbn; try reflexivity; try (intros [|?]; discriminate); try (now intros ? []); [constructor|]. intros v t. unfold pc_of. cbn. destruct v; cbn; intros []. Qed.

(** A step that touches neither processes, transports nor the manager's table. *)
Lemma inv_frame w w' : inv w -> w_peers w' = w_peers w -> w_conns w' = w_conns w -> w_held w' = w_held w ->
  length (P.p_srcs (w_prov w')) = length (w_views w') -> P.p_alive (w_prov w') = true ->
  (forall v t, In t (todo_of (pc_of v w')) -> t < length (w_conns w)) -> inv w'.
Proof.
  intros [H1 H2 H3 H4 H5 H6 H7] E1 E2 E3 E4 E5 E6. constructor; auto.
  - intros t c. rewrite E2, E1. apply H1.
  - intros t c. rewrite E2, (up_like _ _ _ E1). apply H2.
  - intros t. rewrite E3, E2. apply H3.
  - rewrite E3. erewrite map_ext; [exact H4|]. intros t. unfold pid_by, peer_of, pid_of. now rewrite E1, E2.
  - intros v t. rewrite E2. apply E6.
Qed.

Lemma incoming_srcs c (p : P.prov chunk) : length (P.p_srcs (P.incoming c p)) = length (P.p_srcs p) /\ P.p_alive (P.incoming c p) = P.p_alive p.
Proof.
  unfold P.incoming. destruct (P.p_alive p) eqn:E; [|auto].
  assert (G : forall l (q : P.prov chunk), length (P.p_srcs (fold_left (fun q i => P.add i c q) l q)) = length (P.p_srcs q)
                /\ P.p_alive (fold_left (fun q i => P.add i c q) l q) = P.p_alive q).
  { induction l as [|i l IH]; intros q; [auto|]. cbn [fold_left]. destruct (IH (P.add i c q)) as [-> ->]. unfold P.add. now rewrite PP.set_src_length, PP.set_src_alive. }
  destruct (G (P.snapshot p) p) as [-> ->]. auto.
Qed.

Lemma pc_snoc v w x : pc_of v (with_views w (w_views w ++ [x])) = if Nat.eqb v (length (w_views w)) then vw_pc x else pc_of v w.
Proof.
  unfold pc_of. cbn [w_views with_views]. destruct (Nat.eqb_spec v (length (w_views w))) as [->|Hn].
  - now rewrite nth_error_app2, Nat.sub_diag by lia.
  - destruct (Nat.lt_ge_cases v (length (w_views w))) as [H|H]; [now rewrite nth_error_app1|].
    rewrite nth_error_app2 by lia. destruct (v - length (w_views w)) as [|k] eqn:E; [lia|]. cbn.
    assert (nth_error (w_views w) v = None) as -> by (apply nth_error_None; lia). now destruct k.
Qed.

Lemma pc_at v w x : nth_error (w_views w) v = Some x -> pc_of v w = vw_pc x.
Proof. unfold pc_of. now intros ->. Qed.

Ltac view_of v w x := destruct (nth_error (w_views w) v) as [x|] eqn:Ev; [|discriminate].

Lemma inv_step l w w' : inv w -> step l w = Some w' -> inv w'.
Proof.
  intros I. unfold step. destruct (w_fate w) eqn:Ef; try discriminate. destruct l as [pid nm title ths|i|i| |t c| |v|v|v late|v|v|v].
  - (* New *)
    destruct (existsb _ (w_peers w)) eqn:Ex; [discriminate|]. intros H. injection H as <-.
    assert (Hup : forall i, i < length (w_peers w) -> forall p0,
       up i {| w_peers := w_peers w ++ [p0]; w_conns := w_conns w; w_held := w_held w; w_prov := w_prov w; w_map := w_map w; w_views := w_views w; w_fate := w_fate w |} = up i w).
    { intros i Hi p0. unfold up. cbn [w_peers]. now rewrite nth_error_app1. }
    destruct I as [H1 H2 H3 H4 H5 H6 H7]. constructor; cbn [w_conns w_held w_prov w_views w_peers]; auto.
    + intros t c Hc. rewrite app_length. specialize (H1 t c Hc). lia.
    + intros t c Hc Hl. rewrite <- (H2 t c Hc Hl). cbv beta. rewrite <- Ef. apply Hup. exact (H1 t c Hc).
    + erewrite map_ext_in; [exact H4|]. intros t Ht. unfold pid_by, pid_of, peer_of. cbn [w_conns w_peers]. specialize (H3 t Ht). apply nth_error_Some in H3.
      destruct (nth_error (w_conns w) t) as [c|] eqn:Ec; [|congruence]. rewrite nth_error_app1; [reflexivity|]. exact (H1 t c Ec).
  - (* End *)
    destruct (nth_error (w_peers w) i) as [p|] eqn:Ep; [|discriminate]. destruct (pe_up p) eqn:Eu; [|discriminate]. intros H. injection H as <-.
    destruct I as [H1 H2 H3 H4 H5 H6 H7]. constructor; cbn [w_conns w_held w_prov w_views w_peers]; auto.
    + intros t c Hc. rewrite set_nth_length. eauto.
    + intros t c Hc Hl. unfold up. cbn [w_peers]. rewrite (nth_set _ _ _ _ _ Ep). destruct (Nat.eqb i (cn_peer c)); [reflexivity|]. exact (H2 t c Hc Hl).
    + erewrite map_ext; [exact H4|]. intros t. unfold pid_by, pid_of. cbn [w_peers]. change (peer_of t _) with (peer_of t w) at 1.
      rewrite (nth_set _ _ _ _ _ Ep). destruct (Nat.eqb_spec i (peer_of t w)) as [<-|]; [|reflexivity]. now rewrite Ep.
  - (* Notice *)
    destruct (up i w || negb (i <? length (w_peers w))) eqn:Ex; [discriminate|]. apply orb_false_iff in Ex. destruct Ex as [Eu El].
    intros H. injection H as <-.
    set (mark := fun c => if Nat.eqb (cn_peer c) i then {| cn_peer := i; cn_lost := true |} else c).
    assert (Hpeer : forall c, cn_peer (mark c) = cn_peer c). { intros c. unfold mark. destruct (Nat.eqb_spec (cn_peer c) i); [symmetry; assumption|reflexivity]. }
    destruct I as [H1 H2 H3 H4 H5 H6 H7]. constructor; cbn [w_conns w_held w_prov w_views w_peers]; auto.
    + intros t c Hc. rewrite nth_error_map in Hc. destruct (nth_error (w_conns w) t) as [c0|] eqn:E0; [|discriminate]. cbn in Hc. injection Hc as <-.
      rewrite Hpeer. eauto.
    + intros t c Hc Hl. rewrite nth_error_map in Hc. destruct (nth_error (w_conns w) t) as [c0|] eqn:E0; [|discriminate]. cbn in Hc. injection Hc as <-.
      fold (mark c0) in Hl |- *. rewrite Hpeer. destruct (Nat.eqb_spec (cn_peer c0) i) as [->|Hn]; [exact Eu|].
      unfold mark in Hl. apply Nat.eqb_neq in Hn. rewrite Hn in Hl. exact (H2 t c0 E0 Hl).
    + intros t Ht. rewrite map_length. auto.
    + erewrite map_ext; [exact H4|]. intros t. unfold pid_by, pid_of. cbn [w_peers].
      assert (peer_of t {| w_peers := w_peers w; w_conns := map mark (w_conns w); w_held := w_held w; w_prov := w_prov w; w_map := w_map w; w_views := w_views w; w_fate := Running |} = peer_of t w) as Ht.
      { unfold peer_of. cbn [w_conns]. rewrite nth_error_map. destruct (nth_error (w_conns w) t); [apply Hpeer|reflexivity]. }
      fold mark. rewrite ?Ef in *. now rewrite Ht.
    + intros v t Ht. rewrite map_length. eauto.
  - (* Manage *)
    intros H. injection H as <-. destruct (manage_spec w (i_held w I) (i_pids w I)) as ((L1 & L2 & L3 & L4 & L5) & cs & C1 & C2 & C3 & C4 & C5).
    destruct I as [H1 H2 H3 H4 H5 H6 H7]. constructor.
    + intros t c. rewrite C1, L1. intros Hc. destruct (Nat.lt_ge_cases t (length (w_conns w))) as [Hl|Hl]; [rewrite nth_error_app1 in Hc by exact Hl; eauto|].
      rewrite nth_error_app2 in Hc by exact Hl. apply nth_error_In, in_map_iff in Hc. destruct Hc as (i & <- & Hi). cbn.
      rewrite Forall_forall in C3. now apply up_lt, C3.
    + intros t c. rewrite C1, (up_like _ _ _ L1). intros Hc Hl. destruct (Nat.lt_ge_cases t (length (w_conns w))) as [Hlt|Hge]; [rewrite nth_error_app1 in Hc by exact Hlt; eauto|].
      rewrite nth_error_app2 in Hc by exact Hge. apply nth_error_In, in_map_iff in Hc. destruct Hc as (i & <- & Hi). discriminate.
    + intros t. rewrite C1, C2, app_length. intros Ht. apply in_app_or in Ht. destruct Ht as [Ht|Ht].
      * apply filter_In in Ht. specialize (H3 t (proj1 Ht)). lia.
      * apply in_seq in Ht. unfold fresh_conns. rewrite map_length. lia.
    + exact C4.
    + now rewrite L2, L4.
    + now rewrite L2.
    + intros v t Ht. rewrite C1, app_length. unfold pc_of in Ht. rewrite L4 in Ht. specialize (H7 v t Ht). lia.
  - (* Deliver *)
    destruct (lost t w); [discriminate|]. intros H. injection H as <-. destruct (incoming_srcs c (w_prov w)) as [Hs Ha].
    apply (inv_frame w); auto; cbn [w_prov with_prov w_views]; [rewrite Hs; apply (i_srcs w I)|rewrite Ha; apply (i_alive w I)|apply (i_todo w I)].
  - (* Open *)
    intros H. injection H as <-. apply (inv_frame w); auto.
    + cbn. rewrite !app_length. cbn. now rewrite (i_srcs w I).
    + apply (i_alive w I).
    + intros v t. change (with_views (with_prov w (P.make_source (w_prov w))) (w_views w ++ [{| vw_pc := WIdle; vw_out := [] |}]))
        with (with_views (with_prov w (P.make_source (w_prov w))) (w_views (with_prov w (P.make_source (w_prov w))) ++ [{| vw_pc := WIdle; vw_out := [] |}])).
      rewrite pc_snoc. destruct (Nat.eqb v _); [intros []|]. apply (i_todo w I).
  - (* Start *)
    view_of v w x. destruct (vw_pc x) eqn:Epc; try discriminate. intros H. injection H as <-. apply (inv_frame w); auto; cbn [w_prov with_prov w_views].
    + unfold P.start, P.store, P.clear. rewrite !PP.set_src_length. apply (i_srcs w I).
    + unfold P.start, P.store, P.clear. rewrite !PP.set_src_alive. apply (i_alive w I).
    + apply (i_todo w I).
  - (* Finish *)
    view_of v w x. destruct (vw_pc x) eqn:Epc; try discriminate. intros H. injection H as <-.
    set (w1 := with_prov w (P.stop v (w_prov w))). assert (E1 : nth_error (w_views w1) v = Some x) by exact Ev.
    apply (inv_frame w); auto; rewrite ?goto_peers, ?goto_conns, ?goto_held, ?goto_prov, ?goto_views; try reflexivity.
    + cbn. unfold P.stop, P.store. rewrite PP.set_src_length. apply (i_srcs w I).
    + cbn. unfold P.stop, P.store. rewrite PP.set_src_alive. apply (i_alive w I).
    + intros u t. rewrite (goto_pc _ _ _ _ _ E1). destruct (Nat.eqb v u); [apply (i_held w I)|apply (i_todo w I)].
  - (* Ask *)
    view_of v w x. destruct (vw_pc x) as [|todo m| |todo m es] eqn:Epc; try discriminate.
    + destruct todo as [|t todo]; [discriminate|]. destruct (gather _ m) as [|m'] eqn:Eg; intros H; injection H as <-.
      * apply (inv_frame w); auto; [apply (i_srcs w I)|apply (i_alive w I)|apply (i_todo w I)].
      * apply (inv_frame w); auto; rewrite ?goto_peers, ?goto_conns, ?goto_held, ?goto_prov, ?goto_views; try reflexivity; try apply I.
        intros u t'. rewrite (goto_pc _ _ _ _ _ Ev). destruct (Nat.eqb v u); [|apply (i_todo w I)]. intros Ht. apply (i_todo w I v).
        rewrite (pc_at _ _ _ Ev), Epc. now right.
    + destruct todo as [|t todo]; [discriminate|]. destruct (info_answer t late w) as [[[pid nm] ths]|] eqn:Eg; intros H; injection H as <-.
      * apply (inv_frame w); auto; rewrite ?goto_peers, ?goto_conns, ?goto_held, ?goto_prov, ?goto_views; try reflexivity; try apply I.
        intros u t'. rewrite (goto_pc _ _ _ _ _ Ev). destruct (Nat.eqb v u); [|apply (i_todo w I)]. intros Ht. apply (i_todo w I v).
        rewrite (pc_at _ _ _ Ev), Epc. now right.
      * apply (inv_frame w); auto; [apply (i_srcs w I)|apply (i_alive w I)|apply (i_todo w I)].
  - (* Swap *)
    view_of v w x. destruct (vw_pc x) as [|todo m| |todo m es] eqn:Epc; try discriminate. destruct todo; [|discriminate]. intros H. injection H as <-.
    apply (inv_frame w); auto; rewrite ?goto_peers, ?goto_conns, ?goto_held, ?goto_prov, ?goto_views; try reflexivity; try apply I.
    intros u t'. erewrite goto_pc by exact Ev. destruct (Nat.eqb v u); [intros []|]. apply (i_todo w I).
  - (* Convert *)
    view_of v w x. destruct (vw_pc x) as [|todo m| |todo m es] eqn:Epc; try discriminate.
    unfold P.finish_src, P.stop, P.store. rewrite PP.set_src_alive, (i_alive w I).
    destruct (finish (w_map w) _) as [|es] eqn:Eg; intros H; injection H as <-.
    + apply (inv_frame w); auto; [apply (i_srcs w I)|apply (i_alive w I)|apply (i_todo w I)].
    + apply (inv_frame w); auto; rewrite ?goto_peers, ?goto_conns, ?goto_held, ?goto_prov, ?goto_views; try reflexivity.
      * cbn [w_prov with_prov w_views]. unfold P.clear. rewrite !PP.set_src_length. apply (i_srcs w I).
      * cbn [w_prov with_prov w_views]. unfold P.clear. rewrite !PP.set_src_alive. apply (i_alive w I).
      * intros u t'. erewrite goto_pc by exact Ev. destruct (Nat.eqb v u); [apply (i_held w I)|apply (i_todo w I)].
  - (* Send *)
    view_of v w x. destruct (vw_pc x) as [|todo m| |todo m es] eqn:Epc; try discriminate. destruct todo; [|discriminate]. intros H. injection H as <-.
    apply (inv_frame w); auto; cbn [w_prov w_views with_views]; try reflexivity.
    + rewrite set_nth_length. apply (i_srcs w I).
    + apply (i_alive w I).
    + intros u t'. unfold pc_of. cbn [w_views with_views]. rewrite (nth_set _ _ _ _ _ Ev). destruct (Nat.eqb v u); [intros []|]. apply (i_todo w I u t').
Qed.
Lemma inv_run h w w' : inv w -> run h w = Some w' -> inv w'.
Proof. revert w. induction h as [|l h IH]; intros w I; cbn [run]; [intros H; injection H as <-; exact I|]. destruct (step l w) as [x|] eqn:E; [|discriminate]. apply IH. eapply inv_step; eauto. Qed.

(** ** Steps that leave processes and transports alone *)
Definition inner (l : label) : bool := match l with New _ _ _ _ | End _ | Notice _ | Manage => false | _ => true end.
Lemma inner_step l w w' : inner l = true -> step l w = Some w' -> w_peers w' = w_peers w /\ w_conns w' = w_conns w /\ w_held w' = w_held w.
Proof.
  unfold step. destruct (w_fate w); try discriminate. destruct l as [pid nm title ths|i|i| |t c| |v|v|v late|v|v|v]; try discriminate; intros _.
  - destruct (lost t w); [discriminate|]. intros H. injection H as <-. auto.
  - intros H. injection H as <-. auto.
  - view_of v w x. destruct (vw_pc x); try discriminate. intros H. injection H as <-. auto.
  - view_of v w x. destruct (vw_pc x); try discriminate. intros H. injection H as <-. now rewrite goto_peers, goto_conns, goto_held.
  - view_of v w x. destruct (vw_pc x) as [|[|t todo] m| |[|t todo] m es]; try discriminate.
    + destruct (gather _ m); intros H; injection H as <-; [auto|]. now rewrite goto_peers, goto_conns, goto_held.
    + destruct (info_answer t late w) as [[[pid nm] ths]|]; intros H; injection H as <-; [|auto]. now rewrite goto_peers, goto_conns, goto_held.
  - view_of v w x. destruct (vw_pc x) as [|[|t todo] m| |todo m es]; try discriminate. intros H. injection H as <-. now rewrite goto_peers, goto_conns, goto_held.
  - view_of v w x. destruct (vw_pc x); try discriminate. destruct (P.finish_src v (w_prov w)) as [|ds p]; [intros H; injection H as <-; auto|].
    destruct (finish (w_map w) ds); intros H; injection H as <-; [auto|]. now rewrite goto_peers, goto_conns, goto_held.
  - view_of v w x. destruct (vw_pc x) as [|todo m| |[|t todo] m es]; try discriminate. intros H. injection H as <-. auto.
Qed.
Lemma step_running l w w' : step l w = Some w' -> w_fate w = Running.
Proof. unfold step. destruct (w_fate w); [auto|discriminate|discriminate]. Qed.
Lemma new_step pid nm title ths w w' : step (New pid nm title ths) w = Some w' ->
  w_peers w' = w_peers w ++ [{| pe_pid := pid; pe_names := nm; pe_title := title; pe_threads := ths; pe_up := true |}]
  /\ w_conns w' = w_conns w /\ w_held w' = w_held w /\ w_views w' = w_views w /\ w_prov w' = w_prov w /\ w_map w' = w_map w /\ w_fate w' = Running.
Proof. intros H. pose proof (step_running _ _ _ H) as Hf. unfold step in H. rewrite Hf in H. destruct (existsb _ _); [discriminate|]. injection H as <-. repeat split. Qed.
Lemma end_step i w w' : step (End i) w = Some w' -> exists p, nth_error (w_peers w) i = Some p /\ pe_up p = true
  /\ w_peers w' = set_nth i {| pe_pid := pe_pid p; pe_names := pe_names p; pe_title := pe_title p; pe_threads := pe_threads p; pe_up := false |} (w_peers w)
  /\ w_conns w' = w_conns w /\ w_held w' = w_held w /\ w_views w' = w_views w /\ w_prov w' = w_prov w /\ w_map w' = w_map w /\ w_fate w' = Running.
Proof.
  intros H. pose proof (step_running _ _ _ H) as Hf. unfold step in H. rewrite Hf in H. destruct (nth_error (w_peers w) i) as [p|] eqn:E; [|discriminate].
  destruct (pe_up p) eqn:Eu; [|discriminate]. injection H as <-. exists p. repeat split; assumption.
Qed.
Definition mark (i : nat) (c : conn) : conn := if Nat.eqb (cn_peer c) i then {| cn_peer := i; cn_lost := true |} else c.
Lemma mark_peer i c : cn_peer (mark i c) = cn_peer c. Proof. unfold mark. destruct (Nat.eqb_spec (cn_peer c) i); [symmetry; assumption|reflexivity]. Qed.
Lemma mark_lost i c : cn_lost (mark i c) = true <-> cn_lost c = true \/ cn_peer c = i.
Proof. unfold mark. destruct (Nat.eqb_spec (cn_peer c) i) as [H|H]; cbn; [tauto|]. tauto. Qed.
Lemma notice_step i w w' : step (Notice i) w = Some w' -> up i w = false /\ i < length (w_peers w) /\ w_peers w' = w_peers w
  /\ w_conns w' = map (mark i) (w_conns w) /\ w_held w' = w_held w /\ w_views w' = w_views w /\ w_prov w' = w_prov w /\ w_map w' = w_map w /\ w_fate w' = Running.
Proof.
  intros H. pose proof (step_running _ _ _ H) as Hf. unfold step in H. rewrite Hf in H. destruct (up i w || negb (i <? length (w_peers w))) eqn:E; [discriminate|].
  apply orb_false_iff in E. destruct E as [E1 E2]. apply negb_false_iff, Nat.ltb_lt in E2. injection H as <-. repeat split; assumption.
Qed.
Lemma manage_step w w' : step Manage w = Some w' -> w' = manage w.
Proof. unfold step. destruct (w_fate w); try discriminate. congruence. Qed.

Lemma peer_conn t w c : nth_error (w_conns w) t = Some c -> peer_of t w = cn_peer c. Proof. unfold peer_of. now intros ->. Qed.
Lemma lost_conn t w c : nth_error (w_conns w) t = Some c -> lost t w = cn_lost c. Proof. unfold lost. now intros ->. Qed.
Lemma conn_at t w : t < length (w_conns w) -> exists c, nth_error (w_conns w) t = Some c.
Proof. intros H. apply nth_error_Some in H. destruct (nth_error (w_conns w) t) as [c|]; [now exists c|congruence]. Qed.

(** Processes stay the same, but for ending. *)
Lemma peers_step l w w' i p : step l w = Some w' -> inv w -> nth_error (w_peers w) i = Some p ->
  exists p', nth_error (w_peers w') i = Some p' /\ pe_pid p' = pe_pid p /\ pe_names p' = pe_names p /\ pe_title p' = pe_title p /\ pe_threads p' = pe_threads p
    /\ (pe_up p' = true -> pe_up p = true) /\ (pe_up p = true -> pe_up p' = false -> l = End i).
Proof.
  intros H I Hp. assert (Same : w_peers w' = w_peers w -> exists p', nth_error (w_peers w') i = Some p' /\ pe_pid p' = pe_pid p /\ pe_names p' = pe_names p
     /\ pe_title p' = pe_title p /\ pe_threads p' = pe_threads p /\ (pe_up p' = true -> pe_up p = true) /\ (pe_up p = true -> pe_up p' = false -> l = End i)).
  { intros E. exists p. rewrite E. repeat split; auto. congruence. }
  destruct (inner l) eqn:El; [apply Same; now destruct (inner_step l w w' El H)|].
  destruct l as [pid nm title ths|j|j| |t c| |v|v|v late|v|v|v]; try discriminate El.
  - apply new_step in H. destruct H as (E & _). exists p. rewrite E, nth_error_app1 by (apply nth_error_Some; congruence). repeat split; auto. congruence.
  - apply end_step in H. destruct H as (q & Hq & Hu & E & _). destruct (Nat.eqb_spec j i) as [->|Hn].
    + rewrite Hp in Hq. injection Hq as <-. eexists. rewrite E, (nth_set _ _ _ _ _ Hp), Nat.eqb_refl. split; [reflexivity|]. cbn. repeat split; auto.
    + exists p. rewrite E, (nth_set _ _ _ _ _ Hq). apply Nat.eqb_neq in Hn. rewrite Hn. repeat split; auto. congruence.
  - apply notice_step in H. apply Same. apply H.
  - apply manage_step in H. subst w'. apply Same. apply (manage_spec w (i_held w I) (i_pids w I)).
Qed.
Lemma up_back l w w' i : step l w = Some w' -> inv w -> i < length (w_peers w) -> up i w' = true -> up i w = true.
Proof.
  intros H I Hi. unfold up. apply nth_error_Some in Hi. destruct (nth_error (w_peers w) i) as [p|] eqn:E; [|congruence].
  destruct (peers_step l w w' i p H I E) as (p' & -> & _ & _ & _ & _ & Hu & _). exact Hu.
Qed.
Lemma peers_grow l w w' : step l w = Some w' -> inv w -> length (w_peers w) <= length (w_peers w').
Proof.
  intros H I. destruct (inner l) eqn:El; [destruct (inner_step l w w' El H) as (-> & _); auto|].
  destruct l as [pid nm title ths|j|j| |t c| |v|v|v late|v|v|v]; try discriminate El.
  - apply new_step in H. destruct H as (-> & _). rewrite app_length. lia.
  - apply end_step in H. destruct H as (q & Hq & Hu & -> & _). now rewrite set_nth_length.
  - apply notice_step in H. destruct H as (_ & _ & -> & _). auto.
  - apply manage_step in H. subst w'. destruct (manage_spec w (i_held w I) (i_pids w I)) as ((-> & _) & _). auto.
Qed.
(** A transport stays one to the same process; it gets lost when that is noticed. *)
Lemma conns_step l w w' t c : step l w = Some w' -> inv w -> nth_error (w_conns w) t = Some c ->
  exists c', nth_error (w_conns w') t = Some c' /\ cn_peer c' = cn_peer c /\ (cn_lost c = true -> cn_lost c' = true).
Proof.
  intros H I Hc. destruct (inner l) eqn:El; [destruct (inner_step l w w' El H) as (_ & -> & _); exists c; auto|].
  destruct l as [pid nm title ths|j|j| |t' c'| |v|v|v late|v|v|v]; try discriminate El.
  - apply new_step in H. destruct H as (_ & -> & _). exists c; auto.
  - apply end_step in H. destruct H as (q & _ & _ & _ & -> & _). exists c; auto.
  - apply notice_step in H. destruct H as (_ & _ & _ & -> & _). exists (mark j c). rewrite nth_error_map, Hc. split; [reflexivity|]. split; [apply mark_peer|].
    intros Hl. apply mark_lost. now left.
  - apply manage_step in H. subst w'. destruct (manage_spec w (i_held w I) (i_pids w I)) as (_ & cs & -> & _). exists c.
    rewrite nth_error_app1 by (apply nth_error_Some; congruence). auto.
Qed.

(** ** An end that has been noticed, and one that has been dealt with *)
Definition noticed (i : nat) (w : world) : Prop :=
  i < length (w_peers w) /\ up i w = false /\ forall t c, nth_error (w_conns w) t = Some c -> cn_peer c = i -> cn_lost c = true.
Definition gone (i : nat) (w : world) : Prop := noticed i w /\ forall t, In t (w_held w) -> peer_of t w <> i.

Lemma noticed_step l w w' i : step l w = Some w' -> inv w -> noticed i w -> noticed i w'.
Proof.
  intros H I (N1 & N2 & N3). pose proof (peers_grow l w w' H I) as Hg. split; [lia|]. split.
  - destruct (up i w') eqn:E; [|reflexivity]. rewrite (up_back l w w' i H I N1 E) in N2. discriminate.
  - intros t c' Hc' Hp. destruct (nth_error (w_conns w) t) as [c|] eqn:Ec.
    + destruct (conns_step l w w' t c H I Ec) as (c1 & E1 & Hp1 & Hl1). assert (c1 = c') by congruence. subst c1. apply Hl1, (N3 t c Ec). congruence.
    + (* a new transport is to a process that is there *)
      exfalso. destruct (inner l) eqn:El; [destruct (inner_step l w w' El H) as (_ & E & _); congruence|].
      destruct l as [pid nm title ths|j|j| |t' c0| |v|v|v late|v|v|v]; try discriminate El.
      * apply new_step in H. destruct H as (_ & E & _). congruence.
      * apply end_step in H. destruct H as (q & _ & _ & _ & E & _). congruence.
      * apply notice_step in H. destruct H as (_ & _ & _ & E & _). rewrite E, nth_error_map, Ec in Hc'. discriminate.
      * apply manage_step in H. subst w'. destruct (manage_spec w (i_held w I) (i_pids w I)) as (_ & cs & E & _ & Hu & _). rewrite E in Hc'.
        rewrite nth_error_app2 in Hc' by (now apply nth_error_None). apply nth_error_In, in_map_iff in Hc'. destruct Hc' as (j & Hj & Hin). subst c'. cbn in Hp. subst j.
        rewrite Forall_forall in Hu. specialize (Hu i Hin). congruence.
Qed.
Lemma gone_step l w w' i : step l w = Some w' -> inv w -> gone i w -> gone i w'.
Proof.
  intros H I (N & G). split; [eapply noticed_step; eauto|]. intros t Ht. pose proof (inv_step l w w' I H) as I'.
  destruct (conn_at t w' (i_held w' I' t Ht)) as (c' & Ec'). rewrite (peer_conn t w' c' Ec').
  assert (Old : In t (w_held w) -> cn_peer c' <> i).
  { intros Hin. destruct (conn_at t w (i_held w I t Hin)) as (c & Ec). destruct (conns_step l w w' t c H I Ec) as (c1 & E1 & Hp & _).
    assert (c1 = c') by congruence. subst c1. rewrite Hp, <- (peer_conn t w c Ec). now apply G. }
  destruct (inner l) eqn:El; [destruct (inner_step l w w' El H) as (_ & _ & E); apply Old; congruence|].
  destruct l as [pid nm title ths|j|j| |t' c0| |v|v|v late|v|v|v]; try discriminate El.
  - apply new_step in H. destruct H as (_ & _ & E & _). apply Old; congruence.
  - apply end_step in H. destruct H as (q & _ & _ & _ & _ & E & _). apply Old; congruence.
  - apply notice_step in H. destruct H as (_ & _ & _ & _ & E & _). apply Old; congruence.
  - apply manage_step in H. subst w'. destruct (manage_spec w (i_held w I) (i_pids w I)) as (_ & cs & E & Eh & Hu & _). rewrite Eh in Ht. apply in_app_or in Ht.
    destruct Ht as [Ht|Ht]; [apply filter_In in Ht; now apply Old|]. apply in_seq in Ht. rewrite E, nth_error_app2 in Ec' by lia.
    apply nth_error_In, in_map_iff in Ec'. destruct Ec' as (j & <- & Hin). cbn. rewrite Forall_forall in Hu. specialize (Hu j Hin). destruct N as (_ & N2 & _). intros ->. congruence.
Qed.
Lemma notice_noticed i w w' : step (Notice i) w = Some w' -> noticed i w'.
Proof.
  intros H. apply notice_step in H. destruct H as (Hu & Hi & Ep & Ec & _). split; [now rewrite Ep|]. split; [now rewrite (up_like _ _ _ Ep)|].
  intros t c. rewrite Ec, nth_error_map. destruct (nth_error (w_conns w) t) as [c0|]; [|discriminate]. cbn. intros Hc. injection Hc as <-. rewrite mark_peer, mark_lost. auto.
Qed.
Lemma manage_gone i w w' : step Manage w = Some w' -> inv w -> noticed i w -> gone i w'.
Proof.
  intros H I N. split; [eapply noticed_step; eauto|]. apply manage_step in H. subst w'.
  destruct (manage_spec w (i_held w I) (i_pids w I)) as (_ & cs & E & Eh & Hu & _). intros t Ht. rewrite Eh in Ht. apply in_app_or in Ht.
  destruct N as (N1 & N2 & N3). destruct Ht as [Ht|Ht].
  - apply filter_In in Ht. destruct Ht as [Ht Hl]. destruct (conn_at t w (i_held w I t Ht)) as (c & Ec). rewrite (lost_conn t w c Ec) in Hl. unfold peer_of. rewrite E.
    rewrite nth_error_app1 by (apply (i_held w I t Ht)). rewrite Ec. intros Hp. rewrite (N3 t c Ec Hp) in Hl. discriminate.
  - apply in_seq in Ht. unfold peer_of. rewrite E, nth_error_app2 by lia. destruct (nth_error (fresh_conns cs) (t - length (w_conns w))) as [c|] eqn:Ec.
    + apply nth_error_In, in_map_iff in Ec. destruct Ec as (j & <- & Hin). cbn. rewrite Forall_forall in Hu. specialize (Hu j Hin). intros ->. congruence.
    + apply nth_error_None in Ec. unfold fresh_conns in Ec. rewrite map_length in Ec. lia.
Qed.
Lemma keep (Q : world -> Prop) : (forall l w w', step l w = Some w' -> inv w -> Q w -> Q w') -> forall h w w', run h w = Some w' -> inv w -> Q w -> Q w'.
Proof.
  intros HQ. induction h as [|l h IH]; intros w w' H I Hq; cbn [run] in H; [injection H as <-; exact Hq|].
  destruct (step l w) as [x|] eqn:E; [|discriminate]. apply (IH x); [exact H|eapply inv_step; eauto|eapply HQ; eauto].
Qed.
Lemma dealt_gone i h w : run h w0 = Some w -> dealt_with i h -> gone i w.
Proof.
  intros H (a & b & c & ->). rewrite run_app in H. destruct (run a w0) as [x|] eqn:Ea; [|discriminate]. cbn [run] in H.
  destruct (step (Notice i) x) as [y|] eqn:Ey; [|discriminate]. rewrite run_app in H. destruct (run b y) as [z|] eqn:Eb; [|discriminate]. cbn [run] in H.
  destruct (step Manage z) as [u|] eqn:Eu; [|discriminate].
  pose proof (inv_run _ _ _ inv0 Ea) as Ix. pose proof (inv_step _ _ _ Ix Ey) as Iy. pose proof (inv_run _ _ _ Iy Eb) as Iz. pose proof (inv_step _ _ _ Iz Eu) as Iu.
  apply (keep (gone i)) with (h := c) (w := u); [intros l p q S1 S2 S3; eapply gone_step; eauto|exact H|exact Iu|].
  eapply manage_gone; [exact Eu|exact Iz|]. apply (keep (noticed i)) with (h := b) (w := y); [intros l p q S1 S2 S3; eapply noticed_step; eauto|exact Eb|exact Iy|].
  eapply notice_noticed; eauto.
Qed.

(** A process that is not there any more has ended. *)
Lemma ended_why h : forall w i, run h w0 = Some w -> i < length (w_peers w) -> up i w = false -> In (End i) h.
Proof.
  induction h as [|l h IH] using rev_ind; intros w i H Hi Hu; [injection H as <-; cbn in Hi; lia|].
  apply run_snoc in H. destruct H as (x & Hx & Hs). apply in_or_app. pose proof (inv_run _ _ _ inv0 Hx) as I.
  destruct (Nat.lt_ge_cases i (length (w_peers x))) as [Hl|Hl].
  - destruct (up i x) eqn:Eu; [|left; now apply (IH x)]. right. unfold up in *. destruct (nth_error (w_peers x) i) as [p|] eqn:Ep; [|discriminate].
    destruct (peers_step l x w i p Hs I Ep) as (p' & Ep' & _ & _ & _ & _ & _ & He). rewrite Ep' in Hu. left. now apply He.
  - exfalso. destruct (inner l) eqn:El; [destruct (inner_step l x w El Hs) as (E & _); rewrite E in Hi; lia|].
    destruct l as [pid nm title ths|j|j| |t' c0| |v|v|v late|v|v|v]; try discriminate El.
    + apply new_step in Hs. destruct Hs as (E & _). unfold up in Hu. rewrite E in *. rewrite app_length in Hi. cbn in Hi. assert (i = length (w_peers x)) as -> by lia.
      rewrite nth_error_app2, Nat.sub_diag in Hu by lia. discriminate.
    + apply end_step in Hs. destruct Hs as (q & _ & _ & E & _). rewrite E, set_nth_length in Hi. lia.
    + apply notice_step in Hs. destruct Hs as (_ & _ & E & _). rewrite E in Hi. lia.
    + apply manage_step in Hs. subst w. destruct (manage_spec x (i_held x I) (i_pids x I)) as ((E & _) & _). rewrite E in Hi. lia.
Qed.

(** ** Where the workers are *)
Lemma pc_step l w w' v : step l w = Some w' -> inv w -> pc_of v w' <> WIdle -> pc_of v w <> WIdle /\ l <> Send v \/ l = Finish v.
Proof.
  intros H I. assert (Same : w_views w' = w_views w -> pc_of v w' <> WIdle -> l <> Send v -> pc_of v w <> WIdle /\ l <> Send v \/ l = Finish v).
  { intros E Hp Hl. left. split; [|exact Hl]. unfold pc_of in *. now rewrite <- E. }
  intros Hp. destruct l as [pid nm title ths|i|i| |t c| |u|u|u late|u|u|u].
  - apply Same; [apply new_step in H; apply H|exact Hp|discriminate].
  - apply Same; [apply end_step in H; destruct H as (p & _ & _ & _ & _ & _ & E & _); exact E|exact Hp|discriminate].
  - apply Same; [apply notice_step in H; apply H|exact Hp|discriminate].
  - apply Same; [apply manage_step in H; subst w'; apply (manage_spec w (i_held w I) (i_pids w I))|exact Hp|discriminate].
  - apply Same; [|exact Hp|discriminate]. unfold step in H. destruct (w_fate w); try discriminate. destruct (lost t w); [discriminate|]. injection H as <-. reflexivity.
  - left. split; [|discriminate]. unfold step in H. destruct (w_fate w); try discriminate. injection H as <-.
    change (with_views (with_prov w (P.make_source (w_prov w))) (w_views w ++ [{| vw_pc := WIdle; vw_out := [] |}]))
      with (with_views (with_prov w (P.make_source (w_prov w))) (w_views (with_prov w (P.make_source (w_prov w))) ++ [{| vw_pc := WIdle; vw_out := [] |}])) in Hp.
    rewrite pc_snoc in Hp. destruct (Nat.eqb v _); [now contradiction Hp|exact Hp].
  - apply Same; [|exact Hp|discriminate]. unfold step in H. destruct (w_fate w); try discriminate. view_of u w x. destruct (vw_pc x); try discriminate. injection H as <-. reflexivity.
  - unfold step in H. destruct (w_fate w); try discriminate. view_of u w x. destruct (vw_pc x); try discriminate. injection H as <-.
    destruct (Nat.eqb_spec u v) as [->|Hn]; [now right|]. left. split; [|discriminate]. erewrite goto_pc in Hp by exact Ev. apply Nat.eqb_neq in Hn. rewrite Hn in Hp. exact Hp.
  - left. split; [|discriminate]. unfold step in H. destruct (w_fate w); try discriminate. view_of u w x. destruct (vw_pc x) as [|[|t todo] m| |[|t todo] m es] eqn:Epc; try discriminate.
    + destruct (gather _ m); injection H as <-; [exact Hp|]. erewrite goto_pc in Hp by exact Ev. destruct (Nat.eqb_spec u v) as [<-|]; [|exact Hp]. rewrite (pc_at _ _ _ Ev), Epc. discriminate.
    + destruct (info_answer t late w) as [[[pid nm] ths]|]; injection H as <-; [|exact Hp]. erewrite goto_pc in Hp by exact Ev. destruct (Nat.eqb_spec u v) as [<-|]; [|exact Hp].
      rewrite (pc_at _ _ _ Ev), Epc. discriminate.
  - left. split; [|discriminate]. unfold step in H. destruct (w_fate w); try discriminate. view_of u w x. destruct (vw_pc x) as [|[|t todo] m| |todo m es] eqn:Epc; try discriminate.
    injection H as <-. erewrite goto_pc in Hp by exact Ev. destruct (Nat.eqb_spec u v) as [<-|]; [|exact Hp]. rewrite (pc_at _ _ _ Ev), Epc. discriminate.
  - left. split; [|discriminate]. unfold step in H. destruct (w_fate w); try discriminate. view_of u w x. destruct (vw_pc x) eqn:Epc; try discriminate.
    destruct (P.finish_src u (w_prov w)) as [|ds p]; [injection H as <-; exact Hp|]. destruct (finish (w_map w) ds); injection H as <-; [exact Hp|].
    erewrite goto_pc in Hp by exact Ev. destruct (Nat.eqb_spec u v) as [<-|]; [|exact Hp]. rewrite (pc_at _ _ _ Ev), Epc. discriminate.
  - unfold step in H. destruct (w_fate w); try discriminate. view_of u w x. destruct (vw_pc x) as [|todo m| |[|t todo] m es] eqn:Epc; try discriminate. injection H as <-.
    unfold pc_of in Hp at 1. cbn [w_views with_views] in Hp. rewrite (nth_set _ _ _ _ _ Ev) in Hp. destruct (Nat.eqb_spec u v) as [->|Hn]; [now contradiction Hp|].
    left. split; [exact Hp|congruence].
Qed.
Lemma busy_why h : forall w v, run h w0 = Some w -> pc_of v w <> WIdle -> exists a b, h = a ++ Finish v :: b /\ ~ In (Send v) b.
Proof.
  induction h as [|l h IH] using rev_ind; intros w v H Hp; [injection H as <-; exfalso; apply Hp; unfold pc_of; cbn; now destruct v|].
  apply run_snoc in H. destruct H as (x & Hx & Hs). destruct (pc_step l x w v Hs (inv_run _ _ _ inv0 Hx) Hp) as [[Hb Hl]| ->].
  - destruct (IH x v Hx Hb) as (a & b & -> & Hn). exists a, (b ++ [l]). split; [now rewrite <- app_assoc|]. intros Hin. apply in_app_or in Hin. destruct Hin as [|[|[]]]; congruence.
  - exists h, []. split; [reflexivity|auto].
Qed.

(** ** Nothing goes wrong in a well timed history *)
Definition sound (t : nat) (w : world) : Prop := t < length (w_conns w) /\ up (peer_of t w) w = true.
Definition calm (w : world) : Prop := forall v, pc_of v w <> WIdle -> (forall t, In t (w_held w) -> sound t w) /\ (forall t, In t (todo_of (pc_of v w)) -> sound t w).

Lemma sound_lost t w : inv w -> sound t w -> lost t w = false.
Proof.
  intros I (Hl & Hu). destruct (conn_at t w Hl) as (c & Ec). rewrite (lost_conn t w c Ec). rewrite (peer_conn t w c Ec) in Hu.
  destruct (cn_lost c) eqn:El; [|reflexivity]. rewrite (i_lost w I t c Ec El) in Hu. discriminate.
Qed.
Lemma sound_step l w w' t : step l w = Some w' -> inv w -> (forall i, l <> End i) -> sound t w -> sound t w'.
Proof.
  intros H I Hl (S1 & S2). destruct (conn_at t w S1) as (c & Ec). destruct (conns_step l w w' t c H I Ec) as (c' & Ec' & Hp & _). split.
  - apply nth_error_Some. congruence.
  - rewrite (peer_conn t w' c' Ec'), Hp. rewrite (peer_conn t w c Ec) in S2. unfold up in *. destruct (nth_error (w_peers w) (cn_peer c)) as [p|] eqn:Ep; [|discriminate].
    destruct (peers_step l w w' _ p H I Ep) as (p' & -> & _ & _ & _ & _ & _ & He). destruct (pe_up p') eqn:E; [reflexivity|]. exfalso. exact (Hl _ (He S2 eq_refl)).
Qed.
Lemma held_step l w w' t : step l w = Some w' -> inv w -> In t (w_held w') -> In t (w_held w) \/ l = Manage /\ sound t w'.
Proof.
  intros H I Ht. destruct (inner l) eqn:El; [destruct (inner_step l w w' El H) as (_ & _ & E); left; congruence|].
  destruct l as [pid nm title ths|j|j| |t' c0| |v|v|v late|v|v|v]; try discriminate El.
  - apply new_step in H. destruct H as (_ & _ & E & _). left; congruence.
  - apply end_step in H. destruct H as (q & _ & _ & _ & _ & E & _). left; congruence.
  - apply notice_step in H. destruct H as (_ & _ & _ & _ & E & _). left; congruence.
  - apply manage_step in H. subst w'. destruct (manage_spec w (i_held w I) (i_pids w I)) as ((Ep & _) & cs & E & Eh & Hu & _). rewrite Eh in Ht. apply in_app_or in Ht.
    destruct Ht as [Ht|Ht]; [apply filter_In in Ht; now left|]. right. split; [reflexivity|]. apply in_seq in Ht. split; [rewrite E, app_length; unfold fresh_conns; rewrite map_length; lia|].
    unfold peer_of. rewrite E, nth_error_app2 by lia. destruct (nth_error (fresh_conns cs) (t - length (w_conns w))) as [c|] eqn:Ec.
    + apply nth_error_In, in_map_iff in Ec. destruct Ec as (j & <- & Hin). cbn. rewrite (up_like _ _ _ Ep). rewrite Forall_forall in Hu. now apply Hu.
    + apply nth_error_None in Ec. unfold fresh_conns in Ec. rewrite map_length in Ec. lia.
Qed.
(** The transports a worker has still to ask were on its list, or are those held. *)
Lemma todo_step l w w' v t : step l w = Some w' -> inv w -> In t (todo_of (pc_of v w')) -> In t (todo_of (pc_of v w)) \/ In t (w_held w) /\ (l = Finish v \/ l = Convert v).
Proof.
  intros H I Ht. assert (Same : w_views w' = w_views w -> In t (todo_of (pc_of v w)) \/ In t (w_held w) /\ (l = Finish v \/ l = Convert v)).
  { intros E. left. unfold pc_of in *. now rewrite <- E. }
  destruct l as [pid nm title ths|i|i| |t0 c| |u|u|u late|u|u|u].
  - apply Same. apply new_step in H; apply H.
  - apply Same. apply end_step in H. destruct H as (p & _ & _ & _ & _ & _ & E & _). exact E.
  - apply Same. apply notice_step in H; apply H.
  - apply Same. apply manage_step in H; subst w'. apply (manage_spec w (i_held w I) (i_pids w I)).
  - apply Same. unfold step in H. destruct (w_fate w); try discriminate. destruct (lost t0 w); [discriminate|]. injection H as <-. reflexivity.
  - left. unfold step in H. destruct (w_fate w); try discriminate. injection H as <-.
    change (with_views (with_prov w (P.make_source (w_prov w))) (w_views w ++ [{| vw_pc := WIdle; vw_out := [] |}]))
      with (with_views (with_prov w (P.make_source (w_prov w))) (w_views (with_prov w (P.make_source (w_prov w))) ++ [{| vw_pc := WIdle; vw_out := [] |}])) in Ht.
    rewrite pc_snoc in Ht. destruct (Nat.eqb v _); [destruct Ht|exact Ht].
  - apply Same. unfold step in H. destruct (w_fate w); try discriminate. view_of u w x. destruct (vw_pc x); try discriminate. injection H as <-. reflexivity.
  - unfold step in H. destruct (w_fate w); try discriminate. view_of u w x. destruct (vw_pc x); try discriminate. injection H as <-.
    erewrite goto_pc in Ht by exact Ev. destruct (Nat.eqb_spec u v) as [->|Hn]; [right; split; [exact Ht|now left]|left; exact Ht].
  - left. unfold step in H. destruct (w_fate w); try discriminate. view_of u w x. destruct (vw_pc x) as [|[|t1 todo] m| |[|t1 todo] m es] eqn:Epc; try discriminate.
    + destruct (gather _ m); injection H as <-; [exact Ht|]. erewrite goto_pc in Ht by exact Ev. destruct (Nat.eqb_spec u v) as [<-|]; [|exact Ht]. rewrite (pc_at _ _ _ Ev), Epc. now right.
    + destruct (info_answer t1 late w) as [[[pid nm] ths]|]; injection H as <-; [|exact Ht]. erewrite goto_pc in Ht by exact Ev. destruct (Nat.eqb_spec u v) as [<-|]; [|exact Ht].
      rewrite (pc_at _ _ _ Ev), Epc. now right.
  - left. unfold step in H. destruct (w_fate w); try discriminate. view_of u w x. destruct (vw_pc x) as [|[|t1 todo] m| |todo m es] eqn:Epc; try discriminate.
    injection H as <-. erewrite goto_pc in Ht by exact Ev. destruct (Nat.eqb_spec u v) as [<-|]; [destruct Ht|exact Ht].
  - unfold step in H. destruct (w_fate w); try discriminate. view_of u w x. destruct (vw_pc x) eqn:Epc; try discriminate.
    destruct (P.finish_src u (w_prov w)) as [|ds p]; [injection H as <-; left; exact Ht|]. destruct (finish (w_map w) ds); injection H as <-; [left; exact Ht|].
    erewrite goto_pc in Ht by exact Ev. destruct (Nat.eqb_spec u v) as [->|]; [right; split; [exact Ht|now right]|left; exact Ht].
  - left. unfold step in H. destruct (w_fate w); try discriminate. view_of u w x. destruct (vw_pc x) as [|todo m| |[|t1 todo] m es] eqn:Epc; try discriminate. injection H as <-.
    unfold pc_of in Ht at 1. cbn [w_views with_views] in Ht. rewrite (nth_set _ _ _ _ _ Ev) in Ht. destruct (Nat.eqb_spec u v) as [->|Hn]; [destruct Ht|exact Ht].
Qed.

Lemma calm_fate l w w' : step l w = Some w' -> inv w -> calm w -> w_fate w' <> Terminated.
Proof.
  intros H I C. pose proof (step_running _ _ _ H) as Hf. unfold step in H. rewrite Hf in H. destruct l as [pid nm title ths|i|i| |t c| |v|v|v late|v|v|v].
  - destruct (existsb _ _); [discriminate|]. injection H as <-. cbn. congruence.
  - destruct (nth_error (w_peers w) i) as [p|]; [|discriminate]. destruct (pe_up p); [|discriminate]. injection H as <-. cbn. congruence.
  - destruct (up i w || _); [discriminate|]. injection H as <-. cbn. congruence.
  - injection H as <-. destruct (manage_spec w (i_held w I) (i_pids w I)) as ((_ & _ & _ & _ & ->) & _). congruence.
  - destruct (lost t w); [discriminate|]. injection H as <-. cbn. congruence.
  - injection H as <-. cbn. congruence.
  - view_of v w x. destruct (vw_pc x); try discriminate. injection H as <-. cbn. congruence.
  - view_of v w x. destruct (vw_pc x); try discriminate. injection H as <-. rewrite goto_fate. cbn. congruence.
  - view_of v w x. destruct (vw_pc x) as [|[|t todo] m| |[|t todo] m es] eqn:Epc; try discriminate.
    + assert (Hs : sound t w). { apply (proj2 (C v ltac:(rewrite (pc_at _ _ _ Ev), Epc; discriminate))). rewrite (pc_at _ _ _ Ev), Epc. now left. }
      unfold names_answer in H. rewrite (sound_lost t w I Hs), (proj2 Hs) in H. cbn [orb negb] in H.
      destruct late, (nth_error (w_peers w) (peer_of t w)) as [p|]; cbn [gather m_mapping fold_left] in H; injection H as <-; rewrite goto_fate; congruence.
    + assert (Hs : sound t w). { apply (proj2 (C v ltac:(rewrite (pc_at _ _ _ Ev), Epc; discriminate))). rewrite (pc_at _ _ _ Ev), Epc. now left. }
      unfold info_answer in H. rewrite (sound_lost t w I Hs), (proj2 Hs) in H. cbn [orb negb] in H. destruct Hs as (_ & Hu). unfold up in Hu.
      destruct (nth_error (w_peers w) (peer_of t w)) as [p|]; [|discriminate]. destruct late; injection H as <-; rewrite goto_fate; congruence.
  - view_of v w x. destruct (vw_pc x) as [|[|t todo] m| |todo m es]; try discriminate. injection H as <-. rewrite goto_fate. cbn. congruence.
  - view_of v w x. destruct (vw_pc x); try discriminate. destruct (P.finish_src v (w_prov w)) as [|ds p]; [injection H as <-; cbn; congruence|].
    destruct (finish (w_map w) ds); injection H as <-; [cbn; congruence|]. rewrite goto_fate. cbn. congruence.
  - view_of v w x. destruct (vw_pc x) as [|todo m| |[|t todo] m es]; try discriminate. injection H as <-. cbn. congruence.
Qed.

Lemma well_timed_prefix h l : well_timed (h ++ [l]) -> well_timed h.
Proof.
  intros H v a b E. assert (E' : h ++ [l] = a ++ Finish v :: (b ++ [l])) by (rewrite E, <- app_assoc; reflexivity). destruct (H v a _ E') as [H1 H2]. split; [exact H1|].
  intros i c d Eb. apply (H2 i c (d ++ [l])). rewrite Eb, <- app_assoc. reflexivity.
Qed.
Lemma held_sound h w : run h w0 = Some w -> (forall i, In (End i) h -> dealt_with i h) -> forall t, In t (w_held w) -> sound t w.
Proof.
  intros H Hd t Ht. pose proof (inv_run _ _ _ inv0 H) as I. pose proof (i_held w I t Ht) as Hl. split; [exact Hl|].
  destruct (up (peer_of t w) w) eqn:E; [reflexivity|]. exfalso. destruct (conn_at t w Hl) as (c & Ec).
  assert (In (End (peer_of t w)) h) as Hin. { apply (ended_why h w); auto. rewrite (peer_conn t w c Ec). exact (i_peer w I t c Ec). }
  destruct (dealt_gone _ _ _ H (Hd _ Hin)) as (_ & G). exact (G t Ht eq_refl).
Qed.
Lemma calm_run h : forall w, run h w0 = Some w -> well_timed h -> w_fate w <> Terminated /\ calm w.
Proof.
  induction h as [|l h IH] using rev_ind; intros w H Hc.
  - injection H as <-. split; [cbn; discriminate|]. intros v Hv. exfalso. apply Hv. unfold pc_of. cbn. now destruct v.
  - apply run_snoc in H. destruct H as (x & Hx & Hs). destruct (IH x Hx (well_timed_prefix _ _ Hc)) as [Hf Cx]. pose proof (inv_run _ _ _ inv0 Hx) as I.
    split; [eapply calm_fate; eauto|]. intros v Hv. destruct (pc_step l x w v Hs I Hv) as [[Hb Hl]|El].
    + destruct (Cx v Hb) as [C1 C2].
      assert (HnoEnd : forall i, l <> End i).
      { intros i ->. destruct (busy_why h x v Hx Hb) as (a & b & -> & Hn). destruct (Hc v a (b ++ [End i])) as [_ HE]; [now rewrite <- app_assoc|]. apply Hn. now apply (HE i b []). }
      split.
      * intros t Ht. destruct (held_step l x w t Hs I Ht) as [Ht'|[_ Ht']]; [|exact Ht']. eapply sound_step; eauto.
      * intros t Ht. destruct (todo_step l x w v t Hs I Ht) as [Ht'|[Ht' _]]; eapply sound_step; eauto.
    + subst l. assert (HnoEnd : forall i, Finish v <> End i) by discriminate.
      pose proof (held_sound h x Hx (proj1 (Hc v h [] eq_refl))) as C1. split.
      * intros t Ht. destruct (held_step _ x w t Hs I Ht) as [Ht'|[E _]]; [|discriminate]. eapply sound_step; eauto.
      * intros t Ht. destruct (todo_step (Finish v) x w v t Hs I Ht) as [Ht'|[Ht' _]].
        { exfalso. pose proof (step_running _ _ _ Hs) as Hr. unfold step in Hs. rewrite Hr in Hs. destruct (nth_error (w_views x) v) as [y|] eqn:Ev; [|discriminate].
          rewrite (pc_at _ _ _ Ev) in Ht'. destruct (vw_pc y); try discriminate. destruct Ht'. }
        { eapply sound_step; [exact Hs|exact I|exact HnoEnd|now apply C1]. }
Qed.
Theorem survives h w : run h w0 = Some w -> well_timed h -> w_fate w <> Terminated.
Proof. intros H Hc. apply (calm_run h w H Hc). Qed.

(** ** What the worker of one viewer does *)
Definition actor (l : label) : option nat := match l with Start v | Finish v | Ask v _ | Swap v | Convert v | Send v => Some v | _ => None end.
Lemma view_step l w w' v x : step l w = Some w' -> inv w -> nth_error (w_views w) v = Some x -> actor l <> Some v -> nth_error (w_views w') v = Some x.
Proof.
  intros H I Hx Ha. assert (Hg : forall u pc w1, w_views w1 = w_views w -> u <> v -> nth_error (w_views (goto u pc w1)) v = Some x).
  { intros u pc w1 E Hn. unfold goto. destruct (nth_error (w_views w1) u) as [y|] eqn:Ey; [|now rewrite E]. cbn [w_views with_views]. rewrite (nth_set _ _ _ _ _ Ey).
    apply Nat.eqb_neq in Hn. rewrite Hn, E. exact Hx. }
  destruct l as [pid nm title ths|i|i| |t0 c| |u|u|u late|u|u|u].
  - apply new_step in H. destruct H as (_ & _ & _ & -> & _). exact Hx.
  - apply end_step in H. destruct H as (p & _ & _ & _ & _ & _ & -> & _). exact Hx.
  - apply notice_step in H. destruct H as (_ & _ & _ & _ & _ & -> & _). exact Hx.
  - apply manage_step in H; subst w'. destruct (manage_spec w (i_held w I) (i_pids w I)) as ((_ & _ & _ & -> & _) & _). exact Hx.
  - unfold step in H. destruct (w_fate w); try discriminate. destruct (lost t0 w); [discriminate|]. injection H as <-. exact Hx.
  - unfold step in H. destruct (w_fate w); try discriminate. injection H as <-. cbn. rewrite nth_error_app1; [exact Hx|]. apply nth_error_Some. congruence.
  - unfold step in H. destruct (w_fate w); try discriminate. view_of u w y. destruct (vw_pc y); try discriminate. injection H as <-. exact Hx.
  - unfold step in H. destruct (w_fate w); try discriminate. view_of u w y. destruct (vw_pc y); try discriminate. injection H as <-. apply Hg; [reflexivity|]. cbn in Ha. congruence.
  - unfold step in H. destruct (w_fate w); try discriminate. view_of u w y. destruct (vw_pc y) as [|[|t1 todo] m| |[|t1 todo] m es] eqn:Epc; try discriminate.
    + destruct (gather _ m); injection H as <-; [exact Hx|]. apply Hg; [reflexivity|]. cbn in Ha. congruence.
    + destruct (info_answer t1 late w) as [[[pid nm] ths]|]; injection H as <-; [|exact Hx]. apply Hg; [reflexivity|]. cbn in Ha. congruence.
  - unfold step in H. destruct (w_fate w); try discriminate. view_of u w y. destruct (vw_pc y) as [|[|t1 todo] m| |todo m es] eqn:Epc; try discriminate.
    injection H as <-. apply Hg; [reflexivity|]. cbn in Ha. congruence.
  - unfold step in H. destruct (w_fate w); try discriminate. view_of u w y. destruct (vw_pc y) eqn:Epc; try discriminate.
    destruct (P.finish_src u (w_prov w)) as [|ds p]; [injection H as <-; exact Hx|]. destruct (finish (w_map w) ds); injection H as <-; [exact Hx|].
    apply Hg; [reflexivity|]. cbn in Ha. congruence.
  - unfold step in H. destruct (w_fate w); try discriminate. view_of u w y. destruct (vw_pc y) as [|todo m| |[|t1 todo] m es] eqn:Epc; try discriminate. injection H as <-.
    cbn [w_views with_views]. rewrite (nth_set _ _ _ _ _ Ev). assert (Hn : u <> v) by (cbn in Ha; congruence). apply Nat.eqb_neq in Hn. now rewrite Hn.
Qed.
Lemma pc_view v w : pc_of v w <> WIdle -> exists x, nth_error (w_views w) v = Some x /\ vw_pc x = pc_of v w.
Proof. unfold pc_of. destruct (nth_error (w_views w) v) as [x|]; [now exists x|congruence]. Qed.
Lemma pc_other l w w' v : step l w = Some w' -> inv w -> pc_of v w <> WIdle -> actor l <> Some v -> pc_of v w' = pc_of v w.
Proof. intros H I Hp Ha. destruct (pc_view v w Hp) as (x & Ex & <-). apply pc_at. eapply view_step; eauto. Qed.

(** The steps of the worker itself. *)
Lemma finish_step v w w' : step (Finish v) w = Some w' -> exists x, nth_error (w_views w) v = Some x /\ vw_pc x = WIdle
  /\ w' = goto v (WNames (w_held w) []) (with_prov w (P.stop v (w_prov w))).
Proof.
  intros H. pose proof (step_running _ _ _ H) as Hf. unfold step in H. rewrite Hf in H. view_of v w x. destruct (vw_pc x) eqn:E; try discriminate. injection H as <-. now exists x.
Qed.
Lemma ask_step v late w w' : step (Ask v late) w = Some w' -> exists x, nth_error (w_views w) v = Some x /\
  ((exists t todo m, vw_pc x = WNames (t :: todo) m /\ ((exists m', gather [Some (names_answer t late w)] m = MMap m' /\ w' = goto v (WNames todo m') w)
                                                        \/ gather [Some (names_answer t late w)] m = MThrows /\ w' = with_fate w Terminated)) \/
   (exists t todo m es, vw_pc x = WInfo (t :: todo) m es /\ ((exists pid nm ths, info_answer t late w = Some (pid, nm, ths) /\ w' = goto v (WInfo todo (minsert Z.ltb pid (nm, ths) m) es) w)
                                                        \/ info_answer t late w = None /\ w' = with_fate w Terminated))).
Proof.
  intros H. pose proof (step_running _ _ _ H) as Hf. unfold step in H. rewrite Hf in H. view_of v w x. exists x. split; [reflexivity|].
  destruct (vw_pc x) as [|[|t todo] m| |[|t todo] m es] eqn:E; try discriminate.
  - left. exists t, todo, m. split; [reflexivity|]. destruct (gather _ m) as [|m']; injection H as <-; [right; auto|]. left. exists m'. auto.
  - right. exists t, todo, m, es. split; [reflexivity|]. destruct (info_answer t late w) as [[[pid nm] ths]|]; injection H as <-; [|right; auto]. left. exists pid, nm, ths. auto.
Qed.
Lemma swap_step v w w' : step (Swap v) w = Some w' -> exists x m, nth_error (w_views w) v = Some x /\ vw_pc x = WNames [] m /\ w_map w' = m /\ pc_of v w' = WSwapped
  /\ w_prov w' = w_prov w /\ w_fate w' = Running.
Proof.
  intros H. pose proof (step_running _ _ _ H) as Hf. unfold step in H. rewrite Hf in H. view_of v w x. destruct (vw_pc x) as [|[|t todo] m| |todo m es] eqn:E; try discriminate. injection H as <-.
  exists x, m. rewrite goto_map, goto_prov, goto_fate. erewrite goto_pc by exact Ev. rewrite Nat.eqb_refl. repeat split; auto.
Qed.
Lemma convert_step v w w' : step (Convert v) w = Some w' -> exists x, nth_error (w_views w) v = Some x /\ vw_pc x = WSwapped /\
  (w_fate w' = Running -> exists ds p es, P.finish_src v (w_prov w) = P.Fin ds p /\ finish (w_map w) ds = FEntries es /\ w' = goto v (WInfo (w_held w) [] es) (with_prov w p)).
Proof.
  intros H. pose proof (step_running _ _ _ H) as Hf. unfold step in H. rewrite Hf in H. view_of v w x. destruct (vw_pc x) eqn:E; try discriminate. exists x. split; [reflexivity|]. split; [exact E|].
  destruct (P.finish_src v (w_prov w)) as [|ds p] eqn:E1; [injection H as <-; cbn; discriminate|]. destruct (finish (w_map w) ds) as [|es] eqn:E2; injection H as <-; [cbn; discriminate|].
  intros _. exists ds, p, es. auto.
Qed.
Lemma send_step v w w' : step (Send v) w = Some w' -> exists x m es, nth_error (w_views w) v = Some x /\ vw_pc x = WInfo [] m es
  /\ w' = with_views w (set_nth v {| vw_pc := WIdle; vw_out := vw_out x ++ [(es, m)] |} (w_views w)) /\ w_fate w' = Running.
Proof.
  intros H. pose proof (step_running _ _ _ H) as Hf. unfold step in H. rewrite Hf in H. view_of v w x. destruct (vw_pc x) as [|todo m| |[|t todo] m es] eqn:E; try discriminate. injection H as <-.
  exists x, m, es. repeat split; auto.
Qed.

(** A run that goes on was alive before. *)
Lemma run_running h w w' : run h w = Some w' -> w_fate w' = Running -> w_fate w = Running.
Proof. destruct h as [|l h]; cbn [run]; [congruence|]. destruct (step l w) eqn:E; [|discriminate]. intros _ _. eapply step_running; eauto. Qed.

(** ** When a connection to an ended process is held *)
Definition doomed (v : nat) (w : world) : Prop :=
  w_fate w <> Running \/ exists todo m t, pc_of v w = WNames todo m /\ In t todo /\ t < length (w_conns w) /\ up (peer_of t w) w = false.
Lemma down_step l w w' t : step l w = Some w' -> inv w -> t < length (w_conns w) -> up (peer_of t w) w = false -> t < length (w_conns w') /\ up (peer_of t w') w' = false.
Proof.
  intros H I Ht Hu. destruct (conn_at t w Ht) as (c & Ec). destruct (conns_step l w w' t c H I Ec) as (c' & Ec' & Hp & _). split; [apply nth_error_Some; congruence|].
  rewrite (peer_conn t w' c' Ec'), Hp. rewrite (peer_conn t w c Ec) in Hu. destruct (up (cn_peer c) w') eqn:E; [|reflexivity].
  rewrite (up_back l w w' _ H I (i_peer w I t c Ec) E) in Hu. discriminate.
Qed.
Lemma doomed_step l w w' v : step l w = Some w' -> inv w -> doomed v w -> l <> Send v /\ doomed v w'.
Proof.
  intros H I [D|(todo & m & t & Hpc & Ht & Hl & Hu)]; [exfalso; apply D; eapply step_running; eauto|].
  destruct (down_step l w w' t H I Hl Hu) as [Hl' Hu'].
  assert (Hother : actor l <> Some v -> l <> Send v /\ doomed v w').
  { intros Ha. split; [intros ->; now apply Ha|]. right. exists todo, m, t. rewrite <- Hpc. split; [|auto]. apply (pc_other l); auto. congruence. }
  destruct l as [pid nm title ths|i|i| |t0 c| |u|u|u late|u|u|u]; try (apply Hother; discriminate);
    (destruct (Nat.eq_dec u v) as [->|Hn]; [|apply Hother; cbn; congruence]).
  - exfalso. unfold step in H. destruct (w_fate w); try discriminate. view_of v w x. rewrite (pc_at _ _ _ Ev) in Hpc. rewrite Hpc in H. discriminate.
  - apply finish_step in H. destruct H as (x & Ex & Epc & _). exfalso. rewrite (pc_at _ _ _ Ex) in Hpc. congruence.
  - split; [discriminate|]. apply ask_step in H. destruct H as (x & Ex & [(t1 & todo1 & m1 & Epc & Hc)|(t1 & todo1 & m1 & es & Epc & _)]); rewrite (pc_at _ _ _ Ex) in Hpc; [|congruence].
    destruct Hc as [(m' & Eg & ->)|(Eg & ->)]; [|left; cbn; discriminate]. assert (todo = t1 :: todo1) as -> by congruence. destruct Ht as [->|Ht].
    + exfalso. unfold names_answer in Eg. rewrite Hu, orb_true_r in Eg. discriminate.
    + right. exists todo1, m', t. erewrite goto_pc by exact Ex. rewrite Nat.eqb_refl. auto.
  - apply swap_step in H. destruct H as (x & m1 & Ex & Epc & _). exfalso. rewrite (pc_at _ _ _ Ex) in Hpc. assert (todo = []) as -> by congruence. destruct Ht.
  - apply convert_step in H. destruct H as (x & Ex & Epc & _). exfalso. rewrite (pc_at _ _ _ Ex) in Hpc. congruence.
  - apply send_step in H. destruct H as (x & m1 & es & Ex & Epc & _). exfalso. rewrite (pc_at _ _ _ Ex) in Hpc. congruence.
Qed.
Lemma doomed_run h : forall w w' v, run h w = Some w' -> inv w -> doomed v w -> ~ In (Send v) h.
Proof.
  induction h as [|l h IH]; intros w w' v H I D; [auto|]. cbn [run] in H. destruct (step l w) as [x|] eqn:E; [|discriminate].
  destruct (doomed_step l w x v E I D) as [Hn D']. intros [->|Hin]; [now apply Hn|]. exact (IH x w' v H (inv_step _ _ _ I E) D' Hin).
Qed.
Theorem never_sent h h' v w w' i : run h w0 = Some w -> connected i w -> up i w = false -> run (Finish v :: h') w = Some w' -> ~ In (Send v) h'.
Proof.
  intros H (t & Ht & Hp) Hu H'. cbn [run] in H'. destruct (step (Finish v) w) as [x|] eqn:E; [|discriminate]. pose proof (inv_run _ _ _ inv0 H) as I.
  apply (doomed_run h' x w' v H' (inv_step _ _ _ I E)). pose proof (i_held w I t Ht) as Hl. subst i. destruct (down_step _ _ _ t E I Hl Hu) as [Hl' Hu'].
  right. apply finish_step in E. destruct E as (y & Ey & Epc & ->). exists (w_held w), [], t. erewrite goto_pc by exact Ey. rewrite Nat.eqb_refl. auto.
Qed.

(** ** What is sent *)
(** The provider's part of a step. *)
Definition ops (l : label) : list (P.op chunk) :=
  match l with Deliver _ c => [P.OReceive c] | Open => [P.OMake] | Start v => [P.OStart v] | Finish v => [P.OStop v] | Convert v => [P.OFinish v] | _ => [] end.
Lemma ops_step l w w' : step l w = Some w' -> inv w -> w_fate w' = Running -> P.op_run (ops l) (w_prov w) = Some (w_prov w').
Proof.
  intros H I Hf'. pose proof (step_running _ _ _ H) as Hf. destruct l as [pid nm title ths|i|i| |t0 c| |u|u|u late|u|u|u]; cbn [ops P.op_run P.op_step].
  - apply new_step in H. destruct H as (_ & _ & _ & _ & -> & _). reflexivity.
  - apply end_step in H. destruct H as (p & _ & _ & _ & _ & _ & _ & -> & _). reflexivity.
  - apply notice_step in H. destruct H as (_ & _ & _ & _ & _ & _ & -> & _). reflexivity.
  - apply manage_step in H; subst w'. destruct (manage_spec w (i_held w I) (i_pids w I)) as ((_ & -> & _) & _). reflexivity.
  - unfold step in H. rewrite Hf in H. destruct (lost t0 w); [discriminate|]. injection H as <-. reflexivity.
  - unfold step in H. rewrite Hf in H. injection H as <-. reflexivity.
  - unfold step in H. rewrite Hf in H. view_of u w y. destruct (vw_pc y); try discriminate. injection H as <-. reflexivity.
  - apply finish_step in H. destruct H as (x & _ & _ & ->). rewrite goto_prov. reflexivity.
  - apply ask_step in H. destruct H as (x & Ex & [(t1 & todo1 & m1 & Epc & [(m' & Eg & ->)|(Eg & ->)])|(t1 & todo1 & m1 & es & Epc & [(pid & nm & ths & Eg & ->)|(Eg & ->)])]);
      rewrite ?goto_prov; reflexivity.
  - apply swap_step in H. destruct H as (x & m & _ & _ & _ & _ & -> & _). reflexivity.
  - apply convert_step in H. destruct H as (x & _ & _ & H). destruct (H Hf') as (ds & p & es & -> & _ & ->). rewrite goto_prov. reflexivity.
  - apply send_step in H. destruct H as (x & m & es & _ & _ & -> & _). reflexivity.
Qed.
Lemma ops_run h : forall w w', run h w = Some w' -> inv w -> w_fate w' = Running -> P.op_run (flat_map ops h) (w_prov w) = Some (w_prov w').
Proof.
  induction h as [|l h IH]; intros w w' H I Hf; cbn [run flat_map] in *; [injection H as <-; reflexivity|]. destruct (step l w) as [x|] eqn:E; [|discriminate].
  rewrite PP.op_run_app, (ops_step l w x E I (run_running _ _ _ H Hf)). apply IH; auto. eapply inv_step; eauto.
Qed.
Lemma ops_no_drop h : PS.no_drop (flat_map ops h).
Proof. unfold PS.no_drop. induction h as [|l h IH]; [auto|]. cbn [flat_map]. intros Hin. apply in_app_or in Hin. destruct Hin as [Hin|Hin]; [|auto]. destruct l; cbn in Hin; intuition discriminate. Qed.
Lemma made_app a b : PS.made (D := chunk) (a ++ b) = PS.made a + PS.made b.
Proof. induction a as [|o a IH]; [reflexivity|]. cbn. destruct o; cbn; auto. Qed.
Lemma views_step l w w' : step l w = Some w' -> inv w -> length (w_views w') = length (w_views w) + PS.made (ops l).
Proof.
  intros H I. pose proof (step_running _ _ _ H) as Hf. destruct l as [pid nm title ths|i|i| |t0 c| |u|u|u late|u|u|u]; cbn [ops PS.made]; rewrite ?Nat.add_0_r.
  - apply new_step in H. destruct H as (_ & _ & _ & -> & _). reflexivity.
  - apply end_step in H. destruct H as (p & _ & _ & _ & _ & _ & -> & _). reflexivity.
  - apply notice_step in H. destruct H as (_ & _ & _ & _ & _ & -> & _). reflexivity.
  - apply manage_step in H; subst w'. destruct (manage_spec w (i_held w I) (i_pids w I)) as ((_ & _ & _ & -> & _) & _). reflexivity.
  - unfold step in H. rewrite Hf in H. destruct (lost t0 w); [discriminate|]. injection H as <-. reflexivity.
  - unfold step in H. rewrite Hf in H. injection H as <-. cbn. rewrite app_length. reflexivity.
  - unfold step in H. rewrite Hf in H. view_of u w y. destruct (vw_pc y); try discriminate. injection H as <-. reflexivity.
  - apply finish_step in H. destruct H as (x & _ & _ & ->). rewrite goto_views. reflexivity.
  - apply ask_step in H. destruct H as (x & Ex & [(t1 & todo1 & m1 & Epc & [(m' & Eg & ->)|(Eg & ->)])|(t1 & todo1 & m1 & es & Epc & [(pid & nm & ths & Eg & ->)|(Eg & ->)])]);
      rewrite ?goto_views; reflexivity.
  - unfold step in H. rewrite Hf in H. view_of u w y. destruct (vw_pc y) as [|[|t1 todo] m| |todo m es] eqn:Epc; try discriminate. injection H as <-. rewrite goto_views. reflexivity.
  - unfold step in H. rewrite Hf in H. view_of u w y. destruct (vw_pc y) eqn:Epc; try discriminate.
    destruct (P.finish_src u (w_prov w)) as [|ds p]; [injection H as <-; reflexivity|]. destruct (finish (w_map w) ds); injection H as <-; [reflexivity|]. rewrite goto_views. reflexivity.
  - apply send_step in H. destruct H as (x & m & es & _ & _ & -> & _). cbn. apply set_nth_length.
Qed.
Lemma views_made h : forall w, run h w0 = Some w -> length (w_views w) = PS.made (flat_map ops h).
Proof.
  induction h as [|l h IH] using rev_ind; intros w H; [injection H as <-; reflexivity|]. apply run_snoc in H. destruct H as (x & Hx & Hs).
  rewrite (views_step _ _ _ Hs (inv_run _ _ _ inv0 Hx)), (IH x Hx), flat_map_app, made_app. cbn. now rewrite app_nil_r.
Qed.
Lemma received_ops h : PS.received_in (flat_map ops h) = delivered h.
Proof.
  induction h as [|l h IH]; [reflexivity|]. cbn [flat_map delivered]. destruct l; cbn [ops app PS.received_in]; rewrite ?IH; reflexivity.
Qed.
Lemma until_ops v h1 h2 : ~ In (Finish v) h1 -> PS.until_stop v (flat_map ops (h1 ++ Finish v :: h2)) = flat_map ops h1.
Proof.
  induction h1 as [|l h IH]; intros Hn; cbn [app flat_map].
  - cbn [ops PS.until_stop app]. now rewrite Nat.eqb_refl.
  - assert (IH' := IH (fun q => Hn (or_intror q))). destruct l as [pid nm title ths|i|i| |t0 c| |u|u|u late|u|u|u]; cbn [ops app PS.until_stop]; rewrite ?IH'; try reflexivity.
    destruct (Nat.eqb_spec u v) as [->|]; [exfalso; apply Hn; now left|]. reflexivity.
Qed.

(** While the worker is idle, or collecting names, it converts nothing. *)
Lemma idle_quiet h : forall w w' v, run h w = Some w' -> inv w -> v < length (w_views w) -> pc_of v w = WIdle -> ~ In (Finish v) h -> ~ In (Convert v) h /\ pc_of v w' = WIdle.
Proof.
  induction h as [|l h IH]; intros w w' v H I Hv Hp Hn; cbn [run] in H; [injection H as <-; auto|]. destruct (step l w) as [x|] eqn:E; [|discriminate].
  assert (Hx : pc_of v x = WIdle).
  { destruct (pc_of v x) eqn:Ex; try reflexivity; exfalso; destruct (pc_step l w x v E I ltac:(congruence)) as [[Hb _]| ->]; try congruence; apply Hn; now left. }
  destruct (IH x w' v H (inv_step _ _ _ I E)) as [H1 H2]; auto; [rewrite (views_step _ _ _ E I); lia|intros Hin; apply Hn; now right|]. split; [|exact H2].
  intros [->|Hin]; [|auto]. apply convert_step in E. destruct E as (y & Ey & Epc & _). rewrite (pc_at _ _ _ Ey) in Hp. congruence.
Qed.
Definition collecting (pc : wpc) : Prop := match pc with WNames _ _ | WSwapped => True | _ => False end.
Lemma collecting_step l w w' v : step l w = Some w' -> inv w -> collecting (pc_of v w) -> l <> Convert v -> collecting (pc_of v w') /\ l <> Start v /\ l <> Finish v.
Proof.
  intros H I Hc Hl. assert (Hb : pc_of v w <> WIdle) by (intros E; rewrite E in Hc; exact Hc).
  assert (Hother : actor l <> Some v -> collecting (pc_of v w') /\ l <> Start v /\ l <> Finish v).
  { intros Ha. rewrite (pc_other l w w' v H I Hb Ha). repeat split; auto; intros ->; now apply Ha. }
  destruct l as [pid nm title ths|i|i| |t0 c| |u|u|u late|u|u|u]; try (apply Hother; discriminate);
    (destruct (Nat.eq_dec u v) as [->|Hn]; [|apply Hother; cbn; congruence]).
  - exfalso. unfold step in H. destruct (w_fate w); try discriminate. view_of v w x. rewrite (pc_at _ _ _ Ev) in Hb. destruct (vw_pc x); try discriminate. now apply Hb.
  - apply finish_step in H. destruct H as (x & Ex & Epc & _). exfalso. rewrite (pc_at _ _ _ Ex) in Hb. congruence.
  - apply ask_step in H. destruct H as (x & Ex & [(t1 & todo1 & m1 & Epc & Hr)|(t1 & todo1 & m1 & es & Epc & _)]); [|rewrite (pc_at _ _ _ Ex), Epc in Hc; destruct Hc].
    destruct Hr as [(m' & Eg & ->)|(Eg & ->)]; [|split; [exact Hc|split; discriminate]]. split; [|split; discriminate]. erewrite goto_pc by exact Ex. rewrite Nat.eqb_refl. exact Logic.I.
  - apply swap_step in H. destruct H as (x & m1 & Ex & Epc & _ & E & _). rewrite E. split; [exact Logic.I|split; discriminate].
  - congruence.
  - apply send_step in H. destruct H as (x & m1 & es & Ex & Epc & _). rewrite (pc_at _ _ _ Ex), Epc in Hc. destruct Hc.
Qed.
Lemma to_convert h : forall w w' v, run h w = Some w' -> inv w -> collecting (pc_of v w) -> ~ collecting (pc_of v w') ->
  exists a b wc, h = a ++ Convert v :: b /\ run a w = Some wc /\ pc_of v wc = WSwapped /\ ~ In (Convert v) a /\ ~ In (Start v) a /\ ~ In (Finish v) a.
Proof.
  induction h as [|l h IH]; intros w w' v H I Hc Hn; cbn [run] in H; [injection H as <-; contradiction|]. destruct (step l w) as [x|] eqn:E; [|discriminate].
  assert (D : l = Convert v \/ l <> Convert v).
  { destruct l as [pid nm title ths|i|i| |t0 c| |u|u|u late|u|u|u]; try (right; discriminate). destruct (Nat.eq_dec u v) as [->|]; [now left|right; congruence]. }
  destruct D as [->|Hl].
  - exists [], h, w. split; [reflexivity|]. split; [reflexivity|]. split; [|auto]. apply convert_step in E. destruct E as (y & Ey & Epc & _). now rewrite (pc_at _ _ _ Ey).
  - destruct (collecting_step l w x v E I Hc Hl) as (Hx & Hs & Hf). destruct (IH x w' v H (inv_step _ _ _ I E) Hx Hn) as (a & b & wc & -> & Hr & Hw & N1 & N2 & N3).
    exists (l :: a), b, wc. split; [reflexivity|]. split; [cbn [run]; now rewrite E|]. split; [exact Hw|]. repeat split; intros [Hq|Hq]; auto.
Qed.

(** ** Who is behind a transport *)
Definition who (t : nat) (w : world) : option (Z * names * list ascii * list (N * list ascii)) :=
  match nth_error (w_peers w) (peer_of t w) with Some p => Some (pe_pid p, pe_names p, pe_title p, pe_threads p) | None => None end.
Lemma who_at t w : inv w -> t < length (w_conns w) -> exists p, nth_error (w_peers w) (peer_of t w) = Some p.
Proof.
  intros I Ht. destruct (conn_at t w Ht) as (c & Ec). rewrite (peer_conn t w c Ec). pose proof (i_peer w I t c Ec) as H. apply nth_error_Some in H.
  destruct (nth_error (w_peers w) (cn_peer c)) as [p|]; [now exists p|congruence].
Qed.
Lemma who_step l w w' t : step l w = Some w' -> inv w -> t < length (w_conns w) -> t < length (w_conns w') /\ peer_of t w' = peer_of t w /\ who t w' = who t w.
Proof.
  intros H I Ht. destruct (conn_at t w Ht) as (c & Ec). destruct (conns_step l w w' t c H I Ec) as (c' & Ec' & Hp & _). split; [apply nth_error_Some; congruence|].
  assert (Ep : peer_of t w' = peer_of t w) by (rewrite (peer_conn t w' c' Ec'), (peer_conn t w c Ec); exact Hp). split; [exact Ep|]. unfold who. rewrite Ep.
  destruct (who_at t w I Ht) as (p & E). rewrite E. destruct (peers_step l w w' _ p H I E) as (p' & -> & -> & -> & -> & -> & _). reflexivity.
Qed.
Lemma who_run h : forall w w' t, run h w = Some w' -> inv w -> t < length (w_conns w) -> t < length (w_conns w') /\ peer_of t w' = peer_of t w /\ who t w' = who t w.
Proof.
  induction h as [|l h IH]; intros w w' t H I Ht; cbn [run] in H; [injection H as <-; auto|]. destruct (step l w) as [x|] eqn:E; [|discriminate].
  destruct (who_step l w x t E I Ht) as (H1 & <- & <-). apply IH; auto. eapply inv_step; eauto.
Qed.
Lemma who_pid t w pid nm ti th : who t w = Some (pid, nm, ti, th) -> pid_by t w = pid.
Proof. unfold who, pid_by, pid_of. destruct (nth_error (w_peers w) (peer_of t w)); [|discriminate]. congruence. Qed.

(** The maps being built: [part] picks what is kept of a process. *)
Definition listed {V} (part : Z * names * list ascii * list (N * list ascii) -> V) (m : list (Z * V)) (done : list nat) (w : world) : Prop :=
  ordered Z.ltb m /\ (forall t x, In t done -> who t w = Some x -> mfind Z.ltb (fst (fst (fst x))) m = Some (part x)) /\
  (forall k, mfind Z.ltb k m <> None -> exists t, In t done /\ pid_by t w = k).
Definition its_names (x : Z * names * list ascii * list (N * list ascii)) : names := snd (fst (fst x)).
Definition its_info (x : Z * names * list ascii * list (N * list ascii)) : list ascii * list (N * list ascii) := (snd (fst x), snd x).
Lemma listed_nil {V} (part : _ -> V) w : listed part [] [] w.
Proof. split; [apply ordered_nil|]. split; [intros t x []|]. intros k H. now contradiction H. Qed.
Lemma listed_add {V} (part : _ -> V) m done t x w : listed part m done w -> who t w = Some x -> ~ In (pid_by t w) (map (fun t => pid_by t w) done) ->
  listed part (minsert Z.ltb (fst (fst (fst x))) (part x) m) (done ++ [t]) w.
Proof.
  intros (L1 & L2 & L3) Hx Hn. assert (Hp : pid_by t w = fst (fst (fst x))) by (destruct x as [[[pid nm] ti] th]; eapply who_pid; eauto). split; [|split].
  - apply ordered_insert; [exact Names_proofs.Z_order|exact L1].
  - intros t' y Hin Hy. apply in_app_or in Hin. destruct Hin as [Hin|[<-|[]]].
    + assert (Hne : fst (fst (fst y)) <> fst (fst (fst x))).
      { rewrite <- Hp. intros He. apply Hn. apply in_map_iff. exists t'. split; [|exact Hin]. rewrite <- He. destruct y as [[[pid nm] ti] th]. eapply who_pid; eauto. }
      rewrite (find_insert_other _ Names_proofs.Z_order) by assumption. now apply L2 with t'.
    + assert (y = x) as -> by congruence. apply (find_insert_same _ Names_proofs.Z_order).
  - intros k Hk. destruct (Z.eq_dec k (fst (fst (fst x)))) as [->|Hne].
    + exists t. split; [apply in_or_app; right; now left|exact Hp].
    + rewrite (find_insert_other _ Names_proofs.Z_order) in Hk by assumption. destruct (L3 k Hk) as (t' & Ht' & E). exists t'. split; [apply in_or_app; now left|exact E].
Qed.
Lemma listed_step {V} (part : _ -> V) m done l w w' : step l w = Some w' -> inv w -> (forall t, In t done -> t < length (w_conns w)) -> listed part m done w -> listed part m done w'.
Proof.
  intros H I Hl (L1 & L2 & L3). split; [exact L1|]. split.
  - intros t x Ht. destruct (who_step l w w' t H I (Hl t Ht)) as (_ & _ & ->). now apply L2.
  - intros k Hk. destruct (L3 k Hk) as (t & Ht & E). exists t. split; [exact Ht|]. destruct (who_step l w w' t H I (Hl t Ht)) as (_ & _ & Ew).
    destruct (who_at t w I (Hl t Ht)) as (p & Ep). assert (Ew1 : who t w = Some (pe_pid p, pe_names p, pe_title p, pe_threads p)) by (unfold who; now rewrite Ep).
    rewrite Ew1 in Ew. rewrite (who_pid _ _ _ _ _ _ Ew). rewrite (who_pid _ _ _ _ _ _ Ew1) in E. exact E.
Qed.
Definition snapshot (S : list nat) (w : world) : Prop := (forall t, In t S -> t < length (w_conns w)) /\ NoDup (map (fun t => pid_by t w) S).
Lemma snapshot_step S l w w' : step l w = Some w' -> inv w -> snapshot S w -> snapshot S w'.
Proof.
  intros H I (S1 & S2). split; [intros t Ht; apply (who_step l w w' t H I (S1 t Ht))|]. erewrite map_ext_in; [exact S2|]. intros t Ht. cbv beta.
  destruct (who_step l w w' t H I (S1 t Ht)) as (_ & _ & Ew). destruct (who_at t w I (S1 t Ht)) as (p & Ep).
  assert (Ew1 : who t w = Some (pe_pid p, pe_names p, pe_title p, pe_threads p)) by (unfold who; now rewrite Ep). rewrite Ew1 in Ew.
  now rewrite (who_pid _ _ _ _ _ _ Ew), (who_pid _ _ _ _ _ _ Ew1).
Qed.
Lemma NoDup_mid {A B} (f : A -> B) a x b : NoDup (map f (a ++ x :: b)) -> ~ In (f x) (map f a).
Proof. rewrite map_app. cbn [map]. intros H Hin. apply NoDup_remove_2 in H. apply H. apply in_or_app. now left. Qed.

Definition names_phase (v : nat) (S : list nat) (w : world) : Prop :=
  snapshot S w /\ ((exists done todo m, pc_of v w = WNames todo m /\ S = done ++ todo /\ listed its_names m done w) \/ (pc_of v w = WSwapped /\ listed its_names (w_map w) S w)).
Lemma map_step l w w' : step l w = Some w' -> inv w -> (forall u, l <> Swap u) -> w_map w' = w_map w.
Proof.
  intros H I Hn. pose proof (step_running _ _ _ H) as Hf. destruct l as [pid nm title ths|i|i| |t0 c| |u|u|u late|u|u|u].
  - apply new_step in H. destruct H as (_ & _ & _ & _ & _ & -> & _). reflexivity.
  - apply end_step in H. destruct H as (p & _ & _ & _ & _ & _ & _ & _ & -> & _). reflexivity.
  - apply notice_step in H. destruct H as (_ & _ & _ & _ & _ & _ & _ & -> & _). reflexivity.
  - apply manage_step in H; subst w'. destruct (manage_spec w (i_held w I) (i_pids w I)) as ((_ & _ & -> & _) & _). reflexivity.
  - unfold step in H. rewrite Hf in H. destruct (lost t0 w); [discriminate|]. injection H as <-. reflexivity.
  - unfold step in H. rewrite Hf in H. injection H as <-. reflexivity.
  - unfold step in H. rewrite Hf in H. view_of u w y. destruct (vw_pc y); try discriminate. injection H as <-. reflexivity.
  - apply finish_step in H. destruct H as (x & _ & _ & ->). rewrite goto_map. reflexivity.
  - apply ask_step in H. destruct H as (x & Ex & [(t1 & todo1 & m1 & Epc & [(m' & Eg & ->)|(Eg & ->)])|(t1 & todo1 & m1 & es & Epc & [(pid & nm & ths & Eg & ->)|(Eg & ->)])]);
      rewrite ?goto_map; reflexivity.
  - exfalso. now apply (Hn u).
  - unfold step in H. rewrite Hf in H. view_of u w y. destruct (vw_pc y) eqn:Epc; try discriminate.
    destruct (P.finish_src u (w_prov w)) as [|ds p]; [injection H as <-; reflexivity|]. destruct (finish (w_map w) ds); injection H as <-; [reflexivity|]. rewrite goto_map. reflexivity.
  - apply send_step in H. destruct H as (x & m & es & _ & _ & -> & _). reflexivity.
Qed.
Lemma names_phase_step l w w' v S : step l w = Some w' -> inv w -> w_fate w' = Running -> names_phase v S w ->
  l <> Convert v -> (forall u, l = Swap u -> u = v) -> (forall late, l = Ask v late -> late = None) -> names_phase v S w'.
Proof.
  intros H I Hf (Hsn & Hph) Hl Hu Ht. split; [eapply snapshot_step; eauto|]. destruct Hsn as (S1 & S2).
  assert (Hb : pc_of v w <> WIdle) by (destruct Hph as [(done & todo & m & E & _)|[E _]]; congruence).
  assert (Hother : actor l <> Some v -> (exists done todo m, pc_of v w' = WNames todo m /\ S = done ++ todo /\ listed its_names m done w') \/ (pc_of v w' = WSwapped /\ listed its_names (w_map w') S w')).
  { intros Ha. rewrite (pc_other l w w' v H I Hb Ha). destruct Hph as [(done & todo & m & E & Es & Hm)|[E Hm]]; [left|right].
    - exists done, todo, m. split; [exact E|]. split; [exact Es|]. eapply listed_step; eauto. intros t Hin. apply S1. rewrite Es. apply in_or_app. now left.
    - split; [exact E|]. rewrite (map_step l w w' H I); [eapply listed_step; eauto|]. intros u ->. apply Ha. cbn. f_equal. now apply Hu. }
  destruct l as [pid nm title ths|i|i| |t0 c| |u|u|u late|u|u|u]; try (apply Hother; discriminate);
    (destruct (Nat.eq_dec u v) as [->|Hn]; [|apply Hother; cbn; congruence]).
  - exfalso. unfold step in H. destruct (w_fate w); try discriminate. view_of v w x. rewrite (pc_at _ _ _ Ev) in Hb. destruct (vw_pc x); try discriminate. now apply Hb.
  - apply finish_step in H. destruct H as (x & Ex & Epc & _). exfalso. rewrite (pc_at _ _ _ Ex) in Hb. congruence.
  - pose proof (ask_step _ _ _ _ H) as Hs. destruct Hs as (x & Ex & Hs). rewrite (pc_at _ _ _ Ex) in Hph.
    destruct Hs as [(t1 & todo1 & m1 & Epc & Hr)|(t1 & todo1 & m1 & es & Epc & _)]; [|destruct Hph as [(done & todo & m & E & _)|[E _]]; congruence].
    destruct Hr as [(m' & Eg & Ew)|(Eg & ->)]; [|discriminate Hf]. destruct Hph as [(done & todo & m & E & Es & Hm)|[E _]]; [|congruence].
    assert (todo = t1 :: todo1) as -> by congruence. assert (m = m1) as -> by congruence. left. exists (done ++ [t1]), todo1, m'. split; [|split].
    + rewrite Ew. erewrite goto_pc by exact Ex. now rewrite Nat.eqb_refl.
    + rewrite Es, <- app_assoc. reflexivity.
    + eapply listed_step; [exact H|exact I| |].
      { intros t Hin. apply S1. rewrite Es. apply in_or_app. apply in_app_or in Hin. destruct Hin as [Hin|[<-|[]]]; [now left|right; now left]. }
      rewrite (Ht late eq_refl) in Eg. unfold names_answer in Eg. destruct (lost t1 w || negb (up (peer_of t1 w) w)); [discriminate|].
      assert (Hin1 : In t1 S) by (rewrite Es; apply in_or_app; right; now left). destruct (who_at t1 w I (S1 t1 Hin1)) as (p & Ep).
      rewrite Ep in Eg. cbn [gather m_mapping fold_left] in Eg.
      assert (Ew1 : who t1 w = Some (pe_pid p, pe_names p, pe_title p, pe_threads p)) by (unfold who; now rewrite Ep).
      rewrite Es in S2. pose proof (NoDup_mid (fun t => pid_by t w) _ _ _ S2) as Hnew. cbv beta in Hnew.
      assert (m' = minsert Z.ltb (pe_pid p) (pe_names p) m1) as ->.
      { unfold add_new in Eg. cbn [fst snd] in Eg. destruct (mfind Z.ltb (pe_pid p) m1) eqn:Ef; [|congruence]. exfalso. destruct Hm as (_ & _ & L3).
        destruct (L3 (pe_pid p)) as (t' & Ht' & E'); [congruence|]. apply Hnew. rewrite (who_pid _ _ _ _ _ _ Ew1). apply in_map_iff. now exists t'. }
      exact (listed_add its_names m1 done t1 _ w Hm Ew1 Hnew).
  - pose proof (swap_step _ _ _ H) as Hs. destruct Hs as (x & m1 & Ex & Epc & Em & E1 & _). rewrite (pc_at _ _ _ Ex) in Hph.
    destruct Hph as [(done & todo & m & E & Es & Hm)|[E _]]; [|congruence]. right. split; [exact E1|]. assert (todo = []) as -> by congruence. rewrite app_nil_r in Es. subst done.
    assert (m = w_map w') as <- by congruence. eapply listed_step; eauto.
  - congruence.
  - apply send_step in H. destruct H as (x & m1 & es & Ex & Epc & _). exfalso. rewrite (pc_at _ _ _ Ex) in Hph. destruct Hph as [(done & todo & m & E & _)|[E _]]; congruence.
Qed.
Lemma names_phase_run h : forall w w' v S, run h w = Some w' -> inv w -> w_fate w' = Running -> names_phase v S w -> ~ In (Convert v) h -> undisturbed v h -> in_time v h -> names_phase v S w'.
Proof.
  induction h as [|l h IH]; intros w w' v S H I Hf Hp Hc Hu Ht; cbn [run] in H; [injection H as <-; exact Hp|]. destruct (step l w) as [x|] eqn:E; [|discriminate].
  apply (IH x); auto.
  - eapply inv_step; eauto.
  - eapply names_phase_step; eauto.
    + eapply run_running; eauto.
    + intros ->. apply Hc. now left.
    + intros u ->. apply Hu. now left.
    + intros late ->. apply Ht. now left.
  - intros Hin. apply Hc. now right.
  - intros u Hin. apply Hu. now right.
  - intros late Hin. apply Ht. now right.
Qed.

Definition info_phase (v : nat) (S : list nat) (w : world) : Prop :=
  snapshot S w /\ exists done todo im es, pc_of v w = WInfo todo im es /\ S = done ++ todo /\ listed its_info im done w.
Definition has_entries (es : list entry) (pc : wpc) : Prop := exists todo im, pc = WInfo todo im es.
Lemma entries_step l w w' v es : step l w = Some w' -> inv w -> has_entries es (pc_of v w) -> l <> Send v -> has_entries es (pc_of v w').
Proof.
  intros H I (todo & im & Hp) Hl. assert (Hb : pc_of v w <> WIdle) by congruence.
  assert (Hother : actor l <> Some v -> has_entries es (pc_of v w')). { intros Ha. rewrite (pc_other l w w' v H I Hb Ha). now exists todo, im. }
  destruct l as [pid nm title ths|i|i| |t0 c| |u|u|u late|u|u|u]; try (apply Hother; discriminate);
    (destruct (Nat.eq_dec u v) as [->|Hn]; [|apply Hother; cbn; congruence]).
  - exfalso. unfold step in H. destruct (w_fate w); try discriminate. view_of v w x. rewrite (pc_at _ _ _ Ev) in Hp. rewrite Hp in H. discriminate.
  - apply finish_step in H. destruct H as (x & Ex & Epc & _). exfalso. rewrite (pc_at _ _ _ Ex) in Hb. congruence.
  - apply ask_step in H. destruct H as (x & Ex & [(t1 & todo1 & m1 & Epc & Hr)|(t1 & todo1 & m1 & es1 & Epc & Hr)]); rewrite (pc_at _ _ _ Ex) in Hp; [congruence|].
    assert (es1 = es) as -> by congruence. destruct Hr as [(pid & nm & ths & Eg & ->)|(Eg & ->)].
    + erewrite goto_pc by exact Ex. rewrite Nat.eqb_refl. eexists. eexists. reflexivity.
    + change (pc_of v (with_fate w Terminated)) with (pc_of v w). rewrite (pc_at _ _ _ Ex), Hp. eexists. eexists. reflexivity.
  - apply swap_step in H. destruct H as (x & m1 & Ex & Epc & _). exfalso. rewrite (pc_at _ _ _ Ex) in Hp. congruence.
  - apply convert_step in H. destruct H as (x & Ex & Epc & _). exfalso. rewrite (pc_at _ _ _ Ex) in Hp. congruence.
  - congruence.
Qed.
Lemma entries_run h : forall w w' v es, run h w = Some w' -> inv w -> has_entries es (pc_of v w) -> ~ In (Send v) h -> has_entries es (pc_of v w').
Proof.
  induction h as [|l h IH]; intros w w' v es H I Hp Hn; cbn [run] in H; [injection H as <-; exact Hp|]. destruct (step l w) as [x|] eqn:E; [|discriminate].
  apply (IH x); auto; [eapply inv_step; eauto| |intros Hin; apply Hn; now right]. eapply entries_step; eauto. intros ->. apply Hn. now left.
Qed.
Lemma info_phase_step l w w' v S : step l w = Some w' -> inv w -> w_fate w' = Running -> info_phase v S w -> l <> Send v -> (forall late, l = Ask v late -> late = None) -> info_phase v S w'.
Proof.
  intros H I Hf (Hsn & done & todo & im & es & Hp & Es & Hm) Hl Ht. split; [eapply snapshot_step; eauto|]. destruct Hsn as (S1 & S2).
  assert (Hb : pc_of v w <> WIdle) by congruence.
  assert (Hother : actor l <> Some v -> exists done todo im es, pc_of v w' = WInfo todo im es /\ S = done ++ todo /\ listed its_info im done w').
  { intros Ha. rewrite (pc_other l w w' v H I Hb Ha). exists done, todo, im, es. split; [exact Hp|]. split; [exact Es|]. eapply listed_step; eauto.
    intros t Hin. apply S1. rewrite Es. apply in_or_app. now left. }
  destruct l as [pid nm title ths|i|i| |t0 c| |u|u|u late|u|u|u]; try (apply Hother; discriminate);
    (destruct (Nat.eq_dec u v) as [->|Hn]; [|apply Hother; cbn; congruence]).
  - exfalso. unfold step in H. destruct (w_fate w); try discriminate. view_of v w x. rewrite (pc_at _ _ _ Ev) in Hp. rewrite Hp in H. discriminate.
  - apply finish_step in H. destruct H as (x & Ex & Epc & _). exfalso. rewrite (pc_at _ _ _ Ex) in Hb. congruence.
  - pose proof (ask_step _ _ _ _ H) as Hs. destruct Hs as (x & Ex & [(t1 & todo1 & m1 & Epc & Hr)|(t1 & todo1 & m1 & es1 & Epc & Hr)]); rewrite (pc_at _ _ _ Ex) in Hp; [congruence|].
    destruct Hr as [(pid & nm & ths & Eg & Ew)|(Eg & ->)]; [|discriminate Hf].
    assert (todo = t1 :: todo1) as -> by congruence. assert (im = m1) as -> by congruence. exists (done ++ [t1]), todo1, (minsert Z.ltb pid (nm, ths) m1), es1. split; [|split].
    + rewrite Ew. erewrite goto_pc by exact Ex. now rewrite Nat.eqb_refl.
    + rewrite Es, <- app_assoc. reflexivity.
    + eapply listed_step; [exact H|exact I| |].
      { intros t Hin. apply S1. rewrite Es. apply in_or_app. apply in_app_or in Hin. destruct Hin as [Hin|[<-|[]]]; [now left|right; now left]. }
      rewrite (Ht late eq_refl) in Eg. unfold info_answer in Eg. destruct (lost t1 w || negb (up (peer_of t1 w) w)); [discriminate|].
      assert (Hin1 : In t1 S) by (rewrite Es; apply in_or_app; right; now left). destruct (who_at t1 w I (S1 t1 Hin1)) as (p & Ep).
      rewrite Ep in Eg. assert (Ew1 : who t1 w = Some (pe_pid p, pe_names p, pe_title p, pe_threads p)) by (unfold who; now rewrite Ep).
      rewrite Es in S2. pose proof (NoDup_mid (fun t => pid_by t w) _ _ _ S2) as Hnew. cbv beta in Hnew.
      assert (pid = pe_pid p /\ nm = pe_title p /\ ths = pe_threads p) as (-> & -> & ->) by (repeat split; congruence).
      exact (listed_add its_info m1 done t1 _ w Hm Ew1 Hnew).
  - apply swap_step in H. destruct H as (x & m1 & Ex & Epc & _). exfalso. rewrite (pc_at _ _ _ Ex) in Hp. congruence.
  - apply convert_step in H. destruct H as (x & Ex & Epc & _). exfalso. rewrite (pc_at _ _ _ Ex) in Hp. congruence.
  - congruence.
Qed.
Lemma info_phase_run h : forall w w' v S, run h w = Some w' -> inv w -> w_fate w' = Running -> info_phase v S w -> ~ In (Send v) h -> in_time v h -> info_phase v S w'.
Proof.
  induction h as [|l h IH]; intros w w' v S H I Hf Hp Hc Ht; cbn [run] in H; [injection H as <-; exact Hp|]. destruct (step l w) as [x|] eqn:E; [|discriminate].
  apply (IH x); auto.
  - eapply inv_step; eauto.
  - eapply info_phase_step; eauto.
    + eapply run_running; eauto.
    + intros ->. apply Hc. now left.
    + intros late ->. apply Ht. now left.
  - intros Hin. apply Hc. now right.
  - intros late Hin. apply Ht. now right.
Qed.

(** A connection to a process that is there is held on to. *)
Lemma stays_step l w w' t : step l w = Some w' -> inv w -> In t (w_held w) -> In t (w_held w') \/ up (peer_of t w') w' = false.
Proof.
  intros H I Ht. destruct (inner l) eqn:El; [destruct (inner_step l w w' El H) as (_ & _ & E); left; congruence|].
  destruct l as [pid nm title ths|j|j| |t' c0| |v|v|v late|v|v|v]; try discriminate El.
  - apply new_step in H. destruct H as (_ & _ & E & _). left; congruence.
  - apply end_step in H. destruct H as (q & _ & _ & _ & _ & E & _). left; congruence.
  - apply notice_step in H. destruct H as (_ & _ & _ & _ & E & _). left; congruence.
  - pose proof (manage_step _ _ H) as E. destruct (manage_spec w (i_held w I) (i_pids w I)) as ((Ep & _) & cs & Ec & Eh & _). subst w'. rewrite Eh.
    destruct (lost t w) eqn:El'; [right|left; apply in_or_app; left; apply filter_In; now rewrite El']. destruct (conn_at t w (i_held w I t Ht)) as (c & Hc).
    rewrite (lost_conn t w c Hc) in El'. rewrite (up_like _ _ _ Ep), (peer_of_app _ _ _ _ Ec (i_held w I t Ht)), (peer_conn t w c Hc). exact (i_lost w I t c Hc El').
Qed.
Lemma stays_run h : forall w w' t, run h w = Some w' -> inv w -> In t (w_held w) -> up (peer_of t w') w' = true -> In t (w_held w').
Proof.
  induction h as [|l h IH]; intros w w' t H I Ht Hu; cbn [run] in H; [injection H as <-; exact Ht|]. destruct (step l w) as [x|] eqn:E; [|discriminate].
  destruct (stays_step l w x t E I Ht) as [Hx|Hx]; [apply (IH x); auto; eapply inv_step; eauto|]. exfalso.
  assert (Hd : t < length (w_conns w') /\ up (peer_of t w') w' = false); [|destruct Hd; congruence].
  apply (keep (fun w => t < length (w_conns w) /\ up (peer_of t w) w = false)) with (h := h) (w := x); auto.
  - intros l1 a b H1 H2 [H3 H4]. eapply down_step; eauto.
  - eapply inv_step; eauto.
  - split; [|exact Hx]. apply (who_step l w x t E I (i_held w I t Ht)).
Qed.

Lemma no_start_or_finish_ops v h : ~ In (Start v) h -> ~ In (Convert v) h -> PS.no_start_or_finish v (flat_map ops h).
Proof.
  intros H1 H2. unfold PS.no_start_or_finish. apply forallb_forall. intros o Ho. apply in_flat_map in Ho. destruct Ho as (l & Hl & Ho).
  destruct l as [pid nm title ths|j|j| |t' c0| |u|u|u late|u|u|u]; cbn in Ho; try contradiction; destruct Ho as [<-|[]]; cbn; try reflexivity;
    (destruct (Nat.eqb_spec u v) as [->|]; [contradiction|reflexivity]).
Qed.

Theorem sent h1 h2 h3 v w1 w : run (h1 ++ Start v :: h2) w0 = Some w1 -> run (Finish v :: h3 ++ [Send v]) w1 = Some w -> keeps_recording v h2 -> ~ In (Send v) h3 ->
  exists m es im, last_sent v w es im /\ finish m (delivered h2) = FEntries es /\
    (undisturbed v h3 -> in_time v h3 -> forall i p, connected i w1 -> nth_error (w_peers w) i = Some p -> pe_up p = true ->
       (forall id n, mfind N.ltb id (pe_names p) = Some n -> scope_name m (pe_pid p) id = n) /\ mfind Z.ltb (pe_pid p) im = Some (pe_title p, pe_threads p)).
Proof.
  intros Hr1 Hr2 (K1 & K2) Hns. pose proof (inv_run _ _ _ inv0 Hr1) as I1. cbn [run] in Hr2.
  destruct (step (Finish v) w1) as [wf|] eqn:Ef; [|discriminate]. pose proof (inv_step _ _ _ I1 Ef) as If_.
  apply run_snoc in Hr2. destruct Hr2 as (ws & Hh3 & Hs). pose proof (inv_run _ _ _ If_ Hh3) as Is.
  pose proof (send_step _ _ _ Hs) as (xs & im & es & Exs & Epcs & Ews & Hfw). pose proof (step_running _ _ _ Hs) as Hfs.
  pose proof (finish_step _ _ _ Ef) as (x1 & Ex1 & Epc1 & Ewf).
  assert (Hpcf : pc_of v wf = WNames (w_held w1) []). { rewrite Ewf. erewrite goto_pc by exact Ex1. now rewrite Nat.eqb_refl. }
  destruct (to_convert h3 wf ws v Hh3 If_) as (a & b & wc & Eh3 & Ha & Hwc & Na & Nb & Nc).
  { rewrite Hpcf. exact Logic.I. } { rewrite (pc_at _ _ _ Exs), Epcs. auto. }
  subst h3. rewrite run_app, Ha in Hh3. cbn [run] in Hh3. destruct (step (Convert v) wc) as [wd|] eqn:Ed; [|discriminate].
  pose proof (inv_run _ _ _ If_ Ha) as Ic. pose proof (inv_step _ _ _ Ic Ed) as Id. pose proof (run_running _ _ _ Hh3 Hfs) as Hfd. pose proof (step_running _ _ _ Ed) as Hfc.
  pose proof (convert_step _ _ _ Ed) as (xc & Exc & Epcc & Hconv). destruct (Hconv Hfd) as (ds & pr & es' & Efin & Econv & Ewd). clear Hconv.
  assert (Hnb : ~ In (Send v) b) by (intros Hin; apply Hns; apply in_or_app; right; now right).
  assert (Hpcd : pc_of v wd = WInfo (w_held wc) [] es'). { rewrite Ewd. erewrite goto_pc by exact Exc. now rewrite Nat.eqb_refl. }
  assert (es' = es) as ->.
  { destruct (entries_run b wd ws v es' Hh3 Id) as (todo & im' & E); [rewrite Hpcd; eexists; eexists; reflexivity|exact Hnb|]. rewrite (pc_at _ _ _ Exs), Epcs in E. congruence. }
  (* the data *)
  assert (Eds : ds = delivered h2).
  { pose proof Hr1 as Hr1'. rewrite run_app in Hr1'. destruct (run h1 w0) as [wa|] eqn:E1; [|discriminate]. cbn [run] in Hr1'. destruct (step (Start v) wa) as [wb|] eqn:E2; [|discriminate].
    pose proof (inv_run _ _ _ inv0 E1) as Ia. pose proof (inv_step _ _ _ Ia E2) as Ib.
    assert (Hva : v < length (w_views wa) /\ pc_of v wa = WIdle /\ w_views wb = w_views wa).
    { pose proof (step_running _ _ _ E2) as Hr. unfold step in E2. rewrite Hr in E2. destruct (nth_error (w_views wa) v) as [y|] eqn:Ev; [|discriminate].
      destruct (vw_pc y) eqn:Ey; try discriminate. injection E2 as <-. split; [apply nth_error_Some; congruence|]. split; [now rewrite (pc_at _ _ _ Ev)|reflexivity]. }
    destruct Hva as (Hva & Hia & Evb). destruct (idle_quiet h2 wb w1 v Hr1' Ib) as [Hc2 _]; [now rewrite Evb|unfold pc_of in *; now rewrite Evb|exact K2|].
    destruct (PP.interval_lemma (flat_map ops h1) (flat_map ops (h2 ++ Finish v :: a)) v) as (p & p' & Hp & Hp').
    - rewrite <- flat_map_app. apply ops_no_drop.
    - rewrite <- (views_made h1 wa E1). exact Hva.
    - apply no_start_or_finish_ops; intros Hin; apply in_app_or in Hin; destruct Hin as [Hin|[Hin|Hin]]; try discriminate; auto.
    - assert (Hrun : run (h1 ++ Start v :: h2 ++ Finish v :: a) w0 = Some wc).
      { change (h1 ++ Start v :: h2 ++ Finish v :: a) with (h1 ++ (Start v :: h2) ++ Finish v :: a). rewrite app_assoc, run_app, Hr1. cbn [run]. now rewrite Ef. }
      pose proof (ops_run _ _ _ Hrun inv0 Hfc) as Hops. rewrite flat_map_app in Hops. cbn [flat_map ops app] in Hops. change (w_prov w0) with (P.prov0 (D := chunk)) in Hops.
      rewrite Hops in Hp. injection Hp as <-. cbn [P.op_step] in Hp'. rewrite Efin in Hp'. injection Hp' as _ ->. rewrite (until_ops v h2 a K2). apply received_ops. }
  exists (w_map wc), es, im. split; [|split].
  - exists {| vw_pc := WIdle; vw_out := vw_out xs ++ [(es, im)] |}, (vw_out xs). split; [|reflexivity]. rewrite Ews. cbn [w_views with_views]. rewrite (nth_set _ _ _ _ _ Exs). now rewrite Nat.eqb_refl.
  - now rewrite <- Eds.
  - intros Hu Ht i p (t & Htin & Hti) Hp Hup.
    assert (Hf1 : w_fate wc = Running) by exact Hfc.
    assert (Hua : undisturbed v a) by (intros u Hin; apply Hu; apply in_or_app; now left).
    assert (Hta : in_time v a) by (intros late Hin; apply Ht; apply in_or_app; now left).
    assert (Htb : in_time v b) by (intros late Hin; apply Ht; apply in_or_app; right; now right).
    assert (Hsnf : snapshot (w_held w1) wf). { eapply snapshot_step; [exact Ef|exact I1|]. split; [apply (i_held w1 I1)|apply (i_pids w1 I1)]. }
    destruct (names_phase_run a wf wc v (w_held w1) Ha If_ Hfc) as (Hsnc & Hph); auto.
    { split; [exact Hsnf|]. left. exists [], (w_held w1), []. split; [exact Hpcf|]. split; [reflexivity|]. apply listed_nil. }
    destruct Hph as [(done & todo & m & E & _)|(_ & Hl)]; [congruence|].
    assert (Hsnd : snapshot (w_held wc) wd). { eapply snapshot_step; [exact Ed|exact Ic|]. split; [apply (i_held wc Ic)|apply (i_pids wc Ic)]. }
    destruct (info_phase_run b wd ws v (w_held wc) Hh3 Id Hfs) as (Hsns & done & todo & im' & es1 & E & Es & Hl2); auto.
    { split; [exact Hsnd|]. exists [], (w_held wc), [], es. split; [exact Hpcd|]. split; [reflexivity|]. apply listed_nil. }
    rewrite (pc_at _ _ _ Exs), Epcs in E. assert (todo = []) as -> by congruence. assert (im' = im) as -> by congruence. rewrite app_nil_r in Es. subst done.
    (* the process behind the transport *)
    assert (Hpw : w_peers w = w_peers ws) by (rewrite Ews; reflexivity). rewrite Hpw in Hp.
    pose proof (i_held w1 I1 t Htin) as Hlt1. destruct (who_step _ _ _ t Ef I1 Hlt1) as (Hltf & Epf & Ewf1).
    destruct (who_run _ _ _ t Ha If_ Hltf) as (Hltc & Epc & Ewc1). destruct (who_step _ _ _ t Ed Ic Hltc) as (Hltd & Epd & Ewd1).
    destruct (who_run _ _ _ t Hh3 Id Hltd) as (Hlts & Eps & Ews1).
    assert (Hpeer : peer_of t ws = i) by congruence.
    assert (Hws : who t ws = Some (pe_pid p, pe_names p, pe_title p, pe_threads p)) by (unfold who; rewrite Hpeer; now rewrite Hp).
    assert (Hups : up (peer_of t ws) ws = true) by (rewrite Hpeer; unfold up; now rewrite Hp).
    assert (Hwc2 : who t wc = Some (pe_pid p, pe_names p, pe_title p, pe_threads p)) by congruence.
    assert (Hupc : up (peer_of t wc) wc = true).
    { destruct (up (peer_of t wc) wc) eqn:Eu; [reflexivity|]. exfalso.
      assert (Hd : t < length (w_conns ws) /\ up (peer_of t ws) ws = false); [|destruct Hd; congruence].
      apply (keep (fun w => t < length (w_conns w) /\ up (peer_of t w) w = false)) with (h := Convert v :: b) (w := wc); auto.
      - intros l1 y z H1 H2 [H3 H4]. eapply down_step; eauto.
      - cbn [run]. now rewrite Ed. }
    assert (Hheld : In t (w_held wc)).
    { apply (stays_run (Finish v :: a) w1); auto. cbn [run]. now rewrite Ef. }
    split.
    + intros id n Hn. destruct Hl as (_ & L2 & _). specialize (L2 t _ Htin Hwc2). cbn [fst snd its_names] in L2. unfold scope_name. unfold its_names in L2. cbn [fst snd] in L2. now rewrite L2, Hn.
    + destruct Hl2 as (_ & L2 & _). exact (L2 t _ Hheld Hws).
Qed.

(** The two parts on their own. *)
Theorem sent_data h1 h2 h3 v w1 w : run (h1 ++ Start v :: h2) w0 = Some w1 -> run (Finish v :: h3 ++ [Send v]) w1 = Some w -> keeps_recording v h2 -> ~ In (Send v) h3 ->
  exists m es im, last_sent v w es im /\ finish m (delivered h2) = FEntries es.
Proof. intros H1 H2 H3 H4. destruct (sent h1 h2 h3 v w1 w H1 H2 H3 H4) as (m & es & im & A & B & _). now exists m, es, im. Qed.
Theorem sent_names h1 h2 h3 v w1 w : run (h1 ++ Start v :: h2) w0 = Some w1 -> run (Finish v :: h3 ++ [Send v]) w1 = Some w -> keeps_recording v h2 -> ~ In (Send v) h3 ->
  undisturbed v h3 -> in_time v h3 ->
  exists m es im, last_sent v w es im /\ finish m (delivered h2) = FEntries es /\
    forall i p, connected i w1 -> nth_error (w_peers w) i = Some p -> pe_up p = true ->
       (forall id n, mfind N.ltb id (pe_names p) = Some n -> scope_name m (pe_pid p) id = n) /\ mfind Z.ltb (pe_pid p) im = Some (pe_title p, pe_threads p).
Proof. intros H1 H2 H3 H4 H5 H6. destruct (sent h1 h2 h3 v w1 w H1 H2 H3 H4) as (m & es & im & A & B & C). exists m, es, im. split; [exact A|]. split; [exact B|]. exact (C H5 H6). Qed.
