From Coq Require Import List Arith NArith Ascii String Bool Lia.
Import ListNotations.
From Verif Require Import Protocol_model UnixSystem_model UnixSystem_proofs OMap_model OMap_proofs Registry_model Registry_proofs Manager_model Manager_spec Manager_proofs
  Startup_model Startup_spec.
Open Scope list_scope.

Record SInv (s : sys) : Prop := {
  si_m : MInv (sy_mgr s);
  si_reg : forall h r, sy_servers s h = Some r -> ordered str_ltb (rg_map r);
  si_ask : forall h g, sy_asking s = Some (h, g) -> ~ linked s h;
  si_srv : forall h g, sy_asking s = Some (h, g) -> sy_servers s h <> None;
  si_todo : forall h, In h (sy_todo s) -> sy_servers s h <> None;
  si_found : forall h, sy_asking s = Some (h, Found) -> added s h introspect_name;
}.

Lemma run_app es1 es2 : forall s s1, sy_run es1 s = Some s1 -> sy_run (es1 ++ es2) s = sy_run es2 s1.
Proof.
  induction es1 as [|e es1 IH]; intros s s1 E; cbn [sy_run app] in *; [congruence|].
  destruct (sy_step e s) as [s'|]; [|discriminate]. now apply IH.
Qed.
Lemma reached_run es s s' : sy_reached s -> sy_run es s = Some s' -> sy_reached s'.
Proof. intros (es0 & E0) E. exists (es0 ++ es). rewrite (run_app _ _ _ _ E0). exact E. Qed.

(** ** What ends a request *)
Lemma conclude_spec s h intro s' : SInv s -> ~ linked s h -> intro <> Throws -> conclude s h intro = Some s' ->
  MInv (sy_mgr s') /\ sy_servers s' = sy_servers s /\ sy_asking s' = None /\ sy_todo s' = sy_todo s /\
  mg_factories (sy_mgr s') = mg_factories (sy_mgr s) /\
  (forall h0, linked s' h0 <-> h0 = h \/ linked s h0) /\
  (forall h0 n, offered s' h0 n <-> (h0 = h /\ wanted s n /\ match intro with Answers names => In n names | _ => False end) \/ offered s h0 n).
Proof.
  intros HI Hno Hi E. unfold conclude in E.
  destruct (m_connect h (ATransport true intro Makes) (sy_mgr s)) as [m| |] eqn:Em; try discriminate. injection E as <-. cbn [sy_mgr sy_servers sy_asking sy_todo].
  destruct (connect_done _ _ _ _ (si_m _ HI) Em) as (HI' & HC).
  destruct HC as [Heq [(t & Ht)|(i0 & mk0 & Ha)]|i0 mk eps Ha Hh Heps Hf Hn HH HR].
  - destruct Hno. now exists t.
  - discriminate Ha.
  - injection Ha as <- <-. split; [exact HI'|]. do 3 (split; [reflexivity|]). split; [exact Hf|]. split.
    + intros h0. unfold linked. cbn [sy_mgr]. split.
      * intros (t & Ht). apply HH in Ht. destruct Ht as [[-> _]|Ht]; [now left|right; now exists t].
      * intros [->|(t & Ht)]; [exists (mg_next (sy_mgr s)); apply HH; now left|exists t; apply HH; now right].
    + intros h0 n. unfold offered. cbn [sy_mgr]. destruct Heps as (Hord & Heps). split.
      * intros (t & eps0 & e & Ht & Hr & Hin). apply HH in Ht. apply HR in Hr.
        destruct Ht as [[-> ->]|Ht].
        -- destruct Hr as [[_ ->]|Hr].
           ++ left. split; [reflexivity|]. destruct intro as [names| |]; [|subst eps; destruct Hin|contradiction].
              destruct (proj1 Heps n e Hin) as (i & X1 & X2 & _). split; [exact X2|]. exact (nth_error_In _ _ X1).
           ++ destruct (proj2 (mi_same _ (si_m _ HI) _) (ex_intro _ _ Hr)) as (h1 & H1). apply (mi_next _ (si_m _ HI)) in H1. lia.
        -- destruct Hr as [[-> ->]|Hr]; [apply (mi_next _ (si_m _ HI)) in Ht; lia|]. right. now exists t, eps0, e.
      * intros [(-> & Hw & Hn0)|(t & eps0 & e & Ht & Hr & Hin)].
        -- destruct intro as [names| |]; [|contradiction|contradiction].
           destruct (In_nth_error _ _ Hn0) as (i & Hi0). destruct (proj2 Heps i n i Hi0 Hw eq_refl) as (e' & He').
           exists (mg_next (sy_mgr s)), eps, e'. split; [apply HH; now left|]. split; [apply HR; now left|exact He'].
        -- exists t, eps0, e. split; [apply HH; now right|]. split; [apply HR; now right|exact Hin].
Qed.

Lemma introspect_keys r n : In n (introspect r) <-> exists e, In (n, e) (rg_map r).
Proof.
  unfold introspect. rewrite in_map_iff. split.
  - intros ((n' & e) & X & H). cbn in X. subst n'. now exists e.
  - intros (e & H). exists (n, e). now split.
Qed.
Lemma insert_keys r n e n0 : ordered str_ltb (rg_map r) -> In n0 (introspect (add_endpoint n e r)) <-> n0 = n \/ In n0 (introspect r).
Proof.
  intros HO. unfold introspect. assert (HO' := ordered_insert str_ltb str_order n e _ HO).
  rewrite <- (find_keys _ str_order n0 (rg_map (add_endpoint n e r)) HO'), <- (find_keys _ str_order n0 (rg_map r) HO). cbn [rg_map add_endpoint].
  destruct (list_eq_dec Ascii.ascii_dec n0 n) as [->|Hn].
  - rewrite (find_insert_same _ str_order). split; [now left|discriminate].
  - rewrite (find_insert_other _ str_order) by assumption. tauto.
Qed.

(** Everything a step does to what can be seen. *)
Lemma step_spec e s s' : SInv s -> sy_step e s = Some s' ->
  SInv s' /\ (forall h n, added s h n -> added s' h n) /\ (forall n, wanted s n -> wanted s' n) /\ (forall h, linked s h -> linked s' h) /\
  (forall h, linked s' h -> linked s h \/ exists g, sy_asking s = Some (h, g) /\ (e = STimeout \/ e = SList /\ g = Found)) /\
  (forall h n, linked s h -> offered s' h n <-> offered s h n) /\
  (forall h n, ~ linked s h -> linked s' h -> offered s' h n <-> e = SList /\ added s h n /\ wanted s n).
Proof.
  intros HI E. pose proof HI as [I1 I2 I3 I4 I6 I5].
  assert (NOOFF : forall h n, offered s h n -> linked s h) by (intros h n (t & _ & _ & X & _); now exists t).
  (* steps that leave the connections alone *)
  assert (SAME : forall s1, SInv s1 -> mg_transports (sy_mgr s1) = mg_transports (sy_mgr s) -> mg_endpoints (sy_mgr s1) = mg_endpoints (sy_mgr s) ->
    (forall h n, added s h n -> added s1 h n) -> (forall n, wanted s n -> wanted s1 n) -> Some s1 = Some s' ->
    SInv s' /\ (forall h n, added s h n -> added s' h n) /\ (forall n, wanted s n -> wanted s' n) /\ (forall h, linked s h -> linked s' h) /\
    (forall h, linked s' h -> linked s h \/ exists g, sy_asking s = Some (h, g) /\ (e = STimeout \/ e = SList /\ g = Found)) /\
    (forall h n, linked s h -> offered s' h n <-> offered s h n) /\
    (forall h n, ~ linked s h -> linked s' h -> offered s' h n <-> e = SList /\ added s h n /\ wanted s n)).
  { intros s1 Hs1 Et Ee Ha Hw E1. injection E1 as <-. split; [exact Hs1|]. split; [exact Ha|]. split; [exact Hw|].
    unfold linked, offered. rewrite Et, Ee. split; [tauto|]. split; [intros h X; now left|]. split; [tauto|]. intros h n X Y. contradiction. }
  (* steps that end a request *)
  assert (END : forall h g intro, sy_asking s = Some (h, g) -> intro <> Throws -> conclude s h intro = Some s' ->
    (e = STimeout /\ intro = NoAnswer \/ e = SList /\ g = Found /\ exists r, sy_servers s h = Some r /\ intro = Answers (introspect r)) ->
    SInv s' /\ (forall h n, added s h n -> added s' h n) /\ (forall n, wanted s n -> wanted s' n) /\ (forall h, linked s h -> linked s' h) /\
    (forall h, linked s' h -> linked s h \/ exists g, sy_asking s = Some (h, g) /\ (e = STimeout \/ e = SList /\ g = Found)) /\
    (forall h n, linked s h -> offered s' h n <-> offered s h n) /\
    (forall h n, ~ linked s h -> linked s' h -> offered s' h n <-> e = SList /\ added s h n /\ wanted s n)).
  { intros h g intro Ea Hi EC Hcase. destruct (conclude_spec s h intro s' HI (I3 _ _ Ea) Hi EC) as (X1 & X2 & X3 & X4 & X5 & X6 & X7).
    split; [|split; [|split; [|split; [|split; [|split]]]]].
    - constructor; [exact X1|rewrite X2; exact I2| | |rewrite X2, X4; exact I6|]; rewrite X3; discriminate.
    - intros h0 n (r & Hr & Hn). exists r. rewrite X2. now split.
    - intros n. unfold wanted. rewrite X5. tauto.
    - intros h0 H0. apply X6. now right.
    - intros h0 H0. apply X6 in H0. destruct H0 as [->|H0]; [right; exists g; split; [exact Ea|tauto]|now left].
    - intros h0 n Hl. rewrite X7. split; [|tauto]. intros [(-> & _)|H]; [|exact H]. destruct (I3 _ _ Ea Hl).
    - intros h0 n Hl Hl'. apply X6 in Hl'. destruct Hl' as [->|Hl']; [|contradiction]. rewrite X7.
      destruct Hcase as [(-> & ->)|(-> & _ & r & Hr & ->)].
      + split; [intros [(_ & _ & [])|H]|intros (H & _); discriminate H]. destruct (Hl (NOOFF _ _ H)).
      + split.
        * intros [(_ & Hw & Hin)|H]; [|destruct (Hl (NOOFF _ _ H))]. split; [reflexivity|]. split; [now exists r|exact Hw].
        * intros (_ & (r' & Hr' & Hin) & Hw). left. split; [reflexivity|]. split; [exact Hw|]. congruence. }
  destruct e as [h|h n x|n f|ds| | | |]; cbn [sy_step] in E.
  - destruct (listening s h) eqn:El; [discriminate|]. assert (En : sy_servers s h = None) by (unfold listening in El; destruct (sy_servers s h); [discriminate|reflexivity]).
    refine (SAME _ _ _ _ _ _ E); try reflexivity.
    + constructor; cbn [sy_mgr sy_servers sy_asking sy_todo].
      * exact I1.
      * intros h0 r. unfold set_server. destruct (Nat.eqb_spec h0 h); [intros X; injection X as <-; constructor|apply I2].
      * exact I3.
      * intros h0 g Ea. unfold set_server. destruct (Nat.eqb h0 h); [discriminate|now apply (I4 h0 g)].
      * intros h0 Ht. unfold set_server. destruct (Nat.eqb h0 h); [discriminate|now apply I6].
      * intros h0 Ea. destruct (I5 _ Ea) as (r & Hr & Hin). exists r. cbn [sy_servers]. unfold set_server. destruct (Nat.eqb_spec h0 h) as [->|]; [congruence|now split].
    + intros h0 n (r & Hr & Hin). exists r. cbn [sy_servers]. unfold set_server. destruct (Nat.eqb_spec h0 h) as [->|]; [congruence|now split].
    + intros n H. exact H.
  - destruct (sy_servers s h) as [r|] eqn:Er; [|discriminate].
    assert (ADD : forall h0 n0, added s h0 n0 -> added {| sy_servers := set_server h (add_endpoint n x r) (sy_servers s); sy_mgr := sy_mgr s; sy_todo := sy_todo s; sy_asking := sy_asking s |} h0 n0).
    { intros h0 n0 (r0 & Hr0 & Hin). unfold added. cbn [sy_servers]. unfold set_server. destruct (Nat.eqb_spec h0 h) as [->|].
      - assert (r0 = r) by congruence. subst r0. exists (add_endpoint n x r). split; [reflexivity|]. apply insert_keys; [apply (I2 _ _ Er)|now right].
      - exists r0. now split. }
    refine (SAME _ _ _ _ ADD _ E); try reflexivity.
    + constructor; cbn [sy_mgr sy_servers sy_asking sy_todo].
      * exact I1.
      * intros h0 r0. unfold set_server. destruct (Nat.eqb_spec h0 h); [intros X; injection X as <-; apply (ordered_insert _ str_order); exact (I2 _ _ Er)|apply I2].
      * exact I3.
      * intros h0 g Ea. unfold set_server. destruct (Nat.eqb h0 h); [discriminate|now apply (I4 h0 g)].
      * intros h0 Ht. unfold set_server. destruct (Nat.eqb h0 h); [discriminate|now apply I6].
      * intros h0 Ea. apply ADD. exact (I5 _ Ea).
    + intros n0 H. exact H.
  - destruct (sy_asking s) as [[h0 g0]|] eqn:Ea; [discriminate|]. destruct (sy_todo s) as [|d ds] eqn:Ed; [|discriminate].
    refine (SAME _ _ _ _ _ _ E); try reflexivity.
    + constructor; cbn [sy_mgr sy_servers sy_asking sy_todo]; try discriminate; [|exact I2|intros h0 []].
      destruct I1 as [J1 J2 J3 J4 J5 J6]. constructor; try assumption. cbn. apply (ordered_insert _ str_order). exact J1.
    + intros h0 n0 H. exact H.
    + intros n0 (f0 & Hf). unfold wanted. cbn [sy_mgr mg_factories add_factory].
      apply (fs_has (minsert str_ltb n f (mg_factories (sy_mgr s)))); [apply (ordered_insert _ str_order), I1|].
      destruct (list_eq_dec Ascii.ascii_dec n0 n) as [->|Hn]; [rewrite (find_insert_same _ str_order); discriminate|].
      rewrite (find_insert_other _ str_order) by (first [apply I1|assumption]). apply (fs_has _ _ (mi_ft _ I1)). now exists f0.
  - destruct (sy_asking s) as [[h0 g0]|] eqn:Ea; [discriminate|]. destruct (sy_todo s) as [|d dr] eqn:Ed; [|discriminate].
    cbn [andb] in E. destruct (forallb (listening s) ds) eqn:El; [|discriminate].
    refine (SAME _ _ _ _ _ _ E); try reflexivity.
    + constructor; cbn [sy_mgr sy_servers sy_asking sy_todo]; try discriminate; try assumption.
      intros h0 Hin. rewrite forallb_forall in El. specialize (El h0 Hin). unfold listening in El. destruct (sy_servers s h0); discriminate.
    + intros h0 n0 H. exact H.
    + intros n0 H. exact H.
  - destruct (sy_asking s) as [[h0 g0]|] eqn:Ea; [discriminate|]. destruct (sy_todo s) as [|d dr] eqn:Ed; [discriminate|].
    destruct (tfind d (mg_transports (sy_mgr s))) as [t|] eqn:Ef.
    + refine (SAME _ _ _ _ _ _ E); try reflexivity; [|intros h0 n0 H; exact H|intros n0 H; exact H].
      constructor; cbn [sy_mgr sy_servers sy_asking sy_todo]; try discriminate; try assumption. intros h0 H0. apply I6. now right.
    + refine (SAME _ _ _ _ _ _ E); try reflexivity; [|intros h0 n0 H; exact H|intros n0 H; exact H].
      constructor; cbn [sy_mgr sy_servers sy_asking sy_todo]; try discriminate; try assumption.
      * intros h0 g X. injection X as <- <-. intros (t & Ht). cbn [sy_mgr] in Ht. apply (proj1 (tfind_none _ _ (mi_ot _ I1)) Ef t Ht).
      * intros h0 g X. injection X as <- <-. apply I6. now left.
      * intros h0 H0. apply I6. now right.
  - destruct (sy_asking s) as [[h g]|] eqn:Ea; [|discriminate]. destruct g; try discriminate.
    destruct (sy_servers s h) as [r|] eqn:Er; [|discriminate].
    refine (SAME _ _ _ _ _ _ E); try reflexivity; [|intros h0 n0 H; exact H|intros n0 H; exact H].
    constructor; cbn [sy_mgr sy_servers sy_asking sy_todo]; try assumption.
    + intros h0 g X. injection X as <- <-. exact (I3 _ _ eq_refl).
    + intros h0 g X. injection X as <- <-. exact (I4 _ _ eq_refl).
    + intros h0 X. injection X as <- X. destruct (get_endpoint introspect_name r) as [x|] eqn:Eg; [|discriminate X].
      exists r. split; [exact Er|]. apply introspect_keys. exists x. now apply (find_in _ str_order).
  - destruct (sy_asking s) as [[h g]|] eqn:Ea; [|discriminate]. destruct g; try discriminate.
    destruct (sy_servers s h) as [r|] eqn:Er; [|discriminate].
    apply (END h Found (Answers (introspect r))); try assumption; [reflexivity|discriminate|]. right. repeat (split; [reflexivity|]). exists r. now split.
  - destruct (sy_asking s) as [[h g]|] eqn:Ea; [|discriminate].
    apply (END h g NoAnswer); try assumption; [reflexivity|discriminate|]. left. now split.
Qed.

Lemma sys0_inv : SInv sys0.
Proof.
  constructor; cbn [sys0 sy_mgr sy_servers sy_asking sy_todo]; try discriminate; [apply manager0_inv|intros h []].
Qed.
Lemma run_inv es : forall s s', SInv s -> sy_run es s = Some s' -> SInv s'.
Proof.
  induction es as [|e es IH]; intros s s' HI E; cbn [sy_run] in E; [congruence|].
  destruct (sy_step e s) as [s1|] eqn:E1; [|discriminate]. apply (IH s1); [|exact E]. apply (step_spec _ _ _ HI E1).
Qed.
Lemma reached_sinv s : sy_reached s -> SInv s.
Proof. intros (es & E). exact (run_inv _ _ _ sys0_inv E). Qed.

Lemma run_frozen es : forall s s', SInv s -> sy_run es s = Some s' ->
  forall h, linked s h -> linked s' h /\ (forall n, offered s' h n <-> offered s h n).
Proof.
  induction es as [|e es IH]; intros s s' HI E h Hl; cbn [sy_run] in E; [injection E as <-; split; [exact Hl|tauto]|].
  destruct (sy_step e s) as [s1|] eqn:E1; [|discriminate]. destruct (step_spec _ _ _ HI E1) as (X1 & _ & _ & X4 & _ & X6 & _).
  destruct (IH s1 s' X1 E h (X4 _ Hl)) as (Y1 & Y2). split; [exact Y1|]. intros n. rewrite Y2. now apply X6.
Qed.

(** ** The theorems *)
Theorem frozen s es s' h : sy_reached s -> sy_run es s = Some s' -> linked s h ->
  linked s' h /\ forall n, offered s' h n <-> offered s h n.
Proof. intros HR E. exact (run_frozen _ _ _ (reached_sinv _ HR) E h). Qed.

Theorem exact_list s h s1 es s' : sy_reached s -> sy_asking s = Some (h, Found) -> sy_step SList s = Some s1 -> sy_run es s1 = Some s' ->
  linked s' h /\ forall n, offered s' h n <-> added s h n /\ wanted s n.
Proof.
  intros HR Ea E1 E. assert (HI := reached_sinv _ HR). destruct (step_spec _ _ _ HI E1) as (X1 & _ & _ & _ & X5 & _ & X7).
  assert (Hl : ~ linked s h) by exact (si_ask _ HI _ _ Ea).
  assert (Hl1 : linked s1 h).
  { cbn [sy_step] in E1. rewrite Ea in E1. destruct (sy_servers s h) as [r|]; [|discriminate E1].
    assert (Hi : Answers (introspect r) <> Throws) by discriminate. destruct (conclude_spec _ _ _ _ HI Hl Hi E1) as (_ & _ & _ & _ & _ & Y & _). apply Y. now left. }
  destruct (run_frozen _ _ _ X1 E h Hl1) as (Y1 & Y2). split; [exact Y1|]. intros n. rewrite Y2, (X7 h n Hl Hl1). tauto.
Qed.

Theorem silent s h g s1 es s' : sy_reached s -> sy_asking s = Some (h, g) -> sy_step STimeout s = Some s1 -> sy_run es s1 = Some s' ->
  linked s' h /\ forall n, ~ offered s' h n.
Proof.
  intros HR Ea E1 E. assert (HI := reached_sinv _ HR). destruct (step_spec _ _ _ HI E1) as (X1 & _ & _ & _ & X5 & _ & X7).
  assert (Hl : ~ linked s h) by exact (si_ask _ HI _ _ Ea).
  assert (Hl1 : linked s1 h).
  { cbn [sy_step] in E1. rewrite Ea in E1.
    assert (Hi : NoAnswer <> Throws) by discriminate. destruct (conclude_spec _ _ _ _ HI Hl Hi E1) as (_ & _ & _ & _ & _ & Y & _). apply Y. now left. }
  destruct (run_frozen _ _ _ X1 E h Hl1) as (Y1 & Y2). split; [exact Y1|]. intros n Hn. apply Y2, (X7 h n Hl Hl1) in Hn. destruct Hn as (Hn & _). discriminate Hn.
Qed.

(** A request the server could not answer is never answered. *)
Lemma missed_stays es : forall s s' h, SInv s -> sy_asking s = Some (h, Missed) -> sy_run es s = Some s' ->
  (sy_asking s' = Some (h, Missed) /\ ~ linked s' h) \/ (linked s' h /\ forall n, ~ offered s' h n).
Proof.
  induction es as [|e es IH]; intros s s' h HI Ea E; cbn [sy_run] in E.
  - injection E as <-. left. split; [exact Ea|exact (si_ask _ HI _ _ Ea)].
  - destruct (sy_step e s) as [s1|] eqn:E1; [|discriminate]. destruct (step_spec _ _ _ HI E1) as (X1 & _).
    destruct e as [h0|h0 n x|n f|ds| | | |]; cbn [sy_step] in E1; rewrite Ea in E1; try discriminate E1.
    + destruct (listening s h0); [discriminate E1|]. injection E1 as <-. now apply (IH _ _ _ X1).
    + destruct (sy_servers s h0); [|discriminate E1]. injection E1 as <-. now apply (IH _ _ _ X1).
    + right. assert (Hi : NoAnswer <> Throws) by discriminate.
      destruct (conclude_spec _ _ _ _ HI (si_ask _ HI _ _ Ea) Hi E1) as (_ & _ & _ & _ & _ & Y & Z).
      assert (Hl1 : linked s1 h) by (apply Y; now left). destruct (run_frozen _ _ _ X1 E h Hl1) as (Y1 & Y2). split; [exact Y1|].
      intros n Hn. apply Y2, Z in Hn. destruct Hn as [(_ & _ & [])|(t & _ & _ & Ht & _)]. apply (si_ask _ HI _ _ Ea). now exists t.
Qed.

Theorem missed s h s1 es s' : sy_reached s -> sy_asking s = Some (h, Sent) -> ~ added s h introspect_name -> sy_step SLookup s = Some s1 ->
  sy_run es s1 = Some s' -> forall n, ~ offered s' h n.
Proof.
  intros HR Ea Hno E1 E. assert (HI := reached_sinv _ HR). destruct (step_spec _ _ _ HI E1) as (X1 & _). cbn [sy_step] in E1. rewrite Ea in E1.
  destruct (sy_servers s h) as [r|] eqn:Er; [|discriminate E1].
  destruct (get_endpoint introspect_name r) as [x|] eqn:Eg.
  { destruct Hno. exists r. split; [exact Er|]. apply introspect_keys. exists x. now apply (find_in _ str_order). }
  injection E1 as <-. intros n Hn. destruct (missed_stays es _ _ h X1 eq_refl E) as [(_ & Hl)|(_ & Hl)]; [|exact (Hl n Hn)].
  destruct Hn as (t & _ & _ & Ht & _). apply Hl. now exists t.
Qed.

(** Nothing is offered that the process does not serve or that the manager cannot use. *)
Theorem sound s h n : sy_reached s -> offered s h n -> added s h n /\ added s h introspect_name /\ wanted s n.
Proof.
  intros (es & E). revert E. pattern es. revert s. 
  enough (G : forall es s0 s, SInv s0 -> (forall h n, offered s0 h n -> added s0 h n /\ added s0 h introspect_name /\ wanted s0 n) -> sy_run es s0 = Some s ->
    forall h n, offered s h n -> added s h n /\ added s h introspect_name /\ wanted s n).
  { intros s E. apply (G es sys0 s sys0_inv); [|exact E]. intros h0 n0 (t & _ & _ & [] & _). }
  clear es h n. induction es as [|e es IH]; intros s0 s HI H0 E; cbn [sy_run] in E; [injection E as <-; exact H0|].
  destruct (sy_step e s0) as [s1|] eqn:E1; [|discriminate]. destruct (step_spec _ _ _ HI E1) as (X1 & X2 & X3 & X4 & X5 & X6 & X7).
  apply (IH s1 s X1); [|exact E]. intros h n Hn.
  assert (Hl1 : linked s1 h) by (destruct Hn as (t & _ & _ & Ht & _); now exists t).
  assert (D : linked s0 h \/ ~ linked s0 h).
  { unfold linked. destruct (tfind h (mg_transports (sy_mgr s0))) as [t|] eqn:Ef.
    - left. exists t. now apply (tfind_some _ _ _ (mi_ot _ (si_m _ HI))).
    - right. intros (t & Ht). apply (proj1 (tfind_none _ _ (mi_ot _ (si_m _ HI))) Ef t Ht). }
  destruct D as [Hl|Hl].
  - apply (X6 _ _ Hl) in Hn. destruct (H0 _ _ Hn) as (Y1 & Y2 & Y3). auto.
  - destruct (X5 _ Hl1) as [X|(g & Ea & Hg)]; [contradiction|]. apply (X7 _ _ Hl Hl1) in Hn. destruct Hn as (-> & Y1 & Y2).
    destruct Hg as [Hg|(_ & ->)]; [discriminate Hg|]. split; [now apply X2|]. split; [apply X2, (si_found _ HI _ Ea)|now apply X3].
Qed.

(** A process that had added everything before the manager asked is known completely. *)
Theorem complete es : forall s s' h, sy_reached s -> sy_run es s = Some s' -> timely es -> ~ linked s h -> not_asked s h -> added s h introspect_name -> linked s' h ->
  forall n, added s h n -> wanted s n -> offered s' h n.
Proof.
  induction es as [|e es IH]; intros s s' h HR E HT Hl Ha Hi Hl' n Hn Hw; cbn [sy_run] in E; [injection E as <-; contradiction|].
  destruct (sy_step e s) as [s1|] eqn:E1; [|discriminate]. assert (HI := reached_sinv _ HR).
  destruct (step_spec _ _ _ HI E1) as (X1 & X2 & X3 & X4 & X5 & X6 & X7).
  assert (HR1 : sy_reached s1) by (apply (reached_run [e] s s1 HR); cbn [sy_run]; rewrite E1; reflexivity).
  assert (HT1 : timely es) by (intros H; apply HT; now right).
  assert (Hl1 : ~ linked s1 h) by (intros H; destruct (X5 _ H) as [X|(g & X & _)]; [contradiction|exact (Ha g X)]).
  destruct (sy_asking s1) as [[h1 g1]|] eqn:Ea1; [destruct (Nat.eq_dec h1 h) as [->|Hne]|].
  2: { apply (IH s1 s' h HR1 E HT1 Hl1); auto. intros g X. rewrite Ea1 in X. congruence. }
  2: { apply (IH s1 s' h HR1 E HT1 Hl1); auto. intros g X. rewrite Ea1 in X. discriminate. }
  (* the request has just been sent *)
  assert (Hg : g1 = Sent).
  { destruct e as [h0|h0 n0 x|n0 f|ds| | | |]; cbn [sy_step] in E1.
    - destruct (listening s h0); [discriminate|]. injection E1 as <-. cbn [sy_asking] in Ea1. destruct (Ha _ Ea1).
    - destruct (sy_servers s h0); [|discriminate]. injection E1 as <-. cbn [sy_asking] in Ea1. destruct (Ha _ Ea1).
    - destruct (sy_asking s) as [[? ?]|], (sy_todo s); try discriminate E1. injection E1 as <-. discriminate Ea1.
    - destruct (sy_asking s) as [[? ?]|], (sy_todo s); try discriminate E1. destruct (forallb (listening s) ds); [|discriminate E1]. injection E1 as <-. discriminate Ea1.
    - destruct (sy_asking s) as [[? ?]|], (sy_todo s); try discriminate E1. destruct (tfind _ _); injection E1 as <-; [discriminate Ea1|]. cbn [sy_asking] in Ea1. congruence.
    - destruct (sy_asking s) as [[h0 g0]|] eqn:Ea; [|discriminate E1]. destruct g0; try discriminate E1. destruct (sy_servers s h0); [|discriminate E1].
      injection E1 as <-. cbn [sy_asking] in Ea1. injection Ea1 as -> _. destruct (Ha Sent Ea).
    - destruct (sy_asking s) as [[h0 g0]|] eqn:Ea; [|discriminate E1]. destruct g0; try discriminate E1. destruct (sy_servers s h0); [|discriminate E1].
      unfold conclude in E1. destruct (m_connect _ _ _); try discriminate E1. injection E1 as <-. discriminate Ea1.
    - destruct (sy_asking s) as [[h0 g0]|] eqn:Ea; [|discriminate E1].
      unfold conclude in E1. destruct (m_connect _ _ _); try discriminate E1. injection E1 as <-. discriminate Ea1. }
  subst g1. assert (Hi1 := X2 _ _ Hi). assert (Hn1 := X2 _ _ Hn). assert (Hw1 := X3 _ Hw).
  clear IH Hl Ha Hi Hn Hw E1 HI X1 X2 X3 X4 X5 X6 X7 HR HT s e.
  assert (HG : Sent = Sent \/ Sent = Found) by now left. revert HG Ea1. generalize Sent at 2 3 4 as g. intros g HG Ea1.
  revert s1 g HG Ea1 E HR1 Hl1 Hi1 Hn1 Hw1 HT1. induction es as [|e es IH]; intros s g HG Ea E HR Hl Hi Hn Hw HT; cbn [sy_run] in E; [injection E as <-; contradiction|].
  destruct (sy_step e s) as [s1|] eqn:E1; [|discriminate]. assert (HI := reached_sinv _ HR).
  destruct (step_spec _ _ _ HI E1) as (X1 & X2 & X3 & X4 & X5 & X6 & X7).
  assert (HR1 : sy_reached s1) by (apply (reached_run [e] s s1 HR); cbn [sy_run]; rewrite E1; reflexivity).
  assert (HT1 : timely es) by (intros H; apply HT; now right).
  assert (Hnt : e <> STimeout) by (intros ->; apply HT; now left).
  destruct e as [h0|h0 n0 x|n0 f|ds| | | |]; cbn [sy_step] in E1; rewrite Ea in E1; try discriminate E1; try congruence.
  - destruct (listening s h0); [discriminate E1|]. injection E1 as <-. refine (IH _ g HG _ E HR1 Hl _ _ _ HT1); [reflexivity|auto..].
  - destruct (sy_servers s h0); [|discriminate E1]. injection E1 as <-. refine (IH _ g HG _ E HR1 Hl _ _ _ HT1); [reflexivity|auto..].
  - destruct g; try discriminate E1. destruct (sy_servers s h) as [r|] eqn:Er; [|discriminate E1].
    assert (Hget : get_endpoint introspect_name r <> None).
    { destruct Hi as (r' & Hr' & Hin). assert (r' = r) by congruence. subst r'. unfold get_endpoint. apply (find_keys _ str_order); [exact (si_reg _ HI _ _ Er)|exact Hin]. }
    destruct (get_endpoint introspect_name r) as [x|] eqn:Eg; [|congruence]. injection E1 as <-. refine (IH _ Found (or_intror eq_refl) _ E HR1 Hl _ _ _ HT1); [reflexivity|auto..].
  - destruct g; try discriminate E1. clear IH.
    assert (E1' : sy_step SList s = Some s1) by (cbn [sy_step]; rewrite Ea; exact E1).
    apply (exact_list s h s1 es s' HR Ea E1' E). now split.
Qed.

Lemma conclude_done s h intro : SInv s -> ~ linked s h -> intro <> Throws -> exists s', conclude s h intro = Some s'.
Proof.
  intros HI Hl Hi. unfold conclude, m_connect. destruct (tfind h (mg_transports (sy_mgr s))) as [t|] eqn:Ef.
  { destruct Hl. exists t. now apply (tfind_some _ _ _ (mi_ot _ (si_m _ HI))). }
  cbn [negb]. destruct intro as [names| |]; [|eexists; reflexivity|congruence].
  assert (Hg : forall i, Makes i <> MakingThrows) by discriminate.
  assert (G := make_all_gentle (mg_factories (sy_mgr s)) Makes names Hg 0 []).
  destruct (make_all (mg_factories (sy_mgr s)) Makes 0 names []) as [eps thrown]. cbn [snd] in G. subst thrown. eexists. reflexivity.
Qed.

(** The next time the manager looks for processes, it finds one that has everything. *)
Theorem found_next s h : sy_reached s -> sy_asking s = None -> sy_todo s = [] -> ~ linked s h -> added s h introspect_name ->
  exists s', sy_run [SManage [h]; SVisit; SLookup; SList] s = Some s' /\ linked s' h /\ forall n, offered s' h n <-> added s h n /\ wanted s n.
Proof.
  intros HR Ea Et Hl Hi. assert (HI := reached_sinv _ HR). destruct Hi as (r & Er & Hin).
  assert (E1 : sy_step (SManage [h]) s = Some {| sy_servers := sy_servers s; sy_mgr := sy_mgr s; sy_todo := [h]; sy_asking := None |}).
  { cbn [sy_step]. rewrite Ea, Et. cbn [forallb]. unfold listening. rewrite Er. reflexivity. }
  set (s1 := {| sy_servers := sy_servers s; sy_mgr := sy_mgr s; sy_todo := [h]; sy_asking := None |}) in E1.
  assert (E2 : sy_step SVisit s1 = Some {| sy_servers := sy_servers s; sy_mgr := sy_mgr s; sy_todo := []; sy_asking := Some (h, Sent) |}).
  { cbn [sy_step sy_asking sy_todo sy_mgr s1]. destruct (tfind h (mg_transports (sy_mgr s))) as [t|] eqn:Ef; [|reflexivity].
    destruct Hl. exists t. now apply (tfind_some _ _ _ (mi_ot _ (si_m _ HI))). }
  set (s2 := {| sy_servers := sy_servers s; sy_mgr := sy_mgr s; sy_todo := []; sy_asking := Some (h, Sent) |}) in E2.
  assert (E3 : sy_step SLookup s2 = Some {| sy_servers := sy_servers s; sy_mgr := sy_mgr s; sy_todo := []; sy_asking := Some (h, Found) |}).
  { cbn [sy_step sy_asking sy_todo sy_mgr sy_servers s2]. rewrite Er.
    destruct (get_endpoint introspect_name r) as [x|] eqn:Eg; [reflexivity|].
    apply (find_keys _ str_order _ _ (si_reg _ HI _ _ Er)) in Hin. unfold get_endpoint in Eg. congruence. }
  set (s3 := {| sy_servers := sy_servers s; sy_mgr := sy_mgr s; sy_todo := []; sy_asking := Some (h, Found) |}) in E3.
  assert (HR3 : sy_reached s3).
  { apply (reached_run [SManage [h]; SVisit; SLookup] s s3 HR). cbn [sy_run]. rewrite E1. rewrite E2. rewrite E3. reflexivity. }
  assert (HI3 := reached_sinv _ HR3).
  assert (Hthrow : Answers (introspect r) <> Throws) by discriminate.
  destruct (conclude_done s3 h (Answers (introspect r)) HI3 Hl Hthrow) as (s4 & E4).
  assert (E4' : sy_step SList s3 = Some s4) by (cbn [sy_step sy_asking sy_servers s3]; rewrite Er; exact E4).
  exists s4. split; [cbn [sy_run]; rewrite E1; rewrite E2; rewrite E3; rewrite E4'; reflexivity|].
  exact (exact_list s3 h s4 [] s4 HR3 eq_refl E4' eq_refl).
Qed.
