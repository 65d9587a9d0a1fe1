(** Proofs for C89. *)
From Coq Require Import String List Arith NArith ZArith Ascii Bool Lia Sorted.
Import ListNotations.
From Verif Require Import UnixSystem_model UnixSystem_proofs OMap_model Str_model Str_proofs Json_model Json_spec Json_proofs Http_model Http_spec.
Local Open Scope list_scope.

(** ** The link reader reads what a link says *)
Lemma until_app c a r : ~ In c a -> until c (a ++ c :: r) = (a, r).
Proof.
  induction a as [|x a IH]; intros H; cbn [app until].
  - now rewrite Ascii.eqb_refl.
  - destruct (Ascii.eqb_spec x c) as [->|N]; [destruct H; now left|]. rewrite IH; [reflexivity|]. intros X. apply H. now right.
Qed.
Lemma after_ws_app pre r : ~ In "="%char pre -> after_ws (pre ++ text "ws=" ++ r) = Some r.
Proof.
  induction pre as [|x pre IH]; intros H.
  - reflexivity.
  - assert (Hp : ~ In "="%char pre) by (intros X; apply H; now right). specialize (IH Hp).
    assert (E : strip (text "ws=") ((x :: pre) ++ text "ws=" ++ r) = None).
    { destruct (strip (text "ws=") ((x :: pre) ++ text "ws=" ++ r)) as [q|] eqn:E; [exfalso|reflexivity].
      change (text "ws=") with (["w"; "s"; "="]%char : list ascii) in E. cbn [app] in E.
      destruct pre as [|y [|z pre]]; cbn [app strip] in E; destruct (Ascii.eqb_spec "w"%char x) as [_|_]; try discriminate E.
      - destruct (Ascii.eqb_spec "s"%char y) as [_|_]; [|discriminate E]. cbn in E. discriminate E.
      - destruct (Ascii.eqb_spec "s"%char y) as [_|_]; [|discriminate E]. destruct (Ascii.eqb_spec "="%char z) as [<-|_]; [|discriminate E].
        apply Hp. right. now left. }
    change ((x :: pre) ++ text "ws=" ++ r) with (x :: (pre ++ text "ws=" ++ r)) in *. cbn [after_ws]. rewrite E. exact IH.
Qed.

Theorem target_link pre host p path : ~ In "="%char pre -> ~ In ":"%char host ->
  target (pre ++ text "ws=" ++ host ++ ":"%char :: dump_nat p ++ "/"%char :: path) = Some (host, p, "/"%char :: path).
Proof.
  intros H1 H2. unfold target. rewrite after_ws_app by exact H1. rewrite until_app by exact H2.
  rewrite (span_digits_app (dump_nat p) ("/"%char :: path)); [|apply uint_is_digit|reflexivity].
  destruct (dump_nat_head p) as (c & t & E & _). rewrite E. rewrite <- E. unfold dump_nat. now rewrite uint_value, DecimalN.Unsigned.of_to.
Qed.

(** ** Which requests are answered *)
Lemma starts_spec p s : starts p s = true <-> exists q, s = p ++ q.
Proof.
  split.
  - revert s. induction p as [|a p IH]; intros s H; [now exists s|]. destruct s as [|b s]; [discriminate H|]. cbn [starts] in H.
    apply andb_prop in H. destruct H as (H1 & H2). apply Ascii.eqb_eq in H1. subst b. destruct (IH _ H2) as (q & ->). now exists q.
  - intros (q & ->). apply starts_app.
Qed.
Theorem handled uri : (exists b, handle uri = Page b) <-> uri = text "/json/version" \/ exists q, uri = text "/json/list" ++ q.
Proof.
  unfold handle. split.
  - intros (b & H). destruct (bytes_eqb uri (text "/json/version")) eqn:E; [left; now apply bytes_eqb_eq|].
    destruct (starts (text "/json/list") uri) eqn:E2; [|discriminate H]. right. now apply starts_spec.
  - intros [->|(q & ->)].
    + rewrite bytes_eqb_refl. eauto.
    + destruct (bytes_eqb _ _); [eauto|]. rewrite starts_app. eauto.
Qed.

(** ** The pages are JSON *)
Definition no_float (b : bytes) : option Empty_set := None.
Fixpoint wfb (j : value) : bool :=
  match j with
  | JStr s => utf8 s
  | JArr l => forallb wfb l
  | JObj m => forallb (fun kv => utf8 (fst kv) && wfb (snd kv)) m &&
      (fix asc (m : list (bytes * value)) : bool := match m with a :: m' => forallb (fun b => str_ltb (fst a) (fst b)) m' && asc m' | [] => true end) m
  | JNull | JBool _ => true
  | _ => false
  end.
Lemma wfb_wf j : wfb j = true -> wf write no_float j.
Proof.
  induction j as [|b|z|f|s|l IH|m IH] using json_full_ind; intros H; cbn [wfb] in H; try discriminate H.
  - constructor.
  - constructor.
  - now constructor.
  - constructor. rewrite forallb_forall in H. rewrite Forall_forall in *. auto.
  - apply andb_prop in H. destruct H as (H & HA). constructor.
    + clear IH H. unfold ascending. induction m as [|a m IHm]; [constructor|]. apply andb_prop in HA. destruct HA as (H1 & H2).
      constructor; [now apply IHm|]. rewrite forallb_forall in H1. now apply Forall_forall.
    + rewrite forallb_forall in H. rewrite Forall_forall in *. intros x Hx. specialize (H x Hx). apply andb_prop in H. destruct H. split; [assumption|]. apply (IH x Hx). assumption.
Qed.
Theorem page_json uri b : handle uri = Page b -> exists t, b = Some t /\
  parse no_float t = Some (if bytes_eqb uri (text "/json/version") then version_page else list_page).
Proof.
  assert (D : forall r r', Page r = Page r' -> r = r') by congruence.
  assert (V := parse_dump write no_float version_page (wfb_wf version_page ltac:(vm_compute; reflexivity))).
  assert (L := parse_dump write no_float list_page (wfb_wf list_page ltac:(vm_compute; reflexivity))).
  unfold handle, dump_value. generalize dependent version_page. generalize dependent list_page. intros lp L vp V H. destruct (bytes_eqb uri (text "/json/version")).
  - apply D in H. rewrite <- H. exact V.
  - destruct (starts (text "/json/list") uri); [|discriminate H]. apply D in H. rewrite <- H. exact L.
Qed.

(** ** The addresses *)
Theorem version_socket port : exists u, member "webSocketDebuggerUrl" version_page = Some (JStr u) /\ opens port port ("/"%char :: u) = true.
Proof.
  exists (text "devtools/page/bar"). split; [vm_compute; reflexivity|]. unfold opens. rewrite N.eqb_refl. vm_compute. reflexivity.
Qed.
Theorem list_link : exists page u, list_page = JArr [page] /\ member "devtoolsFrontendUrl" page = Some (JStr u) /\
  target u = Some (text "127.0.0.1", 9222%N, text "/devtools/p") /\ forall port, ~ usable port u.
Proof.
  eexists. exists (text "/devtools/inspector.html?ws=127.0.0.1:9222/devtools/p"). split; [vm_compute; reflexivity|]. split; [vm_compute; reflexivity|].
  assert (T : target (text "/devtools/inspector.html?ws=127.0.0.1:9222/devtools/p") = Some (text "127.0.0.1", 9222%N, text "/devtools/p")) by (vm_compute; reflexivity).
  split; [exact T|]. intros port (h & p & path & E & O). assert (path = text "/devtools/p") by congruence. subst path. unfold opens in O.
  apply andb_prop in O. destruct O as (_ & O). vm_compute in O. discriminate O.
Qed.
(** Even with one of the right paths the link would be good for one port only. *)
Theorem list_port port path u : member "devtoolsFrontendUrl" (match list_page with JArr [p] => p | _ => JNull end) = Some (JStr u) ->
  In path socket_paths -> port <> 9222%N ->
  exists h p0 q, target u = Some (h, p0, q) /\ opens port p0 path = false.
Proof.
  intros H _ Hp. assert (E : u = text "/devtools/inspector.html?ws=127.0.0.1:9222/devtools/p").
  { vm_compute in H. injection H as <-. reflexivity. }
  subst u. exists (text "127.0.0.1"), 9222%N, (text "/devtools/p"). split; [vm_compute; reflexivity|]. unfold opens.
  destruct (N.eqb_spec port 9222); [contradiction|reflexivity].
Qed.
(** A link with the port of the server and a path it serves is good. *)
Example good_link port : usable port (text "/devtools/inspector.html?" ++ text "ws=" ++ text "127.0.0.1" ++ ":"%char :: dump_nat port ++ text "/devtools/page/bar").
Proof.
  exists (text "127.0.0.1"), port, (text "/devtools/page/bar"). split.
  - apply (target_link (text "/devtools/inspector.html?") (text "127.0.0.1") port (text "devtools/page/bar")); cbn; intuition discriminate.
  - unfold opens. rewrite N.eqb_refl. vm_compute. reflexivity.
Qed.

(** ** Starting the server *)
Theorem server_exact l s : server_run l Fresh = Some s ->
  (s = Terminated <-> exists l', l = Start :: Start :: l') /\ (s = Gone <-> l = [Destroy] \/ l = [Start; Destroy]).
Proof.
  assert (K : forall l t, (t = Gone \/ t = Terminated) -> server_run l t = Some s -> l = [] /\ s = t).
  { intros [|c l0] t [-> | ->] H; cbn in H; try discriminate H; injection H as <-; auto. }
  destruct l as [|[|] l]; cbn [server_run server_step].
  - intros H. injection H as <-. split; split; try discriminate; [intros (l' & X); discriminate X|intros [X|X]; discriminate X].
  - destruct l as [|[|] l]; cbn [server_run server_step]; intros H.
    + injection H as <-. split; split; try discriminate; [intros (l' & X); discriminate X|intros [X|X]; discriminate X].
    + apply K in H; [|auto]. destruct H as (-> & ->). split; split; try discriminate; eauto. intros [X|X]; discriminate X.
    + apply K in H; [|auto]. destruct H as (-> & ->). split; split; try discriminate; auto. intros (l' & X); discriminate X.
  - intros H. apply K in H; [|auto]. destruct H as (-> & ->). split; split; try discriminate; auto. intros (l' & X); discriminate X.
Qed.
