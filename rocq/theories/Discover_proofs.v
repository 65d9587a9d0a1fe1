From Coq Require Import String List Arith NArith ZArith Ascii Bool Lia.
Import ListNotations.
From Verif Require Import Json_model Json_proofs Str_model Str_proofs Discover_model Discover_spec.
Local Open Scope nat_scope.
Local Notation length := List.length.
Local Notation newline := Discover_model.newline.

Lemma str_eqb_eq a b : str_eqb a b = true <-> a = b.
Proof.
  revert b. induction a as [|x a IH]; intros [|y b]; cbn; split; intro H; try discriminate; auto.
  - apply andb_true_iff in H as [H1 H2]. apply Ascii.eqb_eq in H1. apply IH in H2. congruence.
  - injection H as -> ->. rewrite Ascii.eqb_refl. apply IH. reflexivity.
Qed.

(** Lines *)
Lemma getlines_app a b acc : getlines_from (a ++ newline :: b) acc = getlines_from (a ++ [newline]) acc ++ getlines b.
Proof.
  revert acc. induction a as [|c a IH]; intro acc; cbn [app getlines_from].
  - rewrite Ascii.eqb_refl. reflexivity.
  - destruct (Ascii.eqb c newline); [cbn [app]; f_equal|]; apply IH.
Qed.
Lemma getlines_line l acc : ~ In newline l -> getlines_from (l ++ [newline]) acc = [rev acc ++ l].
Proof.
  revert acc. induction l as [|c l IH]; intros acc H; cbn [app getlines_from].
  - rewrite Ascii.eqb_refl, app_nil_r. reflexivity.
  - replace (Ascii.eqb c newline) with false by (symmetry; apply Ascii.eqb_neq; intros ->; apply H; left; reflexivity).
    rewrite IH by (intro G; apply H; right; exact G). cbn [rev]. rewrite <- app_assoc. reflexivity.
Qed.
Lemma getlines_cons l b : ~ In newline l -> getlines (l ++ newline :: b) = l :: getlines b.
Proof. intro H. unfold getlines at 1. rewrite getlines_app, getlines_line by exact H. reflexivity. Qed.
Lemma getlines_split a b : getlines (a ++ newline :: b) = getlines (a ++ [newline]) ++ getlines b.
Proof. apply getlines_app. Qed.

(** One line *)
Definition ends_with (l e : str) : Prop := exists a, l = a ++ e.
Lemma scan_other l : ~ ends_with l suffix -> scan_line l = LSkip.
Proof.
  intro H. unfold scan_line. destruct (Nat.ltb_spec (length l) (length suffix)); [reflexivity|].
  pose proof (firstn_skipn (length l - length suffix) l) as E. remember (firstn (length l - length suffix) l) as a. remember (skipn (length l - length suffix) l) as e.
  assert (Hs : substr l (length l - length suffix) None = Some e).
  { rewrite <- E at 1. assert (La : length a = length l - length suffix) by (subst a; rewrite firstn_length; lia). rewrite <- La. apply substr_end. }
  rewrite Hs. destruct (str_eqb e suffix) eqn:Ee; [|reflexivity]. apply str_eqb_eq in Ee. exfalso. apply H. exists a. congruence.
Qed.
Lemma spaces_snoc n : spaces (S n) = spaces n ++ [" "%char].
Proof. unfold spaces. change (S n) with (1 + n). rewrite Nat.add_comm, repeat_app. reflexivity. Qed.
Lemma not_in_digits c n : is_digit c = false -> ~ In c (dump_nat n).
Proof. intros Hc H. pose proof (dump_nat_digits n) as G. rewrite forallb_forall in G. apply G in H. congruence. Qed.
Lemma atoi_inode i : (i < 4294967296)%N -> atoi_is_zero (" "%char :: dump_nat i) = (i =? 0)%N.
Proof.
  intro H. unfold atoi_is_zero. change (" "%char :: dump_nat i) with ([" "%char] ++ dump_nat i). rewrite (skip_read [" "%char]) by reflexivity. rewrite <- (app_nil_r (dump_nat i)). rewrite read_number_nat by exact I.
  replace (i <? two63)%N with true by (symmetry; apply N.ltb_lt; unfold two63; lia). rewrite N.mod_small by exact H. reflexivity.
Qed.
Lemma strtoul_pid p : (p < two64)%N -> strtoul (dump_nat p) = p.
Proof.
  intro H. unfold strtoul, stoull. rewrite <- (app_nil_r (dump_nat p)). rewrite read_number_nat by exact I.
  replace (two64 <=? p)%N with false by (symmetry; apply N.leb_gt; exact H). reflexivity.
Qed.
(** The entry of a server socket, or of a connection to one. *)
Lemma scan_named s p : k_name s = Some (server_name p) -> (k_inode s < 4294967296)%N ->
  scan_line (entry s) = if (k_inode s =? 0)%N then LSkip else LPid (strtoul (dump_nat p)).
Proof.
  intros Hn Hi. unfold entry. rewrite Hn. set (ds := dump_nat (k_inode s)). set (line := k_front s ++ spaces (S (k_pad s)) ++ ds ++ " "%char :: server_name p).
  set (A := k_front s ++ spaces (S (k_pad s)) ++ ds). set (B := k_front s ++ spaces (k_pad s)). set (path := dump_nat p ++ suffix).
  assert (E1 : line = A ++ " "%char :: "@"%char :: path) by (unfold line, A, server_name, path; rewrite <- !app_assoc; reflexivity).
  assert (E2 : A = B ++ " "%char :: ds) by (unfold A, B; rewrite spaces_snoc, <- !app_assoc; reflexivity).
  assert (E3 : line = (A ++ " "%char :: "@"%char :: dump_nat p) ++ suffix) by (rewrite E1; unfold path; rewrite <- app_assoc; reflexivity).
  assert (L : length line - length suffix = length (A ++ " "%char :: "@"%char :: dump_nat p)) by (rewrite E3, app_length; lia).
  unfold scan_line. replace (length line <? length suffix) with false by (symmetry; apply Nat.ltb_ge; rewrite E3, app_length; lia).
  rewrite L. rewrite E3 at 1. rewrite substr_end. replace (str_eqb suffix suffix) with true by reflexivity.
  assert (Hsp : ~ In " "%char ("@"%char :: path)).
  { intros [H|H]; [discriminate|]. unfold path in H. apply in_app_or in H as [H|H]; [exact (not_in_digits " " p eq_refl H)|]. repeat (destruct H as [H|H]; [discriminate|]). destruct H. }
  assert (R1 : rfind_char " " line = Some (length A)) by (rewrite E1; apply rfind_app; exact Hsp).
  cbn zeta. rewrite R1. unfold plus.
  assert (S1 : substr line (length A + 2) None = Some path).
  { replace (length A + 2) with (length (A ++ [" "%char; "@"%char])) by (rewrite app_length; reflexivity). rewrite E1.
    replace (A ++ " "%char :: "@"%char :: path) with ((A ++ [" "%char; "@"%char]) ++ path) by (rewrite <- app_assoc; reflexivity). apply substr_end. }
  rewrite S1.
  assert (R2 : rfind_upto " " line (pred_upto (Some (length A)) line) = Some (length B)).
  { assert (LA : length A = S (length B + length ds)) by (rewrite E2, app_length; cbn; lia). unfold rfind_upto, pred_upto. rewrite LA. 
    rewrite <- LA. rewrite E1. rewrite firstn_app, firstn_all, Nat.sub_diag. cbn [firstn]. rewrite app_nil_r, E2. apply rfind_app. apply (not_in_digits " "). reflexivity. }
  rewrite R2. unfold minus. replace (length A <? length B) with false by (symmetry; apply Nat.ltb_ge; rewrite E2, app_length; lia).
  assert (S2 : substr line (length B) (Some (length A - length B)) = Some (" "%char :: ds)).
  { replace (length A - length B) with (length (" "%char :: ds)) by (rewrite E2, app_length; lia). rewrite E1, E2, <- app_assoc. cbn [app].
    apply (substr_mid B (" "%char :: ds)). }
  rewrite S2. unfold ds. rewrite atoi_inode by exact Hi. destruct (k_inode s =? 0)%N; [reflexivity|].
  replace (length path <? length suffix) with false by (symmetry; apply Nat.ltb_ge; unfold path; rewrite app_length; lia).
  replace (length path - length suffix) with (length (dump_nat p)) by (unfold path; rewrite app_length; lia).
  rewrite (substr_mid [] (dump_nat p) suffix : substr path 0 (Some (length (dump_nat p))) = Some (dump_nat p)). reflexivity.
Qed.
Lemma last_suffix a : exists b, a ++ suffix = b ++ ["s"%char].
Proof. exists (a ++ Discover_model.text "_scalopu"). rewrite <- app_assoc. reflexivity. Qed.
Lemma scan_other_sock s : other s -> scan_line (entry s) = LSkip.
Proof.
  intro H. apply scan_other. intros (a & E). unfold entry, other in *. destruct (k_name s) as [n|].
  - destruct H as [_ H]. rewrite !app_assoc in E. set (f := (k_front s ++ spaces (S (k_pad s))) ++ dump_nat (k_inode s)) in E.
    destruct (Nat.le_gt_cases (length f) (length a)) as [Hl|Hl].
    + apply (f_equal (skipn (length f))) in E. rewrite !skipn_app, skipn_all, Nat.sub_diag in E. replace (length f - length a) with 0 in E by lia. cbn [app skipn] in E.
      exact (H _ E).
    + apply (f_equal (skipn (length a))) in E. rewrite !skipn_app, skipn_all, Nat.sub_diag in E. cbn [app skipn] in E. replace (length a - length f) with 0 in E by lia. cbn [skipn] in E.
      assert (G : In " "%char suffix) by (rewrite <- E; apply in_or_app; right; left; reflexivity). repeat (destruct G as [G|G]; [discriminate|]). destruct G.
  - rewrite app_nil_r in E. destruct (last_suffix a) as (b & Eb). rewrite Eb, app_assoc in E.
    destruct (dump_nat (k_inode s)) as [|c ds] eqn:Ed using rev_ind.
    + destruct (dump_nat_head (k_inode s)) as (c & t & Ed' & _). congruence.
    + rewrite app_assoc in E. apply app_inj_tail in E as [_ ->]. pose proof (dump_nat_digits (k_inode s)) as G. rewrite Ed, forallb_app in G.
      apply andb_true_iff in G as [_ G]. discriminate.
Qed.

Lemma entry_no_newline s : decent s -> ~ In newline (entry s).
Proof.
  intros [Hf H] G. unfold entry in G. apply in_app_or in G as [G|G]; [exact (Hf G)|]. apply in_app_or in G as [G|G].
  { apply repeat_spec in G. discriminate. }
  apply in_app_or in G as [G|G]; [exact (not_in_digits newline _ eq_refl G)|].
  assert (Hs : forall p, ~ In newline (" "%char :: server_name p)).
  { intros p [K|[K|K]]; try discriminate. apply in_app_or in K as [K|K]; [exact (not_in_digits newline _ eq_refl K)|]. repeat (destruct K as [K|K]; [discriminate|]). destruct K. }
  destruct H as [[_ (p & E)]|[H|(p & _ & E & _)]].
  - rewrite E in G. exact (Hs p G).
  - unfold other in H. destruct (k_name s) as [n|]; [|destruct G]. destruct G as [G|G]; [discriminate|tauto].
  - rewrite E in G. exact (Hs p G).
Qed.
Lemma header_lines b : getlines (header ++ newline :: b) = header :: getlines b.
Proof. apply getlines_cons. intro H. repeat (destruct H as [H|H]; [discriminate|]). destruct H. Qed.
Lemma header_skip : scan_line header = LSkip. Proof. vm_compute. reflexivity. Qed.
Lemma table_lines ss : Forall decent ss -> getlines (table ss) = header :: map entry ss.
Proof.
  intro H. unfold table. rewrite header_lines. f_equal. induction H as [|s ss Hs _ IH]; [reflexivity|]. cbn [map concat]. rewrite <- app_assoc. cbn [app].
  rewrite getlines_cons by (apply entry_no_newline; exact Hs). f_equal. exact IH.
Qed.
Lemma of_server_fun p q s : of_server p s -> of_server q s -> p = q.
Proof.
  intros [Hp _] [Hq _]. rewrite Hp in Hq. injection Hq as Hq. assert (E : dump_nat p = dump_nat q). { apply (app_inv_tail suffix). exact Hq. }
  rewrite <- (dump_nat_value p), <- (dump_nat_value q), E. reflexivity.
Qed.
Lemma scan_entry s : decent s -> match scan_line (entry s) with
  | LSkip => forall p, ~ of_server p s
  | LPid p => (p < 4294967296)%N /\ of_server p s
  | LThrows => False end.
Proof.
  intros [_ H]. destruct H as [[H0 (p & E)]|[H|(p & Hp & E & Hi)]].
  - rewrite (scan_named s p E) by lia. rewrite H0. intros q [_ Hq]. lia.
  - rewrite (scan_other_sock s H). intros q [Hq _]. unfold other in H. rewrite Hq in H. destruct H as [_ H]. eapply (H (" "%char :: "@"%char :: dump_nat q)). reflexivity.
  - rewrite (scan_named s p E) by lia. replace (k_inode s =? 0)%N with false by (symmetry; apply N.eqb_neq; lia). rewrite strtoul_pid by (unfold two64; lia). split; [exact Hp|split; assumption].
Qed.
Lemma exact_lemma ss : Forall decent ss -> exists ps, discover (table ss) = Some ps /\ listed ss ps.
Proof.
  intro H. unfold discover, get_servers. rewrite (table_lines ss H). cbn [scan_lines]. rewrite header_skip.
  assert (G : exists ps, scan_lines (map entry ss) = Some ps /\ listed ss ps /\ Forall (fun p => (p < 4294967296)%N) ps).
  { induction H as [|s ss Hs _ (ps & E & Hl & Hf)]; [exists []; repeat split; constructor|]. cbn [map scan_lines]. pose proof (scan_entry s Hs) as G.
    rewrite E. destruct (scan_line (entry s)) as [|p|].
    - exists ps. split; [reflexivity|]. split; [apply listed_not; assumption|exact Hf].
    - exists (p :: ps). split; [reflexivity|]. destruct G as [G1 G2]. split; [apply listed_server; assumption|constructor; assumption].
    - contradiction. }
  destruct G as (ps & -> & Hl & Hf). cbn. exists ps. split; [|exact Hl]. f_equal. rewrite <- (map_id ps) at 2. apply map_ext_in. intros p Hp.
  rewrite Forall_forall in Hf. apply N.mod_small. apply Hf. exact Hp.
Qed.
Lemma listed_in ss ps p : listed ss ps -> In p ps <-> exists s, In s ss /\ of_server p s.
Proof.
  induction 1 as [|s q ss ps Hs _ IH|s ss ps Hs _ IH].
  - split; [intros []|intros (s & [] & _)].
  - cbn [In]. rewrite IH. split.
    + intros [->|(x & Hx & Hp)]; [exists s; auto|exists x; auto].
    + intros (x & [->|Hx] & Hp); [left; eapply of_server_fun; eassumption|right; eauto].
  - rewrite IH. split; [intros (x & Hx & Hp); exists x; split; [right|]; assumption|]. intros (x & [->|Hx] & Hp); [exfalso; eapply Hs; exact Hp|eauto].
Qed.
Lemma exact_set ss : Forall decent ss -> exists ps, discover (table ss) = Some ps /\ listed ss ps /\ forall p, In p ps <-> exists s, In s ss /\ of_server p s.
Proof. intro H. destruct (exact_lemma ss H) as (ps & E & Hl). exists ps. split; [exact E|]. split; [exact Hl|]. intro p. apply listed_in. exact Hl. Qed.

(** Whatever other names there are. *)
Lemma scan_lines_in ls l p r : In l ls -> scan_line l = LPid p -> scan_lines ls = Some r -> In p r.
Proof.
  revert r. induction ls as [|x ls IH]; intros r Hin Hl H; [destruct Hin|]. cbn in H. destruct (scan_lines ls) as [r'|]; [|destruct (scan_line x); discriminate].
  destruct Hin as [->|Hin].
  - rewrite Hl in H. injection H as <-. left. reflexivity.
  - specialize (IH r' Hin Hl eq_refl). destruct (scan_line x); [injection H as <-; exact IH|injection H as <-; right; exact IH|discriminate].
Qed.
Lemma entry_in_lines s ss : In s ss -> ~ In newline (entry s) -> In (entry s) (getlines (table ss)).
Proof.
  intros Hin Hn. unfold table. rewrite header_lines. right. apply in_split in Hin as (a & b & ->). rewrite map_app, concat_app. cbn [map concat].
  assert (G : forall c, getlines (concat (map (fun s => entry s ++ [newline]) a) ++ c) = getlines (concat (map (fun s => entry s ++ [newline]) a)) ++ getlines c).
  { intro c. destruct a as [|x a _] using rev_ind; [reflexivity|]. rewrite map_app, concat_app. cbn [map concat]. rewrite app_nil_r, !app_assoc.
    rewrite <- (app_assoc _ [newline] c). cbn [app]. apply getlines_split. }
  rewrite G. apply in_or_app. right. rewrite <- app_assoc. cbn [app]. rewrite getlines_cons by exact Hn. left. reflexivity.
Qed.
Lemma complete_lemma ss s p ps : In s ss -> of_server p s -> ~ In newline (k_front s) -> (p < 4294967296)%N -> discover (table ss) = Some ps -> In p ps.
Proof.
  intros Hin Hs Hf Hp H. assert (Hd : decent s) by (split; [exact Hf|]; right; right; eauto).
  unfold discover, get_servers in H. destruct (scan_lines (getlines (table ss))) as [r|] eqn:E; [|discriminate]. injection H as <-.
  assert (G : scan_line (entry s) = LPid p).
  { destruct Hs as [Hn Hi]. rewrite (scan_named s p Hn) by lia. replace (k_inode s =? 0)%N with false by (symmetry; apply N.eqb_neq; lia).
    rewrite strtoul_pid by (unfold two64; lia). reflexivity. }
  replace p with (destination p) by (apply N.mod_small; exact Hp). apply in_map.
  eapply scan_lines_in; [apply entry_in_lines; [exact Hin|apply entry_no_newline; exact Hd]|exact G|exact E].
Qed.
Lemma hash_lemma p q : (p < 4294967296)%N -> (q < 4294967296)%N -> destination p = destination q <-> p = q.
Proof. intros Hp Hq. unfold destination. rewrite !N.mod_small by assumption. reflexivity. Qed.

(** ** Cases *)
Definition front0 : str := Discover_model.text "0000000000000000: 00000002 00000000 00010000 0001 01".
Definition named (i : N) (n : str) : sock := {| k_front := front0; k_pad := 0; k_inode := i; k_name := Some n |}.
Example decent_case : let ss := [named 235190 (server_name 16121); named 0 (server_name 16121); named 7 (Discover_model.text "/tmp/.X11-unix/X0");
    {| k_front := front0; k_pad := 3; k_inode := 22; k_name := None |}; named 235191 (server_name 16121); named 12 (server_name 4)] in
  Forall decent ss /\ discover (table ss) = Some [16121; 16121; 4]%N.
Proof.
  split; [|vm_compute; reflexivity].
  assert (Hf : ~ In newline front0) by (intro H; repeat (destruct H as [H|H]; [discriminate|]); destruct H).
  repeat apply Forall_cons; try apply Forall_nil; (split; [exact Hf|]).
  - right. right. exists 16121%N. split; [reflexivity|]. split; [reflexivity|]. split; reflexivity.
  - left. split; [reflexivity|]. exists 16121%N. reflexivity.
  - right. left. split; [intro H; repeat (destruct H as [H|H]; [discriminate|]); destruct H|]. intros a E. destruct (last_suffix a) as (b & Eb). rewrite Eb in E.
    change (" "%char :: Discover_model.text "/tmp/.X11-unix/X0") with ((Discover_model.text " /tmp/.X11-unix/X") ++ ["0"%char]) in E. apply app_inj_tail in E as [_ E]. discriminate.
  - right. left. exact I.
  - right. right. exists 16121%N. split; [reflexivity|]. split; [reflexivity|]. split; reflexivity.
  - right. right. exists 4%N. split; [reflexivity|]. split; [reflexivity|]. split; reflexivity.
Qed.
(** A socket in the file system, and an abstract one, that are no servers; and one with a line break in its name. *)
Lemma file_witness : discover (table [named 9 (Discover_model.text "/run/my_scalopus")]) = Some [0%N]
  /\ discover (table [named 9 (Discover_model.text "@7up_scalopus")]) = Some [7%N]
  /\ forall p, ~ of_server p (named 9 (Discover_model.text "/run/my_scalopus")) /\ ~ of_server p (named 9 (Discover_model.text "@7up_scalopus")).
Proof.
  split; [vm_compute; reflexivity|]. split; [vm_compute; reflexivity|]. intro p. split; intros [H _]; [discriminate|].
  cbn [k_name named] in H. injection H as H. change (Discover_model.text "7up_scalopus") with (Discover_model.text "7up" ++ suffix) in H.
  assert (H' : Discover_model.text "7up" ++ suffix = dump_nat p ++ suffix) by exact H. apply app_inv_tail in H'. pose proof (dump_nat_digits p) as G. rewrite <- H' in G. discriminate.
Qed.
Lemma throw_witness : discover (table [named 9 (server_name 16121); named 10 ("@"%char :: newline :: suffix)]) = None.
Proof. vm_compute. reflexivity. Qed.
Lemma front0_plain : ~ In newline front0.
Proof. intro H. repeat (destruct H as [H|H]; [discriminate|]). destruct H. Qed.
Lemma file_refuted : ~ forall ss ps p, (forall s, In s ss -> ~ In newline (k_front s)) -> discover (table ss) = Some ps ->
  In p ps -> exists s, In s ss /\ of_server p s.
Proof.
  intro H. destruct file_witness as (_ & E & N). pose proof (fun G => H _ _ 7%N G E (or_introl eq_refl)) as K.
  destruct K as (s & [<-|[]] & Hp); [intros s [<-|[]]; exact front0_plain|]. exact (proj2 (N _) Hp).
Qed.
Lemma throw_refuted : ~ forall ss, (forall s, In s ss -> ~ In newline (k_front s)) -> discover (table ss) <> None.
Proof. intro H. refine (H _ _ throw_witness). intros s [<-|[<-|[]]]; exact front0_plain. Qed.
