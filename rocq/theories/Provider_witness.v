From Coq Require Import List Arith Bool Lia.
Import ListNotations.
From Verif Require Import UnixSystem_model UnixSystem_proofs Provider_model Provider_spec Provider_proofs.

(** C29 when calls overlap. A call that began before the interval can end up in it: it looked while the previous interval was
    recording. *)
Definition early : list (label nat) :=
  [LMake] ++ start_pieces 0 ++ [LBegin 7; LLook 0] ++ finish_pieces 0.
Lemma early_lemma :
  ~ (forall (h1 h2 : list (label nat)) p, lrun (h1 ++ start_pieces 0 ++ h2) prov0 = Some p -> ~ In (LClear 0) h2 ->
       forall r, In r (handed 0 [] (h1 ++ start_pieces 0 ++ h2)) -> length (begun h1) <= r).
Proof.
  intro H. specialize (H early [LAdd 0 0]). eassert (R : lrun (early ++ start_pieces 0 ++ [LAdd 0 0]) prov0 = Some _).
  { vm_compute. reflexivity. }
  specialize (H _ R). assert (Hc : ~ In (@LClear nat 0) [LAdd 0 0]) by (intros [E|[]]; discriminate).
  assert (H1 : 1 <= 0); [|lia]. apply (H Hc). vm_compute. left. reflexivity.
Qed.

(** And a call that began while the source was recording can miss the interval: the interval is finished between the look and
    the handing over. The finished interval is [data_of 0 p], read when it is cleared. *)
Lemma late_lemma :
  ~ (forall (h1 h2 h3 : list (label nat)) d p q,
       lrun (h1 ++ LBegin d :: h2 ++ [LStore 0 false]) prov0 = Some p -> lrun (LClear 0 :: h3) p = Some q ->
       on 0 false h1 = true -> 0 < lmade h1 -> (forall b, ~ In (LStore 0 b) h2) -> ~ In (LClear 0) h2 ->
       over (length (begun h1)) q -> In d (data_of 0 p)).
Proof.
  intro H. specialize (H (LMake :: start_pieces 0) [LLook 0] [LAdd 0 0] 7).
  eassert (R : lrun ((LMake :: start_pieces 0) ++ LBegin 7 :: [LLook 0] ++ [LStore 0 false]) prov0 = Some _).
  { vm_compute. reflexivity. }
  specialize (H _ {| p_srcs := [{| s_rec := false; s_data := [7]; s_held := true |}]; p_alive := true;
                     p_inc := [{| c_data := 7; c_look := []; c_todo := [] |}] |} R eq_refl eq_refl).
  apply H.
  - cbn. lia.
  - intros b [E|[]]; discriminate.
  - intros [E|[]]; discriminate.
  - eexists. split; [vm_compute; reflexivity|]. split; reflexivity.
Qed.

(** C30: a released source goes on collecting: all that is ever received. *)
Lemma released_lemma {D} (ds : list D) :
  exists p s, op_run ([OMake; OStart 0; ORelease 0] ++ map OReceive ds) prov0 = Some p
    /\ p_srcs p = [s] /\ s_held s = false /\ s_data s = ds.
Proof.
  rewrite op_run_app. cbn [op_run op_step]. set (p0 := release 0 _).
  assert (G : forall l, exists p, op_run (map OReceive ds)
      {| p_srcs := [{| s_rec := true; s_data := l; s_held := false |}]; p_alive := true; p_inc := [] |} = Some p
      /\ p_srcs p = [{| s_rec := true; s_data := l ++ ds; s_held := false |}]).
  { clear p0. induction ds as [|d ds IH]; intro l; cbn [map op_run op_step].
    - eexists. split; [reflexivity|]. rewrite app_nil_r. reflexivity.
    - cbn. destruct (IH (l ++ [d])) as (p & Hp & Hs). exists p. split; [exact Hp|]. rewrite Hs, <- app_assoc. reflexivity. }
  destruct (G []) as (p & Hp & Hs). exists p. eexists. split; [exact Hp|]. split; [exact Hs|]. split; reflexivity.
Qed.

(** A source that was stopped before it was released collects nothing more. *)
Lemma stopped_lemma {D} (h1 h2 : list (op D)) i p q :
  no_drop (h1 ++ h2) -> i < made h1 -> no_start_or_finish i h2 ->
  op_run (h1 ++ [OStop i; ORelease i]) prov0 = Some p -> op_run h2 p = Some q -> data_of i q = data_of i p.
Proof.
  intros Hn Hi Hs Hp Hq.
  assert (Hn1 : no_drop (h1 ++ [OStop i; ORelease i])).
  { intro H. apply in_app_or in H as [H|[H|[H|[]]]]; try discriminate. apply Hn, in_or_app. auto. }
  assert (Hn2 : no_drop h2) by (intro H; apply Hn, in_or_app; auto).
  destruct (op_run_ok _ prov0 eq_refl Hn1) as (p' & E & Ha & Hl). rewrite E in Hp. injection Hp as ->.
  assert (Hm : made (h1 ++ [OStop i; ORelease i]) = made h1).
  { clear. induction h1 as [|[] h1 IH]; cbn; auto. }
  rewrite Hm in Hl. cbn in Hl.
  rewrite (quiet_run i h2 p q Ha Hn2 Hs ltac:(lia) Hq).
  assert (Hr : rec_of i p = false).
  { rewrite op_run_app in E. assert (Hn1' : no_drop h1) by (intro H; apply Hn, in_or_app; auto).
    destruct (op_run_ok _ prov0 eq_refl Hn1') as (p1 & E1 & Ha1 & Hl1). rewrite E1 in E. cbn [op_run op_step] in E. injection E as <-.
    rewrite release_rec. unfold stop. rewrite store_rec by (cbn in Hl1; lia). rewrite Nat.eqb_refl. reflexivity. }
  rewrite Hr, app_nil_r. reflexivity.
Qed.

(** Finishing an interval when the provider is gone. *)
Lemma expired_lemma : ~ (forall (h : list (op nat)) i, i < made h -> exists p, op_run (h ++ [OFinish i]) prov0 = Some p).
Proof.
  intro H. destruct (H [OMake; OStart 0; ODrop] 0) as (p & Hp); [cbn; lia|]. vm_compute in Hp. discriminate.
Qed.
Lemma kept_lemma {D} (h : list (op D)) : no_drop h -> exists p, op_run h prov0 = Some p.
Proof. intro H. destruct (op_run_ok h prov0 eq_refl H) as (p & E & _). eauto. Qed.

(** Non-trivial cases. Two sources with overlapping intervals; what the second one gets is not what the first one gets. *)
Example interval_example :
  exists p p', op_run ([OMake; OMake; OReceive 1; OStart 1; OReceive 2] ++ OStart 0 :: [OReceive 3; OStop 1; OReceive 4; OStop 0; OReceive 5]) prov0 = Some p
    /\ op_step (OFinish 0) p = ODone p' (Some [3; 4]).
Proof. eexists. eexists. split; vm_compute; reflexivity. Qed.
Example interval_example' :
  no_drop ([OMake; OMake; OReceive 1; OStart 1; OReceive 2] ++ [OReceive 3; OStop 1; OReceive 4; OStop 0; OReceive 5])
  /\ 0 < made (D := nat) [OMake; OMake; OReceive 1; OStart 1; OReceive 2]
  /\ no_start_or_finish 0 [OReceive 3; OStop 1; OReceive 4; OStop 0; OReceive 5]
  /\ received_in (until_stop 0 [OReceive 3; OStop 1; OReceive 4; OStop 0; OReceive 5]) = [3; 4].
Proof. split; [|vm_compute; auto]. intros H. cbn in H. intuition discriminate. Qed.
(** Two calls at once, one of them overlapping the stop; the source holds both, in the order of the handing over. *)
Example delivered_example :
  let h := [LMake] ++ start_pieces 0 ++ [LBegin 7; LBegin 8; LLook 1; LLook 0; LStore 0 false; LAdd 1 0; LAdd 0 0] in
  exists p, lrun h prov0 = Some p /\ handed 0 [] h = [1; 0] /\ data_of 0 p = [8; 7].
Proof. eexists. split; [vm_compute; reflexivity|]. split; vm_compute; reflexivity. Qed.
Example complete_example :
  let h1 := [LMake; LMake] ++ start_pieces 1 in let h2 := [LLook 0; LStore 0 true; LLook 0; LAdd 0 1] in
  exists p, lrun (h1 ++ LBegin 7 :: h2) prov0 = Some p /\ on 1 false h1 = true /\ 1 < lmade h1
    /\ (forall b, ~ In (LStore 1 b) h2) /\ ~ In (LClear 1) h2 /\ over (length (begun h1)) p /\ data_of 1 p = [7].
Proof.
  eexists. split; [vm_compute; reflexivity|]. split; [reflexivity|]. split; [cbn; lia|].
  split; [intros b H; cbn in H; intuition discriminate|]. split; [intros H; cbn in H; intuition discriminate|].
  split; [|reflexivity]. eexists. split; [vm_compute; reflexivity|]. split; reflexivity.
Qed.
Example stopped_example :
  exists p q, op_run ([OMake; OStart 0; OReceive 1] ++ [OStop 0; ORelease 0]) prov0 = Some p
    /\ op_run [OMake; OReceive 2; OStart 1; OReceive 3] p = Some q /\ data_of 0 q = [1] /\ data_of 1 q = [3].
Proof. eexists. eexists. split; [vm_compute; reflexivity|]. repeat split; vm_compute; reflexivity. Qed.
