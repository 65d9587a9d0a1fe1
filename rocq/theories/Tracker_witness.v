(** Runs that meet the hypotheses of the theorems about the tables. *)
From Coq Require Import List Arith NArith Bool.
From Verif Require Import Tracker_model Tracker_spec Tracker_proofs.
Import ListNotations.
Local Open Scope nat_scope.

Definition whole (t : nat) (n : nat) : list (label nat) := Acquire t :: repeat (Touch t) n ++ [Release t; Return t].

(** Two writers and two readers whose calls overlap: the readers copy the table at the same time; the second writer waits for both. *)
Definition busy : list (label nat) :=
  [Call 0 (Insert 5%N 50); Call 1 (Insert 7%N 70); Call 2 GetMap] ++ whole 1 2 ++
  [Acquire 2; Touch 2; Call 3 (Exists 5%N); Acquire 3; Touch 2; Touch 3; Touch 2; Release 3; Release 2; Return 2] ++
  whole 0 2 ++ [Return 3; Call 2 (GetValue 5%N)] ++ whole 2 1 ++ [Call 1 (Erase 5%N)] ++ whole 1 1 ++ [Call 2 (GetValue 5%N)] ++ whole 2 1.

Example busy_runs : exists s h, run 0 busy (start 4) = Some (s, h) /\ at_rest s /\
  h = [Called 0 0 (Insert 5%N 50); Called 1 1 (Insert 7%N 70); Called 2 2 GetMap; Returned 1 1 Unit; Called 3 3 (Exists 5%N);
       Returned 2 2 (Table [(7%N, 70)]); Returned 0 0 Unit; Returned 3 3 (Answer false);
       Called 4 2 (GetValue 5%N); Returned 4 2 (Value 50); Called 5 1 (Erase 5%N); Returned 5 1 Unit;
       Called 6 2 (GetValue 5%N); Returned 6 2 Threw].
Proof. eexists. eexists. split; [vm_compute; reflexivity|]. split; [repeat constructor|reflexivity]. Qed.

(** A state that is not at rest: a reader inside, a writer that has to wait. *)
Example waits : exists s h, run 0 [Call 0 GetMap; Call 1 Clear; Acquire 0] (start 2) = Some (s, h) /\ ~ at_rest s /\ step 0 (Acquire 1) s = None.
Proof.
  eexists. eexists. split; [vm_compute; reflexivity|]. split; [|reflexivity]. intros H. inversion H. discriminate.
Qed.

(** The specification is not met by everything: a copy that has a value that was never written is not explained. *)
Example not_anything : ~ linearizable [Called 0 0 (Insert 5%N 50); Returned 0 0 Unit; Called 1 0 GetMap; Returned 1 0 (Table [(5%N, 0)])].
Proof.
  intros (l & HS & ND & HR & HL & HB).
  destruct (HR 1 0 (Table [(5%N, 0)])) as (o & Ho & Hc); [cbn; auto|].
  destruct (HR 0 0 Unit) as (o' & Ho' & Hc'); [cbn; auto|].
  assert (Eo : o = GetMap) by (destruct Hc as [H|[H|[H|[H|[]]]]]; congruence). subst o.
  destruct (in_split _ _ Ho) as (a & b & ->). specialize (HS a _ b eq_refl). unfold what, gave in HS. cbn [fst snd says] in HS. destruct HS as [_ HS].
  destruct (HS 5%N 0) as [HS1 _]. specialize (HS1 ltac:(cbn; auto)).
  assert (G : forall l : list (op nat), (forall x, In x l -> x = Insert 5%N 50 \/ x = GetMap) -> current 5%N l = Some 0 -> False).
  { clear. intros l. induction l as [|x l IH] using rev_ind; intros H E; [discriminate|]. rewrite current_snoc in E.
    destruct (H x) as [->| ->]; [apply in_or_app; right; now left| |]; cbn in E; [congruence|]. apply IH; auto. intros y Hy. apply H, in_or_app. auto. }
  refine (G _ _ HS1). intros x Hx. apply in_map_iff in Hx as (((i & y) & r) & <- & Hy). destruct (HL i y r) as (t & Ht); [apply in_or_app; auto|].
  unfold what. cbn [fst snd]. destruct Ht as [H|[H|[H|[H|[]]]]]; try discriminate; injection H; auto.
Qed.
