(** Cases for C95. *)
From Coq Require Import List Arith Bool Lia.
Import ListNotations.
From Verif Require Import UnixSystem_model PyTrace_model PyTrace_spec PyTrace_proofs.

Definition go (t n : nat) : list label := repeat (Go t) n.
Definition nothing : nat -> list stmt := fun _ => [].
Definition thread0 (p : list stmt) : nat -> list stmt := fun t => match t with 0 => p | _ => [] end.
Definition seen (fn : nat -> list stmt) (xs : list label) (main : nat -> list stmt) : option (list (list (nat * bool)) * list nat) :=
  option_map (fun s => ([of_thread 0 0 (p_log s); of_thread 0 1 (p_log s); of_thread 1 0 (p_log s)], [length (p_stack s 0); length (p_stack s 1)])) (run fn xs (start main 0)).
Lemma seen_run fn xs main l n : seen fn xs main = Some (l, n) -> exists s, run fn xs (start main 0) = Some s /\ l = [of_thread 0 0 (p_log s); of_thread 0 1 (p_log s); of_thread 1 0 (p_log s)] /\ n = [length (p_stack s 0); length (p_stack s 1)].
Proof. unfold seen. destruct (run fn xs (start main 0)) as [s|]; [|discriminate]. cbn. intros H. injection H as <- <-. eauto. Qed.
Lemma no_stack {A} (l : list A) : length l = 0 -> l = [].
Proof. destruct l; [reflexivity|discriminate]. Qed.

(** Function 0 is function 1, traced; 1 has a block with a handler around a call of 2, which raises inside a block; 3 is a generator. *)
Definition fns (f : nat) : list stmt :=
  match f with
  | 0 => traced 5 1
  | 1 => [SWith 6 [STry [SCall 2] [SWith 10 []]; SReturn]; SRaise]
  | 2 => [SWith 7 [SRaise]]
  | 3 => [SWith 8 []; SYield; SWith 8 [SReturn]]
  | _ => []
  end.
Definition mains (t : nat) : list stmt :=
  match t with
  | 0 => [SMake 0 3; SCall 0; SWith 9 [SNext 0; STry [SNext 0] []]]
  | 1 => [STry [SWith 4 [SCall 0]] []]
  | _ => []
  end.
Definition turns : list label := go 0 20 ++ go 1 9 ++ [Interrupt 1] ++ go 0 23 ++ go 1 17 ++ go 0 20.
Example tidy_all : (forall f, forallb tidy (fns f) = true) /\ (forall t, forallb tidy (mains t) = true).
Proof. split; intros [|[|[|[|n]]]]; reflexivity. Qed.
Example turns_run : seen fns turns mains = Some ([[(5, true); (6, true); (7, true); (7, false); (10, true); (10, false); (6, false); (5, false); (9, true); (8, true); (8, false); (8, true); (8, false); (9, false)];
  [(4, true); (5, true); (6, true); (6, false); (5, false); (4, false)]; []], [0; 0]).
Proof. vm_compute. reflexivity. Qed.
Fixpoint calm_b (fn : nat -> list stmt) (xs : list label) (s : state) : bool :=
  match xs with
  | [] => true
  | x :: xs' => match x with Interrupt t => match p_stack s t with it :: _ => negb (inside_call it) | [] => true end | Go _ => true end &&
                match step fn x s with Some s' => calm_b fn xs' s' | None => true end
  end.
Lemma calm_ok fn xs : forall s, calm_b fn xs s = true -> calm fn xs s.
Proof.
  induction xs as [|x xs IH]; intros s H; [exact I|]. cbn [calm_b calm] in *. apply andb_true_iff in H as (A & B). split.
  - destruct x; [exact I|]. destruct (p_stack s t); [exact I|]. now apply negb_true_iff in A.
  - destruct (step fn x s); [apply IH; exact B|exact I].
Qed.
Example turns_calm : calm fns turns (start mains 0).
Proof. apply calm_ok. vm_compute. reflexivity. Qed.
(** A program without generators, two threads in turns. *)
Example plain_case : (forall f, forallb plain (match f with 3 => [] | _ => fns f end) = true) /\
  seen (fun f => match f with 3 => [] | _ => fns f end) (go 0 7 ++ go 1 46 ++ go 0 39) (fun t => match t with 0 => [SCall 0; SCall 2] | 1 => [STry [SWith 4 [SCall 0]] []; SRaise] | _ => [] end) =
  Some ([[(5, true); (6, true); (7, true); (7, false); (10, true); (10, false); (6, false); (5, false); (7, true); (7, false)];
         [(4, true); (5, true); (6, true); (7, true); (7, false); (10, true); (10, false); (6, false); (5, false); (4, false)]; []], [0; 0]).
Proof. split; [intros [|[|[|[|f]]]]; reflexivity|vm_compute; reflexivity]. Qed.

(** ** What goes wrong *)
Definition gens (f : nat) : list stmt := match f with 3 => [SWith 8 [SYield]] | 4 => traced_make 7 0 5 | 5 => [SWith 9 []; SYield] | _ => [] end.
(** A generator which is suspended inside its block. *)
Lemma yield_lemma : exists fn main xs s, (forall t f, forallb tidy (main t) = true /\ (f <> 3 -> forallb tidy (fn f) = true)) /\ Forall (fun x => exists t, x = Go t) xs /\
  run fn xs (start main 0) = Some s /\ finished 0 s /\ of_thread 0 0 (p_log s) = [(9, true); (8, true); (9, false); (8, false)] /\ reading [] (of_thread 0 0 (p_log s)) = None.
Proof.
  exists gens, (thread0 [SMake 0 3; SWith 9 [SNext 0]; SClose 0]), (go 0 17). destruct (seen_run gens (go 0 17) (thread0 [SMake 0 3; SWith 9 [SNext 0]; SClose 0]) ([[(9, true); (8, true); (9, false); (8, false)]; []; []]) ([0; 1]) ltac:(vm_compute; reflexivity)) as (s & R & L & N).
  exists s. split; [intros [|t] [|[|[|[|[|[|f]]]]]]; split; try reflexivity; intros F; try reflexivity; now destruct F|]. split; [repeat constructor; eexists; reflexivity|]. split; [exact R|]. injection L as L0 L1 L2. injection N as N0 N1. split; [now apply no_stack|]. rewrite <- L0. split; reflexivity.
Qed.
(** It is begun by one thread, and ended by another. *)
Lemma threads_lemma : exists fn main xs s, run fn xs (start main 0) = Some s /\ finished 0 s /\ finished 1 s /\ reading [] (of_thread 0 0 (p_log s)) = Some [8] /\ reading [] (of_thread 0 1 (p_log s)) = None.
Proof.
  exists gens, (fun t => match t with 0 => [SMake 0 3; SNext 0] | 1 => [SClose 0] | _ => [] end), (go 0 6 ++ go 1 7).
  destruct (seen_run gens (go 0 6 ++ go 1 7) (fun t => match t with 0 => [SMake 0 3; SNext 0] | 1 => [SClose 0] | _ => [] end) ([[(8, true)]; [(8, false)]; []]) ([0; 0]) ltac:(vm_compute; reflexivity)) as (s & R & L & N).
  exists s. split; [exact R|]. injection L as L0 L1 L2. injection N as N0 N1. split; [now apply no_stack|]. split; [now apply no_stack|]. rewrite <- L0, <- L1. split; reflexivity.
Qed.
(** The decorator on a generator function: what the generator does is outside of the block. *)
Lemma traced_generator_lemma : exists fn f c g f' main xs s, fn f = traced_make c g f' /\ main 0 = [SCall f; SNext g] /\ run fn xs (start main 0) = Some s /\ finished 0 s /\
  of_thread 0 0 (p_log s) = [(c, true); (c, false); (9, true); (9, false)] /\ fn f' = [SWith 9 []; SYield].
Proof.
  exists gens, 4, 7, 0, 5, (thread0 [SCall 4; SNext 0]), (go 0 18). destruct (seen_run gens (go 0 18) (thread0 [SCall 4; SNext 0]) ([[(7, true); (7, false); (9, true); (9, false)]; []; []]) ([0; 1]) ltac:(vm_compute; reflexivity)) as (s & R & L & N). exists s. split; [reflexivity|]. split; [reflexivity|]. split; [exact R|].
  injection L as L0 L1 L2. injection N as N0 N1. split; [now apply no_stack|]. rewrite <- L0. split; reflexivity.
Qed.
(** An interrupt inside [__enter__], or inside [__exit__], which the program handles: the block stays open. *)
Lemma interrupt_lemma : exists main, (forall t, forallb plain (main t) = true) /\ forall xs, In xs [[Go 0; Go 0; Interrupt 0]; go 0 5 ++ [Interrupt 0]] ->
  exists ys s, run nothing (xs ++ ys) (start main 0) = Some s /\ finished 0 s /\ of_thread 0 0 (p_log s) = [(1, true); (2, true); (2, false)] /\ reading [] (of_thread 0 0 (p_log s)) = Some [1].
Proof.
  exists (thread0 [STry [SWith 1 []] []; SWith 2 []]). split; [intros [|t]; reflexivity|]. intros xs [<-|[<-|[]]]; exists (go 0 9).
  - destruct (seen_run nothing ([Go 0; Go 0; Interrupt 0] ++ go 0 9) (thread0 [STry [SWith 1 []] []; SWith 2 []]) ([[(1, true); (2, true); (2, false)]; []; []]) ([0; 1]) ltac:(vm_compute; reflexivity)) as (s & R & L & N). exists s. split; [exact R|]. injection L as L0 L1 L2. injection N as N0 N1. split; [now apply no_stack|]. rewrite <- L0. split; reflexivity.
  - destruct (seen_run nothing ((go 0 5 ++ [Interrupt 0]) ++ go 0 9) (thread0 [STry [SWith 1 []] []; SWith 2 []]) ([[(1, true); (2, true); (2, false)]; []; []]) ([0; 1]) ltac:(vm_compute; reflexivity)) as (s & R & L & N). exists s. split; [exact R|]. injection L as L0 L1 L2. injection N as N0 N1. split; [now apply no_stack|]. rewrite <- L0. split; reflexivity.
Qed.
(** The backend is changed inside a block. *)
Lemma backend_lemma : exists main xs s, Forall (fun x => exists t, x = Go t) xs /\ main 0 = [SWith 1 [SBackend 1]] /\ run nothing xs (start main 0) = Some s /\ finished 0 s /\
  reading [] (of_thread 0 0 (p_log s)) = Some [1] /\ reading [] (of_thread 1 0 (p_log s)) = None.
Proof.
  exists (thread0 [SWith 1 [SBackend 1]]), (go 0 7). destruct (seen_run nothing (go 0 7) (thread0 [SWith 1 [SBackend 1]]) ([[(1, true)]; []; [(1, false)]]) ([0; 1]) ltac:(vm_compute; reflexivity)) as (s & R & L & N). exists s. split; [repeat constructor; eexists; reflexivity|]. split; [reflexivity|]. split; [exact R|].
  injection L as L0 L1 L2. injection N as N0 N1. split; [now apply no_stack|]. rewrite <- L0, <- L2. split; reflexivity.
Qed.
