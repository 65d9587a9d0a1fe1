(** Concrete cases for C115. *)
From Coq Require Import List Arith Bool.
Import ListNotations.
From Verif Require Import Owners_model Owners_spec Owners_proofs.

(** A manager with a native and a general provider, a server with both and a recorder with the native one; a viewer comes and goes, the recorder is started. *)
Definition day : list op :=
  [MakeManager; MakeNative 0; AddFactory 0 1; MakeGeneral 0; MakeServer; MakeRecorder; AddProvider 3 1; AddProvider 3 2; AddProvider 4 1; Open 3; Open 4; Close 3 5].
Example day_made : made_ids (snd (run day start)) = [0; 1; 2; 3; 4; 5; 6; 7; 8; 9].
Proof. vm_compute. reflexivity. Qed.
(** The viewer's session and its source of the general provider are gone; that of the native provider is not, the provider has it. *)
Example day_gone : gone_ids (snd (run day start)) = [6; 5].
Proof. vm_compute. reflexivity. Qed.
Example day_plain : forallb plain day = true.
Proof. reflexivity. Qed.
(** The program lets go of the manager first, which the general provider still has, then of the rest: all are destroyed. *)
Definition evening : list op := day ++ [Drop 0; Drop 1; Drop 2].
Example evening_kept : vars (fst (run evening start)) = [4; 3] /\ gone_ids (snd (run evening start)) = [6; 5].
Proof. vm_compute. auto. Qed.
Example night : vars (fst (run (evening ++ [Drop 3; Drop 4]) start)) = [] /\ length (gone_ids (snd (run (evening ++ [Drop 3; Drop 4]) start))) = 10.
Proof. vm_compute. auto. Qed.

(** The same with the native provider only: the manager goes at once, the recorder and all it needs stay. *)
Definition alone : list op := [MakeManager; MakeNative 0; AddFactory 0 1; MakeRecorder; AddProvider 2 1; Open 2; Drop 1; Drop 0].
Example alone_gone : forallb plain alone = true /\ vars (fst (run alone start)) = [2] /\ gone_ids (snd (run alone start)) = [0] /\
  map fst (live (fst (run alone start))) = [4; 3; 2; 1].
Proof. vm_compute. auto. Qed.

(** A provider in Python that has its manager as an attribute, and whose method is the factory there. *)
Definition circle : list op := [MakeManager; PyNew; PySet 1 0; PyFactory 0 1; Drop 1; Drop 0].
Lemma circle_ring : exists s tr, run circle start = (s, tr) /\ ring 0 1 s.
Proof.
  eexists _, _. split; [vm_compute; reflexivity|]. split; cbn; auto. intros a b H _. intuition congruence.
Qed.
Lemma circle_stays : forall h s tr, run (circle ++ h) start = (s, tr) ->
  ~ kept s 0 /\ In (OMade 0 Manager) tr /\ ~ In 0 (gone_ids tr).
Proof.
  intros h s tr H. destruct circle_ring as (s1 & o1 & E & R). destruct (ring_stays circle h s1 o1 s tr 0 1 E R H) as (A & _ & _ & _ & B & _). split; [exact A|]. split; [|exact B].
  rewrite run_app, E in H. destruct (run h s1) as (s2, o2). injection H as _ <-. vm_compute in E. injection E as _ <-. left. reflexivity.
Qed.
(** With the weak function of the library instead there is no circle, but no factory either: the call raises. *)
Example weak_raises : let (s, tr) := run [MakeManager; PyNew; PySet 1 0; PyWeak 0 1; Drop 1; Drop 0] start in In ORaised tr /\ gone_ids tr = [1; 0] /\ live s = [].
Proof. vm_compute. auto. Qed.

(** A manager the program still has, and a recorder it has let go of. *)
Example yours_case : let (s, tr) := run [MakeManager; MakeRecorder; Drop 1] start in In (OMade 0 Manager) tr /\ gone_ids tr = [1].
Proof. vm_compute. auto. Qed.
