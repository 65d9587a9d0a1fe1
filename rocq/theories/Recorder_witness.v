From Coq Require Import String List Arith ZArith NArith Bool Ascii Lia.
Import ListNotations.
From Verif Require Import Json_model Json_spec Session_model Session_proofs Session_witness Recorder_model Recorder_spec Recorder_proofs.
Local Open Scope nat_scope.

Lemma life_witness {E T} (render : list E -> option T) ev :
  life render [RDestroy ev] = FTerminated
  /\ life render [RStart; RStop; RDestroy ev] = FTerminated
  /\ (exists r, life render [RStart; RStop; RStop] = FAlive r [] true)
  /\ (exists r, life render [RAddProvider; RStart; RStop; RStartInterval] = FAlive r [XMake 0 0; XStart 0] false).
Proof. split; [reflexivity|]. split; [reflexivity|]. split; eexists; reflexivity. Qed.
Lemma dump_witness {E T} (render : list E -> option T) ev f :
  life render [RAddProvider; RSetupDump f; RStart; RStartInterval; RStopInterval; RStop; RDestroy ev] = FTerminated.
Proof. reflexivity. Qed.
Lemma dump_lemma {F} (fw : F -> bytes) fr os r es t f (ev : nat -> list (json F)) :
  life (collect_text fw) os = FAlive r es t -> r_running r = true -> alive_ops os -> dump_file os None = Some f ->
  Forall (wf fw fr) (concat (map ev (r_sources r))) ->
  exists x, parse fr x = Some (JArr (concat (map ev (r_sources r))))
    /\ life (collect_text fw) (os ++ [RDestroy ev]) = FGone (es ++ (map XStop (r_sources r) ++ map XFinish (r_sources r)) ++ [XFile f x]) t.
Proof.
  intros H Hr Ha Hd Hw. destruct (collect_ok fw fr _ Hw) as (x & Ex & Hx). exists x. split; [exact Hx|].
  apply destroy_dumps; assumption.
Qed.

(** A history with two providers, started twice, stopped, started again with another provider, destroyed. *)
Definition ops0 : list (rop json0) :=
  [RAddProvider; RAddProvider; RStart; RStart; RStartInterval; RStop; RAddProvider; RSetupDump 7; RStart; RStartInterval].
Example ops0_alive : alive_ops ops0.
Proof. intros o Ho. repeat (destruct Ho as [<-|Ho]; [reflexivity|]). destruct Ho. Qed.
Example ops0_started : started ops0 = true. Proof. reflexivity. Qed.
Example ops0_paired : well_paired ops0.
Proof.
  unfold ops0, well_paired. intros a b H.
  do 5 (destruct a as [|? a]; [discriminate H|injection H as <- H]).
  destruct a as [|? a]; [reflexivity|]. injection H as <- H.
  do 4 (destruct a as [|? a]; [discriminate H|injection H as <- H]). destruct a; discriminate H.
Qed.
Example ops0_life : exists r, life (collect_text fw0) ops0 = FAlive r [XMake 0 0; XMake 1 1; XStart 0; XStart 1; XMake 2 0; XMake 3 1; XMake 4 2; XStart 2; XStart 3; XStart 4] false
  /\ r_sources r = [2; 3; 4] /\ r_running r = true /\ dump_file ops0 None = Some 7.
Proof. eexists. split; [reflexivity|]. repeat split. Qed.
Definition events0 (i : nat) : list json0 := match i with 2 => [event0 1; event0 2] | 4 => [event0 3] | _ => [] end.
Example ops0_events : Forall (wf fw0 fr0) (concat (map events0 [2; 3; 4])).
Proof. cbn [map concat events0 app]. repeat (apply Forall_cons; [apply event0_wf; unfold int_range; lia|]). constructor. Qed.
(** A name that is not UTF-8 among the events: no text. *)
Definition bad_events (i : nat) : list json0 := match i with 3 => [JStr [ascii_of_nat 255]] | _ => [event0 1] end.
Example ops0_unmade : collect_text fw0 (concat (map bad_events [2; 3; 4])) = None. Proof. vm_compute. reflexivity. Qed.
