(** Proofs about the command line. *)
From Coq Require Import String List Arith NArith ZArith Ascii Bool Lia.
Import ListNotations.
From Verif Require Import Str_model Json_model Str_proofs Program_model Program_spec.

Lemma to_int_id z : (-2147483648 <= z < 2147483648)%Z -> to_int z = z.
Proof.
  intros H. unfold to_int. destruct (Z_lt_le_dec z 0) as [N|P].
  - replace (z mod 4294967296)%Z with (z + 4294967296)%Z; [|symmetry; rewrite <- (Z_mod_plus_full z 1 4294967296); apply Z.mod_small; lia]. destruct (Z.ltb_spec (z + 4294967296) 2147483648); lia.
  - rewrite Z.mod_small by lia. destruct (Z.ltb_spec z 2147483648); lia.
Qed.
Lemma atoi_nat n r : (Z.of_N n < 2147483648)%Z -> match r with c :: _ => is_digit c = false | [] => True end -> atoi (dump_nat n ++ r) = Z.of_N n.
Proof. intros H HR. unfold atoi, strtol. rewrite read_number_nat by exact HR. rewrite Z.min_r by lia. apply to_int_id. lia. Qed.
Lemma atoi_nothing s : read_number s = None -> atoi s = 0%Z.
Proof. intros H. unfold atoi, strtol. rewrite H. reflexivity. Qed.

Lemma command_path path : In path (tl (command path)).
Proof. unfold command. destruct (existsb (Ascii.eqb "/") path); cbn; auto 6. Qed.

Lemma atoi_9222 : atoi (dump_nat 9222) = 9222%Z.
Proof. rewrite <- (app_nil_r (dump_nat 9222)). rewrite atoi_nat by (reflexivity || exact I). reflexivity. Qed.
Theorem program_default works path : works default_port = true -> forall args, args = [] \/ args = [dump_nat 9222] \/ args = [dump_nat 9222; path] -> serves_on 9222 (main works args).
Proof.
  intros W args H. destruct H as [->|[->| ->]]; unfold main; cbv zeta; rewrite ?atoi_9222; cbn [Z.eqb]; unfold server_start; rewrite W; eexists; eexists; reflexivity.
Qed.
Lemma atoi_dump n : (Z.of_N n < 2147483648)%Z -> atoi (dump_nat n) = Z.of_N n.
Proof. intros H. rewrite <- (app_nil_r (dump_nat n)). apply atoi_nat; [exact H|exact I]. Qed.
Theorem program_announces works n rest : (0 < Z.of_N n < 2147483648)%Z -> exists t l, main works (dump_nat n :: rest) = Runs (Z.of_N n) t l.
Proof.
  intros H. unfold main; cbv zeta. rewrite atoi_dump by lia. destruct (Z.eqb_spec (Z.of_N n) 0); [lia|]. eexists. eexists. reflexivity.
Qed.
Theorem program_never works n rest p : (0 < Z.of_N n < 2147483648)%Z -> serves_on p (main works (dump_nat n :: rest)) -> p = 9222%Z.
Proof.
  intros H (a & t & E). destruct (program_announces works n rest H) as (t' & l' & E'). unfold main in E; cbv zeta in E. destruct (_ =? 0)%Z in E; [discriminate E|]. unfold server_start in E. destruct (works default_port); [|discriminate E]. now injection E.
Qed.
Theorem program_usage works a rest : read_number a = None -> main works (a :: rest) = Usage.
Proof. intros H. unfold main; cbv zeta. now rewrite (atoi_nothing a H). Qed.
Theorem program_path works n path rest : (0 < Z.of_N n < 2147483648)%Z -> tool_gets path (main works (dump_nat n :: path :: rest)).
Proof.
  intros H. unfold main; cbv zeta. rewrite atoi_dump by lia. destruct (Z.eqb_spec (Z.of_N n) 0); [lia|]. eexists. eexists. eexists. split; [reflexivity|apply command_path].
Qed.
Theorem python_port works p session : works p = true -> serves_on p (py_main works (Some p) session).
Proof. intros W. unfold py_main, server_start. rewrite W. eexists. eexists. reflexivity. Qed.
Theorem python_default works session : works default_port = true -> serves_on 9222 (py_main works None session).
Proof. intros W. unfold py_main, server_start. rewrite W. eexists. eexists. reflexivity. Qed.
Theorem python_path works p path : tool_gets path (py_main works p (Some path)).
Proof. unfold py_main. eexists. eexists. eexists. split; [reflexivity|apply command_path]. Qed.
