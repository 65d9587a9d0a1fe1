(** Concrete histories for the theorems of C111. *)
From Coq Require Import List Arith Bool.
Import ListNotations.
From Verif Require Import Viewers_model Viewers_spec Viewers_proofs.

(** Two viewers; the worker of the first is in the middle of a recording that takes 40 ms to finish, and nobody leaves: the message of the second, a third viewer and a page are all handled
    at the moment they arrive. *)
Definition busy : list label :=
  [Arrive Connect; Serve; Step 0 0; Arrive (Data 0 40); Serve; Step 0 0; Tick; Tick; Tick; Arrive Connect; Serve; Step 1 0; Step 1 0; Step 1 0].
Example nobody_leaves : match run busy state0 with Some s => leaving s = 0 /\ now s = 3 /\ length (handled s) + length (inbox s) = 3 | None => False end.
Proof. vm_compute. auto. Qed.
Example handled_at_once : match run (busy ++ [Arrive Page; Serve; Tick; Tick; Arrive (Data 1 7); Serve; Tick]) state0 with
  | Some s => handled s = [(Connect, 0, 0); (Data 0 40, 0, 0); (Connect, 3, 3); (Page, 3, 3); (Data 1 7, 5, 5)] /\ now s = 6
  | None => False end.
Proof. vm_compute. auto. Qed.

(** The first viewer leaves after 3 of its 40 ms: the message of the second is handled 47 ms later, and the bound (40 + 2 + 10) * 1 holds. *)
Definition left_behind : list label :=
  busy ++ [Arrive (Close 0); Serve; Arrive (Data 1 7)] ++ repeat Tick 10 ++ [Step 1 0; Step 1 0; Step 1 0; Step 1 0] ++ repeat Tick 10 ++ [Step 1 0; Step 1 0; Step 1 0; Step 1 0]
  ++ repeat Tick 10 ++ [Step 1 0; Step 1 0; Step 1 0; Step 1 0] ++ repeat Tick 7 ++ [Step 0 0; Step 0 0; Step 0 0] ++ repeat Tick 3 ++ [Step 1 0; Step 1 0; Step 1 0; Step 1 0] ++ repeat Tick 7
  ++ [Step 0 0; Step 0 0; Joined; Serve].
Example held_up : match run left_behind state0 with Some s => In (Data 1 7, 3, 50) (handled s) | None => False end.
Proof. vm_compute. auto 10. Qed.
Example one_leaving : match run (busy ++ [Arrive (Close 0); Serve]) state0 with Some s => leaving s = 1 /\ srv s = Joining 0 | None => False end.
Proof. vm_compute. auto. Qed.

(** A viewer that leaves with a message still waiting: it is never begun. *)
Example left_waiting : match run (busy ++ [Arrive (Data 0 5); Serve; Arrive (Close 0); Serve]) state0 with Some s => waiting 0 s = [5] /\ srv s = Joining 0 | None => False end.
Proof. vm_compute. auto. Qed.
