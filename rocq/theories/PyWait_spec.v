(** What is expected of waiting for an answer (C99). *)
From Coq Require Import List ZArith Bool.
Import ListNotations.
From Verif Require Import PyWait_model.
Open Scope Z_scope.

(** What has been set so far, and when; read off the history. *)
Fixpoint set_at (h : list label) (t : Z) : option (Z * content) :=
  match h with
  | [] => None
  | Pass d :: r => set_at r (t + d)
  | Reply d :: _ => Some (t, Answer d)
  | Break :: _ => Some (t, Lost)
  | _ :: r => set_at r t
  end.
(** A call returns what was set by the time it returns; None only after its time is over, with nothing set before it. *)
Definition right (a : option (Z * content)) (e : entry) : Prop :=
  match en_result e with
  | RNone => en_called e + en_limit e <= en_returned e /\ match a with Some (t, _) => en_returned e <= t | None => True end
  | RData d => exists t, a = Some (t, Answer d) /\ t <= en_returned e
  | RError => exists t, a = Some (t, Lost) /\ t <= en_returned e
  end.
Definition gives (e : entry) : bool := match en_result e with RNone => false | _ => true end.

(** The program calls with limits the clock can take. *)
Definition modest (s : state) (a : label) : Prop :=
  match a with Call _ (For ns) => - 2 ^ 63 <= now s + ns < 2 ^ 63 | Call _ Inf => False | _ => True end.
(** It calls only while no other call is under way, and not again once it has got something. *)
Definition alone (s : state) (a : label) : Prop :=
  match a with Call _ _ => (forall t, th s t = Out) /\ existsb gives (log s) = false | _ => True end.
Fixpoint along (P : state -> label -> Prop) (h : list label) (s : state) : Prop :=
  match h with
  | [] => True
  | a :: r => P s a /\ match step a s with Next s' => along P r s' | _ => True end
  end.
