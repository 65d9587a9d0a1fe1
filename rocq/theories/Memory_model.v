(** Model of two lists that only grow: the clients of a loopback server ([scalopus_transport/src/transport_loopback.cpp], lines
    50-53, 123-131 and 208-211) and the servers of a loopback factory (lines 171-196).  Both hold weak pointers, to which
    entries are added and from which none is removed; going through one skips the entries whose object is gone.  The objects
    are made by [std::make_shared] (lines 194, 209): their memory is given back only when the last weak pointer to it is gone.

    The other places where memory is kept are in [Collector_model.v] (buffers of threads) and [Delivery_model.v]
    (subscriptions to LTTng events). *)
From Coq Require Import List Arith Bool.
Import ListNotations.
From Verif Require Import UnixSystem_model.

(** The objects ever put into the list, in order, and whether each is still in use. *)
Record weak_list := { wl_entries : list nat; wl_alive : list bool }.
Definition weak0 : weak_list := {| wl_entries := []; wl_alive := [] |}.

Inductive wcall := WAdd | WRelease (i : nat) | WVisit.

(** [WAdd]: [addClient] (line 52) or [serve] (line 195). [WRelease]: the last owner lets go of object [i]. [WVisit]: one broadcast
    (lines 123-131) or [discover] (lines 174-186); it gives the objects found, and changes nothing. *)
Definition w_step (c : wcall) (s : weak_list) : weak_list :=
  match c with
  | WAdd => {| wl_entries := wl_entries s ++ [length (wl_alive s)]; wl_alive := wl_alive s ++ [true] |}
  | WRelease i => {| wl_entries := wl_entries s; wl_alive := if i <? length (wl_alive s) then set_nth i false (wl_alive s) else wl_alive s |}
  | WVisit => s
  end.
Definition w_run (l : list wcall) (s : weak_list) : weak_list := fold_left (fun s c => w_step c s) l s.
Definition w_found (s : weak_list) : list nat := filter (fun i => nth i (wl_alive s) false) (wl_entries s).
