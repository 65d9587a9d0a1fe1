(** Several threads of a process send messages over one connection of the Unix socket transport while the other side reads, system call by system call.
    Sending: [protocol::send] (protocol.cpp 155-198) hands the five parts of a message to [::send] one after the other, always under [write_lock_]
    (transport_unix.cpp 149-156, 297, 328, 361). Reading: [receive] and [readData] (protocol.cpp 44-153), one [::read] per step.
    The kernel: [::send] puts a part on the connection at once if it is at most [limit] bytes; more may be put in pieces of at least [limit] bytes.
    [::read] takes what is there, at most what is asked for, and waits if there is nothing. The process lives as long as we look; the end of the stream
    is in Protocol_model. Times when a message is longer than its length fields can say are in Protocol_model too. *)
From Coq Require Import List Arith NArith Ascii Bool.
Import ListNotations.
From Verif Require Import Protocol_model.

(** A sending thread: the messages it still has to send; the parts of the current one that still have to go to [::send]. *)
Record writer := { todo : list msg; parts : list bytes }.
(** [receive]: [field] 0..4 is the part it reads (105, 115, 126, 137, 147), [need] its length, [acc] what [readData] has of it. *)
Record reader := { field : nat; need : nat; acc : bytes; r_id : N; r_name : bytes }.
Definition reader0 : reader := {| field := 0; need := 8; acc := []; r_id := 0; r_name := [] |}.
(** [Broken]: bytes are read that [readData] has not stored (protocol.cpp 107, 117, 129, 139). *)
Inductive health := Fine | Broken.
(** [begun] and [told]: the messages whose sending has begun, and those for which [send] has returned true, with their threads; [out]: those received. *)
Record state := { ws : nat -> writer; lock : option nat; pipe : bytes; begun : list (nat * msg); told : list (nat * msg);
                  rd : reader; out : list msg; hp : health }.
Definition start (prog : nat -> list msg) : state :=
  {| ws := fun t => {| todo := prog t; parts := [] |}; lock := None; pipe := []; begun := []; told := []; rd := reader0; out := []; hp := Fine |}.

Definition set_w (f : nat -> writer) (t : nat) (w : writer) : nat -> writer := fun u => if u =? t then w else f u.
Definition holds (s : state) (t : nat) : bool := match lock s with Some u => u =? t | None => false end.

Section Kernel.
Variable limit : nat.

(** The mutex is taken and [send] begins, transport_unix.cpp 150-151, protocol.cpp 161-162. *)
Definition w_begin (t : nat) (s : state) : option state :=
  match lock s, todo (ws s t) with
  | None, m :: r => Some {| ws := set_w (ws s) t {| todo := r; parts := send_buffers m |}; lock := Some t; pipe := pipe s; begun := begun s ++ [(t, m)];
                            told := told s; rd := rd s; out := out s; hp := hp s |}
  | _, _ => None
  end.
(** [k] bytes of a part are on the connection; [::send] returns when all are (164-196). *)
Definition w_put (t k : nat) (s : state) : option state :=
  if holds s t then
    match parts (ws s t) with
    | [] => None
    | b :: r =>
        if length b <=? k then
          Some {| ws := set_w (ws s) t {| todo := todo (ws s t); parts := r |}; lock := lock s; pipe := pipe s ++ b; begun := begun s; told := told s;
                  rd := rd s; out := out s; hp := hp s |}
        else if limit <=? k then
          Some {| ws := set_w (ws s) t {| todo := todo (ws s t); parts := skipn k b :: r |}; lock := lock s; pipe := pipe s ++ firstn k b; begun := begun s;
                  told := told s; rd := rd s; out := out s; hp := hp s |}
        else None
    end
  else None.
(** [send] returns true (197), the mutex is released. The message is the one begun last. *)
Definition w_done (t : nat) (s : state) : option state :=
  if holds s t then
    match parts (ws s t) with
    | [] => Some {| ws := ws s; lock := None; pipe := pipe s; begun := begun s;
                   told := told s ++ skipn (length (begun s) - 1) (begun s); rd := rd s; out := out s; hp := hp s |}
    | _ :: _ => None
    end
  else None.
(** The first [::send] fails and nothing is sent: [send] returns false (165-169). *)
Definition w_fail (t : nat) (s : state) : option state :=
  match lock s, todo (ws s t) with
  | None, m :: r => Some {| ws := set_w (ws s) t {| todo := r; parts := [] |}; lock := None; pipe := pipe s; begun := begun s;
                            told := told s; rd := rd s; out := out s; hp := hp s |}
  | _, _ => None
  end.
(** A [::send] fails after [k] bytes of a part: an error, or a signal interrupts it (164-196); [send] returns false. The connection is kept. *)
Definition w_cut (t k : nat) (s : state) : option state :=
  if holds s t then
    match parts (ws s t) with
    | [] => None
    | b :: r =>
        if k <? length b then
          Some {| ws := set_w (ws s) t {| todo := todo (ws s t); parts := [] |}; lock := None; pipe := pipe s ++ firstn k b; begun := begun s; told := told s;
                  rd := rd s; out := out s; hp := hp s |}
        else None
    end
  else None.

(** [readData] has returned true with [d]: the next part, or the message is complete. [None]: fewer bytes than are used. *)
Definition got (r : reader) (d : bytes) : option (reader * list msg) :=
  match field r with
  | 0 => if length d <? 8 then None
         else Some ({| field := 1; need := 2; acc := []; r_id := le_decode (firstn 8 d); r_name := [] |}, [])                                   (* 105-108 *)
  | 1 => if length d <? 2 then None
         else Some ({| field := 2; need := N.to_nat (le_decode (firstn 2 d)); acc := []; r_id := r_id r; r_name := [] |}, [])                   (* 114-118 *)
  | 2 => if length d <? need r then None
         else Some ({| field := 3; need := 4; acc := []; r_id := r_id r; r_name := firstn (need r) d |}, [])                                    (* 125-130 *)
  | 3 => if length d <? 4 then None
         else Some ({| field := 4; need := N.to_nat (le_decode (firstn 4 d)); acc := []; r_id := r_id r; r_name := r_name r |}, [])             (* 136-140 *)
  | _ => Some (reader0, [{| req_id := r_id r; ep_name := r_name r; payload := d |}])                                                            (* 147-150 *)
  end.
(** One [::read] and what follows it, 54-88. *)
Definition w_read (s : state) : option state :=
  match hp s with
  | Broken => None
  | Fine =>
      let r := rd s in
      let n := Nat.min (need r - length (acc r)) chunk_size in                                             (* 54 *)
      if (0 <? n) && (length (pipe s) =? 0) then None
      else
        let c := firstn n (pipe s) in
        let d := acc r ++ c in                                                                             (* 61-63 *)
        let upd r' ms h := Some {| ws := ws s; lock := lock s; pipe := skipn n (pipe s); begun := begun s; told := told s; rd := r'; out := out s ++ ms; hp := h |} in
        if negb (length d =? need r) && (length c =? chunk_size)                                           (* 66, 71 *)
        then upd {| field := field r; need := need r; acc := d; r_id := r_id r; r_name := r_name r |} [] Fine
        else match got r d with Some (r', ms) => upd r' ms Fine | None => upd r [] Broken end              (* 66-69, 87 *)
  end.

Inductive op := Begin (t : nat) | Put (t k : nat) | Done (t : nat) | Fail (t : nat) | Cut (t k : nat) | Read.
Definition step (o : op) (s : state) : option state :=
  match o with
  | Begin t => w_begin t s | Put t k => w_put t k s | Done t => w_done t s | Fail t => w_fail t s | Cut t k => w_cut t k s | Read => w_read s
  end.
Fixpoint run (os : list op) (s : state) : option state :=
  match os with [] => Some s | o :: os' => match step o s with Some s' => run os' s' | None => None end end.
End Kernel.
