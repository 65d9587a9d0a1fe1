(** Model of [scalopus_transport/src/protocol.h] and [protocol.cpp]: the wire format of the Unix
    socket transport and the functions [readData], [receive] and [send].

    The kernel is represented by its contract only:
    - [::read(fd, buf, n)] on a connected stream socket returns at least one and at most [n] of the
      bytes not yet read, in order; 0 when [n = 0] or when the peer is gone and everything was read;
      or -1.  Which of these happens is chosen by an oracle ([reads]).
    - [::send] accepts all bytes, or only a part (then an error for our purposes); chosen by an
      oracle ([snd_res]).

    Simplifications: blocking is not represented (the stream holds all bytes the peer ever sends,
    followed by end of file); integers on the wire are little endian (the code copies the host
    representation; both ends are on the same host); [std::size_t] is 8 bytes. *)
From Coq Require Import List Arith NArith Ascii Bool.
Import ListNotations.

Definition bytes := list ascii.

(** Host representation of unsigned integers of [k] bytes. *)
Fixpoint le_encode (k : nat) (v : N) : bytes :=
  match k with
  | O => []
  | S k' => ascii_of_N (v mod 256) :: le_encode k' (v / 256)
  end.
Fixpoint le_decode (l : bytes) : N :=
  match l with
  | [] => 0
  | b :: r => N_of_ascii b + 256 * le_decode r
  end%N.

(** [protocol::Msg], protocol.h lines 46-51. *)
Record msg := { req_id : N; ep_name : bytes; payload : bytes }.

(** Result of one [::read]: failure, or success with (at most) this many bytes. *)
Inductive read_res := RErr | RGot (k : nat).

(** Receiving end of a socket.  When [reads] is used up, reads return all they can. *)
Record sock := { stream : bytes; reads : list read_res }.

(** Outcome of a single [::read] of at most [n] bytes: the bytes, or [None] for -1. *)
Definition sys_read (s : sock) (n : nat) : option bytes * sock :=
  let avail := Nat.min n (length (stream s)) in
  match reads s with
  | RErr :: r => (None, {| stream := stream s; reads := r |})
  | RGot k :: r =>
      let c := Nat.min avail (Nat.max 1 k) in
      (Some (firstn c (stream s)), {| stream := skipn c (stream s); reads := r |})
  | [] => (Some (firstn avail (stream s)), {| stream := skipn avail (stream s); reads := [] |})
  end.

(** [chunk_size], protocol.cpp line 47. *)
Definition chunk_size : nat := 4096.

(** Result of [readData]: [true] or [false], with the content left in the output argument. *)
Inductive rd_out := RdTrue (d : bytes) | RdFalse (d : bytes) | RdFuel.

(** The loop of [readData], protocol.cpp lines 52-88.  [acc] is [incoming], its length is [received]. *)
Fixpoint read_loop (fuel : nat) (s : sock) (len : nat) (acc : bytes) : rd_out * sock :=
  match fuel with
  | O => (RdFuel, s)
  | S fuel' =>
      match sys_read s (Nat.min (len - length acc) chunk_size) with  (* line 54 *)
      | (None, s') => (RdFalse acc, s')                              (* lines 55-58 *)
      | (Some c, s') =>
          let acc' := acc ++ c in                                    (* lines 61-63 *)
          if length acc' =? len then (RdTrue acc', s')               (* lines 66-69 *)
          else if length c =? chunk_size then read_loop fuel' s' len acc'  (* lines 71-75 *)
          else if length c =? 0 then (RdFalse acc', s')              (* lines 82-86 *)
          else (RdTrue acc', s')                                     (* line 87: break, line 89 *)
      end
  end.

(** [readData], lines 44-90. *)
Definition read_data (s : sock) (len : nat) : rd_out * sock := read_loop (S len) s len [].

(** Result of [receive]: [true] with the message; [false] with what was stored in the message so
    far; or undefined behaviour: the reinterpretation of lines 107, 117, 139 and the [memcpy] of line 129
    read beyond the bytes that [readData] stored. *)
Inductive rx := RxTrue (m : msg) | RxFalse (m : msg) | RxUB | RxFuel.

(** [receive], lines 92-153. [m0] is the content of [incoming] before the call. *)
Definition receive_into (m0 : msg) (s : sock) : rx * sock :=
  match read_data s 8 with                                            (* lines 105-112 *)
  | (RdFuel, s1) => (RxFuel, s1)
  | (RdFalse _, s1) => (RxFalse m0, s1)
  | (RdTrue t1, s1) =>
    if length t1 <? 8 then (RxUB, s1) else
    let m1 := {| req_id := le_decode (firstn 8 t1); ep_name := ep_name m0; payload := payload m0 |} in
    match read_data s1 2 with                                         (* lines 114-123 *)
    | (RdFuel, s2) => (RxFuel, s2)
    | (RdFalse _, s2) => (RxFalse m1, s2)
    | (RdTrue t2, s2) =>
      if length t2 <? 2 then (RxUB, s2) else
      let ln := N.to_nat (le_decode (firstn 2 t2)) in
      match read_data s2 ln with                                      (* lines 125-134 *)
      | (RdFuel, s3) => (RxFuel, s3)
      | (RdFalse _, s3) => (RxFalse m1, s3)
      | (RdTrue t3, s3) =>
        if length t3 <? ln then (RxUB, s3) else
        let m2 := {| req_id := req_id m1; ep_name := firstn ln t3; payload := payload m0 |} in
        match read_data s3 4 with                                     (* lines 136-144 *)
        | (RdFuel, s4) => (RxFuel, s4)
        | (RdFalse _, s4) => (RxFalse m2, s4)
        | (RdTrue t4, s4) =>
          if length t4 <? 4 then (RxUB, s4) else
          let ld := N.to_nat (le_decode (firstn 4 t4)) in
          match read_data s4 ld with                                  (* lines 147-152 *)
          | (RdFuel, s5) => (RxFuel, s5)
          | (RdFalse d, s5) => (RxFalse {| req_id := req_id m2; ep_name := ep_name m2; payload := d |}, s5)
          | (RdTrue d, s5) => (RxTrue {| req_id := req_id m2; ep_name := ep_name m2; payload := d |}, s5)
          end
        end
      end
    end
  end.

(** A default constructed [Msg] (protocol.h lines 48-50), as used by all callers. *)
Definition msg0 : msg := {| req_id := 0; ep_name := []; payload := [] |}.
Definition receive (s : sock) : rx * sock := receive_into msg0 s.

(** Result of one [::send] of a buffer: everything accepted, or only the first [k] bytes. *)
Inductive snd_res := SAll | SPart (k : nat).

(** Hands the buffers to [::send] one after the other until one is not accepted completely;
    [true] when all were. *)
Fixpoint send_bufs (bufs : list bytes) (res : list snd_res) : bool * bytes :=
  match bufs with
  | [] => (true, [])
  | b :: r =>
      match res with
      | SPart k :: _ => if k <? length b then (false, firstn k b)
                        else let '(ok, out) := send_bufs r (tl res) in (ok, b ++ out)
      | _ => let '(ok, out) := send_bufs r (tl res) in (ok, b ++ out)
      end
  end.

(** The five buffers passed to [::send], lines 161-196: note the casts to [uint16_t] and [uint32_t]
    (lines 161, 162), that only the cast length of the name is sent (line 179) but the whole payload
    (line 192). *)
Definition send_buffers (m : msg) : list bytes :=
  let ln := (N.of_nat (length (ep_name m)) mod 2 ^ 16)%N in
  let ld := (N.of_nat (length (payload m)) mod 2 ^ 32)%N in
  [le_encode 8 (req_id m); le_encode 2 ln; firstn (N.to_nat ln) (ep_name m); le_encode 4 ld; payload m].

(** [send], lines 155-198: the result and the bytes put on the wire; [fd == 0] fails (lines 157-160). *)
Definition send (fd : N) (m : msg) (res : list snd_res) : bool * bytes :=
  if (fd =? 0)%N then (false, []) else send_bufs (send_buffers m) res.

(** Receiving messages one after the other until the first that does not succeed. *)
Fixpoint receive_n (n : nat) (s : sock) : list msg * sock :=
  match n with
  | O => ([], s)
  | S n' => match receive s with
            | (RxTrue m, s') => let '(ms, s'') := receive_n n' s' in (m :: ms, s'')
            | (_, s') => ([], s')
            end
  end.
