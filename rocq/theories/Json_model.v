(** JSON values and their text, as the code uses them through the JSON library (nlohmann_json, at least 3.4.0:
    /repo/thirdparty/CMakeLists.txt lines 4-17; the library itself is not in /repo, so this models its documented behaviour):
    [dump()] without indentation and with the default, strict, handling of text that is not UTF-8; [parse()] of RFC 8259 text.
    Used at scalopus_catapult/src/trace_session.cpp lines 97-185 and catapult_recorder.cpp lines 122-136.
    Simplifications: floating point numbers are of an arbitrary type [F] with a function that writes one and a function that reads one
    ([None]: out of range, which the library rejects); text is read to the first NUL, as the library does; the nesting
    depth is not limited (the library's [dump] recurses). *)
From Coq Require Import Decimal String List Arith NArith ZArith Ascii Bool.
Import ListNotations.
From Verif Require Import OMap_model.

Definition bytes := list ascii.
Definition code (c : ascii) : N := N_of_ascii c.
Definition ch (n : N) : ascii := ascii_of_N n.
Definition text (s : string) : bytes := list_ascii_of_string s.

(** ** Values. Objects are [std::map<std::string, json>]: in ascending order of the keys, each once. *)
Inductive json {F : Type} :=
| JNull | JBool (b : bool) | JInt (z : Z) | JFloat (f : F) | JStr (s : bytes)
| JArr (l : list json) | JObj (l : list (bytes * json)).
Arguments json : clear implicits.

(** ** UTF-8 *)
Definition between (lo hi : N) (c : ascii) : bool := (lo <=? code c)%N && (code c <=? hi)%N.
Definition cont (c : ascii) : bool := between 128 191 c.
(** The length of the sequence at the head of the text if it is well-formed (RFC 3629): the bytes, and the rest. *)
Definition utf8_head (s : bytes) : option (bytes * bytes) :=
  match s with
  | [] => None
  | a :: s1 =>
      if between 0 127 a then Some ([a], s1)
      else match s1 with
      | [] => None
      | b :: s2 =>
          if between 194 223 a && cont b then Some ([a; b], s2)
          else match s2 with
          | [] => None
          | c :: s3 =>
              if cont c && ((between 224 224 a && between 160 191 b) || (between 225 236 a && cont b) || (between 237 237 a && between 128 159 b)
                            || (between 238 239 a && cont b))
              then Some ([a; b; c], s3)
              else match s3 with
              | [] => None
              | d :: s4 =>
                  if cont c && cont d && ((between 240 240 a && between 144 191 b) || (between 241 243 a && cont b) || (between 244 244 a && between 128 143 b))
                  then Some ([a; b; c; d], s4) else None
              end
          end
      end
  end.
Fixpoint utf8_fuel (n : nat) (s : bytes) : bool :=
  match s, n with
  | [], _ => true
  | _, O => false
  | _, S n' => match utf8_head s with Some (_, s') => utf8_fuel n' s' | None => false end
  end.
Definition utf8 (s : bytes) : bool := utf8_fuel (length s) s.

(** ** Writing *)
Definition quote : ascii := """"%char.
Definition backslash : ascii := "\"%char.
Definition hexdigit (n : N) : ascii := if (n <? 10)%N then ch (48 + n) else ch (87 + n).
(** One character of a string. Bytes above 127 are passed through. *)
Definition escape (c : ascii) : bytes :=
  let n := code c in
  if (n =? 34)%N then [backslash; quote]
  else if (n =? 92)%N then [backslash; backslash]
  else if (n =? 8)%N then [backslash; "b"%char]
  else if (n =? 9)%N then [backslash; "t"%char]
  else if (n =? 10)%N then [backslash; "n"%char]
  else if (n =? 12)%N then [backslash; "f"%char]
  else if (n =? 13)%N then [backslash; "r"%char]
  else if (n <? 32)%N then [backslash; "u"%char; "0"%char; "0"%char; hexdigit (n / 16); hexdigit (n mod 16)]
  else [c].
Definition dump_str (s : bytes) : bytes := quote :: flat_map escape s ++ [quote].
Fixpoint uint_digits (d : uint) : bytes :=
  match d with
  | Nil => []
  | D0 d => "0"%char :: uint_digits d | D1 d => "1"%char :: uint_digits d | D2 d => "2"%char :: uint_digits d
  | D3 d => "3"%char :: uint_digits d | D4 d => "4"%char :: uint_digits d | D5 d => "5"%char :: uint_digits d
  | D6 d => "6"%char :: uint_digits d | D7 d => "7"%char :: uint_digits d | D8 d => "8"%char :: uint_digits d
  | D9 d => "9"%char :: uint_digits d
  end.
Definition dump_nat (n : N) : bytes := uint_digits (N.to_uint n).
Definition dump_int (z : Z) : bytes :=
  match z with Zneg p => "-"%char :: dump_nat (Npos p) | Zpos p => dump_nat (Npos p) | Z0 => dump_nat 0 end.

Section Text.
Context {F : Type} (fw : F -> bytes) (fr : bytes -> option F).

(** [None]: a string that is not UTF-8, the library throws [type_error] 316. *)
Definition opt_str (s : bytes) : option bytes := if utf8 s then Some (dump_str s) else None.
Definition opt_app (a b : option bytes) : option bytes :=
  match a, b with Some x, Some y => Some (x ++ y) | _, _ => None end.
Section Items.
Context {A : Type} (dump1 : A -> option bytes).
(** The items after the first, each preceded by a comma. *)
Fixpoint dump_rest (l : list A) : option bytes :=
  match l with
  | [] => Some []
  | x :: l' => opt_app (option_map (cons ","%char) (dump1 x)) (dump_rest l')
  end.
Definition dump_items (l : list A) : option bytes :=
  match l with [] => Some [] | x :: l' => opt_app (dump1 x) (dump_rest l') end.
End Items.
Definition wrap (a b : ascii) (o : option bytes) : option bytes := option_map (fun t => a :: t ++ [b]) o.
Fixpoint dump (j : json F) : option bytes :=
  match j with
  | JNull => Some (text "null")
  | JBool true => Some (text "true")
  | JBool false => Some (text "false")
  | JInt z => Some (dump_int z)
  | JFloat f => Some (fw f)
  | JStr s => opt_str s
  | JArr l => wrap "["%char "]"%char (dump_items dump l)
  | JObj l => wrap "{"%char "}"%char
                (dump_items (fun kv => opt_app (option_map (fun t => t ++ [":"%char]) (opt_str (fst kv))) (dump (snd kv))) l)
  end.

(** ** Reading *)
Definition is_ws (c : ascii) : bool := ((code c =? 32) || (code c =? 9) || (code c =? 10) || (code c =? 13))%N.
Fixpoint skip_ws (s : bytes) : bytes := match s with c :: s' => if is_ws c then skip_ws s' else s | [] => [] end.
Definition is_digit (c : ascii) : bool := between 48 57 c.
Fixpoint span_digits (s : bytes) : bytes * bytes :=
  match s with
  | c :: s' => if is_digit c then let (a, b) := span_digits s' in (c :: a, b) else ([], s)
  | [] => ([], [])
  end.
(** An optional minus, a zero or digits not starting with zero, an optional point and digits, an optional exponent (e or E, an
    optional sign, digits): the longest such text. The sign, the digits, what makes it a floating point
    number, the rest. An incomplete fraction or exponent is an error. *)
Definition scan_int (s : bytes) : option (bytes * bytes) :=
  match s with
  | c :: s' => if (code c =? 48)%N then Some ([c], s') else if between 49 57 c then Some (span_digits s) else None
  | [] => None
  end.
Definition scan_frac (s : bytes) : option (bytes * bytes) :=
  match s with
  | c :: s' => if (code c =? 46)%N
               then match span_digits s' with ([], _) => None | (ds, r) => Some (c :: ds, r) end
               else Some ([], s)
  | [] => Some ([], [])
  end.
Definition scan_exp (s : bytes) : option (bytes * bytes) :=
  match s with
  | c :: s' => if ((code c =? 101) || (code c =? 69))%N
               then match s' with
                    | g :: s'' => if ((code g =? 43) || (code g =? 45))%N
                                  then match span_digits s'' with ([], _) => None | (ds, r) => Some (c :: g :: ds, r) end
                                  else match span_digits s' with ([], _) => None | (ds, r) => Some (c :: ds, r) end
                    | [] => None
                    end
               else Some ([], s)
  | [] => Some ([], [])
  end.
Definition scan_number (s : bytes) : option (bool * bytes * bytes * bytes) :=
  let (neg, s1) := match s with c :: s' => if (code c =? 45)%N then (true, s') else (false, s) | [] => (false, []) end in
  match scan_int s1 with
  | Some (ds, s2) =>
      match scan_frac s2 with
      | Some (fr, s3) => match scan_exp s3 with Some (ex, s4) => Some (neg, ds, fr ++ ex, s4) | None => None end
      | None => None
      end
  | None => None
  end.
Definition digits_value (ds : bytes) : N := fold_left (fun a c => (10 * a + (code c - 48))%N) ds 0%N.
(** An integer outside of the 64 bits becomes a floating point number. *)
Definition sign_text (neg : bool) : bytes := if neg then ["-"%char] else [].
Definition read_float (t : bytes) : option (json F) := option_map JFloat (fr t).
Definition number (neg : bool) (ds more : bytes) : option (json F) :=
  match more with
  | [] =>
      let v := digits_value ds in
      if neg then if (v <=? 9223372036854775808)%N then Some (JInt (- Z.of_N v)) else read_float (sign_text neg ++ ds)
      else if (v <=? 18446744073709551615)%N then Some (JInt (Z.of_N v)) else read_float ds
  | _ => read_float (sign_text neg ++ ds ++ more)
  end.
(** Four hexadecimal digits. *)
Definition hexval (c : ascii) : option N :=
  if between 48 57 c then Some (code c - 48)%N
  else if between 65 70 c then Some (code c - 55)%N
  else if between 97 102 c then Some (code c - 87)%N else None.
Definition hex4 (s : bytes) : option (N * bytes) :=
  match s with
  | a :: b :: c :: d :: r =>
      match hexval a, hexval b, hexval c, hexval d with
      | Some x, Some y, Some z, Some w => Some (4096 * x + 256 * y + 16 * z + w, r)%N
      | _, _, _, _ => None
      end
  | _ => None
  end.
(** UTF-8 of a code point. *)
Definition encode (n : N) : bytes :=
  if (n <? 128)%N then [ch n]
  else if (n <? 2048)%N then [ch (192 + n / 64); ch (128 + n mod 64)]
  else if (n <? 65536)%N then [ch (224 + n / 4096); ch (128 + (n / 64) mod 64); ch (128 + n mod 64)]
  else [ch (240 + n / 262144); ch (128 + (n / 4096) mod 64); ch (128 + (n / 64) mod 64); ch (128 + n mod 64)].
(** What follows a backslash. *)
Definition unescape (s : bytes) : option (bytes * bytes) :=
  match s with
  | [] => None
  | c :: s' =>
      let n := code c in
      if ((n =? 34) || (n =? 92) || (n =? 47))%N then Some ([c], s')
      else if (n =? 98)%N then Some ([ch 8], s')
      else if (n =? 102)%N then Some ([ch 12], s')
      else if (n =? 110)%N then Some ([ch 10], s')
      else if (n =? 114)%N then Some ([ch 13], s')
      else if (n =? 116)%N then Some ([ch 9], s')
      else if (n =? 117)%N then
        match hex4 s' with
        | Some (u, r) =>
            if ((55296 <=? u) && (u <=? 56319))%N then
              match r with
              | b :: v :: r' =>
                  if ((code b =? 92) && (code v =? 117))%N then
                    match hex4 r' with
                    | Some (w, r'') => if ((56320 <=? w) && (w <=? 57343))%N
                                       then Some (encode (65536 + (u - 55296) * 1024 + (w - 56320))%N, r'') else None
                    | None => None
                    end
                  else None
              | _ => None
              end
            else if ((56320 <=? u) && (u <=? 57343))%N then None
            else Some (encode u, r)
        | None => None
        end
      else None
  end.
(** The text of a string after its opening quote. *)
Fixpoint read_str (n : nat) (s : bytes) : option (bytes * bytes) :=
  match n with
  | O => None
  | S n' =>
      match s with
      | [] => None
      | c :: s' =>
          if (code c =? 34)%N then Some ([], s')
          else match (if (code c =? 92)%N then unescape s' else if (code c <? 32)%N then None else utf8_head s) with
               | Some (t, r) => match read_str n' r with Some (t', r') => Some (t ++ t', r') | None => None end
               | None => None
               end
      end
  end.
Fixpoint strip (p s : bytes) : option bytes :=
  match p, s with
  | [], _ => Some s
  | a :: p', b :: s' => if Ascii.eqb a b then strip p' s' else None
  | _ :: _, [] => None
  end.

(** A value; the items of an array after an item; the members of an object after a member. *)
Fixpoint read_value (n : nat) (s : bytes) : option (json F * bytes) :=
  match n with
  | O => None
  | S n' =>
      match skip_ws s with
      | [] => None
      | c :: r =>
          let k := code c in
          if (k =? 91)%N then
            match skip_ws r with
            | c' :: r' => if (code c' =? 93)%N then Some (JArr [], r')
                          else match read_value n' r with
                               | Some (v, r1) => match read_items n' r1 with Some (l, r2) => Some (JArr (v :: l), r2) | None => None end
                               | None => None
                               end
            | [] => None
            end
          else if (k =? 123)%N then
            match skip_ws r with
            | c' :: r' => if (code c' =? 125)%N then Some (JObj [], r')
                          else match read_members n' [] r with Some (m, r2) => Some (JObj m, r2) | None => None end
            | [] => None
            end
          else if (k =? 34)%N then match read_str (length r) r with Some (t, r') => Some (JStr t, r') | None => None end
          else if (k =? 45)%N || is_digit c then
            match scan_number (c :: r) with
            | Some (neg, ds, more, r') => match number neg ds more with Some v => Some (v, r') | None => None end
            | None => None
            end
          else match strip (text "null") (c :: r) with
               | Some r' => Some (JNull, r')
               | None => match strip (text "true") (c :: r) with
                         | Some r' => Some (JBool true, r')
                         | None => match strip (text "false") (c :: r) with Some r' => Some (JBool false, r') | None => None end
                         end
               end
      end
  end
with read_items (n : nat) (s : bytes) : option (list (json F) * bytes) :=
  match n with
  | O => None
  | S n' =>
      match skip_ws s with
      | [] => None
      | c :: r =>
          if (code c =? 93)%N then Some ([], r)
          else if (code c =? 44)%N then
            match read_value n' r with
            | Some (v, r1) => match read_items n' r1 with Some (l, r2) => Some (v :: l, r2) | None => None end
            | None => None
            end
          else None
      end
  end
with read_members (n : nat) (m : list (bytes * json F)) (s : bytes) : option (list (bytes * json F) * bytes) :=
  match n with
  | O => None
  | S n' =>
      match skip_ws s with
      | c :: r =>
          if (code c =? 34)%N then
            match read_str (length r) r with
            | Some (key, r1) =>
                match skip_ws r1 with
                | c1 :: r2 =>
                    if (code c1 =? 58)%N then
                      match read_value n' r2 with
                      | Some (v, r3) =>
                          match skip_ws r3 with
                          | c2 :: r4 => if (code c2 =? 125)%N then Some (minsert str_ltb key v m, r4)
                                        else if (code c2 =? 44)%N then read_members n' (minsert str_ltb key v m) r4
                                        else None
                          | [] => None
                          end
                      | None => None
                      end
                    else None
                | [] => None
                end
            | None => None
            end
          else None
      | [] => None
      end
  end.
(** The text up to the first NUL. *)
Fixpoint to_nul (s : bytes) : bytes := match s with c :: s' => if (code c =? 0)%N then [] else c :: to_nul s' | [] => [] end.
(** [None]: the library throws [parse_error]. A byte order mark at the start is skipped. *)
Definition no_bom (s : bytes) : bytes := match strip [ch 239; ch 187; ch 191] s with Some r => r | None => s end.
Definition parse (s : bytes) : option (json F) :=
  let s := no_bom (to_nul s) in
  match read_value (S (length s)) s with
  | Some (v, r) => match skip_ws r with [] => Some v | _ => None end
  | None => None
  end.
End Text.
