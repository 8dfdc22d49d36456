(** UTF-8: the specification (RFC 3629) and models of the std routines that the crate calls. *)
From Verif Require Import Base.
Local Open Scope N_scope.

(** * Specification *)

(** A Unicode scalar value, i.e. a valid Rust [char]. *)
Definition is_scalar (c : N) : bool := (c <? 0xD800) || ((0xE000 <=? c) && (c <? 0x110000)).

(** RFC 3629 section 3; also std [char::encode_utf8]. *)
Definition utf8_encode (c : N) : list N :=
  if c <? 0x80 then [c]
  else if c <? 0x800 then [0xC0 + c / 64; 0x80 + c mod 64]
  else if c <? 0x10000 then [0xE0 + c / 4096; 0x80 + (c / 64) mod 64; 0x80 + c mod 64]
  else [0xF0 + c / 262144; 0x80 + (c / 4096) mod 64; 0x80 + (c / 64) mod 64; 0x80 + c mod 64].

(** The UTF-8 bytes of a text given as a list of chars. *)
Definition utf8_string (cs : list N) : list N := flat_map utf8_encode cs.

(** [s] is the UTF-8 encoding of the text [cs]. *)
Definition is_utf8_of (s cs : list N) : Prop :=
  Forall (fun c => is_scalar c = true) cs /\ s = utf8_string cs.

(** [s] is well-formed UTF-8. *)
Definition is_utf8 (s : list N) : Prop := exists cs, is_utf8_of s cs.

(** * Models of std routines *)

(** [char::from_u32(n)]: std library. *)
Definition char_from_u32 (n : N) : option N := if is_scalar n then Some n else None.

(** [char::len_utf8]: std library. *)
Definition len_utf8 (c : N) : nat :=
  if c <? 0x80 then 1%nat else if c <? 0x800 then 2%nat
  else if c <? 0x10000 then 3%nat else 4%nat.

(** A continuation byte [10xxxxxx]. *)
Definition is_cont (b : N) : bool := (0x80 <=? b) && (b <? 0xC0).

(** [core::str::from_utf8(s).is_ok()]: transcription of the checks of std's
    [run_utf8_validation] (width by first byte, restricted second byte). *)
Fixpoint utf8_valid (s : list N) : bool :=
  match s with
  | [] => true
  | b0 :: r0 =>
    if b0 <? 0x80 then utf8_valid r0
    else match r0 with
    | [] => false
    | b1 :: r1 =>
      if (0xC2 <=? b0) && (b0 <=? 0xDF) then is_cont b1 && utf8_valid r1
      else match r1 with
      | [] => false
      | b2 :: r2 =>
        if (0xE0 <=? b0) && (b0 <=? 0xEF) then
          ((b0 =? 0xE0) && (0xA0 <=? b1) && (b1 <=? 0xBF)
           || (0xE1 <=? b0) && (b0 <=? 0xEC) && (0x80 <=? b1) && (b1 <=? 0xBF)
           || (b0 =? 0xED) && (0x80 <=? b1) && (b1 <=? 0x9F)
           || (0xEE <=? b0) && (b0 <=? 0xEF) && (0x80 <=? b1) && (b1 <=? 0xBF))
          && is_cont b2 && utf8_valid r2
        else match r2 with
        | [] => false
        | b3 :: r3 =>
          ((b0 =? 0xF0) && (0x90 <=? b1) && (b1 <=? 0xBF)
           || (0xF1 <=? b0) && (b0 <=? 0xF3) && (0x80 <=? b1) && (b1 <=? 0xBF)
           || (b0 =? 0xF4) && (0x80 <=? b1) && (b1 <=? 0x8F))
          && is_cont b2 && is_cont b3 && utf8_valid r3
        end
      end
    end
  end.

(** std [Chars::next] ([core::str::validations::next_code_point]) on the bytes of a [str];
    [None] at the end.  The bytes are UTF-8 by the invariant of [str]: every place of the crate
    that could break the invariant is guarded by a [Fault FUtf8UB] in the model, so the value on
    other bytes is irrelevant.  The shifts/ors of std are written as [*], [+], [mod]. *)
Definition next_char (s : list N) : option (N * list N) :=
  match s with
  | [] => None
  | x :: r =>
    if x <? 0x80 then Some (x, r)
    else match r with
    | [] => None
    | y :: r1 =>
      if x <? 0xE0 then Some ((x mod 32) * 64 + y mod 64, r1)
      else match r1 with
      | [] => None
      | z :: r2 =>
        if x <? 0xF0 then Some ((x mod 32) * 4096 + (y mod 64) * 64 + z mod 64, r2)
        else match r2 with
        | [] => None
        | w :: r3 =>
          Some ((x mod 32) mod 8 * 262144 + (y mod 64) * 4096 + (z mod 64) * 64 + w mod 64, r3)
        end
      end
    end
  end.

Fixpoint chars_fuel (n : nat) (s : list N) : list N :=
  match n with
  | O => []
  | S n' => match next_char s with None => [] | Some (c, r) => c :: chars_fuel n' r end
  end.

(** [s.chars()] collected. *)
Definition chars (s : list N) : list N := chars_fuel (length s) s.

(** std [str::is_char_boundary]. *)
Definition is_char_boundary (s : list N) (i : nat) : bool :=
  if (i =? 0)%nat then true
  else match nth_error s i with
       | None => (i =? length s)%nat
       | Some b => negb (is_cont b)
       end.

(** std [&s[a..b]] on [str]: panics (here [None]) unless in range and on char boundaries. *)
Definition str_slice (s : list N) (a b : nat) : option (list N) :=
  if (a <=? b)%nat && is_char_boundary s a && is_char_boundary s b then slice s a b else None.

(** std [<[T]>::cmp] on bytes and [str::cmp]: lexicographic. *)
Fixpoint lex_cmp (a b : list N) : comparison :=
  match a, b with
  | [], [] => Eq
  | [], _ :: _ => Lt
  | _ :: _, [] => Gt
  | x :: a', y :: b' =>
    match x ?= y with Eq => lex_cmp a' b' | c => c end
  end.

(** [==] on byte slices and [str]. *)
Fixpoint bytes_eqb (a b : list N) : bool :=
  match a, b with
  | [], [] => true
  | x :: a', y :: b' => (x =? y) && bytes_eqb a' b'
  | _, _ => false
  end.
