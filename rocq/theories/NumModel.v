(** Model of src/number.rs, of [JsonString::from_json] and of std's integer parsing. *)
From Verif Require Import Base Utf8 StrModel ErrorModel Tokenizer Parser ValueModel.

(** * NumberParser and StringParser *)

(** src/number.rs 87-164 [NumberParser] and src/string.rs 1044-1121 [StringParser] have the same
    shape: everything but the wanted scalar is the error [k]; the container methods are unreachable. *)
Definition scalar_delegate (V : Type) (k : error_kind infallible)
  (num : json_number -> res (error_kind infallible) V)
  (str : json_string -> res (error_kind infallible) V) : delegate := {|
  d_st := unit; d_value := V; d_object := unit; d_array := unit; d_key := unit;
  d_error := error_kind infallible;
  d_null := fun st => (Err k, st);
  d_boolean := fun st _ => (Err k, st);
  d_number := fun st n => (num n, st);
  d_string := fun st s => (str s, st);
  d_begin_object := fun st => (Err k, st);
  d_object_key := fun st _ _ => (Fault FUnreachable, st);
  d_object_value := fun st _ _ _ => (Fault FUnreachable, st);
  d_object_is_empty := fun _ _ => Fault FUnreachable;
  d_end_object := fun st _ => (Fault FUnreachable, st);
  d_begin_array := fun st => (Err k, st);
  d_array_value := fun st _ _ => (Fault FUnreachable, st);
  d_array_is_empty := fun _ _ => Fault FUnreachable;
  d_end_array := fun st _ => (Fault FUnreachable, st);
  d_kind_of := fun _ _ => Fault FUnreachable |}.

(** src/number.rs 89-164 [ParseDelegate for NumberParser]. *)
Definition number_delegate : delegate :=
  scalar_delegate json_number KExpectedNumber (fun n => Ok n) (fun _ => Err KExpectedNumber).
(** src/string.rs 1046-1121 [ParseDelegate for StringParser]. *)
Definition string_delegate : delegate :=
  scalar_delegate json_string KExpectedString (fun _ => Err KExpectedString) (fun s => Ok s).

(** src/number.rs 15-23 [JsonNumber::from_json]. *)
Definition number_from_json (pw : pwidth) (json : list N) : res (error infallible) json_number :=
  map_err into_infallable (fst (parse_json pw number_delegate json tt)).
(** src/string.rs 48-56 [JsonString::from_json]. *)
Definition string_from_json (pw : pwidth) (json : list N) : res (error infallible) json_string :=
  map_err into_infallable (fst (parse_json pw string_delegate json tt)).

(** * Integer conversions: src/number.rs 57-85 (and src/value.rs 395-423) [as_u8] .. [as_isize]:
    [self.source().parse().ok()], i.e. std [<int>::from_str]. *)

(** The 12 integer types. *)
Inductive int_type : Type :=
| U8 | U16 | U32 | U64 | U128 | Usize | I8 | I16 | I32 | I64 | I128 | Isize.

Definition int_signed (t : int_type) : bool :=
  match t with U8 | U16 | U32 | U64 | U128 | Usize => false | _ => true end.

Definition int_bits (pw : pwidth) (t : int_type) : Z :=
  (match t with
   | U8 | I8 => 8 | U16 | I16 => 16 | U32 | I32 => 32 | U64 | I64 => 64 | U128 | I128 => 128
   | Usize | Isize => match pw with W32 => 32 | W64 => 64 end
   end)%Z.

Definition int_min (pw : pwidth) (t : int_type) : Z :=
  if int_signed t then (- 2 ^ (int_bits pw t - 1))%Z else 0%Z.
Definition int_max (pw : pwidth) (t : int_type) : Z :=
  (if int_signed t then 2 ^ (int_bits pw t - 1) - 1 else 2 ^ int_bits pw t - 1)%Z.

(** [checked_mul]/[checked_add]/[checked_sub]: [None] when the result does not fit the type. *)
Definition fit (pw : pwidth) (t : int_type) (z : Z) : option Z :=
  if (int_min pw t <=? z)%Z && (z <=? int_max pw t)%Z then Some z else None.

(** std [from_str_radix(10)] the digit loop; [sign] is 1 or -1 ([checked_add] or [checked_sub] of
    the digit).  std's fast path for short inputs omits checks that cannot fail. *)
Fixpoint int_digits (pw : pwidth) (t : int_type) (sign acc : Z) (s : list N) : option Z :=
  match s with
  | [] => Some acc
  | b :: r =>
    if is_digit b then
      match fit pw t (acc * 10)%Z with
      | None => None
      | Some m =>
        match fit pw t (m + sign * Z.of_N (b - 48))%Z with
        | None => None
        | Some a => int_digits pw t sign a r
        end
      end
    else None
  end.

(** std [<int>::from_str(s).ok()]. *)
Definition int_from_str (pw : pwidth) (t : int_type) (s : list N) : option Z :=
  match s with
  | [] => None
  | b :: r =>
    if ((b =? 43)%N || (b =? 45)%N) && (match r with [] => true | _ => false end) then None
    else if (b =? 43)%N then int_digits pw t 1 0 r
    else if (b =? 45)%N && int_signed t then int_digits pw t (-1) 0 r
    else int_digits pw t 1 0 s
  end.

(** src/number.rs 51-54 [JsonNumber::parse]: any [FromStr] is applied to the source. *)
Definition number_parse {R : Type} (from_str : list N -> R) (n : json_number) : R := from_str (jn_str n).

(** src/number.rs 57-85 [JsonNumber::as_*]. *)
Definition as_int (pw : pwidth) (t : int_type) (n : json_number) : option Z :=
  number_parse (int_from_str pw t) n.

(** src/value.rs 395-423 [Value::as_*]. *)
Definition value_as_int (pw : pwidth) (t : int_type) (v : value) : option Z :=
  match as_number v with Some n => as_int pw t n | None => None end.

(** * Float conversions: src/number.rs 31-49, src/value.rs 170-188 [as_f32], [as_f64]:
    [self.source().parse().ok()], i.e. std [<f32 as FromStr>::from_str] / [f64] ([core::num::dec2flt]).

    Here: which texts are accepted and which decimal number [(-1)^neg * m * 10^e] an accepted text
    is read as.  The rounding of that decimal number to the nearest float is in FloatModel.v. *)
Inductive float_read : Type :=
| FrNan
| FrInf (neg : bool)
| FrDec (neg : bool) (m : N) (e : Z).

(** std [dec2flt::parse::try_parse_digits]: the longest prefix of digits. *)
Fixpoint take_digits (s : list N) : list N * list N :=
  match s with
  | b :: r => if is_digit b then let '(d, r') := take_digits r in (b :: d, r') else ([], s)
  | [] => ([], [])
  end.

(** The number a list of digits denotes: [acc.wrapping_mul(10).wrapping_add(digit)], without the
    wrapping (std switches to big decimals before it happens). *)
Definition digits_value (ds : list N) : N := fold_left (fun a b => (10 * a + (b - 48))%N) ds 0%N.

(** std [dec2flt::parse::parse_scientific]: [if exponent < 0x10000 { exponent = 10 * exponent + digit }],
    so the remaining digits of an exponent that has reached 65536 are ignored. *)
Definition exponent_digits (ds : list N) : N :=
  fold_left (fun a b => if (a <? 65536)%N then (10 * a + (b - 48))%N else a) ds 0%N.

(** An optional sign: [None] if there is none. *)
Definition take_sign (s : list N) : bool * list N :=
  match s with
  | b :: r => if (b =? 45)%N then (true, r) else if (b =? 43)%N then (false, r) else (false, s)
  | [] => (false, [])
  end.

(** std [dec2flt::parse::parse_partial_number], [parse_scientific], [parse_number]. *)
Definition float_number (s : list N) : option (N * Z) :=
  let '(i, r) := take_digits s in
  let '(f, r) :=
    match r with
    | b :: r' => if (b =? 46)%N then take_digits r' else ([], r)
    | [] => ([], [])
    end in
  match i ++ f with
  | [] => None
  | ds =>
    match r with
    | [] => Some (digits_value ds, (- Z.of_nat (length f))%Z)
    | b :: r' =>
      if (b =? 101)%N || (b =? 69)%N then
        let '(neg, r') := take_sign r' in
        let '(x, rest) := take_digits r' in
        match x, rest with
        | _ :: _, [] =>
          let e := Z.of_N (exponent_digits x) in
          Some (digits_value ds, ((if neg then - e else e) - Z.of_nat (length f))%Z)
        | _, _ => None
        end
      else None
    end
  end.

(** ASCII lower case. *)
Definition lower (b : N) : N := (if (65 <=? b) && (b <=? 90) then b + 32 else b)%N.

(** std [dec2flt]. *)
Definition float_from_str (s : list N) : option float_read :=
  let '(neg, s') := take_sign s in
  match s' with
  | [] => None
  | _ =>
    match float_number s' with
    | Some (m, e) => Some (FrDec neg m e)
    | None =>
      let l := map lower s' in
      if bytes_eqb l (bs "nan") then Some FrNan
      else if bytes_eqb l (bs "inf") || bytes_eqb l (bs "infinity") then Some (FrInf neg)
      else None
    end
  end.

(** src/number.rs 31-49 [JsonNumber::as_f32], [JsonNumber::as_f64] before rounding. *)
Definition as_float (n : json_number) : option float_read := number_parse float_from_str n.
(** src/value.rs 170-188 [Value::as_f32], [Value::as_f64] before rounding. *)
Definition value_as_float (v : value) : option float_read :=
  match as_number v with Some n => as_float n | None => None end.
