(** Model of the rounding behind [as_f32] and [as_f64] (src/number.rs 31-49, src/value.rs 170-188). *)
From Verif Require Import Base Utf8 StrModel ErrorModel Tokenizer Parser ValueModel NumModel.
Local Open Scope Z_scope.

(** A binary floating point format: [f_prec] significant bits, [f_emin] and [f_emax] the smallest and the
    largest exponent of the last bit. *)
Record format : Type := { f_prec : Z; f_emin : Z; f_emax : Z }.
Definition binary32 : format := {| f_prec := 24; f_emin := -149; f_emax := 104 |}.
Definition binary64 : format := {| f_prec := 53; f_emin := -1074; f_emax := 971 |}.

(** [f32]/[f64]: a finite float is (-1)^neg * M * 2^E. *)
Inductive float : Type :=
| FNan
| FInf (neg : bool)
| FFin (neg : bool) (M E : Z).

(** The float nearest to [p/q] ([q > 0]), [None] for an overflow. std's algorithm (Eisel-Lemire with a slow
    path on decimals) is not transcribed: std documents [from_str] as correctly rounded, and this is the
    textbook way to round a fraction correctly (PropFloat.v proves that it is). *)
Definition round_ratio (f : format) (p q : Z) : option (Z * Z) :=
  if p =? 0 then Some (0, f_emin f)
  else
    let l0 := Z.log2 p - Z.log2 q in
    let l := if p * 2 ^ Z.max 0 (- l0) <? q * 2 ^ Z.max 0 l0 then l0 - 1 else l0 in
    let E := Z.max (f_emin f) (l - (f_prec f - 1)) in
    let num := p * 2 ^ Z.max 0 (- E) in
    let den := q * 2 ^ Z.max 0 E in
    let M0 := num / den in
    let r := num mod den in
    let M := if (den <? 2 * r) || ((den =? 2 * r) && Z.odd M0) then M0 + 1 else M0 in
    let '(M, E) := if M =? 2 ^ f_prec f then (2 ^ (f_prec f - 1), E + 1) else (M, E) in
    if f_emax f <? E then None else Some (M, E).

(** [m * 10^e] as a fraction, rounded. *)
Definition round_decimal (f : format) (neg : bool) (m : N) (e : Z) : float :=
  match round_ratio f (Z.of_N m * 10 ^ Z.max 0 e) (10 ^ Z.max 0 (- e)) with
  | Some (M, E) => FFin neg M E
  | None => FInf neg
  end.

Definition to_float (f : format) (r : float_read) : float :=
  match r with
  | FrNan => FNan
  | FrInf neg => FInf neg
  | FrDec neg m e => round_decimal f neg m e
  end.

(** src/number.rs 31-40 [JsonNumber::as_f32], 42-49 [JsonNumber::as_f64]. *)
Definition as_f32 (n : json_number) : option float := option_map (to_float binary32) (as_float n).
Definition as_f64 (n : json_number) : option float := option_map (to_float binary64) (as_float n).
(** src/value.rs 170-188 [Value::as_f32], [Value::as_f64]. *)
Definition value_as_f32 (v : value) : option float := option_map (to_float binary32) (value_as_float v).
Definition value_as_f64 (v : value) : option float := option_map (to_float binary64) (value_as_float v).
