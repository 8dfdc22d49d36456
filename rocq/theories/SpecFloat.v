(** Independent specification, continued: floating point numbers and correct rounding (IEEE 754). *)
From Coq Require Import QArith Qabs Qpower.
From Verif Require Import Base FloatModel.
Local Open Scope Q_scope.

(** The rational number [M * 2^E]. *)
Definition dyadic (M E : Z) : Q := inject_Z M * (2 # 1) ^ E.
(** The rational number [m * 10^e]. *)
Definition decimal_value (m : N) (e : Z) : Q := inject_Z (Z.of_N m) * (10 # 1) ^ e.

(** The IEEE 754 interchange formats: [w] exponent bits and [p] bits of precision.  The largest exponent is [2^(w-1) - 1], the smallest
    one minus that; [f_emin] and [f_emax] speak of the last of the [p] bits instead of the first. *)
Definition ieee754 (w p : Z) : format :=
  {| f_prec := p; f_emin := 1 - (2 ^ (w - 1) - 1) - (p - 1); f_emax := 2 ^ (w - 1) - 1 - (p - 1) |}.
Definition single : format := ieee754 8 24.
Definition double : format := ieee754 11 53.

(** The finite magnitudes of a format, each with its only normal form. *)
Definition finite (f : format) (M E : Z) : Prop :=
  (0 <= M < 2 ^ f_prec f)%Z /\ (f_emin f <= E <= f_emax f)%Z /\ ((2 ^ (f_prec f - 1) <= M)%Z \/ E = f_emin f).

(** Rounding gives infinity from half a unit above the largest finite number on. *)
Definition overflow_bound (f : format) : Q := dyadic (2 ^ (f_prec f + 1) - 1) (f_emax f - 1).

(** [x >= 0] and a sign, rounded to nearest, ties to even. *)
Definition rounded (f : format) (neg : bool) (x : Q) (y : float) : Prop :=
  match y with
  | FNan => False
  | FInf n => n = neg /\ overflow_bound f <= x
  | FFin n M E =>
    n = neg /\ x < overflow_bound f /\ finite f M E /\
    forall M' E', finite f M' E' ->
      Qabs (x - dyadic M E) <= Qabs (x - dyadic M' E') /\
      (Qabs (x - dyadic M E) == Qabs (x - dyadic M' E') -> (M', E') <> (M, E) -> Z.even M = true)
  end.

(** The value of a float that is neither infinite nor NaN. *)
Definition float_is (y : float) (x : Q) : Prop :=
  exists neg M E, y = FFin neg M E /\ (if neg then - dyadic M E else dyadic M E) == x.
