(** Independent specification, continued: the mathematical value of a number literal. *)
From Verif Require Import Base Utf8 Spec.
Local Open Scope N_scope.

(** Positional value of a digit sequence: each digit times the power of ten of the digits after it. *)
Fixpoint decimal (ds : list N) : N :=
  match ds with [] => 0 | d :: r => (d - 48) * 10 ^ N.of_nat (length r) + decimal r end.

(** An integer literal of RFC 8259: [ minus ] int, and its value. *)
Inductive integer_literal : list N -> Z -> Prop :=
| int_pos i : num_int i -> integer_literal i (Z.of_N (decimal i))
| int_neg i : num_int i -> integer_literal (45 :: i) (- Z.of_N (decimal i)).

(** Exponent of a literal: absent, or e/E, an optional sign, digits. *)
Inductive exponent_value : list N -> Z -> Prop :=
| exp_none : exponent_value [] 0
| exp_pos c ds : c = 101 \/ c = 69 -> digits ds -> exponent_value (c :: ds) (Z.of_N (decimal ds))
| exp_plus c ds : c = 101 \/ c = 69 -> digits ds -> exponent_value (c :: 43 :: ds) (Z.of_N (decimal ds))
| exp_minus c ds : c = 101 \/ c = 69 -> digits ds -> exponent_value (c :: 45 :: ds) (- Z.of_N (decimal ds)).

(** [literal_value s neg m e]: the literal [s] denotes (-1)^neg * m * 10^e; [m] are all the digits of
    the integer and fraction parts. *)
Inductive literal_value : list N -> bool -> N -> Z -> Prop :=
| lv_no_frac (neg : bool) i x ex : num_int i -> exponent_value x ex ->
    literal_value ((if neg then [45] else []) ++ i ++ x) neg (decimal i) ex
| lv_frac (neg : bool) i f x ex : num_int i -> digits f -> exponent_value x ex ->
    literal_value ((if neg then [45] else []) ++ i ++ 46 :: f ++ x) neg (decimal (i ++ f)) (ex - Z.of_nat (length f)).

(** The exponent as written in a literal: what stands behind its first e or E (0 if there is none). *)
Definition written_exponent (s : list N) (ex : Z) : Prop :=
  exists a x, s = a ++ x /\ Forall (fun b => b <> 101 /\ b <> 69) a /\ exponent_value x ex.
