(** Independent specification: RFC 8259's own grammar, transcribed rule by rule, with a direct reading of
    ABNF (RFC 5234) as derivations over Unicode code points.  Nothing here refers to the model, nor to the
    grammar of Spec.v. *)
From Verif Require Import Base.
Local Open Scope N_scope.

(** * ABNF expressions (RFC 5234 sections 2.3, 3) over a set of rule names *)
Inductive rule_name : Type :=
| JSON_text | begin_array | begin_object | end_array | end_object | name_separator | value_separator
| Ws | Value | False_ | Null_ | True_ | Object | Member | Array
| Number | decimal_point | digit1_9 | E | Exp | Frac | Int | Minus | Plus | Zero
| String_ | Char | escape | quotation_mark | unescaped
| DIGIT | HEXDIG
(** the three additional names used below for paired surrogate escapes *)
| non_surrogate | high_surrogate | low_surrogate.

Inductive expr : Type :=
| Range (lo hi : N)            (* %x20-21 *)
| Empty                        (* the empty sequence *)
| Seq (a b : expr)             (* a b *)
| Alt (a b : expr)             (* a / b *)
| Star (a : expr)              (* *a *)
| Ref (n : rule_name).

Declare Scope abnf_scope.
Delimit Scope abnf_scope with abnf.
Bind Scope abnf_scope with expr.
Coercion Ref : rule_name >-> expr.
Notation "a ++ b" := (Seq a b) : abnf_scope.
Notation "a / b" := (Alt a b) : abnf_scope.
Definition x (c : N) : expr := Range c c.                              (* %x22 *)
Fixpoint xs (cs : list N) : expr :=                                    (* %x66.61.6c.73.65 *)
  match cs with [] => Empty | c :: cs' => Seq (x c) (xs cs') end.
Definition opt (a : expr) : expr := Alt a Empty.                       (* [a] *)
Definition plus1 (a : expr) : expr := Seq a (Star a).                  (* 1*a *)

(** * What an expression matches, given the rules *)
Inductive derives (rules : rule_name -> expr) : expr -> list N -> Prop :=
| d_range lo hi c : lo <= c <= hi -> derives rules (Range lo hi) [c]
| d_empty : derives rules Empty []
| d_seq a b u v : derives rules a u -> derives rules b v -> derives rules (Seq a b) (u ++ v)
| d_alt_l a b u : derives rules a u -> derives rules (Alt a b) u
| d_alt_r a b u : derives rules b u -> derives rules (Alt a b) u
| d_star_nil a : derives rules (Star a) []
| d_star_cons a u v : derives rules a u -> derives rules (Star a) v -> derives rules (Star a) (u ++ v)
| d_ref n u : derives rules (rules n) u -> derives rules (Ref n) u.

(** * RFC 8259, sections 2 to 7, and RFC 5234 appendix B.1 *)
Definition rfc8259 (n : rule_name) : expr :=
  (match n with
   (* section 2 *)
   | JSON_text => Ws ++ Value ++ Ws
   | begin_array => Ws ++ x 0x5B ++ Ws
   | begin_object => Ws ++ x 0x7B ++ Ws
   | end_array => Ws ++ x 0x5D ++ Ws
   | end_object => Ws ++ x 0x7D ++ Ws
   | name_separator => Ws ++ x 0x3A ++ Ws
   | value_separator => Ws ++ x 0x2C ++ Ws
   | Ws => Star (x 0x20 / x 0x09 / x 0x0A / x 0x0D)
   (* section 3 *)
   | Value => False_ / Null_ / True_ / Object / Array / Number / String_
   | False_ => xs [0x66; 0x61; 0x6c; 0x73; 0x65]
   | Null_ => xs [0x6e; 0x75; 0x6c; 0x6c]
   | True_ => xs [0x74; 0x72; 0x75; 0x65]
   (* section 4 *)
   | Object => begin_object ++ opt (Member ++ Star (value_separator ++ Member)) ++ end_object
   | Member => String_ ++ name_separator ++ Value
   (* section 5 *)
   | Array => begin_array ++ opt (Value ++ Star (value_separator ++ Value)) ++ end_array
   (* section 6 *)
   | Number => opt Minus ++ Int ++ opt Frac ++ opt Exp
   | decimal_point => x 0x2E
   | digit1_9 => Range 0x31 0x39
   | E => x 0x65 / x 0x45
   | Exp => E ++ opt (Minus / Plus) ++ plus1 DIGIT
   | Frac => decimal_point ++ plus1 DIGIT
   | Int => Zero / (digit1_9 ++ Star DIGIT)
   | Minus => x 0x2D
   | Plus => x 0x2B
   | Zero => x 0x30
   (* section 7 *)
   | String_ => quotation_mark ++ Star Char ++ quotation_mark
   | Char => unescaped /
       (escape ++ (x 0x22 / x 0x5C / x 0x2F / x 0x62 / x 0x66 / x 0x6E / x 0x72 / x 0x74 /
                   (x 0x75 ++ HEXDIG ++ HEXDIG ++ HEXDIG ++ HEXDIG)))
   | escape => x 0x5C
   | quotation_mark => x 0x22
   | unescaped => Range 0x20 0x21 / Range 0x23 0x5B / Range 0x5D 0x10FFFF
   (* RFC 5234, appendix B.1; ABNF strings are case-insensitive, so A-F stands for a-f too *)
   | DIGIT => Range 0x30 0x39
   | HEXDIG => DIGIT / Range 0x41 0x46 / Range 0x61 0x66
   (* four hexadecimal digits outside D800-DFFF, inside D800-DBFF, inside DC00-DFFF *)
   | non_surrogate =>
       ((DIGIT / Range 0x41 0x43 / Range 0x61 0x63 / Range 0x45 0x46 / Range 0x65 0x66) ++
          HEXDIG ++ HEXDIG ++ HEXDIG) /
       ((x 0x44 / x 0x64) ++ Range 0x30 0x37 ++ HEXDIG ++ HEXDIG)
   | high_surrogate =>
       (x 0x44 / x 0x64) ++ (Range 0x38 0x39 / Range 0x41 0x42 / Range 0x61 0x62) ++ HEXDIG ++ HEXDIG
   | low_surrogate =>
       (x 0x44 / x 0x64) ++ (Range 0x43 0x46 / Range 0x63 0x66) ++ HEXDIG ++ HEXDIG
   end)%abnf.

(** * The same grammar with surrogate escapes only in pairs
    RFC 8259 section 8.2 leaves open what becomes of a string with an unpaired surrogate escape; this
    grammar has no such strings, and differs in nothing else. *)
Definition rfc8259_paired (n : rule_name) : expr :=
  (match n with
   | Char => unescaped /
       (escape ++ (x 0x22 / x 0x5C / x 0x2F / x 0x62 / x 0x66 / x 0x6E / x 0x72 / x 0x74 /
                   (x 0x75 ++ non_surrogate) /
                   (x 0x75 ++ high_surrogate ++ escape ++ x 0x75 ++ low_surrogate)))
   | n => rfc8259 n
   end)%abnf.

(** * With trailing commas
    One extra separator before the closing bracket of a non-empty array or object. *)
Definition with_trailing_commas (rules : rule_name -> expr) (n : rule_name) : expr :=
  (match n with
   | Object => begin_object ++ opt (Member ++ Star (value_separator ++ Member) ++ opt value_separator) ++ end_object
   | Array => begin_array ++ opt (Value ++ Star (value_separator ++ Value) ++ opt value_separator) ++ end_array
   | n => rules n
   end)%abnf.

(** * Escapes of surrogates: backslash, u, D, then one of 8 to F *)
Definition surrogate_escape (u : list N) : Prop :=
  exists d h, u = [0x5C; 0x75; d; h] /\ (d = 0x44 \/ d = 0x64) /\
    (0x38 <= h <= 0x39 \/ 0x41 <= h <= 0x46 \/ 0x61 <= h <= 0x66).
Definition has_surrogate_escape (cs : list N) : Prop :=
  exists a u b, surrogate_escape u /\ cs = a ++ u ++ b.
