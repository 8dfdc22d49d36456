(** Independent specification, last part: which error is reported where, for a text that is not accepted.
    Only the type of error kinds is taken from the model (it is part of the API); offsets count bytes from the start of
    the list the relation is about.  Every relation reads: "the bytes ... are wrong at offset n, in the way k". *)
From Verif Require Import Base Utf8 ErrorModel Spec.
Local Open Scope N_scope.

Notation kind := (error_kind infallible).

Definition starts (P : N -> Prop) (r : list N) : Prop := match r with b :: _ => P b | [] => False end.

(** * Tokens *)

Definition is_hex (b : N) : Prop := digit b \/ 65 <= b <= 70 \/ 97 <= b <= 102.

(** Four hexadecimal digits were wanted: the input ends, or another byte comes first. *)
Inductive hex_error (count : nat) : list N -> nat -> kind -> Prop :=
| he_end h : Forall is_hex h -> (length h < count)%nat -> hex_error count h (length h) KUnexpectedEof
| he_bad h c x : Forall is_hex h -> (length h < count)%nat -> ~ is_hex c ->
    hex_error count (h ++ c :: x) (length h) KInvalidHexadecimal.

Definition high_surrogate (v : N) : Prop := 0xD800 <= v <= 0xDBFF.
Definition low_surrogate (v : N) : Prop := 0xDC00 <= v <= 0xDFFF.

(** After a high surrogate; offsets from the [u] of this first half.  What is not the second half of a pair is reported
    at that [u]. *)
Inductive second_half_error : list N -> nat -> kind -> Prop :=
| sh_end : second_half_error [] 5 KUnexpectedEof
| sh_no_escape c x : c <> 92 -> second_half_error (c :: x) 0 KUtf8
| sh_end2 : second_half_error [92] 6 KUnexpectedEof
| sh_no_unicode c x : c <> 117 -> second_half_error (92 :: c :: x) 0 KUtf8
| sh_hex x n k : hex_error 4 x n k -> second_half_error (92 :: 117 :: x) (7 + n) k
| sh_not_low h v x : hex4 h v -> ~ low_surrogate v -> second_half_error (92 :: 117 :: h ++ x) 0 KUtf8.

(** After the backslash of an escape. *)
Inductive escape_error : list N -> nat -> kind -> Prop :=
| ee_end : escape_error [] 0 KUnexpectedEof
| ee_letter c x : ~ In c (117 :: map fst simple_escapes) -> escape_error (c :: x) 0 KInvalidEscape
| ee_hex x n k : hex_error 4 x n k -> escape_error (117 :: x) (1 + n) k
| ee_low h v x : hex4 h v -> low_surrogate v -> escape_error (117 :: h ++ x) 0 KUtf8
| ee_high h v x n k : hex4 h v -> high_surrogate v -> second_half_error x n k -> escape_error (117 :: h ++ x) n k.

(** After the opening quote.  Non-ASCII bytes are checked run by run, and an ill-formed run is reported at its start. *)
Inductive string_error : list N -> nat -> kind -> Prop :=
| se_end b cs : str_body b cs -> string_error b (length b) KUnclosedString
| se_control b cs c x : str_body b cs -> c < 32 -> string_error (b ++ c :: x) (length b) (KUnexpected c)
| se_escape b cs x n k : str_body b cs -> escape_error x n k -> string_error (b ++ 92 :: x) (length b + 1 + n) k
| se_utf8 b cs h x : str_body b cs -> (forall y c, b = y ++ [c] -> c < 128) ->
    h <> [] -> Forall (fun c => 128 <= c) h -> ~ starts (fun c => 128 <= c) x -> ~ is_utf8 h ->
    string_error (b ++ h ++ x) (length b) KUtf8.

(** At a minus sign or a digit. *)
Inductive number_error : list N -> nat -> kind -> Prop :=
| ne_int r : ~ starts digit r -> number_error (45 :: r) 1 KExpectedDigit
| ne_frac m i r : num_minus m -> num_int i -> ~ starts digit r ->
    number_error (m ++ i ++ 46 :: r) (length (m ++ i) + 1) KExpectedDecimalDigit
| ne_exp m i f e sg r : num_minus m -> num_int i -> num_frac f -> e = 101 \/ e = 69 ->
    sg = [43] \/ sg = [45] \/ sg = [] /\ ~ starts (fun c => c = 43 \/ c = 45) r -> ~ starts digit r ->
    number_error (m ++ i ++ f ++ e :: sg ++ r) (length (m ++ i ++ f) + 1 + length sg) KExpectedExponent.

(** At the first letter of a literal. *)
Inductive literal_error (lit : list N) : list N -> nat -> kind -> Prop :=
| le_end p c q : lit = p ++ c :: q -> p <> [] -> literal_error lit p (length p) KUnexpectedEof
| le_bad p c q b x : lit = p ++ c :: q -> p <> [] -> b <> c ->
    literal_error lit (p ++ b :: x) (length p) (KUnexpected b).

(** The bytes a token can start with: brackets, braces, comma, colon, quote, minus, digits, t, f, n. *)
Definition token_start (b : N) : Prop := In b [123; 125; 91; 93; 44; 58; 34; 45; 116; 102; 110] \/ digit b.

(** At the first byte of a token. *)
Inductive token_error : list N -> nat -> kind -> Prop :=
| te_string x n k : string_error x n k -> token_error (34 :: x) (1 + n) k
| te_number x n k : number_error x n k -> token_error x n k
| te_literal lit x n k : In lit [lit_true; lit_false; lit_null] -> literal_error lit x n k -> token_error x n k
| te_other b x : ~ ws_byte b -> ~ token_start b -> token_error (b :: x) 0 (KUnexpected b).

(** [number_then t r]: [t] is a number and [r] does not prolong it (also not to something ill-formed). *)
Inductive number_then : list N -> list N -> Prop :=
| number_then_intro m i f e r : num_minus m -> num_int i -> num_frac f -> num_exp e ->
    (i <> [48] -> ~ starts digit (f ++ e ++ r)) ->
    (f = [] -> ~ starts (fun c => c = 46) (e ++ r)) -> (f <> [] -> ~ starts digit (e ++ r)) ->
    (e = [] -> ~ starts (fun c => c = 101 \/ c = 69) r) -> (e <> [] -> ~ starts digit r) ->
    number_then (m ++ i ++ f ++ e) r.

(** [token_then x r]: [x] is a token, read to its end when [r] follows. *)
Inductive token_then : list N -> list N -> Prop :=
| th_punct b r : In b [91; 93; 123; 125; 58; 44] -> token_then [b] r
| th_literal lit r : In lit [lit_true; lit_false; lit_null] -> token_then lit r
| th_string raw cs r : str_body raw cs -> token_then (34 :: raw ++ [34]) r
| th_number t r : number_then t r -> token_then t r.

(** * Values *)
Section Structure.
  (** Are trailing commas allowed; the nesting limit. *)
  Variable tc : bool.
  Variable limit : option N.

  (** A complete value [v] denoting [t], inside [d] containers, when [r] follows. *)
  Definition value_then (d : N) (t : tree) (v r : list N) : Prop :=
    value_text tc t v /\ (forall n, t = TNum n -> number_then v r) /\
    (forall n, limit = Some n -> d + tree_depth t <= n).

  (** Inside a container, the end of the input means that the container is not closed. *)
  Definition inside (unclosed k : kind) : kind := match k with KUnexpectedEof => unclosed | _ => k end.

  (** A value is wanted, inside [d] containers. *)
  Inductive value_error (d : N) : list N -> nat -> kind -> Prop :=
  | ve_end w : ws w -> value_error d w (length w) KUnexpectedEof
  | ve_token w x n k : ws w -> token_error x n k -> value_error d (w ++ x) (length w + n) k
  | ve_punct w b x : ws w -> In b [125; 93; 58; 44] -> value_error d (w ++ b :: x) 0 (KUnexpected b)
  | ve_limit w b x : ws w -> In b [91; 123] -> limit = Some d -> value_error d (w ++ b :: x) 0 KRecursionLimitReached
  | ve_array w x n k : ws w -> limit <> Some d -> array_error (d + 1) true x n k ->
      value_error d (w ++ 91 :: x) (length w + 1 + n) (inside KUnclosedArray k)
  | ve_object w x n k : ws w -> limit <> Some d -> object_error (d + 1) true x n k ->
      value_error d (w ++ 123 :: x) (length w + 1 + n) (inside KUnclosedObject k)

  (** After the opening bracket ([first = true]) or a comma of an array. *)
  with array_error (d : N) : bool -> list N -> nat -> kind -> Prop :=
  | ae_comma w x : ws w -> tc = false -> array_error d false (w ++ 93 :: x) 0 KIllegalTrailingComma
  | ae_value first w x n k : ws w -> ~ starts (fun c => ws_byte c \/ c = 93) x -> value_error d x n k ->
      array_error d first (w ++ x) (length w + n) k
  | ae_after first w t v r n k : ws w -> value_then d t v r -> array_next_error d r n k ->
      array_error d first (w ++ v ++ r) (length (w ++ v) + n) k

  (** After an element of an array. *)
  with array_next_error (d : N) : list N -> nat -> kind -> Prop :=
  | an_end w : ws w -> array_next_error d w (length w) KUnexpectedEof
  | an_token w x n k : ws w -> token_error x n k -> array_next_error d (w ++ x) (length w + n) k
  | an_other w x r : ws w -> token_then x r -> x <> [44] -> x <> [93] ->
      array_next_error d (w ++ x ++ r) 0 KExpectedCommaOrEndOfArray
  | an_comma w x n k : ws w -> array_error d false x n k -> array_next_error d (w ++ 44 :: x) (length w + 1 + n) k

  (** After the opening bracket ([first = true]) or a comma of an object. *)
  with object_error (d : N) : bool -> list N -> nat -> kind -> Prop :=
  | oe_end first w : ws w -> object_error d first w (length w) KUnexpectedEof
  | oe_token first w x n k : ws w -> token_error x n k -> object_error d first (w ++ x) (length w + n) k
  | oe_comma w x : ws w -> tc = false -> object_error d false (w ++ 125 :: x) 0 KIllegalTrailingComma
  | oe_punct first w b x : ws w -> In b [93; 58; 44] -> object_error d first (w ++ b :: x) 0 KExpectedObjectKey
  | oe_not_string first w x r : ws w -> token_then x r -> ~ starts (fun c => In c [34; 93; 125; 58; 44]) x ->
      object_error d first (w ++ x ++ r) 0 KObjectKeysMustBeStrings
  | oe_key first w key cs r n k : ws w -> str_body key cs -> colon_error d r n k ->
      object_error d first (w ++ (34 :: key ++ [34]) ++ r) (length w + (length key + 2) + n) k

  (** After a key: every error before the value is [ExpectedColon], also one inside the token found there. *)
  with colon_error (d : N) : list N -> nat -> kind -> Prop :=
  | ce_end w : ws w -> colon_error d w (length w) KExpectedColon
  | ce_token w x n k : ws w -> token_error x n k -> colon_error d (w ++ x) (length w + n) KExpectedColon
  | ce_other w x r : ws w -> token_then x r -> x <> [58] -> colon_error d (w ++ x ++ r) 0 KExpectedColon
  | ce_value w x n k : ws w -> value_error d x n k -> colon_error d (w ++ 58 :: x) (length w + 1 + n) k
  | ce_after w w' t v r n k : ws w -> ws w' -> value_then d t v r -> member_next_error d r n k ->
      colon_error d (w ++ 58 :: w' ++ v ++ r) (length w + 1 + length (w' ++ v) + n) k

  (** After a member of an object. *)
  with member_next_error (d : N) : list N -> nat -> kind -> Prop :=
  | mn_end w : ws w -> member_next_error d w (length w) KUnexpectedEof
  | mn_token w x n k : ws w -> token_error x n k -> member_next_error d (w ++ x) (length w + n) k
  | mn_other w x r : ws w -> token_then x r -> x <> [44] -> x <> [125] ->
      member_next_error d (w ++ x ++ r) 0 KExpectedCommaOrEndOfObject
  | mn_comma w x n k : ws w -> object_error d false x n k -> member_next_error d (w ++ 44 :: x) (length w + 1 + n) k.

  Scheme value_error_mind := Induction for value_error Sort Prop
    with array_error_mind := Induction for array_error Sort Prop
    with array_next_error_mind := Induction for array_next_error Sort Prop
    with object_error_mind := Induction for object_error Sort Prop
    with colon_error_mind := Induction for colon_error Sort Prop
    with member_next_error_mind := Induction for member_next_error Sort Prop.
  Combined Scheme error_mutind from value_error_mind, array_error_mind, array_next_error_mind, object_error_mind,
    colon_error_mind, member_next_error_mind.

  (** The whole text; [roots]: are scalars allowed at the root. *)
  Inductive text_error (roots : bool) : list N -> nat -> kind -> Prop :=
  | xe_value s n k : value_error 0 s n k -> text_error roots s n k
  | xe_root w t v r : ws w -> value_then 0 t v r -> roots = false -> is_container t = false ->
      text_error roots (w ++ v ++ r) 0 KPayloadsShouldBeObjectOrArray
  | xe_trailing w t v w' b r : ws w -> value_then 0 t v (w' ++ b :: r) -> roots = true \/ is_container t = true ->
      ws w' -> ~ ws_byte b ->
      text_error roots (w ++ v ++ w' ++ b :: r) (length (w ++ v ++ w')) KTrailingNonWhitespace.
End Structure.
