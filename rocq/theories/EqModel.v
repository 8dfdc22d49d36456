(** Model of the remaining derived comparisons: [Token], [PeekableTokenKind], [JsonKind], [ParseConfig] (src/parser.rs),
    [Error], [ErrorKind] (src/error.rs), and std's [Result == Result].  (Those of [Value], [JsonNumber], [Node] and the
    documents are in ValueModel.v, StrModel.v and DocModel.v.)  A derived [==] compares the variants and then the
    fields in order. *)
From Verif Require Import Base Utf8 StrModel ErrorModel Tokenizer Parser ValueModel.
Local Open Scope N_scope.

(** src/parser.rs 12-34 [derive(PartialEq)] on [Token]. *)
Definition token_eq (pw : pwidth) (a b : token) : res infallible bool :=
  match a, b with
  | TkNull, TkNull => Ok true
  | TkBool x, TkBool y => Ok (Bool.eqb x y)
  | TkString x, TkString y => js_eq pw x y
  | TkNumber x, TkNumber y => Ok (jn_eq x y)
  | TkObject, TkObject => Ok true
  | TkObjectEnd, TkObjectEnd => Ok true
  | TkArray, TkArray => Ok true
  | TkArrayEnd, TkArrayEnd => Ok true
  | TkColon, TkColon => Ok true
  | TkComma, TkComma => Ok true
  | _, _ => Ok false
  end.

(** src/parser.rs 39-89 [derive(PartialEq, Hash)] on [PeekableTokenKind]: the discriminants, in the order of the declaration. *)
Definition peek_disc (k : peek_kind) : N :=
  match k with
  | PkNull => 0 | PkTrue => 1 | PkFalse => 2 | PkString => 3 | PkNumber => 4 | PkObject => 5 | PkObjectEnd => 6
  | PkArray => 7 | PkArrayEnd => 8 | PkUnrecognized => 9 | PkColon => 10 | PkComma => 11
  end.
Definition peek_kind_eq (a b : peek_kind) : bool := peek_disc a =? peek_disc b.

(** src/parser.rs 1162-1176 [derive(PartialEq)] on [JsonKind]. *)
Definition json_kind_disc (k : json_kind) : N :=
  match k with JkNull => 0 | JkBoolean => 1 | JkNumber => 2 | JkString => 3 | JkObject => 4 | JkArray => 5 end.
Definition json_kind_eq (a b : json_kind) : bool := json_kind_disc a =? json_kind_disc b.

(** std [derive(PartialEq)] on [Option<usize>]. *)
Definition option_n_eq (a b : option N) : bool :=
  match a, b with Some x, Some y => x =? y | None, None => true | _, _ => false end.
(** src/parser.rs 994-1010 [derive(PartialEq)] on [ParseConfig]. *)
Definition config_eq (a b : parse_config) : bool :=
  Bool.eqb (allow_trailing_commas a) (allow_trailing_commas b)
  && option_n_eq (recursion_limit a) (recursion_limit b)
  && Bool.eqb (allow_all_types_at_root a) (allow_all_types_at_root b).

(** src/error.rs 62-128 [derive(PartialEq)] on [ErrorKind<D>]; [deq] is [D: PartialEq]. *)
Definition error_kind_eq {D : Type} (deq : D -> D -> bool) (a b : error_kind D) : bool :=
  match a, b with
  | KUtf8, KUtf8 => true
  | KUnexpectedEof, KUnexpectedEof => true
  | KExpectedObjectKey, KExpectedObjectKey => true
  | KExpectedColon, KExpectedColon => true
  | KExpectedValue, KExpectedValue => true
  | KExpectedCommaOrEndOfObject, KExpectedCommaOrEndOfObject => true
  | KExpectedCommaOrEndOfArray, KExpectedCommaOrEndOfArray => true
  | KIllegalTrailingComma, KIllegalTrailingComma => true
  | KUnexpected x, KUnexpected y => x =? y
  | KTrailingNonWhitespace, KTrailingNonWhitespace => true
  | KObjectKeysMustBeStrings, KObjectKeysMustBeStrings => true
  | KExpectedExponent, KExpectedExponent => true
  | KExpectedDecimalDigit, KExpectedDecimalDigit => true
  | KExpectedDigit, KExpectedDigit => true
  | KInvalidHexadecimal, KInvalidHexadecimal => true
  | KInvalidEscape, KInvalidEscape => true
  | KUnclosedObject, KUnclosedObject => true
  | KUnclosedArray, KUnclosedArray => true
  | KUnclosedString, KUnclosedString => true
  | KExpectedString, KExpectedString => true
  | KExpectedNumber, KExpectedNumber => true
  | KRecursionLimitReached, KRecursionLimitReached => true
  | KPayloadsShouldBeObjectOrArray, KPayloadsShouldBeObjectOrArray => true
  | KPaylodTooLarge, KPaylodTooLarge => true
  | KErrorFromDelegate x, KErrorFromDelegate y => deq x y
  | _, _ => false
  end.

(** src/error.rs 5-9 [derive(PartialEq)] on [Error<D>]. *)
Definition error_eq {D : Type} (deq : D -> D -> bool) (a b : error D) : bool :=
  Nat.eqb (err_offset a) (err_offset b) && error_kind_eq deq (err_kind a) (err_kind b).

(** core [impl PartialEq for Infallible]. *)
Definition infallible_eq (a b : infallible) : bool := match a with end.

(** std [derive(PartialEq)] on [Result], for the results of the parsing functions; a panic of [==] on the values is
    passed on. *)
Definition parse_result_eq {V : Type} (veq : V -> V -> res infallible bool) (a b : res (error infallible) V) : res infallible bool :=
  match a, b with
  | Ok v, Ok w => veq v w
  | Err e, Err f => Ok (error_eq infallible_eq e f)
  | Ok _, Err _ | Err _, Ok _ => Ok false
  | Fault f, _ | _, Fault f => Fault f
  end.
