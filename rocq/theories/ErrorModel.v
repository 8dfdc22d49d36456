(** Model of src/error.rs (without the Display messages, see ErrorDisplay.v). *)
From Verif Require Import Base.

(** src/error.rs 62-128 [enum ErrorKind<DelegateError>]. *)
Inductive error_kind (D : Type) : Type :=
| KUtf8
| KUnexpectedEof
| KExpectedObjectKey
| KExpectedColon
| KExpectedValue
| KExpectedCommaOrEndOfObject
| KExpectedCommaOrEndOfArray
| KIllegalTrailingComma
| KUnexpected (b : N)
| KTrailingNonWhitespace
| KObjectKeysMustBeStrings
| KExpectedExponent
| KExpectedDecimalDigit
| KExpectedDigit
| KInvalidHexadecimal
| KInvalidEscape
| KUnclosedObject
| KUnclosedArray
| KUnclosedString
| KExpectedString
| KExpectedNumber
| KRecursionLimitReached
| KPayloadsShouldBeObjectOrArray
| KPaylodTooLarge
| KErrorFromDelegate (d : D).
Arguments KUtf8 {D}.
Arguments KUnexpectedEof {D}.
Arguments KExpectedObjectKey {D}.
Arguments KExpectedColon {D}.
Arguments KExpectedValue {D}.
Arguments KExpectedCommaOrEndOfObject {D}.
Arguments KExpectedCommaOrEndOfArray {D}.
Arguments KIllegalTrailingComma {D}.
Arguments KUnexpected {D} b.
Arguments KTrailingNonWhitespace {D}.
Arguments KObjectKeysMustBeStrings {D}.
Arguments KExpectedExponent {D}.
Arguments KExpectedDecimalDigit {D}.
Arguments KExpectedDigit {D}.
Arguments KInvalidHexadecimal {D}.
Arguments KInvalidEscape {D}.
Arguments KUnclosedObject {D}.
Arguments KUnclosedArray {D}.
Arguments KUnclosedString {D}.
Arguments KExpectedString {D}.
Arguments KExpectedNumber {D}.
Arguments KRecursionLimitReached {D}.
Arguments KPayloadsShouldBeObjectOrArray {D}.
Arguments KPaylodTooLarge {D}.
Arguments KErrorFromDelegate {D} d.

(** src/error.rs 4-9 [struct Error]. *)
Record error (D : Type) : Type := Error { err_offset : nat; err_kind : error_kind D }.
Arguments Error {D} err_offset err_kind.
Arguments err_offset {D} e.
Arguments err_kind {D} e.

(** src/error.rs 130-160 [ErrorKind::into_fallable]; [ErrorFromDelegate] of an [Infallible] cannot
    exist, so the [unreachable!] of line 157 is the empty match. *)
Definition kind_into_fallable {D} (k : error_kind infallible) : error_kind D :=
  match k with
  | KUtf8 => KUtf8
  | KUnexpectedEof => KUnexpectedEof
  | KExpectedObjectKey => KExpectedObjectKey
  | KExpectedColon => KExpectedColon
  | KExpectedValue => KExpectedValue
  | KExpectedCommaOrEndOfObject => KExpectedCommaOrEndOfObject
  | KExpectedCommaOrEndOfArray => KExpectedCommaOrEndOfArray
  | KIllegalTrailingComma => KIllegalTrailingComma
  | KUnexpected ch => KUnexpected ch
  | KTrailingNonWhitespace => KTrailingNonWhitespace
  | KObjectKeysMustBeStrings => KObjectKeysMustBeStrings
  | KExpectedExponent => KExpectedExponent
  | KExpectedDecimalDigit => KExpectedDecimalDigit
  | KExpectedDigit => KExpectedDigit
  | KInvalidHexadecimal => KInvalidHexadecimal
  | KInvalidEscape => KInvalidEscape
  | KUnclosedObject => KUnclosedObject
  | KUnclosedArray => KUnclosedArray
  | KUnclosedString => KUnclosedString
  | KExpectedString => KExpectedString
  | KExpectedNumber => KExpectedNumber
  | KRecursionLimitReached => KRecursionLimitReached
  | KPayloadsShouldBeObjectOrArray => KPayloadsShouldBeObjectOrArray
  | KPaylodTooLarge => KPaylodTooLarge
  | KErrorFromDelegate d => match d with end
  end.

(** src/error.rs 41-49 [Error::into_fallable]. *)
Definition into_fallable {D} (e : error infallible) : error D :=
  Error (err_offset e) (kind_into_fallable (err_kind e)).

(** src/error.rs 162-193 [ErrorKind::into_infallable]. *)
Definition kind_into_infallable (k : error_kind (error_kind infallible)) : error_kind infallible :=
  match k with
  | KUtf8 => KUtf8
  | KUnexpectedEof => KUnexpectedEof
  | KExpectedObjectKey => KExpectedObjectKey
  | KExpectedColon => KExpectedColon
  | KExpectedValue => KExpectedValue
  | KExpectedCommaOrEndOfObject => KExpectedCommaOrEndOfObject
  | KExpectedCommaOrEndOfArray => KExpectedCommaOrEndOfArray
  | KIllegalTrailingComma => KIllegalTrailingComma
  | KUnexpected ch => KUnexpected ch
  | KTrailingNonWhitespace => KTrailingNonWhitespace
  | KObjectKeysMustBeStrings => KObjectKeysMustBeStrings
  | KExpectedExponent => KExpectedExponent
  | KExpectedDecimalDigit => KExpectedDecimalDigit
  | KExpectedDigit => KExpectedDigit
  | KInvalidHexadecimal => KInvalidHexadecimal
  | KInvalidEscape => KInvalidEscape
  | KUnclosedObject => KUnclosedObject
  | KUnclosedArray => KUnclosedArray
  | KUnclosedString => KUnclosedString
  | KExpectedString => KExpectedString
  | KExpectedNumber => KExpectedNumber
  | KRecursionLimitReached => KRecursionLimitReached
  | KPayloadsShouldBeObjectOrArray => KPayloadsShouldBeObjectOrArray
  | KPaylodTooLarge => KPaylodTooLarge
  | KErrorFromDelegate kind => kind
  end.

(** src/error.rs 51-59 [Error::into_infallable]. *)
Definition into_infallable (e : error (error_kind infallible)) : error infallible :=
  Error (err_offset e) (kind_into_infallable (err_kind e)).

(** [Result::map_err]. *)
Definition map_err {E F A} (f : E -> F) (r : res E A) : res F A :=
  match r with Ok a => Ok a | Err e => Err (f e) | Fault x => Fault x end.
