(** Model of the [Display] implementations of src/error.rs and of std's decimal formatting. *)
From Verif Require Import Base Utf8 StrModel ErrorModel Tokenizer Parser ValueModel.

(** std [impl Display for usize / u8] with the default format options (which is what [{}] inside a
    [write!] gives): the decimal digits, last one first; the buffer is written with one [write_str]. *)
Fixpoint fmt_dec_loop (fuel : nat) (n : N) (acc : list N) : list N :=
  match fuel with
  | O => acc
  | S f =>
    let acc' := (48 + n mod 10)%N :: acc in
    if (n / 10 =? 0)%N then acc' else fmt_dec_loop f (n / 10)%N acc'
  end.
Definition fmt_dec (n : N) : list N := fmt_dec_loop (S (N.size_nat n)) n [].

Section Display.
  Context {D : Type}.
  (** [impl Display for DelegateError]: the pieces it writes. (Simplification: it neither fails on its
      own nor panics.) *)
  Variable show : D -> list (list N).

  (** src/error.rs 328-376 [Display for ErrorKind]: the pieces written, in order. *)
  Definition kind_display (k : error_kind D) : list (list N) :=
    match k with
    | KUtf8 => [bs "invalid utf-8"]
    | KUnexpectedEof => [bs "unexpected end of file"]
    | KExpectedObjectKey => [bs "expected object key"]
    | KExpectedColon => [bs "expected colon (':')"]
    | KExpectedValue => [bs "expected value"]
    | KExpectedCommaOrEndOfObject => [bs "expected comma or end of object"]
    | KExpectedCommaOrEndOfArray => [bs "expected comma or end of array"]
    | KIllegalTrailingComma => [bs "trailing commas are not allowed"]
    | KUnexpected ch => [bs "unexpected character: '"; fmt_dec ch; bs "'"]
    | KTrailingNonWhitespace => [bs "trailing non-whitespace data was encountered"]
    | KObjectKeysMustBeStrings => [bs "object keys must be strings"]
    | KExpectedExponent => [bs "expected exponent sign or digit for number literal"]
    | KExpectedDecimalDigit => [bs "expected decimal digit for number literal"]
    | KExpectedDigit => [bs "expected decimal digit for number literal"]
    | KInvalidHexadecimal => [bs "invalid hexadecimal in unicode escape sequence"]
    | KInvalidEscape => [bs "invalid escaped character"]
    | KUnclosedObject => [bs "expected end of object ('}}')"]
    | KUnclosedArray => [bs "expected end of array (']')"]
    | KUnclosedString => [bs "expected end of string ('""')"]
    | KExpectedString => [bs "expected a string"]
    | KExpectedNumber => [bs "expected a number"]
    | KRecursionLimitReached => [bs "the recursion limit has been reached"]
    | KPayloadsShouldBeObjectOrArray => [bs "JSON only allows objects or arrays at the root"]
    | KPaylodTooLarge => [bs "the payload is too large to be parsed into the destination structure"]
    | KErrorFromDelegate err => bs "error from delegate: " :: show err
    end.

  (** src/error.rs 31-38 [Display for Error]: [write!(f, "error at {}: {}", self.offset, self.kind)]. *)
  Definition error_display (e : error D) : list (list N) :=
    bs "error at " :: fmt_dec (N.of_nat (err_offset e)) :: bs ": " :: kind_display (err_kind e).

  (** The pieces sent to a destination, up to the first failure ([?] inside [write!]). *)
  Fixpoint write_pieces (W : fmt_write) (w : w_st W) (l : list (list N)) : bool * w_st W :=
    match l with
    | [] => (true, w)
    | x :: r => let '(ok, w') := w_write_str W w x in if ok then write_pieces W w' r else (false, w')
    end.
  Definition error_fmt (W : fmt_write) (e : error D) (w : w_st W) : bool * w_st W := write_pieces W w (error_display e).
  Definition kind_fmt (W : fmt_write) (k : error_kind D) (w : w_st W) : bool * w_st W := write_pieces W w (kind_display k).

  (** std [ToString::to_string]: the text written to a [String] (which never fails). *)
  Definition error_to_string (e : error D) : list N := snd (error_fmt string_write e []).
  Definition kind_to_string (k : error_kind D) : list N := snd (kind_fmt string_write k []).
End Display.

(** core [impl Display for Infallible]: [match *self {}]. *)
Definition infallible_show (d : infallible) : list (list N) := match d with end.
