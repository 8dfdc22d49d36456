(** Model of the [Debug] output of the crate's types: derived implementations of src/value.rs, src/string.rs,
    src/anystr.rs, src/number.rs, src/doc.rs, src/parser.rs, src/error.rs, on top of std's [DebugStruct], [DebugTuple],
    [DebugList] and [Debug for str].  (Simplification: the text of [{:?}] and [{:#?}], not the single calls.) *)
From Verif Require Import Base Utf8 StrModel ErrorModel Tokenizer Parser ValueModel DocModel ErrorDisplay DisplayModel.
Local Open Scope N_scope.

(** What std's builders are given: a word written with [write_str] (unit variants, bools, integers), a [str], a tuple
    variant, a struct or struct variant, a list. *)
Inductive dbg : Type :=
| DWord (w : list N)
| DStr (s : list N)
| DTuple (name : list N) (fields : list dbg)
| DStruct (name : list N) (fields : list (list N * dbg))
| DList (items : list dbg).

(** std [char::escape_unicode]: lower case hexadecimal digits without leading zeros. *)
Definition hex_digit (n : N) : N := if n <? 10 then 48 + n else 87 + n.
Fixpoint fmt_hex_loop (fuel : nat) (n : N) (acc : list N) : list N :=
  match fuel with
  | O => acc
  | S f =>
    let acc' := hex_digit (n mod 16) :: acc in
    if (n / 16 =? 0) then acc' else fmt_hex_loop f (n / 16) acc'
  end.
Definition fmt_hex (n : N) : list N := fmt_hex_loop (S (N.size_nat n)) n [].

Section Debug.
  (** std's Unicode tables: the characters (other than the six below) that [Debug for str] writes as [\u{..}], because
      they are not printable or extend a grapheme.  Any table. *)
  Variable escaped : N -> bool.
  (** [{:#?}]. *)
  Variable alternate : bool.

  (** std [char::escape_debug_ext] as [Debug for str] uses it (double quotes are escaped, single quotes not). *)
  Definition debug_char (c : N) : list N :=
    if c =? 0 then bs "\0"
    else if c =? 9 then bs "\t"
    else if c =? 13 then bs "\r"
    else if c =? 10 then bs "\n"
    else if c =? 92 then bs "\\"
    else if c =? 34 then [92; 34]
    else if escaped c then bs "\u{" ++ fmt_hex c ++ bs "}"
    else utf8_encode c.
  (** std [Debug for str]. *)
  Definition debug_str (s : list N) : list N := [34] ++ flat_map debug_char (chars s) ++ [34].

  (** The indentation of std's [PadAdapter], four spaces per level. *)
  Definition indent (level : nat) : list N := repeat 32 (4 * level).

  (** [, ]-separated, or (alternate) one per line, indented, each with a comma. *)
  Fixpoint joined (l : list (list N)) : list N :=
    match l with
    | [] => []
    | [x] => x
    | x :: l' => x ++ bs ", " ++ joined l'
    end.
  Definition lines (level : nat) (l : list (list N)) : list N :=
    flat_map (fun x => indent (S level) ++ x ++ bs "," ++ [10]) l ++ indent level.

  (** std [DebugTuple], [DebugStruct], [DebugList]. *)
  Definition tuple_text (level : nat) (name : list N) (fields : list (list N)) : list N :=
    if alternate then name ++ bs "(" ++ [10] ++ lines level fields ++ bs ")"
    else name ++ bs "(" ++ joined fields ++ bs ")".
  Definition struct_text (level : nat) (name : list N) (fields : list (list N)) : list N :=
    if alternate then name ++ bs " {" ++ [10] ++ lines level fields ++ bs "}"
    else name ++ bs " { " ++ joined fields ++ bs " }".
  Definition list_text (level : nat) (items : list (list N)) : list N :=
    match items with
    | [] => bs "[]"
    | _ => if alternate then bs "[" ++ [10] ++ lines level items ++ bs "]" else bs "[" ++ joined items ++ bs "]"
    end.

  Fixpoint render (level : nat) (d : dbg) : list N :=
    match d with
    | DWord w => w
    | DStr s => debug_str s
    | DTuple name fields => tuple_text level name (map (render (S level)) fields)
    | DStruct name fields => struct_text level name (map (fun f => fst f ++ bs ": " ++ render (S level) (snd f)) fields)
    | DList items => list_text level (map (render (S level)) items)
    end.
End Debug.

(** * The crate's types *)

(** std [Debug for bool], [Debug for usize], [Debug for u8]. *)
Definition bool_dbg (b : bool) : dbg := DWord (fmt_bool b).
Definition int_dbg (n : N) : dbg := DWord (fmt_dec n).
(** src/anystr.rs 11-18. *)
Definition any_dbg (a : anystr) : dbg :=
  match a with Owned s => DTuple (bs "Owned") [DStr s] | Borrowed s => DTuple (bs "Borrowed") [DStr s] end.
(** src/string.rs 1028-1032 [StringContents]. *)
Definition contents_dbg (c : contents) : dbg :=
  match c with CJson a => DTuple (bs "Json") [any_dbg a] | CRaw a => DTuple (bs "Raw") [any_dbg a] end.
(** src/string.rs 648-655. *)
Definition info_dbg (pw : pwidth) (i : info) : dbg :=
  DStruct (bs "EscapeInfo") [(bs "has_escapes", bool_dbg (has_escapes pw i)); (bs "unescaped_length", int_dbg (expected_length pw i))].
(** src/string.rs 40-45 [JsonString]. *)
Definition string_dbg (pw : pwidth) (s : json_string) : dbg :=
  DStruct (bs "JsonString") [(bs "source", contents_dbg (js_source s)); (bs "info", info_dbg pw (js_info s))].
(** src/number.rs 8-12 [JsonNumber]. *)
Definition number_dbg (n : json_number) : dbg := DStruct (bs "JsonNumber") [(bs "source", any_dbg (jn_source n))].
(** src/value.rs 14-28 [Value], 815-816 [Object], 897-903 [Entry]. *)
Fixpoint value_dbg (pw : pwidth) (v : value) : dbg :=
  match v with
  | VNumber n => DTuple (bs "Number") [number_dbg n]
  | VString s => DTuple (bs "String") [string_dbg pw s]
  | VBoolean b => DTuple (bs "Boolean") [bool_dbg b]
  | VObject o =>
    DTuple (bs "Object") [DTuple (bs "Object") [DList (map (fun e =>
      DStruct (bs "Entry") [(bs "key", string_dbg pw (fst e)); (bs "value", value_dbg pw (snd e))]) o)]]
  | VArray l => DTuple (bs "Array") [DList (map (value_dbg pw) l)]
  | VNull => DWord (bs "Null")
  end.
(** src/doc.rs 174-194 [Node]. *)
Definition node_dbg (pw : pwidth) (n : node) : dbg :=
  match n with
  | NNull => DWord (bs "Null")
  | NBoolean b => DTuple (bs "Boolean") [bool_dbg b]
  | NString s => DTuple (bs "String") [string_dbg pw s]
  | NNumber n => DTuple (bs "Number") [number_dbg n]
  | NObject len => DStruct (bs "Object") [(bs "length", int_dbg (N.of_nat len))]
  | NArray len => DStruct (bs "Array") [(bs "length", int_dbg (N.of_nat len))]
  end.
(** src/parser.rs 12-34 [Token]. *)
Definition token_dbg (pw : pwidth) (t : token) : dbg :=
  match t with
  | TkNull => DWord (bs "Null")
  | TkBool b => DTuple (bs "Bool") [bool_dbg b]
  | TkString s => DTuple (bs "String") [string_dbg pw s]
  | TkNumber n => DTuple (bs "Number") [number_dbg n]
  | TkObject => DWord (bs "Object")
  | TkObjectEnd => DWord (bs "ObjectEnd")
  | TkArray => DWord (bs "Array")
  | TkArrayEnd => DWord (bs "ArrayEnd")
  | TkColon => DWord (bs "Colon")
  | TkComma => DWord (bs "Comma")
  end.
(** src/error.rs 62-128 [ErrorKind<D>]; [dd] is [D: Debug]. *)
Definition error_kind_dbg {D : Type} (dd : D -> dbg) (k : error_kind D) : dbg :=
  match k with
  | KUtf8 => DWord (bs "Utf8")
  | KUnexpectedEof => DWord (bs "UnexpectedEof")
  | KExpectedObjectKey => DWord (bs "ExpectedObjectKey")
  | KExpectedColon => DWord (bs "ExpectedColon")
  | KExpectedValue => DWord (bs "ExpectedValue")
  | KExpectedCommaOrEndOfObject => DWord (bs "ExpectedCommaOrEndOfObject")
  | KExpectedCommaOrEndOfArray => DWord (bs "ExpectedCommaOrEndOfArray")
  | KIllegalTrailingComma => DWord (bs "IllegalTrailingComma")
  | KUnexpected b => DTuple (bs "Unexpected") [int_dbg b]
  | KTrailingNonWhitespace => DWord (bs "TrailingNonWhitespace")
  | KObjectKeysMustBeStrings => DWord (bs "ObjectKeysMustBeStrings")
  | KExpectedExponent => DWord (bs "ExpectedExponent")
  | KExpectedDecimalDigit => DWord (bs "ExpectedDecimalDigit")
  | KExpectedDigit => DWord (bs "ExpectedDigit")
  | KInvalidHexadecimal => DWord (bs "InvalidHexadecimal")
  | KInvalidEscape => DWord (bs "InvalidEscape")
  | KUnclosedObject => DWord (bs "UnclosedObject")
  | KUnclosedArray => DWord (bs "UnclosedArray")
  | KUnclosedString => DWord (bs "UnclosedString")
  | KExpectedString => DWord (bs "ExpectedString")
  | KExpectedNumber => DWord (bs "ExpectedNumber")
  | KRecursionLimitReached => DWord (bs "RecursionLimitReached")
  | KPayloadsShouldBeObjectOrArray => DWord (bs "PayloadsShouldBeObjectOrArray")
  | KPaylodTooLarge => DWord (bs "PaylodTooLarge")
  | KErrorFromDelegate d => DTuple (bs "ErrorFromDelegate") [dd d]
  end.
(** src/error.rs 5-9 [Error<D>]. *)
Definition error_dbg {D : Type} (dd : D -> dbg) (e : error D) : dbg :=
  DStruct (bs "Error") [(bs "offset", int_dbg (N.of_nat (err_offset e))); (bs "kind", error_kind_dbg dd (err_kind e))].
(** src/parser.rs 994-1010 [ParseConfig]. *)
Definition config_dbg (c : parse_config) : dbg :=
  DStruct (bs "ParseConfig")
    [(bs "allow_trailing_commas", bool_dbg (allow_trailing_commas c));
     (bs "recursion_limit", match recursion_limit c with Some n => DTuple (bs "Some") [int_dbg n] | None => DWord (bs "None") end);
     (bs "allow_all_types_at_root", bool_dbg (allow_all_types_at_root c))].

(** src/parser.rs 39-89 [PeekableTokenKind]. *)
Definition peek_kind_dbg (k : peek_kind) : dbg :=
  DWord (match k with
  | PkNull => bs "Null" | PkTrue => bs "True" | PkFalse => bs "False" | PkString => bs "String" | PkNumber => bs "Number"
  | PkObject => bs "Object" | PkObjectEnd => bs "ObjectEnd" | PkArray => bs "Array" | PkArrayEnd => bs "ArrayEnd"
  | PkUnrecognized => bs "Unrecognized" | PkColon => bs "Colon" | PkComma => bs "Comma"
  end).
(** src/parser.rs 1162-1176 [JsonKind]. *)
Definition json_kind_dbg (k : json_kind) : dbg :=
  DWord (match k with
  | JkNull => bs "Null" | JkBoolean => bs "Boolean" | JkNumber => bs "Number" | JkString => bs "String"
  | JkObject => bs "Object" | JkArray => bs "Array"
  end).

(** The texts. *)
Definition value_debug (escaped : N -> bool) (alternate : bool) (pw : pwidth) (v : value) : list N :=
  render escaped alternate 0 (value_dbg pw v).
Definition string_debug (escaped : N -> bool) (alternate : bool) (pw : pwidth) (s : json_string) : list N :=
  render escaped alternate 0 (string_dbg pw s).
Definition number_debug (escaped : N -> bool) (alternate : bool) (n : json_number) : list N :=
  render escaped alternate 0 (number_dbg n).
Definition token_debug (escaped : N -> bool) (alternate : bool) (pw : pwidth) (t : token) : list N :=
  render escaped alternate 0 (token_dbg pw t).
Definition node_debug (escaped : N -> bool) (alternate : bool) (pw : pwidth) (n : node) : list N :=
  render escaped alternate 0 (node_dbg pw n).
Definition error_debug {D : Type} (dd : D -> dbg) (escaped : N -> bool) (alternate : bool) (e : error D) : list N :=
  render escaped alternate 0 (error_dbg dd e).
Definition config_debug (alternate : bool) (c : parse_config) : list N :=
  render (fun _ => false) alternate 0 (config_dbg c).
(** src/doc.rs 43-46 [GenericDocument], 196-200 [Nodes]; [phantom] is what std prints for the [PhantomData] field (it
    depends on the version of the compiler). *)
Definition document_debug (phantom : list N) (escaped : N -> bool) (alternate : bool) (pw : pwidth) (d : document) : list N :=
  struct_text alternate 0 (bs "GenericDocument")
    [bs "nodes: " ++ struct_text alternate 1 (bs "Nodes")
       [bs "collection: " ++ render escaped alternate 2 (DList (map (node_dbg pw) d));
        bs "_phantom: " ++ phantom]].
