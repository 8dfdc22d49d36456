(** Model of the ByteIterator and the Tokenizer of src/parser.rs. *)
From Verif Require Import Base Utf8 StrModel ErrorModel.
Local Open Scope N_scope.

(** * ByteIterator (src/parser.rs 911-984) *)

(** src/parser.rs 911-914 [struct ByteIterator]. Offsets are [nat]: they never exceed the length of
    the slice, so [usize] arithmetic on them cannot overflow. *)
Record byte_iter : Type := BI { bi_bytes : list N; bi_offset : nat }.

(** src/parser.rs 936-942 [ByteIterator::new]. *)
Definition bi_new (slice : list N) : byte_iter := BI slice 0.

(** src/parser.rs 944-947 [peek]: [self.bytes.get(self.offset)]. *)
Definition bi_peek (it : byte_iter) : option N := nth_error (bi_bytes it) (bi_offset it).

(** src/parser.rs 919-932 [next]. *)
Definition bi_next (it : byte_iter) : option (nat * N) * byte_iter :=
  match nth_error (bi_bytes it) (bi_offset it) with
  | None => (None, it)
  | Some token => (Some (bi_offset it, token), BI (bi_bytes it) (bi_offset it + 1))
  end.

(** src/parser.rs 967 the whitespace pattern. *)
Definition is_ws (b : N) : bool := (b =? 32) || (b =? 10) || (b =? 9) || (b =? 13).

(** The bytes from the current offset on; the [while]/[loop] constructs below recurse over them. *)
Definition bi_rest (it : byte_iter) : list N := skipn (bi_offset it) (bi_bytes it).

(** src/parser.rs 963-974 [skip_ws], the loop: new offset. *)
Fixpoint skip_ws_loop (rest : list N) (offset : nat) : nat :=
  match rest with
  | b :: rest' => if is_ws b then skip_ws_loop rest' (offset + 1) else offset
  | [] => offset
  end.

(** src/parser.rs 963-974 [skip_ws]. *)
Definition skip_ws (it : byte_iter) : byte_iter :=
  BI (bi_bytes it) (skip_ws_loop (bi_rest it) (bi_offset it)).

(** src/parser.rs 949-954 [next_non_ws]. *)
Definition next_non_ws (it : byte_iter) : option (nat * N) * byte_iter := bi_next (skip_ws it).

(** * Stateful computations of the tokenizer: the iterator is kept also when an error is returned. *)
Definition tok (A : Type) : Type := byte_iter -> res (error infallible) A * byte_iter.
Definition tret {A} (a : A) : tok A := fun it => (Ok a, it).
Definition terr {A} (e : error infallible) : tok A := fun it => (Err e, it).
Definition tfault {A} (f : fault) : tok A := fun it => (Fault f, it).
Definition tlift {A} (r : res (error infallible) A) : tok A := fun it => (r, it).
Definition tbind {A B} (m : tok A) (k : A -> tok B) : tok B := fun it =>
  match m it with
  | (Ok a, it') => k a it'
  | (Err e, it') => (Err e, it')
  | (Fault f, it') => (Fault f, it')
  end.
Notation "'let!' x := m 'in' k" := (tbind m (fun x => k))
  (at level 200, x pattern, m at level 100, k at level 200, right associativity) : res_scope.

(** src/parser.rs 977-983 [read]. *)
Definition bi_read : tok (nat * N) := fun it =>
  match bi_next it with
  | (None, it') => (Err (Error (bi_offset it') KUnexpectedEof), it')
  | (Some x, it') => (Ok x, it')
  end.

(** src/parser.rs 956-961 [read_non_ws]. *)
Definition read_non_ws : tok (nat * N) := fun it => bi_read (skip_ws it).

(** * Tokens *)

(** src/parser.rs 11-34 [enum Token]. *)
Inductive token : Type :=
| TkNull
| TkBool (b : bool)
| TkString (s : json_string)
| TkNumber (n : json_number)
| TkObject
| TkObjectEnd
| TkArray
| TkArrayEnd
| TkColon
| TkComma.

(** src/parser.rs 36-89 [enum PeekableTokenKind]. *)
Inductive peek_kind : Type :=
| PkNull | PkTrue | PkFalse | PkString | PkNumber | PkObject | PkObjectEnd
| PkArray | PkArrayEnd | PkUnrecognized | PkColon | PkComma.

(** src/parser.rs 986-991 [enum InitialNumberState]. *)
Inductive initial_number_state : Type := INZero | INDigit | INSign.

(** [core::str::from_utf8_unchecked(&bytes[a..b])]: the slice may panic, and the conversion is
    undefined behaviour unless the bytes are UTF-8. *)
Definition str_unchecked (it : byte_iter) (a b : nat) : res (error infallible) (list N) :=
  match slice (bi_bytes it) a b with
  | None => Fault FIndex
  | Some s => if utf8_valid s then Ok s else Fault FUtf8UB
  end.

(** ** Strings *)

(** src/parser.rs 251-262 and 275-286: [n] hexadecimal digits, [acc = acc << 4 | nibble]. *)
Fixpoint read_hex (n : nat) (acc : N) : tok N :=
  match n with
  | O => tret acc
  | S n' =>
    let! (offset, digit) := bi_read in
    let nibble := table_get 255 hex_offset_table digit in
    if nibble =? 255 then terr (Error offset KInvalidHexadecimal)
    else read_hex n' (N.lor (N.shiftl acc 4) nibble)
  end.

(** src/parser.rs 267-293: the attempt to read the second half of a surrogate pair; [Some] is the
    merged code point, [None] is [decoded_is_surrogate_pair == false]. *)
Definition read_second_half (decoded : N) : tok (option N) :=
  if (HIGH_SURROGATE_MIN <=? decoded) && (decoded <=? HIGH_SURROGATE_MAX) then
    let! (_, b1) := bi_read in
    if b1 =? 92 then
      let! (_, b2) := bi_read in
      if b2 =? 117 then
        let! second := read_hex 4 0 in
        if (LOW_SURROGATE_MIN <=? second) && (second <=? LOW_SURROGATE_MAX) then
          let! m := tlift (merge_surrogate_pair decoded second) in tret (Some m)
        else tret None
      else tret None
    else tret None
  else tret None.

(** src/parser.rs 242-313 [read_string_escape]. *)
Definition read_string_escape (pw : pwidth) (i : info) : tok info :=
  let! (offset, b) := bi_read in
  if (b =? 34) || (b =? 92) || (b =? 47) || (b =? 98) || (b =? 102) || (b =? 114)
     || (b =? 110) || (b =? 116) then
    tlift (add_bytes_from_escape pw i 1)
  else if b =? 117 then
    let! decoded := read_hex 4 0 in
    let! ch :=
      match char_from_u32 decoded with
      | Some ch => tret ch
      | None =>
        let! merged := read_second_half decoded in
        match merged with
        | Some m => tlift (char_from_u32_unchecked m)
        | None => terr (Error offset KUtf8)
        end
      end in
    tlift (add_bytes_from_escape pw i (N.of_nat (len_utf8 ch)))
  else terr (Error offset KInvalidEscape).

(** src/parser.rs 210-216: skip the bytes >= 128; new offset. *)
Fixpoint skip_high_loop (rest : list N) (offset : nat) : nat :=
  match rest with
  | b :: rest' => if b <? 128 then offset else skip_high_loop rest' (offset + 1)
  | [] => offset
  end.

Definition skip_high (it : byte_iter) : byte_iter :=
  BI (bi_bytes it) (skip_high_loop (bi_rest it) (bi_offset it)).

(** src/parser.rs 182-238: the loop of [read_string_from_source]; [g] is GUARANTEED_UTF8.
    [unicode_end - utf8_start] (219) does not underflow since [skip_high] only moves forward. *)
Fixpoint read_string_loop (g : bool) (pw : pwidth) (fuel start : nat) (i : info) : tok json_string :=
  match fuel with
  | O => tfault FFuel
  | S fuel' => fun it =>
    match bi_next it with
    | (None, it1) => (Err (Error (bi_offset it1) KUnclosedString), it1)
    | (Some (offset, byte), it1) =>
      let safe_strings := if g then safe_string_bytes else safe_string_bytes_verify_utf8 in
      if table_get false safe_strings byte then
        (let! i' := tlift (add_bytes pw i 1) in read_string_loop g pw fuel' start i') it1
      else if byte =? 34 then
        (let! s := tlift (str_unchecked it1 (start + 1) offset) in
         tret (JStr (CJson (Borrowed s)) i)) it1
      else if byte =? 92 then
        (let! i' := read_string_escape pw i in read_string_loop g pw fuel' start i') it1
      else if 128 <=? byte then
        let it2 := skip_high it1 in
        (let! i' := tlift (add_bytes pw i (N.of_nat (bi_offset it2 - offset))) in
         match slice (bi_bytes it2) offset (bi_offset it2) with
         | None => tfault FIndex
         | Some run =>
           if utf8_valid run then read_string_loop g pw fuel' start i'
           else terr (Error offset KUtf8)
         end) it2
      else if byte <=? 31 then (Err (Error offset (KUnexpected byte)), it1)
      else (Fault FUnreachable, it1)
    end
  end.

(** src/parser.rs 171-239 [read_string_from_source]. *)
Definition read_string_from_source (g : bool) (pw : pwidth) (start : nat) : tok json_string :=
  fun it => read_string_loop g pw (S (length (bi_bytes it))) start (info_none pw) it.

(** ** Numbers *)

(** [byte.is_ascii_digit()] and the pattern [b'0'..=b'9']. *)
Definition is_digit (b : N) : bool := (48 <=? b) && (b <=? 57).

(** src/parser.rs 335-350: the integer digits; returns the new offset and [read_integer_digit].
    The [self.source.read()?] inside the loop directly follows a successful [peek], so it only
    advances the offset. *)
Fixpoint int_loop (rest : list N) (offset : nat) (read_integer_digit : bool) : nat * bool :=
  match rest with
  | [] => (offset, read_integer_digit)
  | byte :: rest' =>
    if (byte =? 48) && negb read_integer_digit then ((offset + 1)%nat, true)
    else if is_digit byte then int_loop rest' (offset + 1) true
    else (offset, read_integer_digit)
  end.

(** src/parser.rs 366-374 and 393-401: one or more digits; new offset and whether any was read. *)
Fixpoint digits_loop (rest : list N) (offset : nat) (read_digit : bool) : nat * bool :=
  match rest with
  | [] => (offset, read_digit)
  | byte :: rest' =>
    if is_digit byte then digits_loop rest' (offset + 1) true else (offset, read_digit)
  end.

Definition read_int (read0 : bool) : tok bool := fun it =>
  let '(o, f) := int_loop (bi_rest it) (bi_offset it) read0 in (Ok f, BI (bi_bytes it) o).
Definition read_digits : tok bool := fun it =>
  let '(o, f) := digits_loop (bi_rest it) (bi_offset it) false in (Ok f, BI (bi_bytes it) o).
(** [self.source.next();] with the item ignored. *)
Definition bump : tok unit := fun it => (Ok tt, snd (bi_next it)).
Definition get_iter : tok byte_iter := fun it => (Ok it, it).

(** src/parser.rs 331-357: integer part. *)
Definition read_number_int (initial_state : initial_number_state) : tok unit :=
  match initial_state with
  | INZero => tret tt
  | _ =>
    let! f := read_int (match initial_state with INDigit => true | _ => false end) in
    let! it := get_iter in
    if f then tret tt else terr (Error (bi_offset it) KExpectedDigit)
  end.

(** src/parser.rs 359-382: fraction. *)
Definition read_number_frac : tok unit :=
  let! it := get_iter in
  match bi_peek it with
  | Some b =>
    if b =? 46 then
      let! _ := bump in
      let! f := read_digits in
      let! it := get_iter in
      if f then tret tt else terr (Error (bi_offset it) KExpectedDecimalDigit)
    else tret tt
  | None => tret tt
  end.

(** src/parser.rs 384-409: exponent. *)
Definition read_number_exp : tok unit :=
  let! it := get_iter in
  match bi_peek it with
  | Some b =>
    if (b =? 101) || (b =? 69) then
      let! _ := bump in
      let! it := get_iter in
      let! _ := match bi_peek it with
                | Some s => if (s =? 45) || (s =? 43) then bump else tret tt
                | None => tret tt
                end in
      let! f := read_digits in
      let! it := get_iter in
      if f then tret tt else terr (Error (bi_offset it) KExpectedExponent)
    else tret tt
  | None => tret tt
  end.

(** src/parser.rs 316-415 [read_number_from_source]. *)
Definition read_number_from_source (initial_state : initial_number_state) (start : nat)
  : tok json_number :=
  let! _ := read_number_int initial_state in
  let! _ := read_number_frac in
  let! _ := read_number_exp in
  let! it := get_iter in
  let! s := tlift (str_unchecked it start (bi_offset it)) in
  tret (JNum (Borrowed s)).

(** ** Literals: src/parser.rs 417-434 [read_literal_from_source]. *)
Fixpoint read_literal (remaining_bytes : list N) : tok unit :=
  match remaining_bytes with
  | [] => tret tt
  | expected :: more => fun it =>
    match bi_next it with
    | (None, it') => (Err (Error (bi_offset it') KUnexpectedEof), it')
    | (Some (offset, received), it') =>
      if negb (received =? expected) then (Err (Error offset (KUnexpected received)), it')
      else read_literal more it'
    end
  end.

(** ** Tokenizer *)

(** src/parser.rs 138-169 [read_peek]. *)
Definition read_peek (g : bool) (pw : pwidth) (offset : nat) (first : N) : tok token :=
  if first =? 123 then tret TkObject
  else if first =? 125 then tret TkObjectEnd
  else if first =? 91 then tret TkArray
  else if first =? 93 then tret TkArrayEnd
  else if first =? 44 then tret TkComma
  else if first =? 58 then tret TkColon
  else if first =? 34 then let! s := read_string_from_source g pw offset in tret (TkString s)
  else if first =? 45 then let! n := read_number_from_source INSign offset in tret (TkNumber n)
  else if first =? 48 then let! n := read_number_from_source INZero offset in tret (TkNumber n)
  else if (49 <=? first) && (first <=? 57) then
    let! n := read_number_from_source INDigit offset in tret (TkNumber n)
  else if first =? 116 then let! _ := read_literal [114; 117; 101] in tret (TkBool true)
  else if first =? 102 then let! _ := read_literal [97; 108; 115; 101] in tret (TkBool false)
  else if first =? 110 then let! _ := read_literal [117; 108; 108] in tret TkNull
  else terr (Error offset (KUnexpected first)).

(** src/parser.rs 127-136 [next_or_eof]. *)
Definition next_or_eof (g : bool) (pw : pwidth) : tok token := fun it =>
  match read_non_ws it with
  | (Ok (offset, byte), it') => read_peek g pw offset byte it'
  | (Err e, it') => (Err (into_fallable e), it')
  | (Fault f, it') => (Fault f, it')
  end.

(** src/parser.rs 531-539 [Iterator::next for Tokenizer]: [None] at the end of the input. *)
Definition tokenizer_next (g : bool) (pw : pwidth) (it : byte_iter)
  : option (res (error infallible) token) * byte_iter :=
  match next_non_ws it with
  | (None, it') => (None, it')
  | (Some (offset, byte), it') =>
    let '(r, it'') := read_peek g pw offset byte it' in (Some r, it'')
  end.

(** src/parser.rs 449-461 the classification of the first byte in [peek]. *)
Definition peek_kind_of (b : N) : peek_kind :=
  if b =? 123 then PkObject
  else if b =? 125 then PkObjectEnd
  else if b =? 91 then PkArray
  else if b =? 93 then PkArrayEnd
  else if b =? 44 then PkComma
  else if b =? 58 then PkColon
  else if b =? 34 then PkString
  else if (b =? 45) || ((48 <=? b) && (b <=? 57)) then PkNumber
  else if b =? 116 then PkTrue
  else if b =? 102 then PkFalse
  else if b =? 110 then PkNull
  else PkUnrecognized.

(** src/parser.rs 436-464 [peek]. *)
Definition tokenizer_peek (it : byte_iter) : option peek_kind * byte_iter :=
  let it' := skip_ws it in
  match bi_peek it' with
  | None => (None, it')
  | Some b => (Some (peek_kind_of b), it')
  end.

(** src/parser.rs 466-470 [offset]. *)
Definition tokenizer_offset (it : byte_iter) : nat := bi_offset it.

(** src/parser.rs 96-124 [for_json], [for_json_bytes], [new]. *)
Definition tokenizer_new (source : list N) : byte_iter := bi_new source.
