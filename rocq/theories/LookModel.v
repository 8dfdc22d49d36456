(** The tokenizer and the parser of src/parser.rs once more, keeping a list of the positions of the input that are looked at, in
    order: every [self.bytes.get(self.offset)] of the ByteIterator (src/parser.rs 923, 946, 966) is one look, at a
    position inside the input or at its end, and [core::str::from_utf8] (220) looks once at each byte of its argument.  Nothing else
    of parser.rs reads the input ([from_utf8_unchecked] and slicing do not look at the bytes they delimit, and the tables
    SAFE_STRING_BYTES and HEX_OFFSET_TABLE are indexed by bytes already read).  LookFacts.v proves that dropping the lists gives
    back Tokenizer.v and Parser.v; C90 (PropLook.v) proves that no look is missing from the list. *)
From Verif Require Import Base Utf8 StrModel ErrorModel Tokenizer Parser.
Local Open Scope N_scope.

(** * ByteIterator *)
(** src/parser.rs 919-932 [next]. *)
Definition c_next (it : byte_iter) : (option (nat * N) * byte_iter) * list nat := (bi_next it, [bi_offset it]).
(** src/parser.rs 944-947 [peek]. *)
Definition c_peek (it : byte_iter) : option N * list nat := (bi_peek it, [bi_offset it]).

(** src/parser.rs 963-974 [skip_ws], the loop: new offset, and the [get]s. *)
Fixpoint c_skip_ws_loop (rest : list N) (offset : nat) : nat * list nat :=
  match rest with
  | b :: rest' =>
    if is_ws b then let '(o, n) := c_skip_ws_loop rest' (offset + 1) in (o, offset :: n) else (offset, [offset])
  | [] => (offset, [offset])
  end.
Definition c_skip_ws (it : byte_iter) : byte_iter * list nat :=
  let '(o, n) := c_skip_ws_loop (bi_rest it) (bi_offset it) in (BI (bi_bytes it) o, n).

(** src/parser.rs 949-954 [next_non_ws]. *)
Definition c_next_non_ws (it : byte_iter) : (option (nat * N) * byte_iter) * list nat :=
  let '(it1, n) := c_skip_ws it in let '(r, n') := c_next it1 in (r, n ++ n').

(** * Stateful computations with a list of looks *)
Definition ctok (A : Type) : Type := byte_iter -> (res (error infallible) A * byte_iter) * list nat.
Definition cret {A} (a : A) : ctok A := fun it => ((Ok a, it), []).
Definition cerr {A} (e : error infallible) : ctok A := fun it => ((Err e, it), []).
Definition cfault {A} (f : fault) : ctok A := fun it => ((Fault f, it), []).
Definition clift {A} (r : res (error infallible) A) : ctok A := fun it => ((r, it), []).
Definition cbind {A B} (m : ctok A) (k : A -> ctok B) : ctok B := fun it =>
  match m it with
  | ((Ok a, it'), n) => let '(r, n') := k a it' in (r, n ++ n')
  | ((Err e, it'), n) => ((Err e, it'), n)
  | ((Fault f, it'), n) => ((Fault f, it'), n)
  end.
Notation "'let@' x := m 'in' k" := (cbind m (fun x => k))
  (at level 200, x pattern, m at level 100, k at level 200, right associativity) : res_scope.
(** Looks at the positions [n]. *)
Definition looks (n : list nat) : ctok unit := fun it => ((Ok tt, it), n).

(** src/parser.rs 977-983 [read]. *)
Definition c_read : ctok (nat * N) := fun it =>
  match c_next it with
  | ((None, it'), n) => ((Err (Error (bi_offset it') KUnexpectedEof), it'), n)
  | ((Some x, it'), n) => ((Ok x, it'), n)
  end.
(** src/parser.rs 956-961 [read_non_ws]. *)
Definition c_read_non_ws : ctok (nat * N) := fun it =>
  let '(it1, n) := c_skip_ws it in let '(r, n') := c_read it1 in (r, n ++ n').

(** * Strings *)
(** src/parser.rs 251-262 and 275-286. *)
Fixpoint c_read_hex (n : nat) (acc : N) : ctok N :=
  match n with
  | O => cret acc
  | S n' =>
    let@ (offset, digit) := c_read in
    let nibble := table_get 255 hex_offset_table digit in
    if nibble =? 255 then cerr (Error offset KInvalidHexadecimal)
    else c_read_hex n' (N.lor (N.shiftl acc 4) nibble)
  end.
(** src/parser.rs 267-293. *)
Definition c_read_second_half (decoded : N) : ctok (option N) :=
  if (HIGH_SURROGATE_MIN <=? decoded) && (decoded <=? HIGH_SURROGATE_MAX) then
    let@ (_, b1) := c_read in
    if b1 =? 92 then
      let@ (_, b2) := c_read in
      if b2 =? 117 then
        let@ second := c_read_hex 4 0 in
        if (LOW_SURROGATE_MIN <=? second) && (second <=? LOW_SURROGATE_MAX) then
          let@ m := clift (merge_surrogate_pair decoded second) in cret (Some m)
        else cret None
      else cret None
    else cret None
  else cret None.
(** src/parser.rs 242-313 [read_string_escape]. *)
Definition c_read_string_escape (pw : pwidth) (i : info) : ctok info :=
  let@ (offset, b) := c_read in
  if (b =? 34) || (b =? 92) || (b =? 47) || (b =? 98) || (b =? 102) || (b =? 114)
     || (b =? 110) || (b =? 116) then
    clift (add_bytes_from_escape pw i 1)
  else if b =? 117 then
    let@ decoded := c_read_hex 4 0 in
    let@ ch :=
      match char_from_u32 decoded with
      | Some ch => cret ch
      | None =>
        let@ merged := c_read_second_half decoded in
        match merged with
        | Some m => clift (char_from_u32_unchecked m)
        | None => cerr (Error offset KUtf8)
        end
      end in
    clift (add_bytes_from_escape pw i (N.of_nat (len_utf8 ch)))
  else cerr (Error offset KInvalidEscape).

(** src/parser.rs 210-216: a [peek] for each byte, and a [next] if it is >= 128. *)
Fixpoint c_skip_high_loop (rest : list N) (offset : nat) : nat * list nat :=
  match rest with
  | b :: rest' =>
    if b <? 128 then (offset, [offset])
    else let '(o, n) := c_skip_high_loop rest' (offset + 1) in (o, offset :: offset :: n)
  | [] => (offset, [offset])
  end.
Definition c_skip_high (it : byte_iter) : byte_iter * list nat :=
  let '(o, n) := c_skip_high_loop (bi_rest it) (bi_offset it) in (BI (bi_bytes it) o, n).

(** src/parser.rs 182-238; [from_utf8] (220) looks at each byte of the run. *)
Fixpoint c_read_string_loop (g : bool) (pw : pwidth) (fuel start : nat) (i : info) : ctok json_string :=
  match fuel with
  | O => cfault FFuel
  | S fuel' => fun it =>
    match c_next it with
    | ((None, it1), n) => ((Err (Error (bi_offset it1) KUnclosedString), it1), n)
    | ((Some (offset, byte), it1), n) =>
      let safe_strings := if g then safe_string_bytes else safe_string_bytes_verify_utf8 in
      let '(r, n') :=
        if table_get false safe_strings byte then
          (let@ i' := clift (add_bytes pw i 1) in c_read_string_loop g pw fuel' start i') it1
        else if byte =? 34 then
          (let@ s := clift (str_unchecked it1 (start + 1) offset) in
           cret (JStr (CJson (Borrowed s)) i)) it1
        else if byte =? 92 then
          (let@ i' := c_read_string_escape pw i in c_read_string_loop g pw fuel' start i') it1
        else if 128 <=? byte then
          let '(it2, n2) := c_skip_high it1 in
          let '(r, n3) :=
            (let@ i' := clift (add_bytes pw i (N.of_nat (bi_offset it2 - offset))) in
             match slice (bi_bytes it2) offset (bi_offset it2) with
             | None => cfault FIndex
             | Some run =>
               let@ _ := looks (seq offset (length run)) in
               if utf8_valid run then c_read_string_loop g pw fuel' start i'
               else cerr (Error offset KUtf8)
             end) it2 in
          (r, n2 ++ n3)
        else if byte <=? 31 then ((Err (Error offset (KUnexpected byte)), it1), [])
        else ((Fault FUnreachable, it1), []) in
      (r, n ++ n')
    end
  end.
(** src/parser.rs 171-239 [read_string_from_source]. *)
Definition c_read_string_from_source (g : bool) (pw : pwidth) (start : nat) : ctok json_string :=
  fun it => c_read_string_loop g pw (S (length (bi_bytes it))) start (info_none pw) it.

(** * Numbers *)
(** src/parser.rs 335-350: a [peek] for each byte, and a [read] if it is a digit. *)
Fixpoint c_int_loop (rest : list N) (offset : nat) (read_integer_digit : bool) : (nat * bool) * list nat :=
  match rest with
  | [] => ((offset, read_integer_digit), [offset])
  | byte :: rest' =>
    if (byte =? 48) && negb read_integer_digit then (((offset + 1)%nat, true), [offset; offset])
    else if is_digit byte then let '(r, n) := c_int_loop rest' (offset + 1) true in (r, offset :: offset :: n)
    else ((offset, read_integer_digit), [offset])
  end.
(** src/parser.rs 366-374 and 393-401. *)
Fixpoint c_digits_loop (rest : list N) (offset : nat) (read_digit : bool) : (nat * bool) * list nat :=
  match rest with
  | [] => ((offset, read_digit), [offset])
  | byte :: rest' =>
    if is_digit byte then let '(r, n) := c_digits_loop rest' (offset + 1) true in (r, offset :: offset :: n)
    else ((offset, read_digit), [offset])
  end.
Definition c_read_int (read0 : bool) : ctok bool := fun it =>
  let '((o, f), n) := c_int_loop (bi_rest it) (bi_offset it) read0 in ((Ok f, BI (bi_bytes it) o), n).
Definition c_read_digits : ctok bool := fun it =>
  let '((o, f), n) := c_digits_loop (bi_rest it) (bi_offset it) false in ((Ok f, BI (bi_bytes it) o), n).
(** [self.source.next();]. *)
Definition c_bump : ctok unit := fun it => let '(r, n) := c_next it in ((Ok tt, snd r), n).
Definition c_get_iter : ctok byte_iter := fun it => ((Ok it, it), []).
(** [self.source.peek()]. *)
Definition c_peeked : ctok (option N) := fun it => let '(o, n) := c_peek it in ((Ok o, it), n).

(** src/parser.rs 331-357: integer part. *)
Definition c_read_number_int (initial_state : initial_number_state) : ctok unit :=
  match initial_state with
  | INZero => cret tt
  | _ =>
    let@ f := c_read_int (match initial_state with INDigit => true | _ => false end) in
    let@ it := c_get_iter in
    if f then cret tt else cerr (Error (bi_offset it) KExpectedDigit)
  end.
(** src/parser.rs 359-382: fraction. *)
Definition c_read_number_frac : ctok unit :=
  let@ o := c_peeked in
  match o with
  | Some b =>
    if b =? 46 then
      let@ _ := c_bump in
      let@ f := c_read_digits in
      let@ it := c_get_iter in
      if f then cret tt else cerr (Error (bi_offset it) KExpectedDecimalDigit)
    else cret tt
  | None => cret tt
  end.
(** src/parser.rs 384-409: exponent. *)
Definition c_read_number_exp : ctok unit :=
  let@ o := c_peeked in
  match o with
  | Some b =>
    if (b =? 101) || (b =? 69) then
      let@ _ := c_bump in
      let@ o := c_peeked in
      let@ _ := match o with
                | Some s => if (s =? 45) || (s =? 43) then c_bump else cret tt
                | None => cret tt
                end in
      let@ f := c_read_digits in
      let@ it := c_get_iter in
      if f then cret tt else cerr (Error (bi_offset it) KExpectedExponent)
    else cret tt
  | None => cret tt
  end.
(** src/parser.rs 316-415 [read_number_from_source]. *)
Definition c_read_number_from_source (initial_state : initial_number_state) (start : nat) : ctok json_number :=
  let@ _ := c_read_number_int initial_state in
  let@ _ := c_read_number_frac in
  let@ _ := c_read_number_exp in
  let@ it := c_get_iter in
  let@ s := clift (str_unchecked it start (bi_offset it)) in
  cret (JNum (Borrowed s)).

(** src/parser.rs 417-434 [read_literal_from_source]. *)
Fixpoint c_read_literal (remaining_bytes : list N) : ctok unit :=
  match remaining_bytes with
  | [] => cret tt
  | expected :: more => fun it =>
    match c_next it with
    | ((None, it'), n) => ((Err (Error (bi_offset it') KUnexpectedEof), it'), n)
    | ((Some (offset, received), it'), n) =>
      if negb (received =? expected) then ((Err (Error offset (KUnexpected received)), it'), n)
      else let '(r, n') := c_read_literal more it' in (r, n ++ n')
    end
  end.

(** * Tokenizer *)
(** src/parser.rs 138-169 [read_peek]. *)
Definition c_read_peek (g : bool) (pw : pwidth) (offset : nat) (first : N) : ctok token :=
  if first =? 123 then cret TkObject
  else if first =? 125 then cret TkObjectEnd
  else if first =? 91 then cret TkArray
  else if first =? 93 then cret TkArrayEnd
  else if first =? 44 then cret TkComma
  else if first =? 58 then cret TkColon
  else if first =? 34 then let@ s := c_read_string_from_source g pw offset in cret (TkString s)
  else if first =? 45 then let@ n := c_read_number_from_source INSign offset in cret (TkNumber n)
  else if first =? 48 then let@ n := c_read_number_from_source INZero offset in cret (TkNumber n)
  else if (49 <=? first) && (first <=? 57) then
    let@ n := c_read_number_from_source INDigit offset in cret (TkNumber n)
  else if first =? 116 then let@ _ := c_read_literal [114; 117; 101] in cret (TkBool true)
  else if first =? 102 then let@ _ := c_read_literal [97; 108; 115; 101] in cret (TkBool false)
  else if first =? 110 then let@ _ := c_read_literal [117; 108; 108] in cret TkNull
  else cerr (Error offset (KUnexpected first)).
(** src/parser.rs 127-136 [next_or_eof]. *)
Definition c_next_or_eof (g : bool) (pw : pwidth) : ctok token := fun it =>
  match c_read_non_ws it with
  | ((Ok (offset, byte), it'), n) => let '(r, n') := c_read_peek g pw offset byte it' in (r, n ++ n')
  | ((Err e, it'), n) => ((Err (into_fallable e), it'), n)
  | ((Fault f, it'), n) => ((Fault f, it'), n)
  end.
(** src/parser.rs 531-539 [Iterator::next for Tokenizer]. *)
Definition c_tokenizer_next (g : bool) (pw : pwidth) (it : byte_iter)
  : (option (res (error infallible) token) * byte_iter) * list nat :=
  match c_next_non_ws it with
  | ((None, it'), n) => ((None, it'), n)
  | ((Some (offset, byte), it'), n) =>
    let '((r, it''), n') := c_read_peek g pw offset byte it' in ((Some r, it''), n ++ n')
  end.
(** src/parser.rs 436-464 [peek]. *)
Definition c_tokenizer_peek (it : byte_iter) : (option peek_kind * byte_iter) * list nat :=
  let '(it', n) := c_skip_ws it in
  let '(o, n') := c_peek it' in
  (match o with None => (None, it') | Some b => (Some (peek_kind_of b), it') end, n ++ n').

(** * Parser *)
Section Parser.
  Variable g : bool.
  Variable pw : pwidth.
  Variable cfg : parse_config.
  Variable D : delegate.

  Definition cpm (A : Type) : Type := pstate D -> (res (error (d_error D)) A * pstate D) * list nat.
  (** A step that does not look at the input. *)
  Definition blind {A} (m : pm D A) : cpm A := fun s => (m s, []).
  Definition cpbind {A B} (m : cpm A) (k : A -> cpm B) : cpm B := fun s =>
    match m s with
    | ((Ok a, s'), n) => let '(r, n') := k a s' in (r, n ++ n')
    | ((Err e, s'), n) => ((Err e, s'), n)
    | ((Fault f, s'), n) => ((Fault f, s'), n)
    end.
  Definition cp_tok_err {A} (conv : error infallible -> error (d_error D)) (m : ctok A) : cpm A := fun s =>
    let '((r, it), n) := m (ps_iter s) in ((map_err conv r, PS it (ps_del s) (ps_depth s)), n).
  Definition cp_tok {A} (m : ctok A) : cpm A := cp_tok_err into_fallable m.
  Definition cp_map_err {A} (f : error (d_error D) -> error (d_error D)) (m : cpm A) : cpm A := fun s =>
    let '((r, s'), n) := m s in ((map_err f r, s'), n).

  (** src/parser.rs 802-805. *)
  Definition c_peek_array_end : cpm bool := fun s =>
    let '((o, it), n) := c_tokenizer_peek (ps_iter s) in
    (match o with
     | Some PkArrayEnd => (Ok true, PS (BI (bi_bytes it) (bi_offset it + 1)) (ps_del s) (ps_depth s))
     | _ => (Ok false, PS it (ps_del s) (ps_depth s))
     end, n).

  (** src/parser.rs 698-768: the loop of [read_object]. *)
  Fixpoint c_object_loop (read_value : cpm (d_value D)) (n : nat) (object : d_object D) : cpm (d_object D) :=
    match n with
    | O => fun s => ((Fault FFuel, s), [])
    | S n' =>
      cpbind (blind (p_offset D)) (fun offset =>
      cpbind (cp_tok (c_next_or_eof g pw)) (fun token =>
      match token with
      | TkObjectEnd =>
        cpbind (if allow_trailing_commas cfg then blind (pret D true)
                else blind (p_query D (fun st => d_object_is_empty D st object))) (fun ok =>
        if ok then blind (pret D object) else blind (perr D offset KIllegalTrailingComma))
      | TkString value =>
        cpbind (blind (p_del D offset (fun st => d_object_key D st object value))) (fun ok =>
        let '(object, key) := ok in
        cpbind (blind (p_offset D)) (fun offset =>
        cpbind (cp_tok_err (to_expected_colon D) (c_next_or_eof g pw)) (fun token =>
        match token with
        | TkColon =>
          cpbind (blind (p_offset D)) (fun offset =>
          cpbind read_value (fun value =>
          cpbind (blind (p_del D offset (fun st => d_object_value D st object key value))) (fun object =>
          cpbind (blind (p_offset D)) (fun offset =>
          cpbind (cp_tok (c_next_or_eof g pw)) (fun token =>
          match token with
          | TkObjectEnd => blind (pret D object)
          | TkComma => c_object_loop read_value n' object
          | _ => blind (perr D offset KExpectedCommaOrEndOfObject)
          end)))))
        | _ => blind (perr D offset KExpectedColon)
        end)))
      | TkArray | TkBool _ | TkNull | TkNumber _ | TkObject => blind (perr D offset KObjectKeysMustBeStrings)
      | _ => blind (perr D offset KExpectedObjectKey)
      end))
    end.
  (** src/parser.rs 687-782 [read_object]. *)
  Definition c_read_object (read_value : cpm (d_value D)) (n : nat) : cpm (d_value D) :=
    cpbind (blind (p_offset D)) (fun offset =>
    cpbind (blind (p_del D offset (fun st => d_begin_object D st))) (fun object =>
    cpbind (c_object_loop read_value n object) (fun object =>
    cpbind (blind (p_offset D)) (fun offset =>
    cpbind (blind (p_del D offset (fun st => d_end_object D st object))) (fun value =>
    cpbind (blind (end_nest cfg D)) (fun _ => blind (pret D value))))))).
  (** src/parser.rs 795-835: the loop of [read_array]. *)
  Fixpoint c_array_loop (read_value : cpm (d_value D)) (n : nat) (array : d_array D) : cpm (d_array D) :=
    match n with
    | O => fun s => ((Fault FFuel, s), [])
    | S n' =>
      cpbind (blind (p_offset D)) (fun offset =>
      cpbind c_peek_array_end (fun is_end =>
      if is_end : bool then
        cpbind (if allow_trailing_commas cfg then blind (pret D true)
                else blind (p_query D (fun st => d_array_is_empty D st array))) (fun ok =>
        if ok then blind (pret D array) else blind (perr D offset KIllegalTrailingComma))
      else
        cpbind read_value (fun value =>
        cpbind (blind (p_offset D)) (fun offset =>
        cpbind (blind (p_del D offset (fun st => d_array_value D st array value))) (fun array =>
        cpbind (blind (p_offset D)) (fun offset =>
        cpbind (cp_tok (c_next_or_eof g pw)) (fun token =>
        match token with
        | TkArrayEnd => blind (pret D array)
        | TkComma => c_array_loop read_value n' array
        | _ => blind (perr D offset KExpectedCommaOrEndOfArray)
        end)))))))
    end.
  (** src/parser.rs 784-845 [read_array]. *)
  Definition c_read_array (read_value : cpm (d_value D)) (n : nat) : cpm (d_value D) :=
    cpbind (blind (p_offset D)) (fun offset =>
    cpbind (blind (p_del D offset (fun st => d_begin_array D st))) (fun array =>
    cpbind (c_array_loop read_value n array) (fun array =>
    cpbind (blind (p_del D offset (fun st => d_end_array D st array))) (fun value =>
    cpbind (blind (end_nest cfg D)) (fun _ => blind (pret D value)))))).
  (** src/parser.rs 633-685 [read_tokens]. *)
  Fixpoint c_read_tokens (loops fuel : nat) : cpm (d_value D) :=
    match fuel with
    | O => fun s => ((Fault FFuel, s), [])
    | S fuel' =>
      cpbind (blind (p_offset D)) (fun offset =>
      cpbind (cp_tok (c_next_or_eof g pw)) (fun token =>
      match token with
      | TkNull => blind (p_del D offset (fun st => d_null D st))
      | TkObject =>
        cpbind (blind (begin_nest cfg D offset)) (fun _ =>
        cp_map_err (eof_to D KUnclosedObject) (c_read_object (c_read_tokens loops fuel') loops))
      | TkArray =>
        cpbind (blind (begin_nest cfg D offset)) (fun _ =>
        cp_map_err (eof_to D KUnclosedArray) (c_read_array (c_read_tokens loops fuel') loops))
      | TkObjectEnd => blind (perr D offset (KUnexpected 125))
      | TkArrayEnd => blind (perr D offset (KUnexpected 93))
      | TkColon => blind (perr D offset (KUnexpected 58))
      | TkComma => blind (perr D offset (KUnexpected 44))
      | TkBool value => blind (p_del D offset (fun st => d_boolean D st value))
      | TkString value => blind (p_del D offset (fun st => d_string D st value))
      | TkNumber value => blind (p_del D offset (fun st => d_number D st value))
      end))
    end.
  (** src/parser.rs 614-620. *)
  Definition c_check_trailing : cpm unit := fun s =>
    match c_next_non_ws (ps_iter s) with
    | ((None, it), n) => ((Ok tt, PS it (ps_del s) (ps_depth s)), n)
    | ((Some (offset, _), it), n) =>
      ((Err (Error offset KTrailingNonWhitespace), PS it (ps_del s) (ps_depth s)), n)
    end.
  Definition c_parse_body (loops fuel : nat) : cpm (d_value D) :=
    cpbind (c_read_tokens loops fuel) (fun value =>
    cpbind (blind (check_root cfg D value)) (fun _ =>
    cpbind c_check_trailing (fun _ => blind (pret D value)))).
  (** src/parser.rs 587-620 [parse_bytes]: the result, the state of the delegate, and the looks. *)
  Definition c_parse_bytes (source : list N) (st : d_st D)
    : (res (error (d_error D)) (d_value D) * d_st D) * list nat :=
    let fuel := S (length source) in
    let '((r, s), n) := c_parse_body fuel fuel (parse_state pw cfg D source st) in ((r, ps_del s), n).
End Parser.
