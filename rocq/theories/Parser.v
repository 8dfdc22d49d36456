(** Model of the Parser of src/parser.rs: configuration, delegates, recursive descent. *)
From Verif Require Import Base Utf8 StrModel ErrorModel Tokenizer.
Local Open Scope N_scope.

(** * ParseConfig (src/parser.rs 993-1092) *)

(** src/parser.rs 994-1010 [struct ParseConfig]. *)
Record parse_config : Type := Config {
  allow_trailing_commas : bool;
  recursion_limit : option N;
  allow_all_types_at_root : bool }.

(** src/parser.rs 1027-1033 [new]; 1012-1016 [default]. *)
Definition config_new : parse_config := Config false (Some 128) true.
Definition config_default : parse_config := config_new.
(** src/parser.rs 1044-1050 [strict]. *)
Definition config_strict : parse_config := Config false (Some 128) false.
(** src/parser.rs 1056-1059. *)
Definition without_recursion_limit (c : parse_config) : parse_config :=
  Config (allow_trailing_commas c) None (allow_all_types_at_root c).
(** src/parser.rs 1062-1065. *)
Definition with_recursion_limit (c : parse_config) (limit : N) : parse_config :=
  Config (allow_trailing_commas c) (Some limit) (allow_all_types_at_root c).
(** src/parser.rs 1070-1073. *)
Definition allowing_all_types_at_root (c : parse_config) (allow_all : bool) : parse_config :=
  Config (allow_trailing_commas c) (recursion_limit c) allow_all.
(** src/parser.rs 1089-1092. *)
Definition allowing_trailing_commas (c : parse_config) : parse_config :=
  Config true (recursion_limit c) (allow_all_types_at_root c).

(** src/parser.rs 1162-1176 [enum JsonKind]. *)
Inductive json_kind : Type :=
| JkNull | JkBoolean | JkNumber | JkString | JkObject | JkArray.

(** * ParseDelegate (src/parser.rs 848-909)
    [d_st] is the state behind [&mut self].  A method returns its result and the new state (also when
    it fails); [&mut Object]/[&mut Array] arguments are returned with the result.  Queries take
    [&self]; every method may panic ([Fault]). *)
Record delegate : Type := Delegate {
  d_st : Type;
  d_value : Type;
  d_object : Type;
  d_array : Type;
  d_key : Type;
  d_error : Type;
  d_null : d_st -> res d_error d_value * d_st;
  d_boolean : d_st -> bool -> res d_error d_value * d_st;
  d_number : d_st -> json_number -> res d_error d_value * d_st;
  d_string : d_st -> json_string -> res d_error d_value * d_st;
  d_begin_object : d_st -> res d_error d_object * d_st;
  d_object_key : d_st -> d_object -> json_string -> res d_error (d_object * d_key) * d_st;
  d_object_value : d_st -> d_object -> d_key -> d_value -> res d_error d_object * d_st;
  d_object_is_empty : d_st -> d_object -> res infallible bool;
  d_end_object : d_st -> d_object -> res d_error d_value * d_st;
  d_begin_array : d_st -> res d_error d_array * d_st;
  d_array_value : d_st -> d_array -> d_value -> res d_error d_array * d_st;
  d_array_is_empty : d_st -> d_array -> res infallible bool;
  d_end_array : d_st -> d_array -> res d_error d_value * d_st;
  d_kind_of : d_st -> d_value -> res infallible json_kind }.

(** * The recursive descent *)

Section Parser.
  Variable g : bool.           (* GUARANTEED_UTF8 *)
  Variable pw : pwidth.
  Variable cfg : parse_config.
  Variable D : delegate.

  (** src/parser.rs 482-484 [struct Parser] and 1111-1120 [struct ParseState]. *)
  Record pstate : Type := PS { ps_iter : byte_iter; ps_del : d_st D; ps_depth : N }.

  (** Computations of the parser: the whole state is kept on errors. *)
  Definition pm (A : Type) : Type := pstate -> res (error (d_error D)) A * pstate.
  Definition pret {A} (a : A) : pm A := fun s => (Ok a, s).
  Definition perr {A} (offset : nat) (k : error_kind (d_error D)) : pm A :=
    fun s => (Err (Error offset k), s).
  Definition pbind {A B} (m : pm A) (k : A -> pm B) : pm B := fun s =>
    match m s with
    | (Ok a, s') => k a s'
    | (Err e, s') => (Err e, s')
    | (Fault f, s') => (Fault f, s')
    end.
  Definition p_offset : pm nat := fun s => (Ok (bi_offset (ps_iter s)), s).

  (** A tokenizer call whose error is converted by [conv]. *)
  Definition p_tok_err {A} (conv : error infallible -> error (d_error D)) (m : tok A) : pm A := fun s =>
    let '(r, it) := m (ps_iter s) in (map_err conv r, PS it (ps_del s) (ps_depth s)).
  Definition p_tok {A} (m : tok A) : pm A := p_tok_err into_fallable m.

  (** A delegate call; its error is wrapped with the offset. *)
  Definition p_del {A} (offset : nat) (m : d_st D -> res (d_error D) A * d_st D) : pm A := fun s =>
    let '(r, st) := m (ps_del s) in
    (map_err (fun e => Error offset (KErrorFromDelegate e)) r, PS (ps_iter s) st (ps_depth s)).

  (** A delegate query. *)
  Definition p_query {A} (m : d_st D -> res infallible A) : pm A := fun s =>
    (match m (ps_del s) with Ok a => Ok a | Err e => match e with end | Fault f => Fault f end, s).

  (** [map_err] on the result of a parser function. *)
  Definition p_map_err {A} (f : error (d_error D) -> error (d_error D)) (m : pm A) : pm A := fun s =>
    let '(r, s') := m s in (map_err f r, s').

  (** src/parser.rs 1126-1137 [begin_nest]. *)
  Definition begin_nest (offset : nat) : pm unit := fun s =>
    match recursion_limit cfg with
    | Some _ =>
      if 0 <? ps_depth s then (Ok tt, PS (ps_iter s) (ps_del s) (ps_depth s - 1))
      else (Err (Error offset KRecursionLimitReached), s)
    | None => (Ok tt, s)
    end.

  (** src/parser.rs 1139-1144 [end_nest]; the addition undoes the subtraction of the matching
      [begin_nest], so it cannot overflow. *)
  Definition end_nest : pm unit := fun s =>
    match recursion_limit cfg with
    | Some _ => (Ok tt, PS (ps_iter s) (ps_del s) (ps_depth s + 1))
    | None => (Ok tt, s)
    end.

  (** src/parser.rs 657-663 and 668-674. *)
  Definition eof_to (k : error_kind (d_error D)) (e : error (d_error D)) : error (d_error D) :=
    match err_kind e with
    | KUnexpectedEof => Error (err_offset e) k
    | _ => e
    end.

  (** src/parser.rs 724-728: [error.kind = ExpectedColon]. *)
  Definition to_expected_colon (e : error infallible) : error (d_error D) :=
    into_fallable (Error (err_offset e) KExpectedColon).

  (** src/parser.rs 802-805: [peek() == Some(ArrayEnd)], then commit the token. *)
  Definition peek_array_end : pm bool := fun s =>
    let '(o, it) := tokenizer_peek (ps_iter s) in
    match o with
    | Some PkArrayEnd => (Ok true, PS (BI (bi_bytes it) (bi_offset it + 1)) (ps_del s) (ps_depth s))
    | _ => (Ok false, PS it (ps_del s) (ps_depth s))
    end.

  (** The loops below take the recursive call [read_value] (= [read_tokens]) as a parameter and
      recurse on fuel. *)

  (** src/parser.rs 698-768: the loop of [read_object]; returns the object at [break]. *)
  Fixpoint object_loop (read_value : pm (d_value D)) (n : nat) (object : d_object D)
    : pm (d_object D) :=
    match n with
    | O => fun s => (Fault FFuel, s)
    | S n' =>
      pbind p_offset (fun offset =>
      pbind (p_tok (next_or_eof g pw)) (fun token =>
      match token with
      | TkObjectEnd =>
        pbind (if allow_trailing_commas cfg then pret true
               else p_query (fun st => d_object_is_empty D st object)) (fun ok =>
        if ok then pret object else perr offset KIllegalTrailingComma)
      | TkString value =>
        pbind (p_del offset (fun st => d_object_key D st object value)) (fun ok =>
        let '(object, key) := ok in
        pbind p_offset (fun offset =>
        pbind (p_tok_err to_expected_colon (next_or_eof g pw)) (fun token =>
        match token with
        | TkColon =>
          pbind p_offset (fun offset =>
          pbind read_value (fun value =>
          pbind (p_del offset (fun st => d_object_value D st object key value)) (fun object =>
          pbind p_offset (fun offset =>
          pbind (p_tok (next_or_eof g pw)) (fun token =>
          match token with
          | TkObjectEnd => pret object
          | TkComma => object_loop read_value n' object
          | _ => perr offset KExpectedCommaOrEndOfObject
          end)))))
        | _ => perr offset KExpectedColon
        end)))
      | TkArray | TkBool _ | TkNull | TkNumber _ | TkObject =>
        perr offset KObjectKeysMustBeStrings
      | _ => perr offset KExpectedObjectKey
      end))
    end.

  (** src/parser.rs 687-782 [read_object]. *)
  Definition read_object (read_value : pm (d_value D)) (n : nat) : pm (d_value D) :=
    pbind p_offset (fun offset =>
    pbind (p_del offset (fun st => d_begin_object D st)) (fun object =>
    pbind (object_loop read_value n object) (fun object =>
    pbind p_offset (fun offset =>
    pbind (p_del offset (fun st => d_end_object D st object)) (fun value =>
    pbind end_nest (fun _ => pret value)))))).

  (** src/parser.rs 795-835: the loop of [read_array]. *)
  Fixpoint array_loop (read_value : pm (d_value D)) (n : nat) (array : d_array D)
    : pm (d_array D) :=
    match n with
    | O => fun s => (Fault FFuel, s)
    | S n' =>
      pbind p_offset (fun offset =>
      pbind peek_array_end (fun is_end =>
      if is_end : bool then
        pbind (if allow_trailing_commas cfg then pret true
               else p_query (fun st => d_array_is_empty D st array)) (fun ok =>
        if ok then pret array else perr offset KIllegalTrailingComma)
      else
        pbind read_value (fun value =>
        pbind p_offset (fun offset =>
        pbind (p_del offset (fun st => d_array_value D st array value)) (fun array =>
        pbind p_offset (fun offset =>
        pbind (p_tok (next_or_eof g pw)) (fun token =>
        match token with
        | TkArrayEnd => pret array
        | TkComma => array_loop read_value n' array
        | _ => perr offset KExpectedCommaOrEndOfArray
        end)))))))
    end.

  (** src/parser.rs 784-845 [read_array] ([end_array]'s error carries the first [offset]). *)
  Definition read_array (read_value : pm (d_value D)) (n : nat) : pm (d_value D) :=
    pbind p_offset (fun offset =>
    pbind (p_del offset (fun st => d_begin_array D st)) (fun array =>
    pbind (array_loop read_value n array) (fun array =>
    pbind (p_del offset (fun st => d_end_array D st array)) (fun value =>
    pbind end_nest (fun _ => pret value))))).

  (** src/parser.rs 633-685 [read_tokens]; [loops] is the fuel of the inner loops. *)
  Fixpoint read_tokens (loops fuel : nat) : pm (d_value D) :=
    match fuel with
    | O => fun s => (Fault FFuel, s)
    | S fuel' =>
      pbind p_offset (fun offset =>
      pbind (p_tok (next_or_eof g pw)) (fun token =>
      match token with
      | TkNull => p_del offset (fun st => d_null D st)
      | TkObject =>
        pbind (begin_nest offset) (fun _ =>
        p_map_err (eof_to KUnclosedObject) (read_object (read_tokens loops fuel') loops))
      | TkArray =>
        pbind (begin_nest offset) (fun _ =>
        p_map_err (eof_to KUnclosedArray) (read_array (read_tokens loops fuel') loops))
      | TkObjectEnd => perr offset (KUnexpected 125)
      | TkArrayEnd => perr offset (KUnexpected 93)
      | TkColon => perr offset (KUnexpected 58)
      | TkComma => perr offset (KUnexpected 44)
      | TkBool value => p_del offset (fun st => d_boolean D st value)
      | TkString value => p_del offset (fun st => d_string D st value)
      | TkNumber value => p_del offset (fun st => d_number D st value)
      end))
    end.

  (** src/parser.rs 602-612: restriction of the root type. *)
  Definition check_root (value : d_value D) : pm unit :=
    if negb (allow_all_types_at_root cfg) then
      pbind (p_query (fun st => d_kind_of D st value)) (fun k =>
      match k with
      | JkObject | JkArray => pret tt
      | _ => perr 0 KPayloadsShouldBeObjectOrArray
      end)
    else pret tt.

  (** src/parser.rs 614-620: only whitespace may follow. *)
  Definition check_trailing : pm unit := fun s =>
    match next_non_ws (ps_iter s) with
    | (None, it) => (Ok tt, PS it (ps_del s) (ps_depth s))
    | (Some (offset, _), it) =>
      (Err (Error offset KTrailingNonWhitespace), PS it (ps_del s) (ps_depth s))
    end.

  (** src/parser.rs 587-620 [parse_bytes], on a fresh state. *)
  Definition parse_state (source : list N) (st : d_st D) : pstate :=
    PS (bi_new source) st
       (match recursion_limit cfg with Some n => n | None => usize_max pw end).

  Definition parse_body (loops fuel : nat) : pm (d_value D) :=
    pbind (read_tokens loops fuel) (fun value =>
    pbind (check_root value) (fun _ =>
    pbind check_trailing (fun _ => pret value))).

  (** Result of [parse_bytes] and the state of the delegate afterwards. *)
  Definition parse_bytes (source : list N) (st : d_st D)
    : res (error (d_error D)) (d_value D) * d_st D :=
    let fuel := S (length source) in
    let '(r, s) := parse_body fuel fuel (parse_state source st) in (r, ps_del s).
End Parser.

Arguments PS {D} ps_iter ps_del ps_depth.
Arguments ps_iter {D} p.
Arguments ps_del {D} p.
Arguments ps_depth {D} p.

(** * The delegate [()] (src/parser.rs 1178-1255): validation only *)
Definition unit_delegate : delegate := {|
  d_st := unit; d_value := json_kind; d_object := nat; d_array := nat; d_key := unit;
  d_error := infallible;
  d_null := fun st => (Ok JkNull, st);
  d_boolean := fun st _ => (Ok JkBoolean, st);
  d_number := fun st _ => (Ok JkNumber, st);
  d_string := fun st _ => (Ok JkString, st);
  d_begin_object := fun st => (Ok O, st);
  d_object_key := fun st object _ => (Ok (object, tt), st);
  d_object_value := fun st object _ _ => (Ok (S object), st);
  d_object_is_empty := fun _ object => Ok (Nat.eqb object 0);
  d_end_object := fun st _ => (Ok JkObject, st);
  d_begin_array := fun st => (Ok O, st);
  d_array_value := fun st array _ => (Ok (S array), st);
  d_array_is_empty := fun _ array => Ok (Nat.eqb array 0);
  d_end_array := fun st _ => (Ok JkArray, st);
  d_kind_of := fun _ value => Ok value |}.

(** src/parser.rs 492-528, 547-583: the public entry points.
    [parse_json*] takes a [str] (GUARANTEED_UTF8 = true), [parse_json_bytes*] a byte slice. *)
Definition parse_json_bytes_with_config (pw : pwidth) (D : delegate) (value : list N)
  (config : parse_config) (st : d_st D) := parse_bytes false pw config D value st.
Definition parse_json_bytes (pw : pwidth) (D : delegate) (value : list N) (st : d_st D) :=
  parse_json_bytes_with_config pw D value config_default st.
Definition parse_json_with_config (pw : pwidth) (D : delegate) (value : list N)
  (config : parse_config) (st : d_st D) := parse_bytes true pw config D value st.
Definition parse_json (pw : pwidth) (D : delegate) (value : list N) (st : d_st D) :=
  parse_json_with_config pw D value config_default st.

(** src/parser.rs 517-528, 572-583 [validate_json*]. *)
Definition validate_json_bytes_with_config (pw : pwidth) (json : list N) (config : parse_config)
  : res (error infallible) json_kind := fst (parse_bytes false pw config unit_delegate json tt).
Definition validate_json_bytes (pw : pwidth) (json : list N) :=
  validate_json_bytes_with_config pw json config_default.
Definition validate_json_with_config (pw : pwidth) (json : list N) (config : parse_config)
  : res (error infallible) json_kind := fst (parse_json_with_config pw unit_delegate json config tt).
Definition validate_json (pw : pwidth) (json : list N) :=
  validate_json_with_config pw json config_default.
