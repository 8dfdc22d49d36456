(** * The unit tests of src/ *)

Definition oks {E A} (r : res E A) (f : A -> bool) : bool := match r with Ok a => f a | _ => false end.
Definition yes (r : res infallible bool) : bool := oks r (fun b => b).
Definition no (r : res infallible bool) : bool := oks r negb.
Definition somes {A} (o : option A) (f : A -> bool) : bool := match o with Some a => f a | None => false end.
Definition none {A} (o : option A) : bool := match o with Some _ => false | None => true end.

(** src/tests.rs [test_json_parse]; the expected value may itself need a parse. *)
Definition test_json_parse (source : list N) (expected : pwidth -> res infallible value) : bool :=
  all_widths (fun pw =>
    oks (value_from_json_bytes pw source) (fun v =>
    oks (expected pw) (fun w =>
    yes (value_eq pw v w)
    && oks (document_from_json_bytes pw None source) (fun doc =>
       oks (value_from_document doc) (fun v' => yes (value_eq pw v' v)))))).

(** [JsonString::from_json(..).unwrap()], [JsonNumber { source: Borrowed(..) }],
    [JsonString { source: Json(Borrowed(..)), info: JsonStringInfo::new(..) }]. *)
Definition unwrap {E A} (r : res E A) : res infallible A :=
  match r with Ok a => Ok a | Err _ => Fault FExpect | Fault f => Fault f end.
Definition parsed_str (pw : pwidth) (s : list N) : res infallible json_string := unwrap (string_from_json pw s).
Definition num (s : list N) : value := VNumber (JNum (Borrowed s)).
Definition jstr_new (pw : pwidth) (s : list N) (e : bool) (n : N) : json_string :=
  JStr (CJson (Borrowed s)) (info_new pw e n).

Example t_keywords :
  test_json_parse [[ 'true' ]] (fun _ => Ok (value_from_bool true))
  && test_json_parse [[ 'false' ]] (fun _ => Ok (value_from_bool false))
  && test_json_parse [[ 'null' ]] (fun _ => Ok VNull) = true.
Proof. vm_compute. reflexivity. Qed.

Example t_arrays :
  test_json_parse [[ '[]' ]] (fun _ => Ok (VArray []))
  && test_json_parse [[ '[true]' ]] (fun _ => Ok (VArray [VBoolean true]))
  && test_json_parse [[ '[true,false]' ]] (fun _ => Ok (VArray [VBoolean true; VBoolean false]))
  && test_json_parse [[ ' [ true , false ] ' ]] (fun _ => Ok (VArray [VBoolean true; VBoolean false]))
  && test_json_parse [[ ' \t\n\rnull' ]] (fun _ => Ok VNull) = true.
Proof. vm_compute. reflexivity. Qed.

Example t_strings :
  test_json_parse [[ '"hello"' ]] (fun pw => Ok (VString (jstr_new pw [[ 'hello' ]] false 5)))
  && test_json_parse [[ '""' ]] (fun pw => Ok (VString (jstr_new pw [] false 0)))
  && test_json_parse [[ r'"\"\\\/\b\f\n\r\t\u25eF"' ]]
       (fun pw => Ok (VString (jstr_new pw [[ r'\"\\\/\b\f\n\r\t\u25eF' ]] true 11)))
  && test_json_parse [[ r'"\ud83d\ude39\ud83d\udc8d"' ]]
       (fun pw => let? s := parsed_str pw [[ '"\U0001f639\U0001f48d"' ]] in Ok (VString s))
  && all_widths (fun pw => oks (parsed_str pw [[ r'"\ud83d\ude39\ud83d\udc8d"' ]]) (fun s =>
       yes (js_eq_str pw s [[ '\U0001f639\U0001f48d' ]]))) = true.
Proof. vm_compute. reflexivity. Qed.

Example t_objects :
  test_json_parse [[ '{}' ]] (fun _ => Ok (VObject object_new))
  && test_json_parse [[ '{"hello":true}' ]]
       (fun pw => Ok (VObject (object_from_iter [(jstr_new pw [[ 'hello' ]] false 5, VBoolean true)])))
  && test_json_parse [[ '{"hello":true,"world":null}' ]]
       (fun pw => Ok (VObject (object_from_iter [(jstr_new pw [[ 'hello' ]] false 5, VBoolean true);
                                                 (jstr_new pw [[ 'world' ]] false 5, VNull)])))
  && test_json_parse [[ ' { "hello" : true , "world" : null } ' ]]
       (fun pw => let? h := parsed_str pw [[ '"hello"' ]] in let? w := parsed_str pw [[ '"world"' ]] in
                  Ok (VObject (object_from_iter [(h, VBoolean true); (w, VNull)]))) = true.
Proof. vm_compute. reflexivity. Qed.

Example t_numbers :
  forallb (fun b => test_json_parse [b] (fun _ => Ok (num [b]))) [48;49;50;51;52;53;54;55;56;57]
  && forallb (fun s => test_json_parse s (fun _ => Ok (num s)))
       [[[ '-1' ]]; [[ '-1.0' ]]; [[ '-1.0e1' ]]; [[ '-1.0E-1' ]]] = true.
Proof. vm_compute. reflexivity. Qed.

Example t_everything :
  test_json_parse [[ '{"a":1,"b":true,"c":"hello","d":[],"e":{}}' ]]
    (fun pw =>
       let? a := parsed_str pw [[ '"a"' ]] in let? b := parsed_str pw [[ '"b"' ]] in
       let? c := parsed_str pw [[ '"c"' ]] in let? d := parsed_str pw [[ '"d"' ]] in
       let? e := parsed_str pw [[ '"e"' ]] in let? h := parsed_str pw [[ '"hello"' ]] in
       Ok (VObject [(a, num [49]); (b, VBoolean true); (c, VString h); (d, VArray []); (e, VObject [])]))
  && test_json_parse [[ '[1,true,"hello",[],{}]' ]]
    (fun pw => let? h := parsed_str pw [[ '"hello"' ]] in
       Ok (VArray [num [49]; VBoolean true; VString h; VArray []; VObject []])) = true.
Proof. vm_compute. reflexivity. Qed.

(** src/tests.rs [assert_json_error_kind_matches!]. *)
Definition json_error (s : list N) (offset : N) (k : error_kind infallible) : Prop :=
  value_from_json W64 s = Err (Error (N.to_nat offset) k) /\ value_from_json W32 s = Err (Error (N.to_nat offset) k).

Example t_object_errors :
  json_error [[ '{1:true}' ]] 1 KObjectKeysMustBeStrings
  /\ json_error [[ '{"a": true,}' ]] 11 KIllegalTrailingComma
  /\ json_error [[ '{"a": true,:' ]] 11 KExpectedObjectKey
  /\ json_error [[ '{"a"}' ]] 4 KExpectedColon
  /\ json_error [[ '{"a"' ]] 4 KExpectedColon
  /\ json_error [[ '{"a":}' ]] 5 (KUnexpected 125)
  /\ json_error [[ '{"a":1]' ]] 6 KExpectedCommaOrEndOfObject
  /\ json_error [[ '{"a": true,' ]] 11 KUnclosedObject.
Proof. vm_compute. repeat split; reflexivity. Qed.

Example t_array_errors :
  json_error [[ '[1,]' ]] 3 KIllegalTrailingComma
  /\ json_error [[ '[1}' ]] 2 KExpectedCommaOrEndOfArray
  /\ json_error [[ '[1,,}' ]] 3 (KUnexpected 44)
  /\ json_error [[ '[1,' ]] 3 KUnclosedArray
  /\ json_error [[ '[' ]] 1 KUnclosedArray.
Proof. vm_compute. repeat split; reflexivity. Qed.

Example t_keyword_and_json_errors :
  json_error [[ 'tru ' ]] 3 (KUnexpected 32)
  /\ json_error [[ 'tru' ]] 3 KUnexpectedEof
  /\ json_error [[ 'true true' ]] 5 KTrailingNonWhitespace
  /\ json_error [[ ',' ]] 0 (KUnexpected 44)
  /\ json_error [[ '#' ]] 0 (KUnexpected 35)
  /\ json_error [[ '' ]] 0 KUnexpectedEof.
Proof. vm_compute. repeat split; reflexivity. Qed.

Example t_string_errors :
  json_error [[ '"' ]] 1 KUnclosedString
  /\ json_error [[ '"\x00"' ]] 1 (KUnexpected 0)
  /\ json_error [[ r'"\?' ]] 2 KInvalidEscape
  /\ json_error [[ r'"\udddd ' ]] 2 KUtf8
  /\ json_error [[ r'"\udda1 ' ]] 2 KUtf8
  /\ json_error [[ r'"\uG' ]] 3 KInvalidHexadecimal.
Proof. vm_compute. repeat split; reflexivity. Qed.
Example t_string_error_utf8 :
  match value_from_json_bytes W64 [34; 0xDD; 0xDD; 34] with Err (Error _ KUtf8) => True | _ => False end.
Proof. vm_compute. exact I. Qed.

Example t_number_errors :
  json_error [[ '- ' ]] 1 KExpectedDigit
  /\ json_error [[ '1. ' ]] 2 KExpectedDecimalDigit
  /\ json_error [[ '1.0E ' ]] 4 KExpectedExponent
  /\ json_error [[ '1.0E- ' ]] 5 KExpectedExponent
  /\ json_error [[ '-' ]] 1 KExpectedDigit
  /\ json_error [[ '1.' ]] 2 KExpectedDecimalDigit
  /\ json_error [[ '1.0E' ]] 4 KExpectedExponent
  /\ json_error [[ '1.0E-' ]] 5 KExpectedExponent.
Proof. vm_compute. repeat split; reflexivity. Qed.

(** src/tests.rs [json_formatting], [value_display]. *)
Definition prints (s : list N) (f : pwidth -> value -> res infallible (list N)) (out : list N) : bool :=
  all_widths (fun pw => oks (value_from_json pw s) (fun v => oks (f pw v) (fun o => bytes_eqb o out))).

Example t_json_formatting :
  forallb (fun s => prints s to_json s)
    [[[ '[1,true,"hello",[],{}]' ]]; [[ '{"a":1,"b":true,"c":"hello","d":[],"e":{}}' ]]; [[ r'"\u0000"' ]]]
  && forallb (fun s => prints s to_json_pretty s)
    [[[ '[\n  1,\n  true,\n  "hello",\n  [],\n  {}\n]' ]];
     [[ '{\n  "a": 1,\n  "b": true,\n  "c": "hello",\n  "d": [],\n  "e": {}\n}' ]]]
  && forallb (fun s => prints s (fun pw => to_json_pretty_custom pw [9] [13]) s)
    [[[ '{\r\t"a": 1,\r\t"b": true,\r\t"c": "hello",\r\t"d": [],\r\t"e": {}\r}' ]]] = true.
Proof. vm_compute. reflexivity. Qed.

Example t_value_display :
  prints [[ '{"a":1,"b":true,"c":"hello","d":[],"e":{}}' ]]
    (fun pw v => expect_fmt (value_display pw string_write false v []))
    [[ '{"a":1,"b":true,"c":"hello","d":[],"e":{}}' ]]
  && prints [[ '{"a":1,"b":true,"c":"hello","d":[],"e":{}}' ]]
    (fun pw v => expect_fmt (value_display pw string_write true v []))
    [[ '{\n  "a": 1,\n  "b": true,\n  "c": "hello",\n  "d": [],\n  "e": {}\n}' ]] = true.
Proof. vm_compute. reflexivity. Qed.

(** src/tests.rs [ErroringDelegate], [parse_delegate_error]. *)
Inductive error_on :=
| OnNone | OnNull | OnBoolean (b : bool) | OnNumber (s : list N) | OnString | OnBeginObject | OnObjectKey
| OnObjectValue | OnEndObject | OnBeginArray | OnArrayValue | OnEndArray.
Definition on {A} (b : bool) (r : A) : res unit A * unit := (if b then Err tt else Ok r, tt).
Definition erroring (e : error_on) : delegate := {|
  d_st := unit; d_value := value; d_object := object; d_array := list value; d_key := json_string; d_error := unit;
  d_null := fun _ => on (match e with OnNull => true | _ => false end) VNull;
  d_boolean := fun _ b => on (match e with OnBoolean c => Bool.eqb b c | _ => false end) (VBoolean b);
  d_number := fun _ n => on (match e with OnNumber s => bytes_eqb (jn_str n) s | _ => false end) (VNumber n);
  d_string := fun _ s => on (match e with OnString => true | _ => false end) (VString s);
  d_begin_object := fun _ => on (match e with OnBeginObject => true | _ => false end) [];
  d_object_key := fun _ o k => on (match e with OnObjectKey => true | _ => false end) (o, k);
  d_object_value := fun _ o k v => on (match e with OnObjectValue => true | _ => false end) (o ++ [(k, v)]);
  d_object_is_empty := fun _ o => Ok (match o with [] => true | _ => false end);
  d_end_object := fun _ o => on (match e with OnEndObject => true | _ => false end) (VObject o);
  d_begin_array := fun _ => on (match e with OnBeginArray => true | _ => false end) [];
  d_array_value := fun _ a v => on (match e with OnArrayValue => true | _ => false end) (a ++ [v]);
  d_array_is_empty := fun _ a => Ok (match a with [] => true | _ => false end);
  d_end_array := fun _ a => on (match e with OnEndArray => true | _ => false end) (VArray a);
  d_kind_of := fun _ v => Ok (value_kind v) |}.
Definition delegate_payload : list N :=
  [[ '{"a":1,"b":true,"c":"hello","d":[null, -1, 0, false, []],"e":{},"f":"error"}' ]].

Example t_parse_delegate_error :
  all_widths (fun pw =>
    is_ok (fst (parse_json_bytes_with_config pw (erroring OnNone) delegate_payload config_strict tt))
    && forallb (fun e => match fst (parse_json_bytes pw (erroring e) delegate_payload tt) with
                         | Err (Error _ (KErrorFromDelegate _)) => true | _ => false end)
         [OnNull; OnBoolean false; OnNumber [[ '1' ]]; OnNumber [[ '-1' ]]; OnNumber [[ '0' ]]; OnString;
          OnBeginObject; OnObjectKey; OnObjectValue; OnEndObject; OnBeginArray; OnArrayValue; OnEndArray]) = true.
Proof. vm_compute. reflexivity. Qed.

Example t_illegal_types_at_root :
  all_widths (fun pw => forallb (fun s =>
    match document_from_json_with_config pw None s config_strict with
    | Err (Error _ KPayloadsShouldBeObjectOrArray) => true | _ => false end
    && match value_from_json_with_config pw s config_strict with
       | Err (Error _ KPayloadsShouldBeObjectOrArray) => true | _ => false end)
    [[[ 'null' ]]; [[ 'true' ]]; [[ '1' ]]; [[ '""' ]]]) = true.
Proof. vm_compute. reflexivity. Qed.

(** src/string.rs [json_string_eq]. *)
Definition j_eq_str (json s : list N) (expected : bool) : bool :=
  all_widths (fun pw => oks (parsed_str pw json) (fun j => oks (js_eq_str pw j s) (Bool.eqb expected))).
Definition jj (a b : pwidth -> res infallible json_string) (f : pwidth -> json_string -> json_string -> bool) : bool :=
  all_widths (fun pw => oks (a pw) (fun x => oks (b pw) (fun y => f pw x y))).
Definition P (s : list N) (pw : pwidth) := parsed_str pw s.
Definition F (s : list N) (pw : pwidth) := js_from_str pw s.
Definition E_q pw a b := yes (js_eq pw a b).
Definition N_q pw a b := no (js_eq pw a b).

Example t_json_string_eq :
  j_eq_str [[ '"Hello, World!"' ]] [[ 'Hello, World!' ]] true
  && j_eq_str [[ r'"\"\\\/\b\f\n\r\t\u25eF"' ]] [[ '"\\/\x07\x0c\n\r\t\u25ef' ]] true
  && j_eq_str [[ '"\u25ef"' ]] [[ '\u25ef' ]] true
  && j_eq_str [[ r'"\n"' ]] [] false
  && j_eq_str [[ r'"\n"' ]] [[ 'x' ]] false
  && j_eq_str [[ r'"\na"' ]] [[ '\nx' ]] false
  && jj (P [[ r'"\u0000"' ]]) (P [[ r'"\u0000\u0000"' ]]) N_q
  && jj (P [[ '"ab"' ]]) (P [[ r'"\u0000"' ]]) N_q
  && all_widths (fun pw => oks (F [[ 'a' ]] pw) (fun s => yes (js_eq_str pw s [[ 'a' ]])))
  && jj (F [[ 'a' ]]) (F [[ 'a' ]]) E_q
  && jj (P [[ '"a"' ]]) (F [[ 'a' ]]) E_q
  && jj (F [[ 'a' ]]) (P [[ '"a"' ]]) E_q
  && all_widths (fun pw => oks (F [0] pw) (fun s => yes (js_eq_str pw s [0])))
  && jj (F [0]) (F [0]) E_q
  && jj (P [[ r'"\u0000"' ]]) (F [0]) E_q
  && jj (F [0]) (P [[ r'"\u0000"' ]]) E_q
  && jj (P [[ r'"\u0000"' ]]) (F [0; 32]) N_q
  && jj (F [0; 32]) (P [[ r'"\u0000"' ]]) N_q = true.
Proof. vm_compute. reflexivity. Qed.

(** src/string.rs [json_string_cmp]. *)
Definition cmp_is (c d : comparison) : bool :=
  match c, d with Lt, Lt | Eq, Eq | Gt, Gt => true | _, _ => false end.
Definition c_str (a : pwidth -> res infallible json_string) (s : list N) (c : comparison) : bool :=
  all_widths (fun pw => oks (a pw) (fun x => oks (js_partial_cmp_str pw x s) (fun o => somes o (cmp_is c)))).
Definition c_js (a b : pwidth -> res infallible json_string) (c : comparison) : bool :=
  jj a b (fun pw x y => oks (js_partial_cmp pw x y) (fun o => somes o (cmp_is c))
                        && oks (js_cmp pw x y) (cmp_is c)).

Example t_json_string_cmp :
  c_str (P [[ '"a"' ]]) [[ 'b' ]] Lt && c_str (P [[ '"b"' ]]) [[ 'a' ]] Gt
  && c_str (P [[ '"a"' ]]) [[ 'a' ]] Eq && c_str (F [10]) [10] Eq
  && c_str (P [[ r'"\u0061"' ]]) [[ 'b' ]] Lt && c_str (P [[ r'"\u0062"' ]]) [[ 'a' ]] Gt
  && c_str (P [[ r'"\u0061"' ]]) [[ 'a' ]] Eq && c_str (P [[ r'"\u0061"' ]]) [[ 'aa' ]] Lt
  && c_str (P [[ r'"\u0061a"' ]]) [[ 'a' ]] Gt
  && c_js (P [[ r'"\u0061"' ]]) (F [[ 'b' ]]) Lt && c_js (P [[ r'"\u0062"' ]]) (F [[ 'a' ]]) Gt
  && c_js (P [[ r'"\u0061"' ]]) (F [[ 'a' ]]) Eq && c_js (P [[ r'"\u0061"' ]]) (F [[ 'aa' ]]) Lt
  && c_js (P [[ r'"\u0061a"' ]]) (F [[ 'a' ]]) Gt && c_js (F [10]) (F [10]) Eq
  && c_js (P [[ r'"\n"' ]]) (F [[ '\na' ]]) Lt && c_js (F [[ '\na' ]]) (P [[ r'"\n"' ]]) Gt
  && c_js (P [[ '"a"' ]]) (F [[ 'b' ]]) Lt = true.
Proof. vm_compute. reflexivity. Qed.

(** src/string.rs [json_string_hash]: std's default hasher mixes the bytes written to it
    independently of how they were cut into calls; the bytes are compared here. *)
Example t_json_string_hash :
  jj (F [10]) (P [[ r'"\n"' ]]) (fun pw x y =>
    oks (js_hash pw x) (fun h => oks (js_hash pw y) (fun k => bytes_eqb (List.concat h) (List.concat k))))
  && all_widths (fun pw => oks (P [[ '"a"' ]] pw) (fun x =>
       oks (js_hash pw x) (fun h => bytes_eqb (List.concat h) (List.concat (str_hash [[ 'a' ]]))))) = true.
Proof. vm_compute. reflexivity. Qed.

(** src/string.rs [display], [json_string_from_json], [as_str], [json_string_from_raw], [decode_if_needed]. *)
Definition display_is (s : res infallible json_string) (pw : pwidth) (out : list N) : bool :=
  oks s (fun x => oks (js_display pw x) (fun o => bytes_eqb o out)).
Example t_display : all_widths (fun pw => display_is (P [[ '"hello, world!"' ]] pw) pw [[ 'hello, world!' ]]) = true.
Proof. vm_compute. reflexivity. Qed.

Example t_json_string_from_json :
  jj (P [[ '"Hello, World!"' ]]) (fun pw => Ok (jstr_new pw [[ 'Hello, World!' ]] false 13)) E_q
  && all_widths (fun pw => match string_from_json pw [[ 'true' ]] with
                           | Err (Error _ KExpectedString) => true | _ => false end) = true.
Proof. vm_compute. reflexivity. Qed.

Example t_as_str :
  all_widths (fun pw =>
    oks (P [[ r'"\n"' ]] pw) (fun s => none (js_as_str pw s))
    && oks (P [[ '"hi"' ]] pw) (fun s => somes (js_as_str pw s) (bytes_eqb [[ 'hi' ]]))
    && oks (F [[ 'hi' ]] pw) (fun s => somes (js_as_str pw s) (bytes_eqb [[ 'hi' ]]))) = true.
Proof. vm_compute. reflexivity. Qed.

Example t_json_string_from_raw : jj (fun pw => js_from_string pw [[ 'a' ]]) (F [[ 'a' ]]) E_q = true.
Proof. vm_compute. reflexivity. Qed.

Definition borrowed (a : anystr) (s : list N) := match a with Borrowed b => bytes_eqb b s | Owned _ => false end.
Definition owned (a : anystr) (s : list N) := match a with Owned b => bytes_eqb b s | Borrowed _ => false end.
Example t_decode_if_needed :
  all_widths (fun pw =>
    oks (P [[ '""' ]] pw) (fun s => oks (js_decode_if_needed pw s) (fun a => borrowed a []))
    && oks (P [[ r'"\r"' ]] pw) (fun s => oks (js_decode_if_needed pw s) (fun a => owned a [13]))
    && display_is (P [[ r'"\r"' ]] pw) pw [13]
    && oks (F [[ 'raw string' ]] pw) (fun s => oks (js_decode_if_needed pw s) (fun a => borrowed a [[ 'raw string' ]]))
    && display_is (F [[ 'raw string' ]] pw) pw [[ 'raw string' ]]) = true.
Proof. vm_compute. reflexivity. Qed.

(** src/string.rs [test_string_info_debug] (the two numbers it prints), [is_empty]. *)
Example t_string_info :
  all_widths (fun pw => oks (@add_bytes_from_escape infallible pw (info_none pw) 1) (fun i =>
    has_escapes pw i && (expected_length pw i =? 1))) = true.
Proof. vm_compute. reflexivity. Qed.

Example t_is_empty :
  all_widths (fun pw =>
    oks (F [] pw) (js_is_empty pw) && oks (P [[ '""' ]] pw) (js_is_empty pw)
    && oks (F [32] pw) (fun s => negb (js_is_empty pw s))
    && oks (P [[ '" "' ]] pw) (fun s => negb (js_is_empty pw s))) = true.
Proof. vm_compute. reflexivity. Qed.

(** src/string.rs [escape]. *)
Definition chars (r : res infallible (list N)) (out : list N) : bool :=
  oks r (fun cs => bytes_eqb (List.concat (map utf8_encode cs)) out).
Definition escape_case (mk : pwidth -> list N -> res infallible json_string) (original escaped : list N)
  (json_str : option (list N)) : bool :=
  all_widths (fun pw => oks (mk pw original) (fun raw =>
    (js_len pw raw =? N.of_nat (length escaped))
    && (js_decoded_len pw raw =? N.of_nat (length original))
    && yes (js_eq_str pw raw original)
    && chars (js_decoded pw raw) original
    && oks (js_decode_if_needed pw raw) (fun a => any_eq_str a original)
    && chars (js_as_json pw raw) escaped
    && oks (js_escape_if_needed pw raw) (fun a => any_eq_str a escaped)
    && match js_as_json_str raw, json_str with
       | None, None => true | Some a, Some s => any_eq_str a s | _, _ => false end)).
Definition esc_original := [[ '"\\/\u0007\t\n\r\u000c\u0000\u25ef' ]].
Definition esc_escaped := [[ '\\"\\\\/\\b\\t\\n\\r\\f\\u0000\u25ef' ]].
Example t_escape :
  escape_case js_from_str esc_original esc_escaped None
  && escape_case js_from_string esc_original esc_escaped None
  && escape_case js_from_str [[ 'hello' ]] [[ 'hello' ]] (Some [[ 'hello' ]]) = true.
Proof. vm_compute. reflexivity. Qed.

(** src/string.rs, src/number.rs [from_json_bad_types]. *)
Example t_from_json_bad_types :
  all_widths (fun pw =>
    forallb (fun s => match string_from_json pw s with Err (Error _ KExpectedString) => true | _ => false end)
      [[[ '1' ]]; [[ 'null' ]]; [[ 'true' ]]; [[ '[]' ]]; [[ '{}' ]]]
    && forallb (fun s => match number_from_json pw s with Err (Error _ KExpectedNumber) => true | _ => false end)
      [[[ '""' ]]; [[ 'null' ]]; [[ 'true' ]]; [[ '[]' ]]; [[ '{}' ]]]) = true.
Proof. vm_compute. reflexivity. Qed.

(** src/anystr.rs [hash], [ord]. *)
Example t_anystr :
  bytes_eqb (List.concat (any_hash (any_from_string [[ 'hello' ]]))) (List.concat (any_hash (any_from_str [[ 'hello' ]])))
  && any_eq (any_from_string [[ 'hello' ]]) (any_from_str [[ 'hello' ]])
  && bytes_eqb (List.concat (any_hash (any_from_string [[ 'hello' ]]))) (List.concat (str_hash [[ 'hello' ]]))
  && somes (any_partial_cmp_str (Borrowed [[ 'a' ]]) [[ 'b' ]]) (cmp_is Lt)
  && somes (any_partial_cmp (Borrowed [[ 'a' ]]) (Borrowed [[ 'b' ]])) (cmp_is Lt) = true.
Proof. vm_compute. reflexivity. Qed.

(** src/doc.rs [document_iteration]. *)
Example t_document_iteration :
  all_widths (fun pw =>
    let source := [[ '{"a":1,"b":true,"c":"hello","d":[null],"e":{}}' ]] in
    oks (document_from_json pw None source) (fun doc =>
    oks (P [[ '"a"' ]] pw) (fun a => oks (P [[ '"b"' ]] pw) (fun b => oks (P [[ '"c"' ]] pw) (fun c =>
    oks (P [[ '"hello"' ]] pw) (fun h => oks (P [[ '"d"' ]] pw) (fun d => oks (P [[ '"e"' ]] pw) (fun e =>
    oks (number_from_json pw [[ '1' ]]) (fun one =>
    yes (document_eq pw (doc_iter doc)
      [NObject 5; NString a; NNumber one; NString b; NBoolean true; NString c; NString h; NString d;
       NArray 1; NNull; NString e; NObject 0])
    && oks (next_value (doc_iter doc)) (fun '(ov, _) => somes ov (fun v =>
       oks (value_from_json pw source) (fun w => yes (value_eq pw v w))))
    && oks (skip_next_value (doc_iter doc)) (fun it => none (fst (doc_next it)))))))))))) = true.
Proof. vm_compute. reflexivity. Qed.

(** src/number.rs [json_number_from_json], [json_number_conversions], [as_es]; src/value.rs [as_es]. *)
Definition int_types := [I8; I16; I32; I64; I128; Isize; U8; U16; U32; U64; U128; Usize].
Example t_numbers_as :
  all_widths (fun pw =>
    oks (number_from_json pw [[ '1' ]]) (fun n =>
      jn_eq n (JNum (Borrowed [[ '1' ]]))
      && forallb (fun t => somes (as_int pw t n) (Z.eqb 1)) int_types
      && forallb (fun t => somes (value_as_int pw t (VNumber n)) (Z.eqb 1)) int_types
      && match as_float n with Some (FrDec false 1 0%Z) => true | _ => false end)
    && match number_from_json pw [[ 'true' ]] with Err (Error _ KExpectedNumber) => true | _ => false end
    && oks (number_from_json pw [[ '0' ]]) (fun n =>
         match as_float n with Some (FrDec _ 0 _) => true | _ => false end
         && match value_as_float (VNumber n) with Some (FrDec _ 0 _) => true | _ => false end)) = true.
Proof. vm_compute. reflexivity. Qed.

(** src/parser.rs [config_test], [validates], [tokenizes], [tokenizer_peek_tests]. *)
Example t_config :
  allowing_all_types_at_root (without_recursion_limit (allowing_trailing_commas config_strict)) true
  = Config true None true.
Proof. reflexivity. Qed.

Example t_validates :
  validate_json W64 [[ '{"a":1,"b":true,"c":"hello","d":[],"e":{}}' ]] = Ok JkObject
  /\ validate_json_bytes W64 [[ '{"a":1,"b":true,"c":"hello","d":[],"e":{}}' ]] = Ok JkObject.
Proof. vm_compute. split; reflexivity. Qed.

Fixpoint collect (fuel : nat) (g : bool) (it : byte_iter) : res (error infallible) (list token) :=
  match fuel with
  | O => Fault FExpect
  | S f => match tokenizer_next g W64 it with
           | (None, _) => Ok []
           | (Some (Ok t), it') => let? l := collect f g it' in Ok (t :: l)
           | (Some (Err e), _) => Err e
           | (Some (Fault x), _) => Fault x
           end
  end.
Example t_tokenizes :
  collect 5 true (tokenizer_new [[ 'true' ]]) = Ok [TkBool true]
  /\ collect 5 false (tokenizer_new [[ 'false' ]]) = Ok [TkBool false].
Proof. vm_compute. split; reflexivity. Qed.

Fixpoint peeks (fuel : nat) (it : byte_iter) : list (option peek_kind) * option (res (error infallible) token) :=
  match fuel with
  | O => ([], None)
  | S f => let '(p, it1) := tokenizer_peek it in
           match tokenizer_next true W64 it1 with
           | (Some (Ok _), it2) => let '(ps, x) := peeks f it2 in (p :: ps, x)
           | (x, _) => ([p], x)
           end
  end.
Example t_tokenizer_peek_tests :
  peeks 20 (tokenizer_new [[ '{"a": [1, true, false, null]} ' ]])
  = ([Some PkObject; Some PkString; Some PkColon; Some PkArray; Some PkNumber; Some PkComma; Some PkTrue;
      Some PkComma; Some PkFalse; Some PkComma; Some PkNull; Some PkArrayEnd; Some PkObjectEnd; None], None)
  /\ fst (tokenizer_peek (tokenizer_new [[ '<' ]])) = Some PkUnrecognized.
Proof. vm_compute. split; reflexivity. Qed.

(** src/value.rs [value_ases], [primitive_values], [objects], [cow], [index], [froms]. *)
Example t_value_ases :
  all_widths (fun pw =>
    somes (as_bool (value_from_bool true)) (fun b => b)
    && oks (P [[ '""' ]] pw) (fun s =>
         somes (as_string (VString s)) (fun x => yes (js_eq_str pw x []))
         && somes (value_as_str pw (VString s)) (bytes_eqb []))
    && oks (number_from_json pw [[ '1' ]]) (fun n =>
         somes (as_number (VNumber n)) (fun m => somes (as_int pw U64 m) (Z.eqb 1)))
    && somes (as_object (VObject object_new)) (fun o => yes (value_eq pw (VObject o) (VObject object_new)))
    && somes (as_array (VArray [])) (fun l => yes (value_eq pw (VArray l) (VArray [])))
    && is_null VNull && negb (is_null (value_from_bool true))
    && none (as_bool VNull) && none (as_number VNull) && none (as_string VNull) && none (value_as_str pw VNull)
    && none (as_object VNull) && none (as_array VNull)) = true.
Proof. vm_compute. reflexivity. Qed.

Definition parses_to (s : list N) (expected : pwidth -> res infallible value) : bool :=
  all_widths (fun pw => oks (value_from_json pw s) (fun v => oks (expected pw) (fun w => yes (value_eq pw v w)))).
Example t_values :
  parses_to [[ 'true' ]] (fun _ => Ok (value_from_bool true))
  && parses_to [[ 'false' ]] (fun _ => Ok (value_from_bool false))
  && parses_to [[ 'null' ]] (fun _ => Ok VNull)
  && parses_to [[ '{}' ]] (fun _ => Ok (VObject object_new))
  && parses_to [[ '{"hello":"world"}' ]] (fun pw =>
       let? h := P [[ '"hello"' ]] pw in let? w := P [[ '"world"' ]] pw in
       Ok (VObject (object_from_iter [(h, VString w)])))
  && parses_to [[ ' { "hello" : "world" , "another" : "value" }' ]] (fun pw =>
       let? h := P [[ '"hello"' ]] pw in let? w := P [[ '"world"' ]] pw in
       let? a := P [[ '"another"' ]] pw in let? v := P [[ '"value"' ]] pw in
       Ok (VObject [entry_new h (VString w); entry_new a (VString v)])) = true.
Proof. vm_compute. reflexivity. Qed.

Definition assign {C T} (r : mutref C T) (x : T) : C := snd r x.
Definition opt {A} (o : option A) : res infallible A := match o with Some a => Ok a | None => Fault FExpect end.
Definition cow (pw : pwidth) : res infallible (list N) :=
  let? v := unwrap (value_from_json_bytes pw [[ '{"a":1,"b":true,"c":"hello","d":[],"e":{}}' ]]) in
  let? rb := value_index_str_mut pw v [[ 'b' ]] in
  let v := assign rb (value_from_bool false) in
  let? root := opt (as_object_mut v) in
  let? newa := js_from_str pw [[ 'newa' ]] in
  let? a := js_from_str pw [[ 'a' ]] in
  let? r0 := opt (list_get_mut (fst root) 0) in
  let o := assign r0 (newa, value_from_json_string a) in
  let? r3 := opt (list_get_mut o 3) in
  let? d := opt (as_array_mut (snd (fst r3))) in
  let o := assign r3 (fst (fst r3), assign d (fst d ++ [VNull])) in
  let v := assign root o in
  let? rd := value_index_str_mut pw v [[ 'd' ]] in
  let? rd0 := value_index_mut (fst rd) 0 in
  let v := assign rd (assign rd0 (value_from_bool false)) in
  to_json pw v.
Example t_cow :
  cow W64 = Ok [[ '{"newa":"a","b":false,"c":"hello","d":[false],"e":{}}' ]] /\ cow W32 = cow W64.
Proof. vm_compute. split; reflexivity. Qed.

Example t_index :
  all_widths (fun pw => oks (value_from_json_bytes pw [[ '{"b":true,"a":[false]}' ]]) (fun v =>
    oks (value_index_str pw v [[ 'b' ]]) (fun x => yes (value_eq pw x (value_from_bool true)))
    && none (get_index_mut v 0)
    && oks (value_index_str pw v [[ 'a' ]]) (fun x =>
         oks (value_index x 0) (fun y => yes (value_eq pw y (value_from_bool false)))
         && oks (value_get_mut pw x [[ 'a' ]]) none))) = true.
Proof. vm_compute. reflexivity. Qed.

Example t_froms :
  all_widths (fun pw => oks (F [[ 'a' ]] pw) (fun a =>
    yes (value_eq pw (value_from_bool true) (VBoolean true))
    && yes (value_eq pw (value_from_object object_new) (VObject object_new))
    && yes (value_eq pw (value_from_vec []) (VArray []))
    && oks (value_from_string pw [[ 'a' ]]) (fun v => yes (value_eq pw v (VString a)))
    && oks (value_from_str pw [[ 'a' ]]) (fun v => yes (value_eq pw v (VString a)))
    && yes (value_eq pw (value_from_json_string a) (VString a)))) = true.
Proof. vm_compute. reflexivity. Qed.

(** src/error.rs [into_fallable_test], [into_infallable_test], [display_tests] hold of every kind:
    see PropErrors.v and PropMessage.v.  Here the doc test of [Object] and the two examples. *)
Example t_object_doc :
  all_widths (fun pw =>
    oks (F [[ 'hello' ]] pw) (fun h => oks (F [[ 'world' ]] pw) (fun w =>
    oks (to_json pw (VObject (object_push object_new (entry_new h (VString w))))) (bytes_eqb [[ '{"hello":"world"}' ]]))))
  = true.
Proof. vm_compute. reflexivity. Qed.

(** examples/heapless.rs, examples/borrowed-value.rs. *)
Example t_heapless :
  all_widths (fun pw =>
    oks (document_from_json pw (Some 3%nat) [[ '{"hello": "world"}' ]]) (fun doc =>
    oks (F [[ 'hello' ]] pw) (fun h => oks (F [[ 'world' ]] pw) (fun w =>
    yes (document_eq pw doc [NObject 1; NString h; NString w]))))
    && match document_from_json pw (Some 3%nat) [[ '[1, 2, 3, 4]' ]] with
       | Err (Error _ KPaylodTooLarge) => true | _ => false end) = true.
Proof. vm_compute. reflexivity. Qed.

Example t_borrowed_value :
  all_widths (fun pw => oks (value_from_json pw [[ '{"hello":"world"}' ]]) (fun v =>
    somes (as_object v) (fun o =>
    match o with
    | (k, x) :: _ => yes (js_eq_str pw k [[ 'hello' ]])
                     && somes (as_string x) (fun s => yes (js_eq_str pw s [[ 'world' ]]))
    | [] => false
    end))) = true.
Proof. vm_compute. reflexivity. Qed.
