(** Model of src/string.rs and src/anystr.rs. *)
From Verif Require Import Base Utf8.
Local Open Scope N_scope.

(** * AnyStr (src/anystr.rs) *)

(** src/anystr.rs 12-18 [enum AnyStr]. A [str]/[String] is the list of its UTF-8 bytes. *)
Inductive anystr : Type :=
| Owned (s : list N)
| Borrowed (s : list N).

(** src/anystr.rs 27-35 [AnyStr::as_str]; also [as_ref] 37-42, [borrow] 44-49, [deref] 94-101. *)
Definition any_str (a : anystr) : list N :=
  match a with Owned s => s | Borrowed s => s end.

(** src/anystr.rs 53-58 [PartialEq<AnyStr>]. *)
Definition any_eq (a b : anystr) : bool := bytes_eqb (any_str a) (any_str b).

(** src/anystr.rs 60-72 [PartialEq<str>], [PartialEq<&str>]. *)
Definition any_eq_str (a : anystr) (s : list N) : bool := bytes_eqb (any_str a) s.

(** src/anystr.rs 74-92 [PartialOrd<AnyStr>], [PartialOrd<str>], [PartialOrd<&str>]. *)
Definition any_partial_cmp_str (a : anystr) (s : list N) : option comparison :=
  Some (lex_cmp (any_str a) s).
Definition any_partial_cmp (a b : anystr) : option comparison :=
  any_partial_cmp_str a (any_str b).

(** std [Hash for str] through [Hasher::write_str]'s default body:
    [write(bytes)] then [write_u8(0xff)].  A hash run is modelled by the list of byte chunks passed
    to [Hasher::write] ([write_u8(b)] being [write(&[b])]). *)
Definition str_hash (s : list N) : list (list N) := [s; [0xFF]].

(** src/anystr.rs 103-108 [Hash]. *)
Definition any_hash (a : anystr) : list (list N) := str_hash (any_str a).

(** src/anystr.rs 110-123 [From<&str>], [From<String>]. *)
Definition any_from_str (s : list N) : anystr := Borrowed s.
Definition any_from_string (s : list N) : anystr := Owned s.

(** * JsonStringInfo (src/string.rs 590-655) *)

(** [target_pointer_width]: the crate compiles for 32 and 64 bits only (603-606). *)
Inductive pwidth := W32 | W64.

Definition usize_max (pw : pwidth) : N :=
  match pw with W32 => 0xFFFFFFFF | W64 => 0xFFFFFFFFFFFFFFFF end.

(** Largest possible size in bytes of a Rust slice, [isize::MAX]. *)
Definition isize_max (pw : pwidth) : N :=
  match pw with W32 => 0x7FFFFFFF | W64 => 0x7FFFFFFFFFFFFFFF end.

(** src/string.rs 603-606 [UNESCAPED_BYTES_MASK]. *)
Definition unescaped_bytes_mask (pw : pwidth) : N :=
  match pw with W32 => 0x7FFFFFFF | W64 => 0x7FFFFFFFFFFFFFFF end.

(** src/string.rs 600 [HAS_ESCAPES_MASK]. *)
Definition has_escapes_mask (pw : pwidth) : N := N.lxor (usize_max pw) (unescaped_bytes_mask pw).

(** src/string.rs 597 [struct JsonStringInfo(usize)]. *)
Definition info := N.

(** src/string.rs 608-623 [JsonStringInfo::new]. *)
Definition info_new (pw : pwidth) (has_escapes : bool) (unescaped_length : N) : info :=
  if has_escapes then N.lor (has_escapes_mask pw) unescaped_length else unescaped_length.

(** src/string.rs 602 [NONE]. *)
Definition info_none (pw : pwidth) : info := info_new pw false 0.

(** src/string.rs 625-629 [has_escapes]. *)
Definition has_escapes (pw : pwidth) (i : info) : bool := negb (N.land i (has_escapes_mask pw) =? 0).

(** src/string.rs 631-635 [expected_length]. *)
Definition expected_length (pw : pwidth) (i : info) : N := N.land i (unescaped_bytes_mask pw).

(** std [usize::checked_add]. *)
Definition checked_add (pw : pwidth) (a b : N) : option N :=
  if a + b <=? usize_max pw then Some (a + b) else None.

(** src/string.rs 637-639 [add_bytes]. *)
Definition add_bytes {E} (pw : pwidth) (i : info) (bytes : N) : res E info :=
  match checked_add pw i bytes with Some n => Ok n | None => Fault FOverflow end.

(** src/string.rs 641-645 [add_bytes_from_escape]. *)
Definition add_bytes_from_escape {E} (pw : pwidth) (i : info) (bytes : N) : res E info :=
  match checked_add pw (N.lor (has_escapes_mask pw) i) bytes with
  | Some n => Ok n
  | None => Fault FOverflow
  end.

(** * JsonString *)

(** src/string.rs 1028-1032 [enum StringContents]. *)
Inductive contents : Type :=
| CJson (s : anystr)
| CRaw (s : anystr).

(** src/string.rs 41-45 [struct JsonString]. *)
Record json_string : Type := JStr { js_source : contents; js_info : info }.

(** src/string.rs 890-911 [HEX_OFFSET_TABLE]. *)
Definition hex_offset_table : list N :=
  let E := 255 in
  [E;E;E;E;E;E;E;E;E;E;E;E;E;E;E;E; (* 0 *)
   E;E;E;E;E;E;E;E;E;E;E;E;E;E;E;E; (* 1 *)
   E;E;E;E;E;E;E;E;E;E;E;E;E;E;E;E; (* 2 *)
   0;1;2;3;4;5;6;7;8;9;E;E;E;E;E;E; (* 3 *)
   E;10;11;12;13;14;15;E;E;E;E;E;E;E;E;E; (* 4 *)
   E;E;E;E;E;E;E;E;E;E;E;E;E;E;E;E; (* 5 *)
   E;10;11;12;13;14;15;E;E;E;E;E;E;E;E;E; (* 6 *)
   E;E;E;E;E;E;E;E;E;E;E;E;E;E;E;E; (* 7 *)
   E;E;E;E;E;E;E;E;E;E;E;E;E;E;E;E; (* 8 *)
   E;E;E;E;E;E;E;E;E;E;E;E;E;E;E;E; (* 9 *)
   E;E;E;E;E;E;E;E;E;E;E;E;E;E;E;E; (* A *)
   E;E;E;E;E;E;E;E;E;E;E;E;E;E;E;E; (* B *)
   E;E;E;E;E;E;E;E;E;E;E;E;E;E;E;E; (* C *)
   E;E;E;E;E;E;E;E;E;E;E;E;E;E;E;E; (* D *)
   E;E;E;E;E;E;E;E;E;E;E;E;E;E;E;E; (* E *)
   E;E;E;E;E;E;E;E;E;E;E;E;E;E;E;E  (* F *)].

(** The two tables below share their layout; [uc] is the entry of the bytes 128..=255. *)
Definition safe_table (uc : bool) : list bool :=
  let E := false in let BS := false in let Q := false in let T := true in let U := uc in
  [E;E;E;E;E;E;E;E;E;E;E;E;E;E;E;E; (* 0 *)
   E;E;E;E;E;E;E;E;E;E;E;E;E;E;E;E; (* 1 *)
   T;T;Q;T;T;T;T;T;T;T;T;T;T;T;T;T; (* 2 *)
   T;T;T;T;T;T;T;T;T;T;T;T;T;T;T;T; (* 3 *)
   T;T;T;T;T;T;T;T;T;T;T;T;T;T;T;T; (* 4 *)
   T;T;T;T;T;T;T;T;T;T;T;T;BS;T;T;T; (* 5 *)
   T;T;T;T;T;T;T;T;T;T;T;T;T;T;T;T; (* 6 *)
   T;T;T;T;T;T;T;T;T;T;T;T;T;T;T;T; (* 7 *)
   U;U;U;U;U;U;U;U;U;U;U;U;U;U;U;U; (* 8 *)
   U;U;U;U;U;U;U;U;U;U;U;U;U;U;U;U; (* 9 *)
   U;U;U;U;U;U;U;U;U;U;U;U;U;U;U;U; (* A *)
   U;U;U;U;U;U;U;U;U;U;U;U;U;U;U;U; (* B *)
   U;U;U;U;U;U;U;U;U;U;U;U;U;U;U;U; (* C *)
   U;U;U;U;U;U;U;U;U;U;U;U;U;U;U;U; (* D *)
   U;U;U;U;U;U;U;U;U;U;U;U;U;U;U;U; (* E *)
   U;U;U;U;U;U;U;U;U;U;U;U;U;U;U;U  (* F *)].

(** src/string.rs 913-938 [SAFE_STRING_BYTES]. *)
Definition safe_string_bytes : list bool := safe_table true.
(** src/string.rs 940-965 [SAFE_STRING_BYTES_VERIFY_UTF8]. *)
Definition safe_string_bytes_verify_utf8 : list bool := safe_table false.

(** Indexing a 256-entry table with a byte (always in range). *)
Definition table_get {A} (d : A) (t : list A) (b : N) : A := nth (N.to_nat b) t d.

(** src/string.rs 1034-1038. *)
Definition HIGH_SURROGATE_MIN : N := 0xD800.
Definition HIGH_SURROGATE_MAX : N := 0xDBFF.
Definition LOW_SURROGATE_MIN : N := 0xDC00.
Definition LOW_SURROGATE_MAX : N := 0xDFFF.
Definition DECODED_SURROGATE_BASE : N := 0x10000.

(** [u32] subtraction: overflow is a panic (debug) or wrong result (release); a fault here. *)
Definition u32_sub {E} (a b : N) : res E N := if b <=? a then Ok (a - b) else Fault FOverflow.

(** src/string.rs 1040-1043 [merge_surrogate_pair]. The product cannot overflow u32 because both
    callers pass [high] in the high-surrogate range. *)
Definition merge_surrogate_pair {E} (high low : N) : res E N :=
  let? h := u32_sub high HIGH_SURROGATE_MIN in
  let? l := u32_sub low LOW_SURROGATE_MIN in
  Ok (N.lor (N.lor DECODED_SURROGATE_BASE (h * 0x400)) l).

(** * Decoded (src/string.rs 668-748) *)

(** std [CharIndices]: offset of the front and the remaining bytes. *)
Record char_indices : Type := CI { ci_off : nat; ci_rest : list N }.

(** std [CharIndices::next]. *)
Definition ci_next (it : char_indices) : option (nat * N) * char_indices :=
  match next_char (ci_rest it) with
  | None => (None, it)
  | Some (c, r) => (Some (ci_off it, c), CI (ci_off it + (length (ci_rest it) - length r)) r)
  end.

(** [for _ in 0..n { chars.next(); }]. *)
Fixpoint ci_skip (n : nat) (it : char_indices) : char_indices :=
  match n with O => it | S n' => ci_skip n' (snd (ci_next it)) end.

(** std [char::to_digit(16)] on the bytes of the string. *)
Definition hex_digit (b : N) : option N :=
  if (48 <=? b) && (b <=? 57) then Some (b - 48)
  else if (65 <=? b) && (b <=? 70) then Some (b - 55)
  else if (97 <=? b) && (b <=? 102) then Some (b - 87)
  else None.

Fixpoint hex_digits (acc : N) (s : list N) : option N :=
  match s with
  | [] => Some acc
  | b :: r =>
    match hex_digit b with
    | None => None
    | Some d => if acc * 16 + d <=? 0xFFFFFFFF then hex_digits (acc * 16 + d) r else None
    end
  end.

(** std [u32::from_str_radix(s, 16)]: empty input and a lone sign are errors, a leading [+] is
    skipped, then hexadecimal digits with overflow check. *)
Definition u32_from_str_radix16 (s : list N) : option N :=
  match s with
  | [] => None
  | [b] => if (b =? 43) || (b =? 45) then None else hex_digits 0 s
  | b :: r => if b =? 43 then hex_digits 0 r else hex_digits 0 s
  end.

(** src/string.rs 668-673 [struct Decoded]. *)
Record decoded : Type :=
  Dec { dec_needs : bool; dec_source : list N; dec_chars : char_indices }.

(** src/string.rs 675-690 [Decoded::new]. *)
Definition decoded_new (pw : pwidth) (source : contents) (i : info) : decoded :=
  match source with
  | CJson s => Dec (has_escapes pw i) (any_str s) (CI 0 (any_str s))
  | CRaw s => Dec false (any_str s) (CI 0 (any_str s))
  end.

(** [char::from_u32_unchecked(n)]: undefined behaviour unless [n] is a scalar value. *)
Definition char_from_u32_unchecked {E} (n : N) : res E N :=
  if is_scalar n then Ok n else Fault FCharUB.

(** src/string.rs 692-738 [Decoded::next]. *)
Definition decoded_next (d : decoded) : res infallible (option N * decoded) :=
  let '(o, it) := ci_next (dec_chars d) in
  let ret c it' := Ok (Some c, Dec (dec_needs d) (dec_source d) it') in
  match o with
  | None => Ok (None, Dec (dec_needs d) (dec_source d) it)
  | Some (_, ch) =>
    if dec_needs d && (ch =? 92 (* '\' *)) then
      let '(o2, it2) := ci_next it in
      match o2 with
      | None => Fault FExpect
      | Some (offset, c) =>
        if c =? 114 (* r *) then ret 0x0D it2
        else if c =? 110 (* n *) then ret 0x0A it2
        else if c =? 116 (* t *) then ret 0x09 it2
        else if c =? 98 (* b *) then ret 0x07 it2
        else if c =? 102 (* f *) then ret 0x0C it2
        else if c =? 117 (* u *) then
          let it3 := ci_skip 4 it2 in
          match str_slice (dec_source d) (offset + 1) (offset + 5) with
          | None => Fault FIndex
          | Some hex =>
            match u32_from_str_radix16 hex with
            | None => Fault FExpect
            | Some codepoint =>
              if (HIGH_SURROGATE_MIN <=? codepoint) && (codepoint <=? HIGH_SURROGATE_MAX) then
                let it4 := ci_skip 6 it3 in
                match str_slice (dec_source d) (offset + 7) (offset + 11) with
                | None => Fault FIndex
                | Some hex2 =>
                  match u32_from_str_radix16 hex2 with
                  | None => Fault FExpect
                  | Some second =>
                    let? m := merge_surrogate_pair codepoint second in
                    let? c' := char_from_u32_unchecked m in
                    ret c' it4
                  end
                end
              else
                let? c' := char_from_u32_unchecked codepoint in
                ret c' it3
            end
          end
        else ret c it2
      end
    else ret ch it
  end.

(** * Generic consumption of iterators of chars
    An iterator is a state and a [next] that may fault.  The loops are on fuel; the callers pass
    more than the number of items, and [FFuel] is proved unreachable. *)
Section Iterators.
  Context {SA SB : Type}.
  Variable na : SA -> res infallible (option N * SA).
  Variable nb : SB -> res infallible (option N * SB).

  (** [iter.collect()] / [for ch in iter]. *)
  Fixpoint collect (fuel : nat) (a : SA) : res infallible (list N * SA) :=
    match fuel with
    | O => Fault FFuel
    | S fuel' =>
      let? (o, a') := na a in
      match o with
      | None => Ok ([], a')
      | Some c => let? (cs, a'') := collect fuel' a' in Ok (c :: cs, a'')
      end
    end.

  (** [a.zip(b).all(|(a, b)| a == b)]: std [Zip::next] asks [a] first and stops if it is done. *)
  Fixpoint zip_all_eq (fuel : nat) (a : SA) (b : SB) : res infallible bool :=
    match fuel with
    | O => Fault FFuel
    | S fuel' =>
      let? (oa, a') := na a in
      match oa with
      | None => Ok true
      | Some x =>
        let? (ob, b') := nb b in
        match ob with
        | None => Ok true
        | Some y => if x =? y then zip_all_eq fuel' a' b' else Ok false
        end
      end
    end.

  (** The comparison loop of src/string.rs 354-366 and 397-409. *)
  Fixpoint cmp_loop (fuel : nat) (a : SA) (b : SB) : res infallible comparison :=
    match fuel with
    | O => Fault FFuel
    | S fuel' =>
      let? (oa, a') := na a in
      let? (ob, b') := nb b in
      match oa, ob with
      | Some x, Some y =>
        match x ?= y with
        | Eq => cmp_loop fuel' a' b'
        | Lt => Ok Lt
        | Gt => Ok Gt
        end
      | Some _, None => Ok Gt
      | None, Some _ => Ok Lt
      | None, None => Ok Eq
      end
    end.
End Iterators.

(** std [Chars::next] as an iterator in the above sense. *)
Definition chars_next (s : list N) : res infallible (option N * list N) :=
  match next_char s with None => Ok (None, s) | Some (c, r) => Ok (Some c, r) end.

(** The bytes a [contents] holds. *)
Definition contents_str (c : contents) : list N :=
  match c with CJson s => any_str s | CRaw s => any_str s end.

(** Fuel that exceeds the number of chars of a source. *)
Definition str_fuel (s : list N) : nat := S (length s).

(** * JsonString methods *)

(** src/string.rs 98-102 [decoded()], consumed completely. *)
Definition js_decoded_iter (pw : pwidth) (s : json_string) : decoded :=
  decoded_new pw (js_source s) (js_info s).

Definition js_decoded (pw : pwidth) (s : json_string) : res infallible (list N) :=
  let? (cs, _) := collect decoded_next (str_fuel (contents_str (js_source s))) (js_decoded_iter pw s) in
  Ok cs.

(** src/string.rs 58-78 [decode_if_needed]. *)
Definition js_decode_if_needed (pw : pwidth) (s : json_string) : res infallible anystr :=
  match js_source s with
  | CJson source =>
    if has_escapes pw (js_info s) then
      let? cs := js_decoded pw s in Ok (Owned (utf8_string cs))
    else Ok source
  | CRaw raw => Ok raw
  end.

(** * AsJson (src/string.rs 750-888) *)

(** src/string.rs 767-776 [enum EscapeState]. *)
Inductive escape_state : Type :=
| EAlreadyEscaped
| ENone
| ESingle (b : N)
| EUnicode (current_nibble : option N) (codepoint : N).

(** src/string.rs 750-755 [struct AsJson]. *)
Record as_json : Type := AJ { aj_chars : list N; aj_state : escape_state; aj_info : info }.

(** src/string.rs 778-793 [AsJson::new]. *)
Definition as_json_new (value : contents) (i : info) : as_json :=
  match value with
  | CJson source => AJ (any_str source) EAlreadyEscaped i
  | CRaw source => AJ (any_str source) ENone i
  end.

(** [u8] addition with overflow check. *)
Definition u8_add {E} (a b : N) : res E N := if a + b <? 256 then Ok (a + b) else Fault FOverflow.

(** src/string.rs 795-883 [AsJson::next]. *)
Definition as_json_next (pw : pwidth) (a : as_json) : res infallible (option N * as_json) :=
  match aj_state a with
  | EAlreadyEscaped =>
    match next_char (aj_chars a) with
    | None => Ok (None, a)
    | Some (c, r) => Ok (Some c, AJ r EAlreadyEscaped (aj_info a))
    end
  | ENone =>
    match next_char (aj_chars a) with
    | None => Ok (None, a)
    | Some (ch, r) =>
      let single b :=
        let? i := add_bytes_from_escape pw (aj_info a) 2 in
        Ok (Some 92, AJ r (ESingle b) i) in
      if ch <=? 0xFF (* u8::try_from(ch) is Ok *) then
        if table_get false safe_string_bytes ch then
          let? i := add_bytes pw (aj_info a) 1 in
          Ok (Some ch, AJ r ENone i)
        else if (ch =? 34) || (ch =? 92) || (ch =? 47) then single ch
        else if ch =? 0x07 then single 98
        else if ch =? 0x0A then single 110
        else if ch =? 0x0D then single 114
        else if ch =? 0x09 then single 116
        else if ch =? 0x0C then single 102
        else if ch <=? 31 then
          let? i := add_bytes_from_escape pw (aj_info a) 6 in
          Ok (Some 92, AJ r (EUnicode None ch) i)
        else Fault FUnreachable
      else
        let? i := add_bytes pw (aj_info a) (N.of_nat (len_utf8 ch)) in
        Ok (Some ch, AJ r ENone i)
    end
  | ESingle ch => Ok (Some ch, AJ (aj_chars a) ENone (aj_info a))
  | EUnicode (Some current_nibble) codepoint =>
    let bits := N.land (codepoint mod 256) 0xF in
    let codepoint' := N.shiftr codepoint 4 in
    let? ch := (if bits <? 10 then u8_add bits 48 else u8_add bits 97) in
    let? nib := u8_add current_nibble 1 in
    if nib =? 4 then Ok (Some ch, AJ (aj_chars a) ENone (aj_info a))
    else Ok (Some ch, AJ (aj_chars a) (EUnicode (Some nib) codepoint') (aj_info a))
  | EUnicode None codepoint =>
    Ok (Some 117, AJ (aj_chars a) (EUnicode (Some 0) codepoint) (aj_info a))
  end.

(** src/string.rs 885-887 [AsJson::size_hint] = std [Chars::size_hint]. *)
Definition as_json_size_hint (a : as_json) : nat * option nat :=
  let n := length (aj_chars a) in (((n + 3) / 4)%nat, Some n).

(** Fuel that exceeds the number of chars an AsJson over [s] yields. *)
Definition json_fuel (s : list N) : nat := S (6 * length s).

(** src/string.rs 104-108 [as_json()], and all the chars it yields. *)
Definition js_as_json_iter (s : json_string) : as_json := as_json_new (js_source s) (js_info s).

Definition js_as_json (pw : pwidth) (s : json_string) : res infallible (list N) :=
  let? (cs, _) := collect (as_json_next pw) (json_fuel (contents_str (js_source s))) (js_as_json_iter s) in
  Ok cs.

(** src/string.rs 80-96 [escape_if_needed]. *)
Definition js_escape_if_needed (pw : pwidth) (s : json_string) : res infallible anystr :=
  match js_source s with
  | CJson source => Ok source
  | CRaw _ => let? cs := js_as_json pw s in Ok (Owned (utf8_string cs))
  end.

(** src/string.rs 110-123 [as_json_str]. *)
Definition js_as_json_str (s : json_string) : option anystr :=
  match js_source s with CJson source => Some source | CRaw _ => None end.

(** src/string.rs 125-132 [len]. *)
Definition js_len (pw : pwidth) (s : json_string) : N :=
  match js_source s with
  | CJson json => N.of_nat (length (any_str json))
  | CRaw _ => expected_length pw (js_info s)
  end.

(** src/string.rs 134-138 [is_empty]. *)
Definition js_is_empty (pw : pwidth) (s : json_string) : bool := js_len pw s =? 0.

(** src/string.rs 140-147 [decoded_len]. *)
Definition js_decoded_len (pw : pwidth) (s : json_string) : N :=
  match js_source s with
  | CJson _ => expected_length pw (js_info s)
  | CRaw raw => N.of_nat (length (any_str raw))
  end.

(** src/string.rs 149-159 [as_str]. *)
Definition js_as_str (pw : pwidth) (s : json_string) : option (list N) :=
  match js_source s with
  | CJson str => if negb (has_escapes pw (js_info s)) then Some (any_str str) else None
  | CRaw str => Some (any_str str)
  end.

(** src/string.rs 162-205 the analysis loop shared by [From<&str>] and [From<String>]:
    run an [AsJson] over the raw text and keep its info. *)
Definition js_from_any (pw : pwidth) (value : anystr) : res infallible json_string :=
  let source := CRaw (Borrowed (any_str value)) in
  let? (_, escaped) := collect (as_json_next pw) (json_fuel (any_str value))
                         (as_json_new source (info_none pw)) in
  if has_escapes pw (aj_info escaped) then Ok (JStr (CRaw value) (aj_info escaped))
  else Ok (JStr (CJson value) (aj_info escaped)).

(** src/string.rs 162-182 [From<&str>]. *)
Definition js_from_str (pw : pwidth) (value : list N) : res infallible json_string :=
  js_from_any pw (Borrowed value).

(** src/string.rs 184-206 [From<String>]. *)
Definition js_from_string (pw : pwidth) (value : list N) : res infallible json_string :=
  js_from_any pw (Owned value).

(** src/string.rs 207-234 [PartialEq<str>], [PartialEq<&str>]. *)
Definition js_eq_str (pw : pwidth) (s : json_string) (other : list N) : res infallible bool :=
  match js_source s with
  | CJson source =>
    if has_escapes pw (js_info s) then
      if negb (expected_length pw (js_info s) =? N.of_nat (length other)) then Ok false
      else zip_all_eq decoded_next chars_next (str_fuel (any_str source))
             (decoded_new pw (js_source s) (js_info s)) other
    else Ok (any_eq_str source other)
  | CRaw source => Ok (any_eq_str source other)
  end.

(** src/string.rs 236-273 [PartialEq<JsonString>].
    (The second [Decoded::new] is given [self.info], as in the source.) *)
Definition js_eq (pw : pwidth) (s other : json_string) : res infallible bool :=
  match js_source s, js_source other with
  | CJson a, CJson b =>
    match has_escapes pw (js_info s), has_escapes pw (js_info other) with
    | true, true =>
      if expected_length pw (js_info s) =? expected_length pw (js_info other) then
        zip_all_eq decoded_next decoded_next (str_fuel (any_str a))
          (decoded_new pw (js_source s) (js_info s)) (decoded_new pw (js_source other) (js_info s))
      else Ok false
    | true, false => js_eq_str pw s (any_str b)
    | false, true => js_eq_str pw other (any_str a)
    | false, false => Ok (bytes_eqb (any_str a) (any_str b))
    end
  | CRaw a, CRaw b => Ok (bytes_eqb (any_str a) (any_str b))
  | CJson _, CRaw b =>
    if expected_length pw (js_info other) =? js_len pw s then js_eq_str pw s (any_str b) else Ok false
  | CRaw a, CJson _ =>
    if expected_length pw (js_info s) =? js_len pw other then js_eq_str pw other (any_str a) else Ok false
  end.

(** src/string.rs 348-376 [PartialOrd<str>], [PartialOrd<&str>] (always [Some]). *)
Definition js_partial_cmp_str (pw : pwidth) (s : json_string) (other : list N)
  : res infallible (option comparison) :=
  match js_source s with
  | CJson lft =>
    if has_escapes pw (js_info s) then
      let? c := cmp_loop decoded_next chars_next (str_fuel (any_str lft)) (js_decoded_iter pw s) other in
      Ok (Some c)
    else Ok (Some (lex_cmp (any_str lft) other))
  | CRaw lft => Ok (Some (lex_cmp (any_str lft) other))
  end.

(** [.expect("always some")]. *)
Definition expect_some {A} (o : option A) : res infallible A :=
  match o with Some a => Ok a | None => Fault FExpect end.

(** src/string.rs 378-412 [Ord::cmp]. *)
Definition js_cmp (pw : pwidth) (s other : json_string) : res infallible comparison :=
  let by_chars :=
    cmp_loop decoded_next decoded_next (str_fuel (contents_str (js_source s)))
      (js_decoded_iter pw s) (js_decoded_iter pw other) in
  match js_source s, js_source other with
  | CJson lft, CJson rgt =>
    if negb (has_escapes pw (js_info s)) && negb (has_escapes pw (js_info other))
    then Ok (lex_cmp (any_str lft) (any_str rgt))
    else by_chars
  | CRaw lft, CRaw rgt => Ok (lex_cmp (any_str lft) (any_str rgt))
  | CJson _, CRaw rgt =>
    let? o := js_partial_cmp_str pw s (any_str rgt) in expect_some o
  | CRaw lft, CJson _ =>
    let? o := js_partial_cmp_str pw other (any_str lft) in
    let? c := expect_some o in Ok (CompOpp c)
  end.

(** src/string.rs 413-417 [PartialOrd<JsonString>]. *)
Definition js_partial_cmp (pw : pwidth) (s other : json_string) : res infallible (option comparison) :=
  let? c := js_cmp pw s other in Ok (Some c).

(** src/string.rs 480-496 [Hash]: the chunks passed to [Hasher::write]. *)
Definition js_hash (pw : pwidth) (s : json_string) : res infallible (list (list N)) :=
  match js_source s with
  | CJson str =>
    if has_escapes pw (js_info s) then
      let? cs := js_decoded pw s in Ok (map utf8_encode cs ++ [[0xFF]])
    else Ok (any_hash str)
  | CRaw str => Ok (any_hash str)
  end.

(** src/string.rs 517-521 [Display for JsonString] via 740-748 [Display for Decoded]: the text
    written (one [write_char] per decoded char). *)
Definition js_display (pw : pwidth) (s : json_string) : res infallible (list N) :=
  let? cs := js_decoded pw s in Ok (utf8_string cs).

(** src/number.rs 8-12 [struct JsonNumber]. *)
Record json_number : Type := JNum { jn_source : anystr }.

(** src/number.rs 25-29 [source]. *)
Definition jn_str (n : json_number) : list N := any_str (jn_source n).

(** src/number.rs 8 derived [PartialEq]. *)
Definition jn_eq (a b : json_number) : bool := any_eq (jn_source a) (jn_source b).
