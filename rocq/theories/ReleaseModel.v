(** The functions of the crate whose arithmetic overflow checks exist only in debug builds, as a release build computes them:
    integer arithmetic wraps around.  ([usize::checked_add(..).expect(..)] of [add_bytes] and [add_bytes_from_escape] panics in both
    kinds of builds; byte offsets are bounded by the length of the slice.)  Each function is a copy of the one of the same name
    without [rel_], with the three kinds of arithmetic replaced. *)
From Verif Require Import Base Utf8 StrModel ErrorModel Tokenizer Parser ValueModel.
Local Open Scope N_scope.

(** [u32] subtraction and multiplication, [u8] addition, wrapping. *)
Definition rel_u32_sub (a b : N) : N := (a + 2 ^ 32 - b) mod 2 ^ 32.
Definition rel_u32_mul (a b : N) : N := (a * b) mod 2 ^ 32.
Definition rel_u8_add (a b : N) : N := (a + b) mod 256.

(** src/string.rs 1040-1043 [merge_surrogate_pair]. *)
Definition rel_merge_surrogate_pair (high low : N) : N :=
  N.lor (N.lor DECODED_SURROGATE_BASE (rel_u32_mul (rel_u32_sub high HIGH_SURROGATE_MIN) 0x400)) (rel_u32_sub low LOW_SURROGATE_MIN).

(** src/parser.rs 267-293, inside [read_string_escape]. *)
Definition rel_read_second_half (decoded : N) : tok (option N) :=
  if (HIGH_SURROGATE_MIN <=? decoded) && (decoded <=? HIGH_SURROGATE_MAX) then
    let! (_, b1) := bi_read in
    if b1 =? 92 then
      let! (_, b2) := bi_read in
      if b2 =? 117 then
        let! second := read_hex 4 0 in
        if (LOW_SURROGATE_MIN <=? second) && (second <=? LOW_SURROGATE_MAX) then
          tret (Some (rel_merge_surrogate_pair decoded second))
        else tret None
      else tret None
    else tret None
  else tret None.

(** src/parser.rs 242-313 [read_string_escape]. *)
Definition rel_read_string_escape (pw : pwidth) (i : info) : tok info :=
  let! (offset, b) := bi_read in
  if (b =? 34) || (b =? 92) || (b =? 47) || (b =? 98) || (b =? 102) || (b =? 114)
     || (b =? 110) || (b =? 116) then
    tlift (add_bytes_from_escape pw i 1)
  else if b =? 117 then
    let! decoded := read_hex 4 0 in
    let! ch :=
      match char_from_u32 decoded with
      | Some ch => tret ch
      | None =>
        let! merged := rel_read_second_half decoded in
        match merged with
        | Some m => tlift (char_from_u32_unchecked m)
        | None => terr (Error offset KUtf8)
        end
      end in
    tlift (add_bytes_from_escape pw i (N.of_nat (len_utf8 ch)))
  else terr (Error offset KInvalidEscape).

(** src/string.rs 692-738 [Decoded::next]. *)
Definition rel_decoded_next (d : decoded) : res infallible (option N * decoded) :=
  let '(o, it) := ci_next (dec_chars d) in
  let ret c it' := Ok (Some c, Dec (dec_needs d) (dec_source d) it') in
  match o with
  | None => Ok (None, Dec (dec_needs d) (dec_source d) it)
  | Some (_, ch) =>
    if dec_needs d && (ch =? 92) then
      let '(o2, it2) := ci_next it in
      match o2 with
      | None => Fault FExpect
      | Some (offset, c) =>
        if c =? 114 then ret 0x0D it2
        else if c =? 110 then ret 0x0A it2
        else if c =? 116 then ret 0x09 it2
        else if c =? 98 then ret 0x07 it2
        else if c =? 102 then ret 0x0C it2
        else if c =? 117 then
          let it3 := ci_skip 4 it2 in
          match str_slice (dec_source d) (offset + 1) (offset + 5) with
          | None => Fault FIndex
          | Some hex =>
            match u32_from_str_radix16 hex with
            | None => Fault FExpect
            | Some codepoint =>
              if (HIGH_SURROGATE_MIN <=? codepoint) && (codepoint <=? HIGH_SURROGATE_MAX) then
                let it4 := ci_skip 6 it3 in
                match str_slice (dec_source d) (offset + 7) (offset + 11) with
                | None => Fault FIndex
                | Some hex2 =>
                  match u32_from_str_radix16 hex2 with
                  | None => Fault FExpect
                  | Some second =>
                    let? c' := char_from_u32_unchecked (rel_merge_surrogate_pair codepoint second) in
                    ret c' it4
                  end
                end
              else
                let? c' := char_from_u32_unchecked codepoint in
                ret c' it3
            end
          end
        else ret c it2
      end
    else ret ch it
  end.

(** src/string.rs 795-883 [AsJson::next]. *)
Definition rel_as_json_next (pw : pwidth) (a : as_json) : res infallible (option N * as_json) :=
  match aj_state a with
  | EUnicode (Some current_nibble) codepoint =>
    let bits := N.land (codepoint mod 256) 0xF in
    let codepoint' := N.shiftr codepoint 4 in
    let ch := if bits <? 10 then rel_u8_add bits 48 else rel_u8_add bits 97 in
    let nib := rel_u8_add current_nibble 1 in
    if nib =? 4 then Ok (Some ch, AJ (aj_chars a) ENone (aj_info a))
    else Ok (Some ch, AJ (aj_chars a) (EUnicode (Some nib) codepoint') (aj_info a))
  | _ => as_json_next pw a
  end.

(** The JSON writer of src/value.rs 253-320, 576-663. *)
Section RelWriter.
  Variable pw : pwidth.
  Variable W : fmt_write.
  Variable pretty : bool.
  Variable indent_per_level line_ending : list N.
  Local Notation wm := (wm W).
  Local Notation wthen := (wthen W).
  Local Notation wret := (wret W).
  Local Notation w_write := (w_write W pretty indent_per_level).
  Local Notation w_new_line := (w_new_line W pretty indent_per_level line_ending).

  (** src/string.rs 757-765 [Display for AsJson]. *)
  Fixpoint rel_w_as_json (fuel : nat) (a : as_json) : wm :=
    match fuel with
    | O => fun s => (Fault FFuel, s)
    | S fuel' => fun s =>
      match rel_as_json_next pw a with
      | Ok (None, _) => (Ok tt, s)
      | Ok (Some c, a') => wthen (w_char W c) (rel_w_as_json fuel' a') s
      | Err e => match e with end
      | Fault f => (Fault f, s)
      end
    end.

  (** src/value.rs 611-621 [write_json]. *)
  Definition rel_w_write_json (str : json_string) : wm :=
    wthen (w_indent W pretty indent_per_level) (wthen (w_str W [34])
      (wthen (rel_w_as_json (json_fuel (contents_str (js_source str))) (js_as_json_iter str))
             (w_str W [34]))).

  (** [self.level += 1] and [self.level -= 1] on [usize], wrapping. *)
  Definition rel_w_level_up : wm := fun s =>
    (Ok tt, WS W (ws_writer W s) (if N.of_nat (ws_level W s) =? usize_max pw then O else S (ws_level W s)) (ws_at_line_start W s)).
  Definition rel_w_level_down : wm := fun s =>
    (Ok tt, WS W (ws_writer W s) (match ws_level W s with O => N.to_nat (usize_max pw) | S l => l end) (ws_at_line_start W s)).

  (** src/value.rs 631-662 [begin_object], [begin_array], [end_object], [end_array]. *)
  Definition rel_w_begin_object : wm := wthen (w_write [123]) rel_w_level_up.
  Definition rel_w_begin_array : wm := wthen (w_write [91]) rel_w_level_up.
  Definition rel_w_end_object : wm := wthen rel_w_level_down (w_write [125]).
  Definition rel_w_end_array : wm := wthen rel_w_level_down (w_write [93]).

  (** src/value.rs 264-320 [write_json_value], [write_json_object], [write_json_array]. *)
  Fixpoint rel_write_json_value (v : value) : wm :=
    match v with
    | VString string => rel_w_write_json string
    | VNumber number => w_write (jn_str number)
    | VBoolean b => w_write (if b then [116; 114; 117; 101] else [102; 97; 108; 115; 101])
    | VNull => w_write [110; 117; 108; 108]
    | VObject obj =>
      wthen rel_w_begin_object
        (wthen
           (match obj with
            | [] => wret
            | _ =>
              wthen w_new_line
                ((fix go (obj : list (json_string * value)) : wm :=
                    match obj with
                    | [] => wret
                    | (key, v') :: obj' =>
                      wthen (rel_w_write_json key)
                        (wthen (w_object_key_end W pretty indent_per_level)
                           (wthen (rel_write_json_value v')
                              (wthen (match obj' with [] => wret | _ => w_write [44] end)
                                 (wthen w_new_line (go obj')))))
                    end) obj)
            end)
           rel_w_end_object)
    | VArray array =>
      wthen rel_w_begin_array
        (wthen
           (match array with
            | [] => wret
            | _ =>
              wthen w_new_line
                ((fix go (array : list value) : wm :=
                    match array with
                    | [] => wret
                    | v' :: array' =>
                      wthen (rel_write_json_value v')
                        (wthen (match array' with [] => wret | _ => w_write [44] end)
                           (wthen w_new_line (go array')))
                    end) array)
            end)
           rel_w_end_array)
    end.

  (** src/value.rs 253-262 [write_json]. *)
  Definition rel_write_json (v : value) (destination : w_st W) : res unit unit * w_st W :=
    let '(r, s) := rel_write_json_value v (WS W destination 0 true) in (r, ws_writer W s).
End RelWriter.
