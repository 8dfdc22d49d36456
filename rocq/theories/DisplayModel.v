(** Model of the [Display] implementations of src/string.rs into any [fmt::Write], and of [Debug] for JsonStringInfo. *)
From Verif Require Import Base Utf8 StrModel ErrorModel Tokenizer Parser ValueModel ErrorDisplay.

Section CharLoop.
  Context {S : Type}.
  Variable next : S -> res infallible (option N * S).
  Variable W : fmt_write.

  (** src/string.rs 742-744 and 759-761: [for ch in self.clone() { f.write_char(ch)?; }].
      [Formatter::write_char] is the destination's [write_char].  The loop works on a copy of the
      iterator, so the caller's iterator is not part of the result.  On fuel, see below. *)
  Fixpoint write_chars (fuel : nat) (st : S) (w : w_st W) : res unit unit * w_st W :=
    match fuel with
    | O => (Fault FFuel, w)
    | Datatypes.S fuel' =>
      match next st with
      | Ok (None, _) => (Ok tt, w)
      | Ok (Some c, st') =>
        let '(ok, w') := w_write_char W w c in
        if ok then write_chars fuel' st' w' else (Err tt, w')
      | Err e => match e with end
      | Fault f => (Fault f, w)
      end
    end.
End CharLoop.

(** src/string.rs 740-748 [Display for Decoded], also of an iterator that has been advanced.  Fuel: more than one per byte left. *)
Definition decoded_display (W : fmt_write) (d : decoded) (w : w_st W) : res unit unit * w_st W :=
  write_chars decoded_next W (S (length (ci_rest (dec_chars d)))) d w.

(** src/string.rs 757-765 [Display for AsJson], also of an iterator that has been advanced.  Fuel: more than six per
    byte left and the rest of an escape that has been begun. *)
Definition as_json_display (pw : pwidth) (W : fmt_write) (a : as_json) (w : w_st W) : res unit unit * w_st W :=
  write_chars (as_json_next pw) W (6 + 6 * length (aj_chars a)) a w.

(** src/string.rs 517-521 [Display for JsonString]. *)
Definition js_display_to (pw : pwidth) (W : fmt_write) (s : json_string) (w : w_st W) : res unit unit * w_st W :=
  decoded_display W (js_decoded_iter pw s) w.

(** std [Debug for bool]. *)
Definition fmt_bool (b : bool) : list N := if b then bs "true" else bs "false".

(** src/string.rs 648-655 [Debug for JsonStringInfo]: the text of [{:?}] and of [{:#?}] that std's [debug_struct] gives
    (simplification: only the text, not the calls of the destination). *)
Definition info_debug (pw : pwidth) (alternate : bool) (i : info) : list N :=
  if alternate then
    bs "EscapeInfo {" ++ [10%N] ++
    bs "    has_escapes: " ++ fmt_bool (has_escapes pw i) ++ bs "," ++ [10%N] ++
    bs "    unescaped_length: " ++ fmt_dec (expected_length pw i) ++ bs "," ++ [10%N] ++ bs "}"
  else
    bs "EscapeInfo { has_escapes: " ++ fmt_bool (has_escapes pw i) ++
    bs ", unescaped_length: " ++ fmt_dec (expected_length pw i) ++ bs " }".
