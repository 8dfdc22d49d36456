(** Independent specification, continued: the items a string content is made of, one by one.
    [str_body] of Spec.v is the concatenation of items with what each denotes ([str_body_items]
    of StrFacts.v). *)
From Verif Require Import Base Utf8 Spec.
Local Open Scope N_scope.

(** One item of a string content: a character standing for itself, a two-character escape
    backslash-[b], a [\uXXXX] escape, a surrogate pair of two [\uXXXX] escapes. *)
Inductive item : Type :=
| IPlain (c : N)
| ISimple (b : N)
| IUnicode (u : N)
| IPair (hi lo : N).

(** How an item may be spelled (RFC 8259 section 7). *)
Inductive item_spelling : item -> list N -> Prop :=
| spell_plain c : is_scalar c = true -> 32 <= c -> c <> 34 -> c <> 92 ->
    item_spelling (IPlain c) (utf8_encode c)
| spell_simple b : In b (map fst simple_escapes) -> item_spelling (ISimple b) [92; b]
| spell_unicode h u : hex4 h u -> is_scalar u = true -> item_spelling (IUnicode u) (92 :: 117 :: h)
| spell_pair h1 hi h2 lo :
    hex4 h1 hi -> 0xD800 <= hi <= 0xDBFF -> hex4 h2 lo -> 0xDC00 <= lo <= 0xDFFF ->
    item_spelling (IPair hi lo) (92 :: 117 :: h1 ++ 92 :: 117 :: h2).

Inductive items_text : list item -> list N -> Prop :=
| it_nil : items_text [] []
| it_cons i l a r : item_spelling i a -> items_text l r -> items_text (i :: l) (a ++ r).

(** What RFC 8259 says an item denotes. *)
Definition rfc_char (i : item) : N :=
  match i with
  | IPlain c => c
  | ISimple b => match find (fun p => fst p =? b) simple_escapes with Some p => snd p | None => b end
  | IUnicode u => u
  | IPair hi lo => 0x10000 + (hi - 0xD800) * 0x400 + (lo - 0xDC00)
  end.

(** RFC 8259 section 7: "characters that MUST be escaped: quotation mark, reverse solidus, and the
    control characters (U+0000 through U+001F)". *)
Definition must_escape (c : N) : bool := (c <? 32) || (c =? 34) || (c =? 92).

(** Length in bytes of the escaped form of a text: two for the characters with a two-character
    escape, six for the other control characters, the UTF-8 length otherwise. *)
Definition escaped_length1 (c : N) : N :=
  if existsb (N.eqb c) [34; 92; 7; 9; 10; 12; 13] then 2
  else if c <? 32 then 6 else N.of_nat (length (utf8_encode c)).
Definition escaped_length (cs : list N) : N := fold_right (fun c n => escaped_length1 c + n) 0 cs.
