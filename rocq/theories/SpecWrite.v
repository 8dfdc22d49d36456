(** Independent specification, continued: how a tree is laid out as JSON text. *)
From Verif Require Import Base Utf8 Spec.
Local Open Scope N_scope.

Fixpoint join (sep : list N) (l : list (list N)) : list N :=
  match l with
  | [] => []
  | [x] => x
  | x :: r => x ++ sep ++ join sep r
  end.

(** [layout indent eol colon lvl t]: the text of [t] at nesting level [lvl].  Every element of a
    non-empty array or object is on a line of its own ([eol] ends a line, a line of level [n] starts
    with [n] copies of [indent]); empty arrays and objects are [[]] and [{}]. *)
Section Layout.
  Variables indent eol colon : list N.
  Definition pad (n : nat) : list N := List.concat (repeat indent n).

  Fixpoint layout (lvl : nat) (t : tree) : list N :=
    match t with
    | TNull => lit_null
    | TBool true => lit_true
    | TBool false => lit_false
    | TNum n => n
    | TStr raw => [34] ++ raw ++ [34]
    | TArr [] => [91; 93]
    | TArr l =>
      [91] ++ eol ++ join ([44] ++ eol) (map (fun x => pad (S lvl) ++ layout (S lvl) x) l) ++
      eol ++ pad lvl ++ [93]
    | TObj [] => [123; 125]
    | TObj l =>
      [123] ++ eol ++
      join ([44] ++ eol) (map (fun e => pad (S lvl) ++ ([34] ++ fst e ++ [34]) ++ colon ++ layout (S lvl) (snd e)) l) ++
      eol ++ pad lvl ++ [125]
    end.
End Layout.

(** No whitespace at all. *)
Definition compact (t : tree) : list N := layout [] [] [58] 0 t.
(** Lines, indentation, a space after each colon. *)
Definition pretty_layout (indent eol : list N) (t : tree) : list N := layout indent eol [58; 32] 0 t.

(** A lexeme list without the commas that directly precede a closing bracket or brace. *)
Fixpoint drop_trailing_commas (ls : list (list N)) : list (list N) :=
  match ls with
  | [] => []
  | x :: r =>
    match x, r with
    | [44], ([93] :: _) => drop_trailing_commas r
    | [44], ([125] :: _) => drop_trailing_commas r
    | _, _ => x :: drop_trailing_commas r
    end
  end.

(** Removal of whitespace outside strings, as a scan over the text: a quote opens or closes a string,
    inside a string the character after a backslash is skipped. *)
Inductive scan : Type := Outside | InString | AfterBackslash.
Fixpoint minify (st : scan) (s : list N) : list N :=
  match s with
  | [] => []
  | b :: r =>
    match st with
    | Outside =>
      if (b =? 32) || (b =? 9) || (b =? 10) || (b =? 13) then minify Outside r
      else b :: minify (if b =? 34 then InString else Outside) r
    | InString => b :: minify (if b =? 92 then AfterBackslash else if b =? 34 then Outside else InString) r
    | AfterBackslash => b :: minify InString r
    end
  end.

(** Brackets and braces open and close containers, except inside strings; a quote opens or closes a string, a backslash
    inside a string takes the next byte with it. *)
Fixpoint nesting (st : scan) (depth : N) (s : list N) : scan * N :=
  match s with
  | [] => (st, depth)
  | b :: r =>
    match st with
    | Outside =>
      if b =? 34 then nesting InString depth r
      else if (b =? 91) || (b =? 123) then nesting Outside (depth + 1) r
      else if (b =? 93) || (b =? 125) then nesting Outside (depth - 1) r
      else nesting Outside depth r
    | InString =>
      if b =? 34 then nesting Outside depth r
      else if b =? 92 then nesting AfterBackslash depth r
      else nesting InString depth r
    | AfterBackslash => nesting InString depth r
    end
  end.
