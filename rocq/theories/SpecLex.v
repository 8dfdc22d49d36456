(** Independent specification, second part: JSON texts as sequences of lexemes with whitespace between them. *)
From Verif Require Import Base Utf8 Spec.
Local Open Scope N_scope.

(** The lexemes of RFC 8259: the six structural characters, the three literal names, numbers, strings. *)
Inductive lexeme : list N -> Prop :=
| lex_punct b : In b [91; 93; 123; 125; 58; 44] -> lexeme [b]
| lex_null : lexeme lit_null
| lex_true : lexeme lit_true
| lex_false : lexeme lit_false
| lex_num n : number n -> lexeme n
| lex_str raw cs : str_body raw cs -> lexeme (34 :: raw ++ [34]).

(** [spaced ls s]: [s] consists of the lexemes [ls] in this order, with any whitespace before, between and after
    them; only between two numbers must it not be empty (they would be read as one number). *)
Inductive spaced : list (list N) -> list N -> Prop :=
| sp_end w : ws w -> spaced [] w
| sp_lexeme w x ls s : ws w -> lexeme x -> spaced ls s ->
    (number x -> (exists y r, ls = y :: r /\ number y) -> exists b r, s = b :: r /\ ws_byte b) ->
    spaced (x :: ls) (w ++ x ++ s).
