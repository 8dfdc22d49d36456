(** Independent specification: the token sequence of a JSON value. *)
From Verif Require Import Base StrModel Tokenizer ValueModel.

(** The parts with a comma between any two of them. *)
Fixpoint comma_separated (parts : list (list token)) : list token :=
  match parts with
  | [] => []
  | [p] => p
  | p :: ps => p ++ TkComma :: comma_separated ps
  end.

(** What may stand between the last of [n] parts and the closing bracket: with trailing commas allowed also a comma,
    if there is a part. *)
Definition trailing_tokens (tc : bool) (n : nat) (tr : list token) : Prop :=
  tr = [] \/ (tc = true /\ n <> 0 /\ tr = [TkComma]).

Inductive value_tokens (tc : bool) : value -> list token -> Prop :=
| vt_null : value_tokens tc VNull [TkNull]
| vt_bool b : value_tokens tc (VBoolean b) [TkBool b]
| vt_number n : value_tokens tc (VNumber n) [TkNumber n]
| vt_string s : value_tokens tc (VString s) [TkString s]
| vt_array l parts tr : Forall2 (value_tokens tc) l parts -> trailing_tokens tc (length l) tr ->
    value_tokens tc (VArray l) (TkArray :: comma_separated parts ++ tr ++ [TkArrayEnd])
| vt_object o parts tr :
    Forall2 (fun e p => exists q, p = TkString (fst e) :: TkColon :: q /\ value_tokens tc (snd e) q) o parts ->
    trailing_tokens tc (length o) tr ->
    value_tokens tc (VObject o) (TkObject :: comma_separated parts ++ tr ++ [TkObjectEnd]).

(** Without trailing commas it is a function of the value. *)
Fixpoint tokens_of (v : value) : list token :=
  match v with
  | VNull => [TkNull]
  | VBoolean b => [TkBool b]
  | VNumber n => [TkNumber n]
  | VString s => [TkString s]
  | VArray l => TkArray :: comma_separated (map tokens_of l) ++ [TkArrayEnd]
  | VObject o =>
    TkObject :: comma_separated (map (fun e => TkString (fst e) :: TkColon :: tokens_of (snd e)) o) ++ [TkObjectEnd]
  end.
