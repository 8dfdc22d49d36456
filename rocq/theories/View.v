(** Vocabulary of the property statements: what a caller sees of a [Value], a [Document] or an
    input.  Nothing here computes anything the crate computes. *)
From Verif Require Import Base Utf8 StrModel ErrorModel Tokenizer Parser ValueModel DocModel Spec.
Local Open Scope N_scope.

(** A [&[u8]]: bytes, at most [isize::MAX] of them (a guarantee of the Rust language). *)
Definition rust_slice (pw : pwidth) (s : list N) : Prop :=
  is_bytes s /\ N.of_nat (length s) <= isize_max pw.

(** A [&str]: moreover well-formed UTF-8 (a guarantee of the Rust type). *)
Definition rust_str (pw : pwidth) (s : list N) : Prop :=
  is_utf8 s /\ N.of_nat (length s) <= isize_max pw.

(** The text a [JsonString] stores: source text of the escaped form (JSON form) or the decoded text
    (raw form). *)
Definition stored (s : json_string) : list N :=
  match js_source s with CJson a => any_str a | CRaw a => any_str a end.

Definition is_json_form (s : json_string) : Prop :=
  match js_source s with CJson _ => True | CRaw _ => False end.

(** The tree a [Value] shows: numbers and strings by their stored text. *)
Fixpoint tree_of (v : value) : tree :=
  match v with
  | VNull => TNull
  | VBoolean b => TBool b
  | VNumber n => TNum (any_str (jn_source n))
  | VString s => TStr (stored s)
  | VArray l => TArr (List.map tree_of l)
  | VObject o => TObj (List.map (fun e => (stored (fst e), tree_of (snd e))) o)
  end.

(** Every string (keys included), resp. every number of a value satisfies a predicate. *)
Inductive all_strings (P : json_string -> Prop) : value -> Prop :=
| as_null : all_strings P VNull
| as_bool b : all_strings P (VBoolean b)
| as_num n : all_strings P (VNumber n)
| as_str s : P s -> all_strings P (VString s)
| as_arr l : Forall (all_strings P) l -> all_strings P (VArray l)
| as_obj o : Forall (fun e => P (fst e) /\ all_strings P (snd e)) o -> all_strings P (VObject o).

Inductive all_numbers (P : json_number -> Prop) : value -> Prop :=
| an_null : all_numbers P VNull
| an_bool b : all_numbers P (VBoolean b)
| an_num n : P n -> all_numbers P (VNumber n)
| an_str s : all_numbers P (VString s)
| an_arr l : Forall (all_numbers P) l -> all_numbers P (VArray l)
| an_obj o : Forall (fun e => all_numbers P (snd e)) o -> all_numbers P (VObject o).

(** What a configuration accepts: a text of the (possibly trailing-comma) grammar, nested no deeper
    than the limit, with an admissible root. *)
Definition accepted (cfg : parse_config) (t : tree) (s : list N) : Prop :=
  json_text (allow_trailing_commas cfg) t s /\
  match recursion_limit cfg with Some n => tree_depth t <= n | None => True end /\
  (allow_all_types_at_root cfg = true \/ is_container t = true).

(** [x] is a contiguous part of [s]. *)
Definition part_of (x s : list N) : Prop := exists a b, s = a ++ x ++ b.

(** The preorder node list of a tree-shaped value. *)
Fixpoint preorder (v : value) : list node :=
  match v with
  | VNull => [NNull]
  | VBoolean b => [NBoolean b]
  | VNumber n => [NNumber n]
  | VString s => [NString s]
  | VObject o => NObject (length o) :: flat_map (fun e => NString (fst e) :: preorder (snd e)) o
  | VArray l => NArray (length l) :: flat_map preorder l
  end.

(** Two values of the same shape: the same constructors, booleans and numbers of members/elements
    everywhere, strings and keys (in order) related by [RS], numbers by [RN]. *)
Inductive related (RS : json_string -> json_string -> Prop) (RN : json_number -> json_number -> Prop)
  : value -> value -> Prop :=
| rel_null : related RS RN VNull VNull
| rel_bool b : related RS RN (VBoolean b) (VBoolean b)
| rel_num n m : RN n m -> related RS RN (VNumber n) (VNumber m)
| rel_str x y : RS x y -> related RS RN (VString x) (VString y)
| rel_arr l m : Forall2 (related RS RN) l m -> related RS RN (VArray l) (VArray m)
| rel_obj o p : Forall2 (fun e f => RS (fst e) (fst f) /\ related RS RN (snd e) (snd f)) o p ->
    related RS RN (VObject o) (VObject p).
