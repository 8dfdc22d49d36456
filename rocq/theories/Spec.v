(** Independent specification: the JSON grammar of RFC 8259, over bytes, and what a text denotes.
    Nothing here refers to the model of the crate; only the definition of UTF-8
    ([is_scalar], [utf8_encode], [utf8_string] of Utf8.v) is used. *)
From Verif Require Import Base Utf8.
Local Open Scope N_scope.

(** * RFC 8259 section 2: whitespace *)
Definition ws_byte (b : N) : Prop := b = 32 \/ b = 9 \/ b = 10 \/ b = 13.
Definition ws (s : list N) : Prop := Forall ws_byte s.

(** * RFC 8259 section 6: numbers
    number = [ minus ] int [ frac ] [ exp ] *)
Definition digit (b : N) : Prop := 48 <= b <= 57.
Definition digits (s : list N) : Prop := s <> [] /\ Forall digit s.
Definition num_minus (s : list N) : Prop := s = [] \/ s = [45].
Definition num_int (s : list N) : Prop :=
  s = [48] \/ exists d r, 49 <= d <= 57 /\ Forall digit r /\ s = d :: r.
Definition num_frac (s : list N) : Prop := s = [] \/ exists ds, digits ds /\ s = 46 :: ds.
Definition num_exp (s : list N) : Prop :=
  s = [] \/
  exists e sg ds, (e = 101 \/ e = 69) /\ (sg = [] \/ sg = [43] \/ sg = [45]) /\ digits ds /\
                  s = e :: sg ++ ds.
Definition number (s : list N) : Prop :=
  exists m i f e, num_minus m /\ num_int i /\ num_frac f /\ num_exp e /\ s = m ++ i ++ f ++ e.

(** * RFC 8259 section 7: strings *)
Inductive hex_digit_val : N -> N -> Prop :=
| hex_09 b : 48 <= b <= 57 -> hex_digit_val b (b - 48)
| hex_AF b : 65 <= b <= 70 -> hex_digit_val b (b - 65 + 10)
| hex_af b : 97 <= b <= 102 -> hex_digit_val b (b - 97 + 10).

(** Four hexadecimal digits and the number they denote. *)
Inductive hex4 : list N -> N -> Prop :=
| hex4_intro a b c d x y z w :
    hex_digit_val a x -> hex_digit_val b y -> hex_digit_val c z -> hex_digit_val d w ->
    hex4 [a; b; c; d] (x * 4096 + y * 256 + z * 16 + w).

(** The two-character escapes: character after the backslash, character denoted. *)
Definition simple_escapes : list (N * N) :=
  [(34, 34); (92, 92); (47, 47); (98, 8); (102, 12); (110, 10); (114, 13); (116, 9)].

(** One item between the quotes, and the character it denotes. *)
Inductive str_item : list N -> N -> Prop :=
| si_plain c : is_scalar c = true -> 32 <= c -> c <> 34 -> c <> 92 -> str_item (utf8_encode c) c
| si_simple b c : In (b, c) simple_escapes -> str_item [92; b] c
| si_unicode h u : hex4 h u -> is_scalar u = true -> str_item (92 :: 117 :: h) u
| si_pair h1 hi h2 lo :
    hex4 h1 hi -> 0xD800 <= hi <= 0xDBFF -> hex4 h2 lo -> 0xDC00 <= lo <= 0xDFFF ->
    str_item (92 :: 117 :: h1 ++ 92 :: 117 :: h2)
             (0x10000 + (hi - 0xD800) * 0x400 + (lo - 0xDC00)).

(** String content (between the quotes) and the text it denotes. *)
Inductive str_body : list N -> list N -> Prop :=
| sb_nil : str_body [] []
| sb_cons a c r cs : str_item a c -> str_body r cs -> str_body (a ++ r) (c :: cs).

(** * Trees
    Strings and numbers carry their source text; [str_body] gives the text a string denotes. *)
Inductive tree : Type :=
| TNull
| TBool (b : bool)
| TNum (text : list N)
| TStr (raw : list N)
| TArr (l : list tree)
| TObj (l : list (list N * tree)).

(** Induction with hypotheses for elements and members. *)
Section TreeInd.
  Variable P : tree -> Prop.
  Hypothesis Hnull : P TNull.
  Hypothesis Hbool : forall b, P (TBool b).
  Hypothesis Hnum : forall s, P (TNum s).
  Hypothesis Hstr : forall s, P (TStr s).
  Hypothesis Harr : forall l, Forall P l -> P (TArr l).
  Hypothesis Hobj : forall l, Forall (fun e => P (snd e)) l -> P (TObj l).

  Fixpoint tree_ind' (t : tree) : P t :=
    match t with
    | TNull => Hnull
    | TBool b => Hbool b
    | TNum s => Hnum s
    | TStr s => Hstr s
    | TArr l => Harr l
        ((fix go (l : list tree) : Forall P l :=
            match l with [] => Forall_nil _ | t :: l' => Forall_cons t (tree_ind' t) (go l') end) l)
    | TObj l => Hobj l
        ((fix go (l : list (list N * tree)) : Forall (fun e => P (snd e)) l :=
            match l with
            | [] => Forall_nil _
            | e :: l' => Forall_cons e (tree_ind' (snd e)) (go l')
            end) l)
    end.
End TreeInd.

(** Nesting depth of arrays and objects: a scalar has depth 0, [[]] depth 1. *)
Fixpoint tree_depth (t : tree) : N :=
  match t with
  | TArr l => 1 + fold_right (fun t m => N.max (tree_depth t) m) 0 l
  | TObj l => 1 + fold_right (fun e m => N.max (tree_depth (snd e)) m) 0 l
  | _ => 0
  end.

Definition is_container (t : tree) : bool :=
  match t with TArr _ | TObj _ => true | _ => false end.

(** * RFC 8259 sections 2-5: values
    [value_text tc t s]: the bytes [s] (no surrounding whitespace) are a JSON value denoting [t].
    [tc] says whether one extra comma is allowed before the closing bracket of a NON-EMPTY array or
    object; RFC 8259 is [tc = false]. *)
Definition lit_null : list N := [110; 117; 108; 108].
Definition lit_true : list N := [116; 114; 117; 101].
Definition lit_false : list N := [102; 97; 108; 115; 101].

(** What may stand between the last element (and its whitespace) and the closing bracket. *)
Inductive trailing (tc : bool) : list N -> Prop :=
| tr_none : trailing tc []
| tr_comma w : tc = true -> ws w -> trailing tc (44 :: w).

Inductive value_text (tc : bool) : tree -> list N -> Prop :=
| vt_null : value_text tc TNull lit_null
| vt_true : value_text tc (TBool true) lit_true
| vt_false : value_text tc (TBool false) lit_false
| vt_num n : number n -> value_text tc (TNum n) n
| vt_str raw cs : str_body raw cs -> value_text tc (TStr raw) (34 :: raw ++ [34])
| vt_arr_empty w : ws w -> value_text tc (TArr []) (91 :: w ++ [93])
| vt_arr l s : elements tc l s -> value_text tc (TArr l) (91 :: s ++ [93])
| vt_obj_empty w : ws w -> value_text tc (TObj []) (123 :: w ++ [125])
| vt_obj l s : members tc l s -> value_text tc (TObj l) (123 :: s ++ [125])

(** One or more values, separated by commas, with whitespace around each. *)
with elements (tc : bool) : list tree -> list N -> Prop :=
| el_last t w1 s w2 tr :
    ws w1 -> value_text tc t s -> ws w2 -> trailing tc tr ->
    elements tc [t] (w1 ++ s ++ w2 ++ tr)
| el_cons t l w1 s w2 r :
    ws w1 -> value_text tc t s -> ws w2 -> elements tc l r ->
    elements tc (t :: l) (w1 ++ s ++ w2 ++ 44 :: r)

(** One or more members [string : value], separated by commas. *)
with members (tc : bool) : list (list N * tree) -> list N -> Prop :=
| me_last k cs t w1 w2 w3 s w4 tr :
    ws w1 -> str_body k cs -> ws w2 -> ws w3 -> value_text tc t s -> ws w4 -> trailing tc tr ->
    members tc [(k, t)] (w1 ++ (34 :: k ++ [34]) ++ w2 ++ 58 :: w3 ++ s ++ w4 ++ tr)
| me_cons k cs t l w1 w2 w3 s w4 r :
    ws w1 -> str_body k cs -> ws w2 -> ws w3 -> value_text tc t s -> ws w4 -> members tc l r ->
    members tc ((k, t) :: l) (w1 ++ (34 :: k ++ [34]) ++ w2 ++ 58 :: w3 ++ s ++ w4 ++ 44 :: r).

Scheme value_text_mind := Induction for value_text Sort Prop
  with elements_mind := Induction for elements Sort Prop
  with members_mind := Induction for members Sort Prop.
Combined Scheme text_mutind from value_text_mind, elements_mind, members_mind.

(** RFC 8259 section 2: JSON-text = ws value ws. *)
Definition json_text (tc : bool) (t : tree) (s : list N) : Prop :=
  exists w1 b w2, ws w1 /\ value_text tc t b /\ ws w2 /\ s = w1 ++ b ++ w2.
