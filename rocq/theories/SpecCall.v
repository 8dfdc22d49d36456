(** Independent specification: the callbacks a JSON text gives rise to, each with the byte offset at which a failure of
    that callback is reported.  Offsets count bytes from the start of the list the relation is about; [at_offset n] moves
    a list of callbacks [n] bytes to the right. *)
From Verif Require Import Base Utf8 ErrorModel Spec SpecError.
Local Open Scope N_scope.

(** What the callbacks are told, in terms of the text. *)
Inductive call : Type :=
| CNull | CBool (b : bool) | CNum (text : list N) | CStr (raw : list N)
| CBeginObj | CKey (raw : list N) | CMember | CEndObj
| CBeginArr | CElement | CEndArr.

Definition at_offset (n : nat) (cs : list (nat * call)) : list (nat * call) := map (fun c => ((n + fst c)%nat, snd c)) cs.

(** The texts of scalars. *)
Inductive scalar_call : list N -> call -> Prop :=
| sc_null : scalar_call lit_null CNull
| sc_true : scalar_call lit_true (CBool true)
| sc_false : scalar_call lit_false (CBool false)
| sc_num n : number n -> scalar_call n (CNum n)
| sc_str raw cs : str_body raw cs -> scalar_call (34 :: raw ++ [34]) (CStr raw).

(** [key_colon p raw]: [p] is whitespace, the key [raw] in quotes, whitespace, colon. *)
Inductive key_colon : list N -> list N -> Prop :=
| key_colon_intro w raw cs w' : ws w -> str_body raw cs -> ws w' -> key_colon (w ++ (34 :: raw ++ [34]) ++ w' ++ [58]) raw.

(** * Complete values
    [value_calls x cs]: [x] is whitespace and a value (trailing commas allowed) and [cs] are its callbacks.
    A failure is reported: for a scalar or a key, before the whitespace in front of it (for a scalar that is an array
    element, after that whitespace); for the start of a container, right
    after its opening bracket; for a member, right after its colon; for an element, right after it; for the end of an
    object, right after its closing bracket; for the end of an array, right after its OPENING bracket. *)
Inductive value_calls : list N -> list (nat * call) -> Prop :=
| vc_scalar w x c : ws w -> scalar_call x c -> value_calls (w ++ x) [(0%nat, c)]
| vc_array w x cs : ws w -> array_calls x cs ->
    value_calls (w ++ 91 :: x)
      ([(length w + 1, CBeginArr)] ++ at_offset (length w + 1) cs ++ [(length w + 1, CEndArr)])%nat
| vc_object w x cs : ws w -> object_calls x cs ->
    value_calls (w ++ 123 :: x)
      ([(length w + 1, CBeginObj)] ++ at_offset (length w + 1) cs ++ [(length w + 1 + length x, CEndObj)])%nat
(** After an opening bracket or a comma, up to and including the closing bracket. *)
with array_calls : list N -> list (nat * call) -> Prop :=
| ac_end w : ws w -> array_calls (w ++ [93]) []
| ac_last w v cs w' : ws w -> ~ starts ws_byte v -> value_calls v cs -> ws w' ->
    array_calls (w ++ v ++ w' ++ [93]) (at_offset (length w) (cs ++ [(length v, CElement)]))
| ac_more w v cs w' x ds : ws w -> ~ starts ws_byte v -> value_calls v cs -> ws w' -> array_calls x ds ->
    array_calls (w ++ v ++ w' ++ 44 :: x)
      (at_offset (length w) (cs ++ [(length v, CElement)]) ++ at_offset (length w + length v + length w' + 1) ds)%nat
with object_calls : list N -> list (nat * call) -> Prop :=
| oc_end w : ws w -> object_calls (w ++ [125]) []
| oc_last p raw v cs w : key_colon p raw -> value_calls v cs -> ws w ->
    object_calls (p ++ v ++ w ++ [125]) ([(0%nat, CKey raw)] ++ at_offset (length p) cs ++ [(length p, CMember)])
| oc_more p raw v cs w x ds : key_colon p raw -> value_calls v cs -> ws w -> object_calls x ds ->
    object_calls (p ++ v ++ w ++ 44 :: x)
      ([(0, CKey raw)] ++ at_offset (length p) cs ++ [(length p, CMember)] ++
       at_offset (length p + length v + length w + 1) ds)%nat.

Scheme value_calls_mind := Induction for value_calls Sort Prop
  with array_calls_mind := Induction for array_calls Sort Prop
  with object_calls_mind := Induction for object_calls Sort Prop.
Combined Scheme calls_mutind from value_calls_mind, array_calls_mind, object_calls_mind.

(** * Inputs read up to some point
    [ends v r]: if the value [v] is a number, [r] does not prolong it. *)
Definition ends (v r : list N) : Prop := forall w n, ws w -> number n -> v = w ++ n -> number_then n r.

(** [value_upto s cs]: whatever comes later, reading [s] from its start as a value begins with the callbacks [cs]. *)
Inductive value_upto : list N -> list (nat * call) -> Prop :=
| vu_value v r cs : value_calls v cs -> ends v r -> value_upto (v ++ r) cs
| vu_array w x cs : ws w -> array_upto x cs ->
    value_upto (w ++ 91 :: x) ([(length w + 1, CBeginArr)] ++ at_offset (length w + 1) cs)%nat
| vu_object w x cs : ws w -> object_upto x cs ->
    value_upto (w ++ 123 :: x) ([(length w + 1, CBeginObj)] ++ at_offset (length w + 1) cs)%nat
(** After an opening bracket or a comma. *)
with array_upto : list N -> list (nat * call) -> Prop :=
| au_start x : array_upto x []
| au_value w x cs : ws w -> ~ starts ws_byte x -> value_upto x cs -> array_upto (w ++ x) (at_offset (length w) cs)
| au_element w v cs r : ws w -> ~ starts ws_byte v -> value_calls v cs -> ends v r ->
    array_upto (w ++ v ++ r) (at_offset (length w) (cs ++ [(length v, CElement)]))
| au_comma w v cs w' x ds : ws w -> ~ starts ws_byte v -> value_calls v cs -> ws w' -> array_upto x ds ->
    array_upto (w ++ v ++ w' ++ 44 :: x)
      (at_offset (length w) (cs ++ [(length v, CElement)]) ++ at_offset (length w + length v + length w' + 1) ds)%nat
with object_upto : list N -> list (nat * call) -> Prop :=
| ou_start x : object_upto x []
| ou_key w raw cs r : ws w -> str_body raw cs -> object_upto (w ++ (34 :: raw ++ [34]) ++ r) [(0%nat, CKey raw)]
| ou_value p raw x cs : key_colon p raw -> value_upto x cs ->
    object_upto (p ++ x) ([(0%nat, CKey raw)] ++ at_offset (length p) cs)
| ou_member p raw v cs r : key_colon p raw -> value_calls v cs -> ends v r ->
    object_upto (p ++ v ++ r) ([(0%nat, CKey raw)] ++ at_offset (length p) cs ++ [(length p, CMember)])
| ou_comma p raw v cs w x ds : key_colon p raw -> value_calls v cs -> ws w -> object_upto x ds ->
    object_upto (p ++ v ++ w ++ 44 :: x)
      ([(0, CKey raw)] ++ at_offset (length p) cs ++ [(length p, CMember)] ++
       at_offset (length p + length v + length w + 1) ds)%nat.

Scheme value_upto_mind := Induction for value_upto Sort Prop
  with array_upto_mind := Induction for array_upto Sort Prop
  with object_upto_mind := Induction for object_upto Sort Prop.
Combined Scheme upto_mutind from value_upto_mind, array_upto_mind, object_upto_mind.
