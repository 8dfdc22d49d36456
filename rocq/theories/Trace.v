(** The reference delegate: records every callback and builds the value. *)
From Verif Require Import Base Utf8 StrModel ErrorModel Tokenizer Parser ValueModel Spec TokBase TokStr TokFacts.

(** One callback of the parser (src/parser.rs 848-909); [EObjectValue]/[EArrayValue] hand over the
    value completed just before. *)
Inductive event : Type :=
| ENull
| EBoolean (b : bool)
| ENumber (n : json_number)
| EString (s : json_string)
| EBeginObject
| EObjectKey (k : json_string)
| EObjectValue
| EEndObject
| EBeginArray
| EArrayValue
| EEndArray.

(** The callbacks for a value, in source order. *)
Fixpoint events (v : value) : list event :=
  match v with
  | VNull => [ENull]
  | VBoolean b => [EBoolean b]
  | VNumber n => [ENumber n]
  | VString s => [EString s]
  | VObject o =>
    EBeginObject :: flat_map (fun e => EObjectKey (fst e) :: events (snd e) ++ [EObjectValue]) o ++ [EEndObject]
  | VArray l => EBeginArray :: flat_map (fun v => events v ++ [EArrayValue]) l ++ [EEndArray]
  end.

Definition member_events (o : list (json_string * value)) : list event :=
  flat_map (fun e => EObjectKey (fst e) :: events (snd e) ++ [EObjectValue]) o.
Definition element_events (l : list value) : list event :=
  flat_map (fun v => events v ++ [EArrayValue]) l.

Lemma events_object o : events (VObject o) = EBeginObject :: member_events o ++ [EEndObject].
Proof. reflexivity. Qed.
Lemma events_array l : events (VArray l) = EBeginArray :: element_events l ++ [EEndArray].
Proof. reflexivity. Qed.

Definition is_nil {A} (l : list A) : bool := match l with [] => true | _ => false end.

Definition trace_delegate : delegate := {|
  d_st := list event; d_value := value; d_object := object; d_array := list value; d_key := json_string;
  d_error := infallible;
  d_null := fun st => (Ok VNull, st ++ [ENull]);
  d_boolean := fun st b => (Ok (VBoolean b), st ++ [EBoolean b]);
  d_number := fun st n => (Ok (VNumber n), st ++ [ENumber n]);
  d_string := fun st s => (Ok (VString s), st ++ [EString s]);
  d_begin_object := fun st => (Ok [], st ++ [EBeginObject]);
  d_object_key := fun st o k => (Ok (o, k), st ++ [EObjectKey k]);
  d_object_value := fun st o k v => (Ok (o ++ [(k, v)]), st ++ [EObjectValue]);
  d_object_is_empty := fun _ o => Ok (is_nil o);
  d_end_object := fun st o => (Ok (VObject o), st ++ [EEndObject]);
  d_begin_array := fun st => (Ok [], st ++ [EBeginArray]);
  d_array_value := fun st a v => (Ok (a ++ [v]), st ++ [EArrayValue]);
  d_array_is_empty := fun _ a => Ok (is_nil a);
  d_end_array := fun st a => (Ok (VArray a), st ++ [EEndArray]);
  d_kind_of := fun _ v => Ok (value_kind v) |}.

(** * What a tree is as a [Value] *)
Inductive value_repr (pw : pwidth) : tree -> value -> Prop :=
| vr_null : value_repr pw TNull VNull
| vr_bool b : value_repr pw (TBool b) (VBoolean b)
| vr_num n : value_repr pw (TNum n) (VNumber (JNum (Borrowed n)))
| vr_str raw cs : str_body raw cs -> value_repr pw (TStr raw) (VString (string_for pw raw cs))
| vr_arr l vs : Forall2 (value_repr pw) l vs -> value_repr pw (TArr l) (VArray vs)
| vr_obj l vs : Forall2 (fun e f => (exists cs, str_body (fst e) cs /\ fst f = string_for pw (fst e) cs) /\
                                    value_repr pw (snd e) (snd f)) l vs ->
                value_repr pw (TObj l) (VObject vs).

Definition member_repr (pw : pwidth) (e : list N * tree) (f : json_string * value) : Prop :=
  (exists cs, str_body (fst e) cs /\ fst f = string_for pw (fst e) cs) /\ value_repr pw (snd e) (snd f).
