(** Model of src/doc.rs: documents as flat node lists. *)
From Verif Require Import Base Utf8 StrModel ErrorModel Tokenizer Parser ValueModel.

(** src/doc.rs 173-195 [enum Node]. *)
Inductive node : Type :=
| NNull
| NBoolean (b : bool)
| NString (s : json_string)
| NNumber (n : json_number)
| NObject (length : nat)
| NArray (length : nat).

(** src/doc.rs 452-478 [NodeCollection::push]: [Vec] (capacity [None]) never fails,
    [heapless::Vec<_, N>] (capacity [Some N]) fails when full. *)
Definition push (cap : option nat) (c : list node) (n : node)
  : res (error_kind infallible) unit * list node :=
  match cap with
  | None => (Ok tt, c ++ [n])
  | Some k => if Nat.ltb (length c) k then (Ok tt, c ++ [n]) else (Err KPaylodTooLarge, c)
  end.

(** src/doc.rs 206-210 [push_node]; 212-234 its uses. *)
Definition push_node (cap : option nat) (c : list node) (n : node)
  : res (error_kind infallible) nat * list node :=
  let index := length c in
  let '(r, c') := push cap c n in
  ((let? _ := r in Ok index), c').

Fixpoint replace_nth {A} (l : list A) (i : nat) (x : A) : list A :=
  match l, i with
  | [], _ => []
  | _ :: l', O => x :: l'
  | y :: l', S i' => y :: replace_nth l' i' x
  end.

(** src/doc.rs 236-239 [extend_object]. *)
Definition extend_object (c : list node) (index : nat) : res (error_kind infallible) (list node) :=
  match nth_error c index with
  | None => Fault FIndex
  | Some (NObject len) => Ok (replace_nth c index (NObject (S len)))
  | Some _ => Fault FUnreachable
  end.

(** src/doc.rs 241-244 [extend_array]. *)
Definition extend_array (c : list node) (index : nat) : res (error_kind infallible) (list node) :=
  match nth_error c index with
  | None => Fault FIndex
  | Some (NArray len) => Ok (replace_nth c index (NArray (S len)))
  | Some _ => Fault FUnreachable
  end.

(** src/doc.rs 341-351 [kind_of]. *)
Definition node_kind (n : node) : json_kind :=
  match n with
  | NNull => JkNull
  | NBoolean _ => JkBoolean
  | NString _ => JkString
  | NNumber _ => JkNumber
  | NObject _ => JkObject
  | NArray _ => JkArray
  end.

(** src/doc.rs 247-352 [ParseDelegate for &mut Nodes]. *)
Definition nodes_delegate (cap : option nat) : delegate := {|
  d_st := list node; d_value := nat; d_object := nat; d_array := nat; d_key := unit;
  d_error := error_kind infallible;
  d_null := fun c => push_node cap c NNull;
  d_boolean := fun c b => push_node cap c (NBoolean b);
  d_number := fun c n => push_node cap c (NNumber n);
  d_string := fun c s => push_node cap c (NString s);
  d_begin_object := fun c => push_node cap c (NObject 0);
  d_object_key := fun c object key =>
    match extend_object c object with
    | Ok c1 => let '(r, c2) := push_node cap c1 (NString key) in ((let? _ := r in Ok (object, tt)), c2)
    | Err e => (Err e, c)
    | Fault f => (Fault f, c)
    end;
  d_object_value := fun c object _ _ => (Ok object, c);
  d_object_is_empty := fun c object =>
    match nth_error c object with
    | None => Fault FIndex
    | Some (NObject len) => Ok (Nat.eqb len 0)
    | Some _ => Fault FUnreachable
    end;
  d_end_object := fun c object => (Ok object, c);
  d_begin_array := fun c => push_node cap c (NArray 0);
  d_array_value := fun c array _ =>
    match extend_array c array with
    | Ok c1 => (Ok array, c1)
    | Err e => (Err e, c)
    | Fault f => (Fault f, c)
    end;
  d_array_is_empty := fun c array =>
    match nth_error c array with
    | None => Fault FIndex
    | Some (NArray len) => Ok (Nat.eqb len 0)
    | Some _ => Fault FUnreachable
    end;
  d_end_array := fun c array => (Ok array, c);
  d_kind_of := fun c v =>
    match nth_error c v with
    | None => Fault FIndex
    | Some n => Ok (node_kind n)
    end |}.

(** src/doc.rs 43-46 [struct GenericDocument]: its node list. *)
Definition document := list node.

(** Common part of src/doc.rs 56-105: parse into fresh nodes, convert the error, return the nodes. *)
Definition document_of (r : res (error (error_kind infallible)) nat * list node)
  : res (error infallible) document :=
  match r with
  | (Ok _, nodes) => Ok nodes
  | (Err e, _) => Err (into_infallable e)
  | (Fault f, _) => Fault f
  end.

(** src/doc.rs 52-105 [from_json_bytes], [from_json_bytes_with_config], [from_json],
    [from_json_with_config]. *)
Definition document_from_json_bytes_with_config (pw : pwidth) (cap : option nat) (source : list N)
  (config : parse_config) : res (error infallible) document :=
  document_of (parse_json_bytes_with_config pw (nodes_delegate cap) source config []).
Definition document_from_json_bytes (pw : pwidth) (cap : option nat) (source : list N) :=
  document_from_json_bytes_with_config pw cap source config_default.
Definition document_from_json_with_config (pw : pwidth) (cap : option nat) (source : list N)
  (config : parse_config) : res (error infallible) document :=
  document_of (parse_json_with_config pw (nodes_delegate cap) source config []).
Definition document_from_json (pw : pwidth) (cap : option nat) (source : list N) :=
  document_from_json_with_config pw cap source config_default.

(** src/doc.rs 126-157 [hydrate_value_from_node]; the iterator is the list of remaining nodes. *)
Fixpoint hydrate (fuel : nat) (n : node) (rest : list node) : res infallible (value * list node) :=
  match fuel with
  | O => Fault FFuel
  | S fuel' =>
    match n with
    | NNull => Ok (VNull, rest)
    | NBoolean b => Ok (VBoolean b, rest)
    | NString s => Ok (VString s, rest)
    | NNumber x => Ok (VNumber x, rest)
    | NObject len =>
      (fix loop (len : nat) (obj : object) (rest : list node) : res infallible (value * list node) :=
         match len with
         | O => Ok (VObject obj, rest)
         | S len' =>
           match rest with
           | [] => Fault FExpect
           | NString key :: rest1 =>
             match rest1 with
             | [] => Fault FExpect
             | n2 :: rest2 =>
               let? (v, rest3) := hydrate fuel' n2 rest2 in
               loop len' (obj ++ [(key, v)]) rest3
             end
           | _ :: _ => Fault FUnreachable
           end
         end) len [] rest
    | NArray len =>
      (fix loop (len : nat) (values : list value) (rest : list node) : res infallible (value * list node) :=
         match len with
         | O => Ok (VArray values, rest)
         | S len' =>
           match rest with
           | [] => Fault FExpect
           | n2 :: rest2 =>
             let? (v, rest3) := hydrate fuel' n2 rest2 in
             loop len' (values ++ [v]) rest3
           end
         end) len [] rest
    end
  end.

(** src/doc.rs 113-123 [From<GenericDocument> for Value]. *)
Definition value_from_document (doc : document) : res infallible value :=
  match doc with
  | [] => Fault FExpect
  | root :: rest => let? (v, _) := hydrate (S (length rest)) root rest in Ok v
  end.

(** src/doc.rs 353-357 [struct DocumentIter]: the remaining nodes; 107-111, 159-171 [iter]. *)
Definition doc_iter (doc : document) : list node := doc.

(** src/doc.rs 383-388 [next_value]. *)
Definition next_value (it : list node) : res infallible (option value * list node) :=
  match it with
  | [] => Ok (None, it)
  | n :: rest => let? (v, rest') := hydrate (S (length rest)) n rest in Ok (Some v, rest')
  end.

(** [for _ in 0..n { f }] on the iterator state. *)
Fixpoint repeat_skip (n : nat) (f : list node -> res infallible (list node)) (it : list node)
  : res infallible (list node) :=
  match n with O => Ok it | S n' => let? it' := f it in repeat_skip n' f it' end.

(** src/doc.rs 390-411 [skip_next_value]. *)
Fixpoint skip_next_value_fuel (fuel : nat) (it : list node) : res infallible (list node) :=
  match fuel with
  | O => Fault FFuel
  | S fuel' =>
    match it with
    | [] => Ok []
    | (NNull | NBoolean _ | NString _ | NNumber _) :: rest => Ok rest
    | NObject len :: rest =>
      repeat_skip len (fun it =>
        let? it1 := skip_next_value_fuel fuel' it in
        skip_next_value_fuel fuel' it1) rest
    | NArray len :: rest => repeat_skip len (skip_next_value_fuel fuel') rest
    end
  end.

Definition skip_next_value (it : list node) : res infallible (list node) :=
  skip_next_value_fuel (S (length it)) it.

(** src/doc.rs 414-421 [Iterator::next for DocumentIter]. *)
Definition doc_next (it : list node) : option node * list node :=
  match it with [] => (None, []) | n :: rest => (Some n, rest) end.

(** src/doc.rs 174 [derive(PartialEq)] for Node: same variant and equal fields. *)
Definition node_eq (pw : pwidth) (a b : node) : res infallible bool :=
  match a, b with
  | NNull, NNull => Ok true
  | NBoolean x, NBoolean y => Ok (Bool.eqb x y)
  | NString x, NString y => js_eq pw x y
  | NNumber x, NNumber y => Ok (jn_eq x y)
  | NObject x, NObject y => Ok (Nat.eqb x y)
  | NArray x, NArray y => Ok (Nat.eqb x y)
  | _, _ => Ok false
  end.
(** Elementwise part of [Vec == Vec] (and [heapless::Vec == heapless::Vec]), with short circuit. *)
Fixpoint nodes_eq (pw : pwidth) (a b : list node) : res infallible bool :=
  match a, b with
  | x :: a', y :: b' => and_then (node_eq pw x y) (nodes_eq pw a' b')
  | _, _ => Ok true
  end.
(** src/doc.rs 43, 196 [derive(PartialEq)] for GenericDocument and Nodes (the PhantomData is always equal). *)
Definition document_eq (pw : pwidth) (a b : document) : res infallible bool :=
  if negb (Nat.eqb (length a) (length b)) then Ok false else nodes_eq pw a b.
