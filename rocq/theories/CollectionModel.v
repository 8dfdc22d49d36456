(** Model of src/doc.rs for any user-supplied [NodeCollection] (src/doc.rs 43-172, 196-352, 452-460).
    DocModel.v is the same code at the two collections the crate itself provides. *)
From Verif Require Import Base Utf8 StrModel ErrorModel Tokenizer Parser ValueModel DocModel.

(** src/doc.rs 454-460 [trait NodeCollection]: an implementation chooses its own state and methods.
    [as_mut] followed by an assignment to one element is [nc_update]; [into_iter] is the list it yields. *)
Record node_collection : Type := {
  nc_st : Type;
  nc_default : nc_st;                                   (* Default::default, doc.rs 58, 71, 84, 97 *)
  nc_as_ref : nc_st -> list node;                       (* AsRef<[Node]> *)
  nc_as_mut : nc_st -> list node;                       (* AsMut<[Node]>, read *)
  nc_update : nc_st -> nat -> node -> nc_st;            (* AsMut<[Node]>, written at one index *)
  nc_into_iter : nc_st -> list node;                    (* IntoIterator<Item = Node> *)
  nc_push : nc_st -> node -> res (error_kind infallible) unit * nc_st }.

Section Collection.
  Variable c : node_collection.

  (** src/doc.rs 206-210 [push_node]. *)
  Definition nc_push_node (st : nc_st c) (n : node) : res (error_kind infallible) nat * nc_st c :=
    let index := length (nc_as_ref c st) in
    let '(r, st') := nc_push c st n in
    ((let? _ := r in Ok index), st').

  (** src/doc.rs 236-239 [extend_object]. *)
  Definition nc_extend_object (st : nc_st c) (index : nat) : res (error_kind infallible) (nc_st c) :=
    match nth_error (nc_as_mut c st) index with
    | None => Fault FIndex
    | Some (NObject len) => Ok (nc_update c st index (NObject (S len)))
    | Some _ => Fault FUnreachable
    end.

  (** src/doc.rs 241-244 [extend_array]. *)
  Definition nc_extend_array (st : nc_st c) (index : nat) : res (error_kind infallible) (nc_st c) :=
    match nth_error (nc_as_mut c st) index with
    | None => Fault FIndex
    | Some (NArray len) => Ok (nc_update c st index (NArray (S len)))
    | Some _ => Fault FUnreachable
    end.

  (** src/doc.rs 247-352 [ParseDelegate for &mut Nodes<Backing>]. *)
  Definition collection_delegate : delegate := {|
    d_st := nc_st c; d_value := nat; d_object := nat; d_array := nat; d_key := unit;
    d_error := error_kind infallible;
    d_null := fun st => nc_push_node st NNull;
    d_boolean := fun st b => nc_push_node st (NBoolean b);
    d_number := fun st n => nc_push_node st (NNumber n);
    d_string := fun st s => nc_push_node st (NString s);
    d_begin_object := fun st => nc_push_node st (NObject 0);
    d_object_key := fun st object key =>
      match nc_extend_object st object with
      | Ok st1 => let '(r, st2) := nc_push_node st1 (NString key) in ((let? _ := r in Ok (object, tt)), st2)
      | Err e => (Err e, st)
      | Fault f => (Fault f, st)
      end;
    d_object_value := fun st object _ _ => (Ok object, st);
    d_object_is_empty := fun st object =>
      match nth_error (nc_as_ref c st) object with
      | None => Fault FIndex
      | Some (NObject len) => Ok (Nat.eqb len 0)
      | Some _ => Fault FUnreachable
      end;
    d_end_object := fun st object => (Ok object, st);
    d_begin_array := fun st => nc_push_node st (NArray 0);
    d_array_value := fun st array _ =>
      match nc_extend_array st array with
      | Ok st1 => (Ok array, st1)
      | Err e => (Err e, st)
      | Fault f => (Fault f, st)
      end;
    d_array_is_empty := fun st array =>
      match nth_error (nc_as_ref c st) array with
      | None => Fault FIndex
      | Some (NArray len) => Ok (Nat.eqb len 0)
      | Some _ => Fault FUnreachable
      end;
    d_end_array := fun st array => (Ok array, st);
    d_kind_of := fun st v =>
      match nth_error (nc_as_ref c st) v with
      | None => Fault FIndex
      | Some n => Ok (node_kind n)
      end |}.

  (** Common part of src/doc.rs 56-105. The document is its collection. *)
  Definition collection_of (r : res (error (error_kind infallible)) nat * nc_st c)
    : res (error infallible) (nc_st c) :=
    match r with
    | (Ok _, st) => Ok st
    | (Err e, _) => Err (into_infallable e)
    | (Fault f, _) => Fault f
    end.

  (** src/doc.rs 52-105 [from_json_bytes], [from_json_bytes_with_config], [from_json],
      [from_json_with_config]. *)
  Definition generic_from_json_bytes_with_config (pw : pwidth) (source : list N) (config : parse_config) :=
    collection_of (parse_json_bytes_with_config pw collection_delegate source config (nc_default c)).
  Definition generic_from_json_bytes (pw : pwidth) (source : list N) :=
    generic_from_json_bytes_with_config pw source config_default.
  Definition generic_from_json_with_config (pw : pwidth) (source : list N) (config : parse_config) :=
    collection_of (parse_json_with_config pw collection_delegate source config (nc_default c)).
  Definition generic_from_json (pw : pwidth) (source : list N) :=
    generic_from_json_with_config pw source config_default.

  (** src/doc.rs 113-123 [From<GenericDocument<Backing>> for Value]: DocModel's conversion on what
      [into_iter] yields. *)
  Definition value_from_generic (doc : nc_st c) : res infallible value := value_from_document (nc_into_iter c doc).

  (** src/doc.rs 107-111, 159-171 [iter]: over the [as_ref] slice. *)
  Definition generic_iter (doc : nc_st c) : list node := doc_iter (nc_as_ref c doc).
End Collection.

(** src/doc.rs 462-478: the two collections of the crate, [Vec] (capacity [None]) and [heapless::Vec]. *)
Definition crate_collection (cap : option nat) : node_collection := {|
  nc_st := list node; nc_default := [];
  nc_as_ref := fun l => l; nc_as_mut := fun l => l; nc_update := fun l i n => replace_nth l i n;
  nc_into_iter := fun l => l; nc_push := push cap |}.
