(** Model of [Object] as the [Vec<Entry>] it derefs to (src/value.rs 816-881, 897-914). *)
From Verif Require Import Base Utf8 StrModel ErrorModel Tokenizer Parser ValueModel.

(** src/value.rs 818-840 [Object::default], [Object::new], [Object::with_capacity] (the capacity is not observable; a capacity
    too large to allocate aborts and is not modelled). *)
Definition object_new : object := [].

(** src/value.rs 866-880 [Deref]/[DerefMut] give [Vec]'s methods.  std [Vec::push], [Vec::len]. *)
Definition object_push (o : object) (e : json_string * value) : object := o ++ [e].
Definition object_len (o : object) : nat := length o.
(** std [Vec::insert]: panics if [i > len]. *)
Definition object_insert (o : object) (i : nat) (e : json_string * value) : res infallible object :=
  if Nat.leb i (length o) then Ok (firstn i o ++ e :: skipn i o) else Fault FIndex.
(** std [Vec::remove]: panics if [i >= len]; the entry and the rest. *)
Definition object_remove (o : object) (i : nat) : res infallible ((json_string * value) * object) :=
  match nth_error o i with
  | Some e => Ok (e, firstn i o ++ skipn (S i) o)
  | None => Fault FIndex
  end.
(** std [Vec::retain] with the test [|e| e.key != key] ([JsonString: PartialEq<str>]). *)
Fixpoint object_retain_not (pw : pwidth) (o : object) (key : list N) : res infallible object :=
  match o with
  | [] => Ok []
  | (k, v) :: o' =>
    let? b := js_eq_str pw k key in
    let? r := object_retain_not pw o' key in
    Ok (if b then r else (k, v) :: r)
  end.
