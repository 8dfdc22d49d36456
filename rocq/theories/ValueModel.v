(** Model of src/value.rs: Value, Object, ValueParser, accessors and the JSON writer. *)
From Verif Require Import Base Utf8 StrModel ErrorModel Tokenizer Parser.

(** * Value, Object, Entry *)

(** src/value.rs 14-28 [enum Value], 815-816 [struct Object(Vec<Entry>)], 896-903 [struct Entry]
    (an entry is a pair key, value). *)
Inductive value : Type :=
| VNumber (n : json_number)
| VString (s : json_string)
| VBoolean (b : bool)
| VObject (o : list (json_string * value))
| VArray (l : list value)
| VNull.

Definition object := list (json_string * value).

(** Induction over values with hypotheses for the elements of arrays and objects. *)
Section ValueInd.
  Variable P : value -> Prop.
  Hypothesis Hnum : forall n, P (VNumber n).
  Hypothesis Hstr : forall s, P (VString s).
  Hypothesis Hbool : forall b, P (VBoolean b).
  Hypothesis Hobj : forall o, Forall (fun e => P (snd e)) o -> P (VObject o).
  Hypothesis Harr : forall l, Forall P l -> P (VArray l).
  Hypothesis Hnull : P VNull.

  Fixpoint value_ind' (v : value) : P v :=
    match v with
    | VNumber n => Hnum n
    | VString s => Hstr s
    | VBoolean b => Hbool b
    | VObject o => Hobj o
        ((fix go (o : list (json_string * value)) : Forall (fun e => P (snd e)) o :=
            match o with
            | [] => Forall_nil _
            | e :: o' => Forall_cons e (value_ind' (snd e)) (go o')
            end) o)
    | VArray l => Harr l
        ((fix go (l : list value) : Forall P l :=
            match l with
            | [] => Forall_nil _
            | v :: l' => Forall_cons v (value_ind' v) (go l')
            end) l)
    | VNull => Hnull
    end.
End ValueInd.

(** src/value.rs 14, 815, 897: derived [PartialEq] for Value, Object and Entry.  [Vec == Vec]
    compares the lengths, then the elements in order with short circuit; Entry compares key then
    value. *)
Definition and_then (a : res infallible bool) (b : res infallible bool) : res infallible bool :=
  let? x := a in if x then b else Ok false.

Fixpoint value_eq (pw : pwidth) (a b : value) {struct a} : res infallible bool :=
  match a, b with
  | VNumber x, VNumber y => Ok (jn_eq x y)
  | VString x, VString y => js_eq pw x y
  | VBoolean x, VBoolean y => Ok (Bool.eqb x y)
  | VObject x, VObject y =>
    if negb (Nat.eqb (length x) (length y)) then Ok false
    else
      (fix go (x y : list (json_string * value)) : res infallible bool :=
         match x, y with
         | (k1, v1) :: x', (k2, v2) :: y' =>
           and_then (and_then (js_eq pw k1 k2) (value_eq pw v1 v2)) (go x' y')
         | _, _ => Ok true
         end) x y
  | VArray x, VArray y =>
    if negb (Nat.eqb (length x) (length y)) then Ok false
    else
      (fix go (x y : list value) : res infallible bool :=
         match x, y with
         | v1 :: x', v2 :: y' => and_then (value_eq pw v1 v2) (go x' y')
         | _, _ => Ok true
         end) x y
  | VNull, VNull => Ok true
  | _, _ => Ok false
  end.

(** * ValueParser (src/value.rs 474-574) *)
Definition value_kind (v : value) : json_kind :=
  match v with
  | VNumber _ => JkNumber
  | VString _ => JkString
  | VBoolean _ => JkBoolean
  | VObject _ => JkObject
  | VArray _ => JkArray
  | VNull => JkNull
  end.

(** [Vec::push] appends at the end. *)
Definition value_delegate : delegate := {|
  d_st := unit; d_value := value; d_object := object; d_array := list value; d_key := json_string;
  d_error := infallible;
  d_null := fun st => (Ok VNull, st);
  d_boolean := fun st b => (Ok (VBoolean b), st);
  d_number := fun st n => (Ok (VNumber n), st);
  d_string := fun st s => (Ok (VString s), st);
  d_begin_object := fun st => (Ok [], st);
  d_object_key := fun st o k => (Ok (o, k), st);
  d_object_value := fun st o k v => (Ok (o ++ [(k, v)]), st);
  d_object_is_empty := fun _ o => Ok (match o with [] => true | _ => false end);
  d_end_object := fun st o => (Ok (VObject o), st);
  d_begin_array := fun st => (Ok [], st);
  d_array_value := fun st a v => (Ok (a ++ [v]), st);
  d_array_is_empty := fun _ a => Ok (match a with [] => true | _ => false end);
  d_end_array := fun st a => (Ok (VArray a), st);
  d_kind_of := fun _ v => Ok (value_kind v) |}.

(** src/value.rs 30-65 the parsing entry points. *)
Definition value_from_json_with_config (pw : pwidth) (json : list N) (config : parse_config)
  : res (error infallible) value := fst (parse_json_with_config pw value_delegate json config tt).
Definition value_from_json (pw : pwidth) (json : list N) :=
  value_from_json_with_config pw json config_default.
Definition value_from_json_bytes_with_config (pw : pwidth) (json : list N) (config : parse_config)
  : res (error infallible) value := fst (parse_json_bytes_with_config pw value_delegate json config tt).
Definition value_from_json_bytes (pw : pwidth) (json : list N) :=
  value_from_json_bytes_with_config pw json config_default.

(** * Accessors *)

(** A [&mut T] into a container [C] is modelled by the current content and the function that gives
    the container after a new content has been stored through the reference. *)
Definition mutref (C T : Type) : Type := (T * (T -> C))%type.
Definition mutref_map {C C' T} (f : C -> C') (r : mutref C T) : mutref C' T :=
  (fst r, fun t => f (snd r t)).

(** src/value.rs 67-77 [as_object]. *)
Definition as_object (v : value) : option object :=
  match v with VObject o => Some o | _ => None end.
(** src/value.rs 79-89 [as_object_mut]. *)
Definition as_object_mut (v : value) : option (mutref value object) :=
  match v with VObject o => Some (o, VObject) | _ => None end.
(** src/value.rs 133-143 [as_string]. *)
Definition as_string (v : value) : option json_string :=
  match v with VString s => Some s | _ => None end.
(** src/value.rs 145-156 [as_str]. *)
Definition value_as_str (pw : pwidth) (v : value) : option (list N) :=
  match v with VString s => js_as_str pw s | _ => None end.
(** src/value.rs 158-168 [as_number]. *)
Definition as_number (v : value) : option json_number :=
  match v with VNumber n => Some n | _ => None end.
(** src/value.rs 190-200 [as_bool]. *)
Definition as_bool (v : value) : option bool :=
  match v with VBoolean b => Some b | _ => None end.
(** src/value.rs 202-212 [as_array]. *)
Definition as_array (v : value) : option (list value) :=
  match v with VArray l => Some l | _ => None end.
(** src/value.rs 214-224 [as_array_mut]. *)
Definition as_array_mut (v : value) : option (mutref value (list value)) :=
  match v with VArray l => Some (l, VArray) | _ => None end.
(** src/value.rs 246-251 [is_null]. *)
Definition is_null (v : value) : bool := match v with VNull => true | _ => false end.

(** src/value.rs 226-234 [get_index]: [slice::get]. *)
Definition get_index (v : value) (index : nat) : option value :=
  match as_array v with Some sequence => nth_error sequence index | None => None end.

(** std [slice::get_mut]. *)
Fixpoint list_get_mut {A} (l : list A) (i : nat) : option (mutref (list A) A) :=
  match l, i with
  | [], _ => None
  | x :: l', O => Some (x, fun y => y :: l')
  | x :: l', S i' =>
    match list_get_mut l' i' with Some r => Some (mutref_map (cons x) r) | None => None end
  end.

(** src/value.rs 236-244 [get_index_mut]. *)
Definition get_index_mut (v : value) (index : nat) : option (mutref value value) :=
  match as_array_mut v with
  | Some (sequence, back) =>
    match list_get_mut sequence index with Some r => Some (mutref_map back r) | None => None end
  | None => None
  end.

(** src/value.rs 841-847 [Object::get]: [iter().find_map(|e| (e.key == key).then_some(&e.value))]. *)
Fixpoint object_get (pw : pwidth) (o : object) (key : list N) : res infallible (option value) :=
  match o with
  | [] => Ok None
  | (k, v) :: o' =>
    let? b := js_eq_str pw k key in
    if b then Ok (Some v) else object_get pw o' key
  end.

(** src/value.rs 857-863 [Object::get_entry_mut]: [iter_mut().find(|e| e.key == key)]. *)
Fixpoint object_get_entry_mut (pw : pwidth) (o : object) (key : list N)
  : res infallible (option (mutref object (json_string * value))) :=
  match o with
  | [] => Ok None
  | (k, v) :: o' =>
    let? b := js_eq_str pw k key in
    if b then Ok (Some ((k, v), fun e => e :: o'))
    else
      let? r := object_get_entry_mut pw o' key in
      Ok (match r with Some r => Some (mutref_map (cons (k, v)) r) | None => None end)
  end.

(** src/value.rs 849-855 [Object::get_mut]: [get_entry_mut(key).map(|e| &mut e.value)]. *)
Definition object_get_mut (pw : pwidth) (o : object) (key : list N)
  : res infallible (option (mutref object value)) :=
  let? r := object_get_entry_mut pw o key in
  Ok (match r with
      | Some (e, back) => Some (snd e, fun v => back (fst e, v))
      | None => None
      end).

(** src/value.rs 91-110 [Value::get]. *)
Definition value_get (pw : pwidth) (v : value) (key : list N) : res infallible (option value) :=
  match as_object v with Some o => object_get pw o key | None => Ok None end.

(** src/value.rs 112-131 [Value::get_mut]. *)
Definition value_get_mut (pw : pwidth) (v : value) (key : list N)
  : res infallible (option (mutref value value)) :=
  match as_object_mut v with
  | Some (o, back) =>
    let? r := object_get_mut pw o key in
    Ok (match r with Some r => Some (mutref_map back r) | None => None end)
  | None => Ok None
  end.

(** src/value.rs 665-692 [Index<usize>], [IndexMut<usize>]: [expect]. *)
Definition value_index (v : value) (index : nat) : res infallible value :=
  expect_some (get_index v index).
Definition value_index_mut (v : value) (index : nat) : res infallible (mutref value value) :=
  expect_some (get_index_mut v index).

(** src/value.rs 694-744 [Index<&str>], [IndexMut<&str>]. *)
Definition value_index_str (pw : pwidth) (v : value) (key : list N) : res infallible value :=
  let? o := value_get pw v key in expect_some o.
Definition value_index_str_mut (pw : pwidth) (v : value) (key : list N)
  : res infallible (mutref value value) :=
  let? o := value_get_mut pw v key in expect_some o.

(** src/value.rs 746-787 [From] conversions. *)
Definition value_from_bool (b : bool) : value := VBoolean b.
Definition value_from_object (o : object) : value := VObject o.
Definition value_from_vec (l : list value) : value := VArray l.
Definition value_from_json_string (s : json_string) : value := VString s.
Definition value_from_str (pw : pwidth) (s : list N) : res infallible value :=
  let? j := js_from_str pw s in Ok (VString j).
Definition value_from_string (pw : pwidth) (s : list N) : res infallible value :=
  let? j := js_from_string pw s in Ok (VString j).

(** src/value.rs 882-894 [FromIterator], 905-914 [Entry::new] (the conversions being applied by the
    caller): the entries in order. *)
Definition object_from_iter (l : list (json_string * value)) : object := l.
Definition entry_new (k : json_string) (v : value) : json_string * value := (k, v).

(** * The writer *)

(** [core::fmt::Write]: an arbitrary implementation with state [w_st]; [true] is [Ok(())].
    ([write_fmt] is the provided one, which calls the two methods below.) *)
Record fmt_write : Type := FmtWrite {
  w_st : Type;
  w_write_str : w_st -> list N -> bool * w_st;
  w_write_char : w_st -> N -> bool * w_st }.

Section Writer.
  Variable pw : pwidth.
  Variable W : fmt_write.
  Variable pretty : bool.                 (* const PRETTY *)
  Variable indent_per_level line_ending : list N.

  (** src/value.rs 576-582 [struct WriteState] (the two constant strings are section variables). *)
  Record write_state : Type := WS { ws_writer : w_st W; ws_level : nat; ws_at_line_start : bool }.

  (** [fmt::Result] computations; [Err tt] is [fmt::Error]. *)
  Definition wm : Type := write_state -> res unit unit * write_state.
  Definition wret : wm := fun s => (Ok tt, s).
  Definition wthen (m k : wm) : wm := fun s =>
    match m s with
    | (Ok _, s') => k s'
    | r => r
    end.

  (** [self.writer.write_str(str)?] and [write_char]. *)
  Definition w_str (str : list N) : wm := fun s =>
    let '(ok, w) := w_write_str W (ws_writer s) str in
    ((if ok then Ok tt else Err tt), WS w (ws_level s) (ws_at_line_start s)).
  Definition w_char (c : N) : wm := fun s =>
    let '(ok, w) := w_write_char W (ws_writer s) c in
    ((if ok then Ok tt else Err tt), WS w (ws_level s) (ws_at_line_start s)).

  Fixpoint w_repeat (n : nat) (m : wm) : wm :=
    match n with O => wret | S n' => wthen m (w_repeat n' m) end.

  (** src/value.rs 599-605 and 612-618: indentation at the start of a line. *)
  Definition w_indent : wm := fun s =>
    if pretty && ws_at_line_start s then
      w_repeat (ws_level s) (w_str indent_per_level) (WS (ws_writer s) (ws_level s) false)
    else (Ok tt, s).

  (** src/value.rs 598-609 [write]. *)
  Definition w_write (str : list N) : wm := wthen w_indent (w_str str).

  (** src/string.rs 757-765 [Display for AsJson]: [write_char] for each char the iterator yields.
      The iterator may panic between two writes; the writes before the panic have happened. *)
  Fixpoint w_as_json (fuel : nat) (a : as_json) : wm :=
    match fuel with
    | O => fun s => (Fault FFuel, s)
    | S fuel' => fun s =>
      match as_json_next pw a with
      | Ok (None, _) => (Ok tt, s)
      | Ok (Some c, a') => wthen (w_char c) (w_as_json fuel' a') s
      | Err e => match e with end
      | Fault f => (Fault f, s)
      end
    end.

  (** src/value.rs 611-621 [write_json]: [write!(self.writer, "\"{}\"", str.as_json())]. *)
  Definition w_write_json (str : json_string) : wm :=
    wthen w_indent (wthen (w_str [34%N])
      (wthen (w_as_json (json_fuel (contents_str (js_source str))) (js_as_json_iter str))
             (w_str [34%N]))).

  Definition w_set_line_start (b : bool) : wm := fun s => (Ok tt, WS (ws_writer s) (ws_level s) b).
  Definition w_level_up : wm := fun s => (Ok tt, WS (ws_writer s) (S (ws_level s)) (ws_at_line_start s)).
  (** [self.level -= 1]: underflow is a fault. *)
  Definition w_level_down : wm := fun s =>
    match ws_level s with
    | O => (Fault FOverflow, s)
    | S l => (Ok tt, WS (ws_writer s) l (ws_at_line_start s))
    end.

  (** src/value.rs 623-629 [new_line]. *)
  Definition w_new_line : wm :=
    if pretty then wthen (w_write line_ending) (w_set_line_start true) else wret.
  (** src/value.rs 631-635, 652-656 [begin_object], [begin_array]. *)
  Definition w_begin_object : wm := wthen (w_write [123%N]) w_level_up.
  Definition w_begin_array : wm := wthen (w_write [91%N]) w_level_up.
  (** src/value.rs 637-644 [write_object_key_end]. *)
  Definition w_object_key_end : wm := w_write (if pretty then [58%N; 32%N] else [58%N]).
  (** src/value.rs 646-650, 658-662 [end_object], [end_array]. *)
  Definition w_end_object : wm := wthen w_level_down (w_write [125%N]).
  Definition w_end_array : wm := wthen w_level_down (w_write [93%N]).

  (** src/value.rs 264-320 [write_json_value], [write_json_object], [write_json_array].  [is_last]
      is [index == len - 1]: the comma is written unless the entry is the last one. *)
  Fixpoint write_json_value (v : value) : wm :=
    match v with
    | VString string => w_write_json string
    | VNumber number => w_write (jn_str number)
    | VBoolean b => w_write (if b then [116; 114; 117; 101]%N else [102; 97; 108; 115; 101]%N)
    | VNull => w_write [110; 117; 108; 108]%N
    | VObject obj =>
      wthen w_begin_object
        (wthen
           (match obj with
            | [] => wret
            | _ =>
              wthen w_new_line
                ((fix go (obj : list (json_string * value)) : wm :=
                    match obj with
                    | [] => wret
                    | (key, v') :: obj' =>
                      wthen (w_write_json key)
                        (wthen w_object_key_end
                           (wthen (write_json_value v')
                              (wthen (match obj' with [] => wret | _ => w_write [44%N] end)
                                 (wthen w_new_line (go obj')))))
                    end) obj)
            end)
           w_end_object)
    | VArray array =>
      wthen w_begin_array
        (wthen
           (match array with
            | [] => wret
            | _ =>
              wthen w_new_line
                ((fix go (array : list value) : wm :=
                    match array with
                    | [] => wret
                    | v' :: array' =>
                      wthen (write_json_value v')
                        (wthen (match array' with [] => wret | _ => w_write [44%N] end)
                           (wthen w_new_line (go array')))
                    end) array)
            end)
           w_end_array)
    end.

  (** src/value.rs 253-262 [write_json] with [WriteState::new] 588-596. *)
  Definition write_json (v : value) (destination : w_st W) : res unit unit * w_st W :=
    let '(r, s) := write_json_value v (WS destination 0 true) in (r, ws_writer s).
End Writer.

(** src/value.rs 367-371 [write_json_to]. *)
Definition write_json_to (pw : pwidth) (W : fmt_write) (v : value) (w : w_st W) :=
  write_json pw W false [] [] v w.
(** src/value.rs 383-392 [pretty_write_json_to_custom]. *)
Definition pretty_write_json_to_custom (pw : pwidth) (W : fmt_write) (indentation line_ending : list N)
  (v : value) (w : w_st W) := write_json pw W true indentation line_ending v w.
(** src/value.rs 373-381 [pretty_write_json_to]. *)
Definition pretty_write_json_to (pw : pwidth) (W : fmt_write) (v : value) (w : w_st W) :=
  pretty_write_json_to_custom pw W [32%N; 32%N] [10%N] v w.

(** std [impl fmt::Write for String]: appends, never fails (allocation failure aborts). *)
Definition string_write : fmt_write := {|
  w_st := list N;
  w_write_str := fun s t => (true, s ++ t);
  w_write_char := fun s c => (true, s ++ utf8_encode c) |}.

(** [.expect("out of memory")]. *)
Definition expect_fmt (r : res unit unit * list N) : res infallible (list N) :=
  match r with
  | (Ok _, s) => Ok s
  | (Err _, _) => Fault FExpect
  | (Fault f, _) => Fault f
  end.

(** src/value.rs 361-365 [to_json], 346-351 [to_json_pretty_custom], 332-336 [to_json_pretty]. *)
Definition to_json (pw : pwidth) (v : value) : res infallible (list N) :=
  expect_fmt (write_json_to pw string_write v []).
Definition to_json_pretty_custom (pw : pwidth) (indentation line_ending : list N) (v : value)
  : res infallible (list N) :=
  expect_fmt (pretty_write_json_to_custom pw string_write indentation line_ending v []).
Definition to_json_pretty (pw : pwidth) (v : value) : res infallible (list N) :=
  expect_fmt (pretty_write_json_to pw string_write v []).

(** src/value.rs 464-472 [Display for Value]: [{:#}] is pretty, [{}] is compact. *)
Definition value_display (pw : pwidth) (W : fmt_write) (alternate : bool) (v : value) (w : w_st W) :=
  if alternate then pretty_write_json_to pw W v w else write_json_to pw W v w.
