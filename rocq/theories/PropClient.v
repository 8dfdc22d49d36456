(** C99: every program that uses the library through its safe API, as a history of calls. *)
From Verif Require Import Base Utf8 Utf8Facts StrModel ErrorModel Tokenizer Parser ValueModel DocModel NumModel ObjectModel Spec SpecStr SpecWrite
  TokBase TokStr TokNum TokFacts View ParserGen ParseMain WriteFacts WriteStops DocFacts StrFacts StrEsc StrWf StrObt StrSpec PropTok PropEntry PropStr PropParse PropValue PropEsc
  PropNumber PropWrite PropText PropIter PropDocEq PropLines PropDebug PropProgress PropData.
Local Open Scope N_scope.

(** * Specification *)

(** What a program can hold.  Numbers, booleans, characters, configurations and positions are not tracked: a program can make any of them. *)
Inductive item : Type :=
| IText (s : list N)                        (* a [&str], [String] or [AnyStr] *)
| IBytes (s : list N)                       (* a [&[u8]] *)
| IString (x : json_string)                 (* a [JsonString] *)
| INumber (n : json_number)                 (* a [JsonNumber] *)
| IValue (v : value)                        (* a [Value] *)
| IObject (o : object)                      (* an [Object] *)
| IDocument (d : document)                  (* a [Document] or a [HeaplessDocument] *)
| IIter (it : list node)                    (* a [DocumentIter] *)
| ITokenizer (utf8 : bool) (it : byte_iter) (* a [Tokenizer] over a [&str] ([true]) or over bytes *).

(** The calls a program can make.  [cap] is the capacity of a [HeaplessDocument], [None] for a [Document]. *)
Inductive call : Type :=
(* Value::from_json_with_config, from_json_bytes_with_config; the same for documents; the validators *)
| ParseValue (s : list N) (cfg : parse_config)
| ParseValueBytes (s : list N) (cfg : parse_config)
| ParseDocument (cap : option nat) (s : list N) (cfg : parse_config)
| ParseDocumentBytes (cap : option nat) (s : list N) (cfg : parse_config)
| Validate (s : list N) (cfg : parse_config)
| ValidateBytes (s : list N) (cfg : parse_config)
(* JsonString::from_json, JsonNumber::from_json *)
| StringFromJson (s : list N)
| NumberFromJson (s : list N)
(* Tokenizer::for_json, for_json_bytes, next, next_or_eof, peek *)
| TokenizerNew (s : list N)
| TokenizerNewBytes (s : list N)
| TokenizerNext (utf8 : bool) (it : byte_iter)
| TokenizerNextOrEof (utf8 : bool) (it : byte_iter)
| TokenizerPeek (utf8 : bool) (it : byte_iter)
(* Document::into_iter, iter; DocumentIter::next, next_value, skip_next_value; Value::from(Document); == *)
| DocumentIterate (d : document)
| IterNext (it : list node)
| IterNextValue (it : list node)
| IterSkip (it : list node)
| ValueFromDocument (d : document)
| DocumentEq (a b : document)
(* JsonString: decoded().collect(), to_string(), decode_if_needed(), as_json().collect(), escape_if_needed(), as_json_str(), as_str() *)
| Decoded (x : json_string)
| Display (x : json_string)
| DecodeIfNeeded (x : json_string)
| AsJson (x : json_string)
| EscapeIfNeeded (x : json_string)
| AsJsonStr (x : json_string)
| AsStr (x : json_string)
(* JsonString::from(&str), from(String); ==, cmp, partial_cmp, hash *)
| FromStr (s : list N)
| FromString (s : list N)
| StringEq (x y : json_string)
| StringEqStr (x : json_string) (s : list N)
| StringCmp (x y : json_string)
| StringPartialCmp (x y : json_string)
| StringPartialCmpStr (x : json_string) (s : list N)
| StringHash (x : json_string)
(* JsonNumber::source *)
| NumberSource (n : json_number)
(* making values: the variants and the From conversions *)
| MakeNull
| MakeBool (b : bool)
| MakeNumber (n : json_number)
| MakeString (x : json_string)
| MakeArray (l : list value)
| MakeObject (o : object)
| ValueFromStr (s : list N)
| ValueFromString (s : list N)
(* Value::as_object, as_array, as_string, as_number, get, get_index, v[i], v[key] *)
| AsObject (v : value)
| AsArray (v : value)
| AsString (v : value)
| AsNumber (v : value)
| ValueAsStr (v : value)
| Get (v : value) (key : list N)
| GetIndex (v : value) (i : nat)
| Index (v : value) (i : nat)
| IndexStr (v : value) (key : list N)
(* *v.get_mut(key)? = w, *v.get_index_mut(i)? = w, v[i] = w, v[key] = w *)
| SetGet (v : value) (key : list N) (w : value)
| SetGetIndex (v : value) (i : nat) (w : value)
| SetIndex (v : value) (i : nat) (w : value)
| SetIndexStr (v : value) (key : list N) (w : value)
(* == ; to_json, to_json_pretty, to_json_pretty_custom *)
| ValueEq (v w : value)
| ToJson (v : value)
| ToJsonPretty (v : value)
| ToJsonPrettyCustom (indentation line_ending : list N) (v : value)
(* Object: new, from_iter, its entries, push, insert, remove, retain(|e| e.key != key), get, *get_mut(key)? = w, *get_entry_mut(key)? = Entry::new(k, w) *)
| ObjectNew
| ObjectFromIter (l : list (json_string * value))
| ObjectEntries (o : object)
| ObjectPush (o : object) (k : json_string) (v : value)
| ObjectInsert (o : object) (i : nat) (k : json_string) (v : value)
| ObjectRemove (o : object) (i : nat)
| ObjectRetain (o : object) (key : list N)
| ObjectGet (o : object) (key : list N)
| ObjectSet (o : object) (key : list N) (w : value)
| ObjectSetEntry (o : object) (key : list N) (k : json_string) (w : value).

(** What the call is given. *)
Definition entries (o : list (json_string * value)) : list item := flat_map (fun e => [IString (fst e); IValue (snd e)]) o.
Definition uses (c : call) : list item :=
  match c with
  | ParseValue s _ | ParseDocument _ s _ | Validate s _ | StringFromJson s | NumberFromJson s | TokenizerNew s => [IText s]
  | ParseValueBytes s _ | ParseDocumentBytes _ s _ | ValidateBytes s _ | TokenizerNewBytes s => [IBytes s]
  | TokenizerNext g it | TokenizerNextOrEof g it | TokenizerPeek g it => [ITokenizer g it]
  | DocumentIterate d | ValueFromDocument d => [IDocument d]
  | IterNext it | IterNextValue it | IterSkip it => [IIter it]
  | DocumentEq a b => [IDocument a; IDocument b]
  | Decoded x | Display x | DecodeIfNeeded x | AsJson x | EscapeIfNeeded x | AsJsonStr x | AsStr x | StringHash x | MakeString x => [IString x]
  | FromStr s | FromString s | ValueFromStr s | ValueFromString s => [IText s]
  | StringEq x y | StringCmp x y | StringPartialCmp x y => [IString x; IString y]
  | StringEqStr x s | StringPartialCmpStr x s => [IString x; IText s]
  | NumberSource n | MakeNumber n => [INumber n]
  | MakeNull | MakeBool _ | ObjectNew => []
  | MakeArray l => map IValue l
  | MakeObject o => [IObject o]
  | AsObject v | AsArray v | AsString v | AsNumber v | ValueAsStr v | GetIndex v _ | Index v _ | ToJson v | ToJsonPretty v => [IValue v]
  | Get v key | IndexStr v key => [IValue v; IText key]
  | SetGet v key w | SetIndexStr v key w => [IValue v; IText key; IValue w]
  | SetGetIndex v _ w | SetIndex v _ w | ValueEq v w => [IValue v; IValue w]
  | ToJsonPrettyCustom indentation line_ending v => [IText indentation; IText line_ending; IValue v]
  | ObjectFromIter l => entries l
  | ObjectEntries o | ObjectRemove o _ => [IObject o]
  | ObjectPush o k v | ObjectInsert o _ k v => [IObject o; IString k; IValue v]
  | ObjectRetain o key | ObjectGet o key => [IObject o; IText key]
  | ObjectSet o key w => [IObject o; IText key; IValue w]
  | ObjectSetEntry o key k w => [IObject o; IText key; IString k; IValue w]
  end.

(** What the program gets: [Err tt] is any [Err] of the call, [Fault f] a panic or undefined behaviour. *)
Definition gets {E A} (r : res E A) (f : A -> list item) : res unit (list item) :=
  match r with Ok a => Ok (f a) | Err _ => Err tt | Fault x => Fault x end.
Definition opt {A} (f : A -> list item) (o : option A) : list item := match o with Some a => f a | None => [] end.
Definition node_items (n : node) : list item := match n with NString x => [IString x] | NNumber x => [INumber x] | _ => [] end.
Definition token_items (t : token) : list item := match t with TkString x => [IString x] | TkNumber x => [INumber x] | _ => [] end.
(** Writing [w] through a mutable reference: the old part and the changed whole. *)
Definition written {C T} (whole : C -> item) (part : T -> list item) (w : T) (r : mutref C T) : list item := whole (snd r w) :: part (fst r).
Definition answer (pw : pwidth) (c : call) : res unit (list item) :=
  match c with
  | ParseValue s cfg => gets (value_from_json_with_config pw s cfg) (fun v => [IValue v])
  | ParseValueBytes s cfg => gets (value_from_json_bytes_with_config pw s cfg) (fun v => [IValue v])
  | ParseDocument cap s cfg => gets (document_from_json_with_config pw cap s cfg) (fun d => [IDocument d])
  | ParseDocumentBytes cap s cfg => gets (document_from_json_bytes_with_config pw cap s cfg) (fun d => [IDocument d])
  | Validate s cfg => gets (validate_json_with_config pw s cfg) (fun _ => [])
  | ValidateBytes s cfg => gets (validate_json_bytes_with_config pw s cfg) (fun _ => [])
  | StringFromJson s => gets (string_from_json pw s) (fun x => [IString x])
  | NumberFromJson s => gets (number_from_json pw s) (fun n => [INumber n])
  | TokenizerNew s => Ok [ITokenizer true (tokenizer_new s)]
  | TokenizerNewBytes s => Ok [ITokenizer false (tokenizer_new s)]
  | TokenizerNext g it =>
    let '(r, it') := tokenizer_next g pw it in
    match r with
    | Some (Ok t) => Ok (ITokenizer g it' :: token_items t)
    | Some (Err _) | None => Ok [ITokenizer g it']
    | Some (Fault f) => Fault f
    end
  | TokenizerNextOrEof g it =>
    let '(r, it') := next_or_eof g pw it in
    match r with
    | Ok t => Ok (ITokenizer g it' :: token_items t)
    | Err _ => Ok [ITokenizer g it']
    | Fault f => Fault f
    end
  | TokenizerPeek g it => Ok [ITokenizer g (snd (tokenizer_peek it))]
  | DocumentIterate d => Ok [IIter (doc_iter d)]
  | IterNext it => let '(o, it') := doc_next it in Ok (IIter it' :: opt node_items o)
  | IterNextValue it => gets (next_value it) (fun r => IIter (snd r) :: opt (fun v => [IValue v]) (fst r))
  | IterSkip it => gets (skip_next_value it) (fun it' => [IIter it'])
  | ValueFromDocument d => gets (value_from_document d) (fun v => [IValue v])
  | DocumentEq a b => gets (document_eq pw a b) (fun _ => [])
  | Decoded x => gets (js_decoded pw x) (fun cs => [IText (utf8_string cs)])
  | Display x => gets (js_display pw x) (fun s => [IText s])
  | DecodeIfNeeded x => gets (js_decode_if_needed pw x) (fun a => [IText (any_str a)])
  | AsJson x => gets (js_as_json pw x) (fun cs => [IText (utf8_string cs)])
  | EscapeIfNeeded x => gets (js_escape_if_needed pw x) (fun a => [IText (any_str a)])
  | AsJsonStr x => Ok (opt (fun a => [IText (any_str a)]) (js_as_json_str x))
  | AsStr x => Ok (opt (fun s => [IText s]) (js_as_str pw x))
  | FromStr s => gets (js_from_str pw s) (fun x => [IString x])
  | FromString s => gets (js_from_string pw s) (fun x => [IString x])
  | StringEq x y => gets (js_eq pw x y) (fun _ => [])
  | StringEqStr x s => gets (js_eq_str pw x s) (fun _ => [])
  | StringCmp x y => gets (js_cmp pw x y) (fun _ => [])
  | StringPartialCmp x y => gets (js_partial_cmp pw x y) (fun _ => [])
  | StringPartialCmpStr x s => gets (js_partial_cmp_str pw x s) (fun _ => [])
  | StringHash x => gets (js_hash pw x) (fun _ => [])
  | NumberSource n => Ok [IText (jn_str n)]
  | MakeNull => Ok [IValue VNull]
  | MakeBool b => Ok [IValue (value_from_bool b)]
  | MakeNumber n => Ok [IValue (VNumber n)]
  | MakeString x => Ok [IValue (value_from_json_string x)]
  | MakeArray l => Ok [IValue (value_from_vec l)]
  | MakeObject o => Ok [IValue (value_from_object o)]
  | ValueFromStr s => gets (value_from_str pw s) (fun v => [IValue v])
  | ValueFromString s => gets (value_from_string pw s) (fun v => [IValue v])
  | AsObject v => Ok (opt (fun o => [IObject o]) (as_object v))
  | AsArray v => Ok (opt (map IValue) (as_array v))
  | AsString v => Ok (opt (fun x => [IString x]) (as_string v))
  | AsNumber v => Ok (opt (fun n => [INumber n]) (as_number v))
  | ValueAsStr v => Ok (opt (fun s => [IText s]) (value_as_str pw v))
  | Get v key => gets (value_get pw v key) (opt (fun w => [IValue w]))
  | GetIndex v i => Ok (opt (fun w => [IValue w]) (get_index v i))
  | Index v i => gets (value_index v i) (fun w => [IValue w])
  | IndexStr v key => gets (value_index_str pw v key) (fun w => [IValue w])
  | SetGet v key w => gets (value_get_mut pw v key) (opt (written IValue (fun x => [IValue x]) w))
  | SetGetIndex v i w => Ok (opt (written IValue (fun x => [IValue x]) w) (get_index_mut v i))
  | SetIndex v i w => gets (value_index_mut v i) (written IValue (fun x => [IValue x]) w)
  | SetIndexStr v key w => gets (value_index_str_mut pw v key) (written IValue (fun x => [IValue x]) w)
  | ValueEq v w => gets (value_eq pw v w) (fun _ => [])
  | ToJson v => gets (to_json pw v) (fun s => [IText s])
  | ToJsonPretty v => gets (to_json_pretty pw v) (fun s => [IText s])
  | ToJsonPrettyCustom indentation line_ending v => gets (to_json_pretty_custom pw indentation line_ending v) (fun s => [IText s])
  | ObjectNew => Ok [IObject object_new]
  | ObjectFromIter l => Ok [IObject (object_from_iter l)]
  | ObjectEntries o => Ok (entries o)
  | ObjectPush o k v => Ok [IObject (object_push o (k, v))]
  | ObjectInsert o i k v => gets (object_insert o i (k, v)) (fun o' => [IObject o'])
  | ObjectRemove o i => gets (object_remove o i) (fun r => IObject (snd r) :: entries [fst r])
  | ObjectRetain o key => gets (object_retain_not pw o key) (fun o' => [IObject o'])
  | ObjectGet o key => gets (object_get pw o key) (opt (fun w => [IValue w]))
  | ObjectSet o key w => gets (object_get_mut pw o key) (opt (written IObject (fun x => [IValue x]) w))
  | ObjectSetEntry o key k w => gets (object_get_entry_mut pw o key) (opt (written IObject (fun e => entries [e]) (k, w)))
  end.

(** No [String] is larger than [isize::MAX] bytes (a program that tries to make one is stopped by the allocator). *)
Definition fits (pw : pwidth) (i : item) : Prop := match i with IText s => N.of_nat (length s) <= isize_max pw | _ => True end.

(** [holds pw env]: a program that has made only these calls can hold the things in [env].  It starts with nothing,
    may bring in any text and any bytes, and may call anything with what it holds, as often as it likes.
    (A Rust program may hold less: it gives some things up when it passes them on.) *)
Inductive holds (pw : pwidth) : list item -> Prop :=
| holds_nothing : holds pw []
| holds_text s env : rust_str pw s -> holds pw env -> holds pw (IText s :: env)
| holds_bytes s env : rust_slice pw s -> holds pw env -> holds pw (IBytes s :: env)
| holds_answer c new env : holds pw env -> incl (uses c) env -> answer pw c = Ok new -> Forall (fits pw) new -> holds pw (new ++ env).

(** The panics that remain: text too long to be counted, and the indexing that the standard library's containers panic on too. *)
Definition too_long (pw : pwidth) (s : list N) : Prop := isize_max pw < 6 * N.of_nat (length s).
Definition uncountable (pw : pwidth) (x : json_string) : Prop := ~ is_json_form x /\ isize_max pw < 2 * js_len pw x.
Definition may_panic (pw : pwidth) (c : call) (f : fault) : Prop :=
  match c with
  | FromStr s | FromString s | ValueFromStr s | ValueFromString s => f = FOverflow /\ too_long pw s
  | AsJson x | EscapeIfNeeded x => f = FOverflow /\ uncountable pw x
  | ToJson v | ToJsonPretty v | ToJsonPrettyCustom _ _ v => f = FOverflow /\ exists x, string_in x v /\ uncountable pw x
  | Index v i | SetIndex v i _ => f = FExpect /\ get_index v i = None
  | IndexStr v key | SetIndexStr v key _ => f = FExpect /\ value_get pw v key = Ok None
  | ObjectInsert o i _ _ => f = FIndex /\ (length o < i)%nat
  | ObjectRemove o i => f = FIndex /\ (length o <= i)%nat
  | _ => False
  end.

(** * The invariant *)
Definition sound (pw : pwidth) (i : item) : Prop :=
  match i with
  | IText s => rust_str pw s
  | IBytes s => rust_slice pw s
  | IString x => obtainable pw x
  | INumber n => number_obtainable pw n
  | IValue v => constructible pw v
  | IObject o => constructible pw (VObject o)
  | IDocument d => exists cfg s v, document_for pw cfg s d v
  | IIter it => exists cfg s d v pre, document_for pw cfg s d v /\ d = pre ++ it
  | ITokenizer g it => exists s, input_ok g pw s /\ reachable g pw s it
  end.

Lemma one pw i : sound pw i -> Forall (sound pw) [i].
Proof. intro H. constructor; [exact H|constructor]. Qed.

(** ** Values and their parts *)
Lemma constructible_object pw o : constructible pw (VObject o) <-> Forall (fun e => obtainable pw (fst e) /\ constructible pw (snd e)) o.
Proof.
  split.
  - intros [H1 H2]. inversion H1 as [| | | | |? A]; inversion H2 as [| | | | |? B]; subst. rewrite Forall_forall in *. intros e He.
    destruct (A e He). split; [assumption|]. split; [assumption|apply B; exact He].
  - intro H. split; constructor; (eapply Forall_impl; [|exact H]); intros e (? & ? & ?); cbn beta; auto.
Qed.
Lemma constructible_array pw l : constructible pw (VArray l) <-> Forall (constructible pw) l.
Proof.
  split.
  - intros [H1 H2]. inversion H1 as [| | | |? A|]; inversion H2 as [| | | |? B|]; subst. rewrite Forall_forall in *. intros e He. split; auto.
  - intro H. split; constructor; (eapply Forall_impl; [|exact H]); intros e (? & ?); cbn beta; auto.
Qed.
Lemma constructible_string pw x : constructible pw (VString x) <-> obtainable pw x.
Proof. split; [intros [H _]; inversion H; assumption|intro H; split; constructor; exact H]. Qed.
Lemma constructible_number pw n : constructible pw (VNumber n) <-> number_obtainable pw n.
Proof. split; [intros [_ H]; inversion H; assumption|intro H; split; constructor; exact H]. Qed.
Lemma constructible_keys pw o : constructible pw (VObject o) -> keys_obtainable pw o.
Proof. intro H. apply constructible_object in H. eapply Forall_impl; [|exact H]. cbn beta. tauto. Qed.

Lemma entries_sound pw o : Forall (sound pw) (entries o) <-> constructible pw (VObject o).
Proof.
  rewrite constructible_object. unfold entries. rewrite Forall_flat_map. split; intro H; (eapply Forall_impl; [|exact H]); intros e K; cbn beta in *.
  - inversion K as [|? ? K1 K2]; subst. inversion K2; subst. split; assumption.
  - destruct K as [K1 K2]. constructor; [exact K1|]. constructor; [exact K2|constructor].
Qed.
Lemma values_sound pw l : Forall (sound pw) (map IValue l) <-> constructible pw (VArray l).
Proof. rewrite constructible_array, Forall_map. reflexivity. Qed.
Lemma nth_split_entry pw o pre (k : json_string) (v : value) post : o = pre ++ (k, v) :: post -> constructible pw (VObject o) ->
  constructible pw v /\ (forall k' v', obtainable pw k' -> constructible pw v' -> constructible pw (VObject (pre ++ (k', v') :: post))) /\ obtainable pw k /\
  constructible pw (VObject (pre ++ post)).
Proof.
  intros -> H. apply constructible_object in H. apply Forall_app in H as [H1 H2]. inversion H2 as [|? ? [K1 K2] H3]; subst. cbn [fst snd] in *.
  split; [exact K2|]. split; [|split; [exact K1|apply constructible_object, Forall_app; split; assumption]]. intros k' v' Hk Hv. apply constructible_object, Forall_app. split; [exact H1|]. constructor; [split; assumption|exact H3].
Qed.

(** ** Text *)
Lemma utf8_app s t : is_utf8 s -> is_utf8 t -> is_utf8 (s ++ t).
Proof.
  intros (us & H1 & E1) (vs & H2 & E2). exists (us ++ vs). split; [apply Forall_app; split; assumption|].
  rewrite E1, E2. symmetry. apply utf8_string_app.
Qed.
Lemma scalars_utf8 cs : scalars cs -> is_utf8 (utf8_string cs).
Proof. intro H. exists cs. split; [exact H|reflexivity]. Qed.
Lemma written_text pw pretty indent eol v u : constructible pw v -> (pretty = true -> is_utf8 indent /\ is_utf8 eol) ->
  expect_fmt (write_json pw string_write pretty indent eol v []) = Ok u -> is_utf8 u.
Proof.
  intros Hv Hp E. destruct (replays_pieces pw pretty indent eol v Hv) as (calls & [H _] & K). rewrite (H u E). clear H E.
  induction K as [|c l Hc K IH]; cbn [map List.concat]; [exists []; split; [constructor|reflexivity]|]. apply utf8_app; [|exact IH].
  destruct Hc as [Hc|(Hc & [-> | ->])].
  - apply utf8_valid_iff, hands_length, Hc.
  - apply Hp, Hc.
  - apply Hp, Hc.
Qed.

(** ** Panics of the writer *)
Section Writer.
  Variables (pw : pwidth) (W : fmt_write) (pretty : bool) (indent eol : list N).
  (** A panic of [m] is an overflow. *)
  Definition only (m : wm W) : Prop := forall st f, fst (m st) = Fault f -> f = FOverflow.
  Lemma only_then m k : only m -> only k -> only (wthen W m k).
  Proof. intros Hm Hk st f. unfold wthen. specialize (Hm st). destruct (m st) as [[[]|[]|g] s']; cbn [fst] in *; [apply Hk|discriminate|apply Hm]. Qed.
  Lemma only_ret : only (wret W). Proof. intros st f H. discriminate. Qed.
  Lemma only_str s : only (w_str W s).
  Proof. intros st f. unfold w_str. destruct (w_write_str W (ws_writer W st) s) as [[] w]; cbn; discriminate. Qed.
  Lemma only_char c : only (w_char W c).
  Proof. intros st f. unfold w_char. destruct (w_write_char W (ws_writer W st) c) as [[] w]; cbn; discriminate. Qed.
  Lemma only_repeat n m : only m -> only (w_repeat W n m).
  Proof. intro H. induction n; cbn [w_repeat]; [apply only_ret|apply only_then; assumption]. Qed.
  Lemma only_indent : only (w_indent W pretty indent).
  Proof. intros st f. unfold w_indent. destruct (pretty && ws_at_line_start W st); [|discriminate]. apply only_repeat, only_str. Qed.
  Lemma only_write s : only (w_write W pretty indent s).
  Proof. apply only_then; [apply only_indent|apply only_str]. Qed.
  Lemma as_json_collects : forall fuel a st f, fst (w_as_json pw W fuel a st) = Fault f -> collect (as_json_next pw) fuel a = Fault f.
  Proof.
    induction fuel as [|fuel IH]; intros a st f; cbn [w_as_json collect]; [cbn; congruence|].
    destruct (as_json_next pw a) as [[[c|] a']|[]|g]; cbn [bind fst]; [|discriminate|congruence].
    unfold wthen. destruct (w_char W c st) as [[[]|[]|g] s'] eqn:E; cbn [fst].
    - intro H. rewrite (IH _ _ _ H). reflexivity.
    - discriminate.
    - intro H. exfalso. unfold w_char in E. destruct (w_write_char W (ws_writer W st) c) as [[] w]; discriminate E.
  Qed.
  Lemma as_json_overflow x f : obtainable pw x -> js_as_json pw x = Fault f -> f = FOverflow.
  Proof.
    intros Hx E. pose proof (C45_as_json_exactly pw x Hx) as K.
    destruct (match js_source x with CJson _ => true | CRaw _ => 2 * js_len pw x <=? isize_max pw end).
    - destruct K as [[out K] _]. congruence.
    - destruct K as [K _]. congruence.
  Qed.
  Lemma only_json x : obtainable pw x -> only (w_write_json pw W pretty indent x).
  Proof.
    intro Hx. unfold w_write_json. apply only_then; [apply only_indent|]. apply only_then; [apply only_str|]. apply only_then; [|apply only_str].
    intros st f H. apply as_json_collects in H. apply (as_json_overflow x f Hx). unfold js_as_json. rewrite H. reflexivity.
  Qed.
  Lemma only_down : only (w_level_down W).
  Proof. intros st f. unfold w_level_down. destruct (ws_level W st); cbn; congruence. Qed.
  Lemma only_up : only (w_level_up W). Proof. intros st f H. discriminate. Qed.
  Lemma only_new_line : only (w_new_line W pretty indent eol).
  Proof.
    pose proof (only_write eol) as K. unfold w_new_line. destruct pretty; [|apply only_ret]. apply only_then; [exact K|]. intros st f H. discriminate.
  Qed.
  Hint Resolve only_then only_ret only_write only_json only_down only_up only_new_line : only.
  Lemma only_comma (A : Type) (l : list A) : only (match l with [] => wret W | _ => w_write W pretty indent [44] end).
  Proof. destruct l; auto with only. Qed.
  Hint Resolve only_comma : only.
  Lemma only_value v : all_strings (obtainable pw) v -> only (write_json_value pw W pretty indent eol v).
  Proof.
    induction v as [n|s|b|o IH|l IH|] using value_ind'; intro H; inversion H as [| | |? A|? A|? A]; subst; try (cbn [write_json_value]; auto with only; fail).
    - rewrite write_object. unfold w_begin_object, w_end_object. apply only_then; [auto with only|]. apply only_then; [|auto with only].
      assert (K : only (write_members pw W pretty indent eol o)).
      { clear H. induction IH as [|[k v] o IHv IHr IHo]; [apply only_ret|]. inversion A as [|? ? [A1 A2] A3]; subst. cbn [fst snd] in *.
        cbn [write_members]. fold (write_members pw W pretty indent eol).
        apply only_then; [auto with only|]. apply only_then; [unfold w_object_key_end; auto with only|]. apply only_then; [auto|].
        apply only_then; [apply only_comma|]. apply only_then; [auto with only|]. apply IHo; assumption. }
      destruct o; [apply only_ret|apply only_then; [apply only_new_line|exact K]].
    - rewrite write_array. unfold w_begin_array, w_end_array. apply only_then; [auto with only|]. apply only_then; [|auto with only].
      assert (K : only (write_elements pw W pretty indent eol l)).
      { clear H. induction IH as [|v l IHv IHr IHo]; [apply only_ret|]. inversion A as [|? ? A1 A2]; subst.
        cbn [write_elements]. fold (write_elements pw W pretty indent eol).
        apply only_then; [auto|]. apply only_then; [apply only_comma|]. apply only_then; [auto with only|]. apply IHo; assumption. }
      destruct l; [apply only_ret|apply only_then; [apply only_new_line|exact K]].
  Qed.
End Writer.

Lemma written_overflow pw pretty indent eol v f : constructible pw v ->
  expect_fmt (write_json pw string_write pretty indent eol v []) = Fault f -> f = FOverflow.
Proof.
  intros Hv E. destruct (replays_pieces pw pretty indent eol v Hv) as (calls & [_ H] & _). specialize (H string_write []).
  pose proof (only_value pw string_write pretty indent eol v (proj1 Hv) (WS string_write [] 0 true)) as K.
  unfold write_json in *. destruct (write_json_value pw string_write pretty indent eol v (WS string_write [] 0 true)) as [[[]|[]|g] s]; cbn [fst snd expect_fmt] in *.
  - discriminate.
  - exfalso. destruct H as [(done & c & rest & w1 & _ & _ & E1) _]. destruct c; discriminate E1.
  - injection E as <-. apply K. reflexivity.
Qed.

(** ** Which strings stop the writer *)
Lemma all_or_one (P : json_string -> Prop) : (forall x, P x \/ ~ P x) -> forall v, all_strings P v \/ exists x, string_in x v /\ ~ P x.
Proof.
  intro D. induction v as [n|s|b|o IH|l IH|] using value_ind'; try (left; solve [constructor]).
  - destruct (D s) as [H|H]; [left; constructor; exact H|right; exists s; split; [constructor|exact H]].
  - assert (K : Forall (fun e => P (fst e) /\ all_strings P (snd e)) o \/ exists x e, In e o /\ (x = fst e \/ string_in x (snd e)) /\ ~ P x).
    { induction IH as [|[k v] o Hv _ IHo]; [left; constructor|]. cbn [snd] in *.
      destruct (D k) as [Hk|Hk]; [|right; exists k, (k, v); cbn; auto].
      destruct Hv as [Hv|(x & H1 & H2)]; [|right; exists x, (k, v); cbn; auto].
      destruct IHo as [IHo|(x & e & H1 & H2)]; [left; constructor; [split; assumption|exact IHo]|right; exists x, e; cbn; auto]. }
    destruct K as [K|(x & [k v] & H1 & [-> |H2] & H3)]; [left; constructor; exact K| |]; right; cbn [fst snd] in *.
    + exists k. split; [econstructor; exact H1|exact H3].
    + exists x. split; [eapply string_member; eassumption|exact H3].
  - assert (K : Forall (all_strings P) l \/ exists x v, In v l /\ string_in x v /\ ~ P x).
    { induction IH as [|v l Hv _ IHl]; [left; constructor|].
      destruct Hv as [Hv|(x & H1 & H2)]; [|right; exists x, v; cbn; auto].
      destruct IHl as [IHl|(x & e & H1 & H2)]; [left; constructor; assumption|right; exists x, e; cbn; auto]. }
    destruct K as [K|(x & v & H1 & H2 & H3)]; [left; constructor; exact K|right]. exists x. split; [eapply string_elem; eassumption|exact H3].
Qed.
Lemma recount_dec pw x : recount_fits pw x \/ ~ recount_fits pw x.
Proof.
  unfold recount_fits, is_json_form. destruct (js_source x); [left; left; exact I|].
  destruct (N.le_gt_cases (2 * js_len pw x) (isize_max pw)); [left; right; assumption|right; intros [[]|K]; lia].
Qed.
Lemma not_recount pw x : ~ recount_fits pw x -> uncountable pw x.
Proof.
  unfold recount_fits, uncountable. intro H. split; [tauto|]. destruct (N.le_gt_cases (2 * js_len pw x) (isize_max pw)) as [K|K]; [tauto|exact K].
Qed.
Lemma unwritten pw v : constructible pw v -> (forall u, to_json pw v <> Ok u) -> exists x, string_in x v /\ uncountable pw x.
Proof.
  intros Hv H. destruct (all_or_one _ (recount_dec pw) v) as [K|(x & K1 & K2)].
  - exfalso. apply (C38_serializes_iff pw v Hv) in K as (u & K). exact (H u K).
  - exists x. split; [exact K1|apply not_recount, K2].
Qed.
Lemma unwritten_pretty pw indent eol v : constructible pw v -> (forall u, to_json_pretty_custom pw indent eol v <> Ok u) -> exists x, string_in x v /\ uncountable pw x.
Proof.
  intros Hv H. apply unwritten; [exact Hv|]. intros u E. apply to_json_iff in E as (t & Ht & _).
  eapply H. apply to_json_pretty_iff. eauto.
Qed.

Lemma as_json_panics pw x f : obtainable pw x -> js_as_json pw x = Fault f \/ js_escape_if_needed pw x = Fault f -> f = FOverflow /\ uncountable pw x.
Proof.
  intros Hx E. pose proof (C45_as_json_exactly pw x Hx) as K. unfold uncountable, is_json_form. destruct (js_source x).
  - destruct K as [[out K1] [a K2]]. destruct E; congruence.
  - destruct (N.leb_spec (2 * js_len pw x) (isize_max pw)).
    + destruct K as [[out K1] [a' K2]]. destruct E; congruence.
    + destruct K as [K1 K2]. split; [destruct E; congruence|tauto].
Qed.
Lemma from_panics pw s f : rust_str pw s -> js_from_str pw s = Fault f \/ js_from_string pw s = Fault f -> f = FOverflow /\ too_long pw s.
Proof.
  intros Hs E. split.
  - pose proof Hs as [(cs & Hc & Ecs) _]. pose proof (C45_from_exactly pw cs s Hc Ecs Hs) as K.
    destruct (escaped_length cs - latin1_count cs <=? isize_max pw); [destruct K as [[x K1] [y K2]]|destruct K as [K1 K2]]; destruct E; congruence.
  - unfold too_long. destruct (N.le_gt_cases (6 * N.of_nat (length s)) (isize_max pw)) as [K|K]; [|exact K].
    destruct (C45_from_sixth pw s Hs K) as [[x K1] [y K2]]. destruct E; congruence.
Qed.

(** ** Documents and tokenizers *)
Lemma for_document_of pw cap s cfg d : rust_slice pw s -> document_from_json_bytes_with_config pw cap s cfg = Ok d -> exists v, document_for pw cfg s d v.
Proof. intros H E. destruct (C11_conversion_never_panics pw cfg cap s d H E) as (v & _ & Ev). exists v, cap. left. auto. Qed.
Lemma for_document_of_str pw cap s cfg d : rust_str pw s -> document_from_json_with_config pw cap s cfg = Ok d -> exists v, document_for pw cfg s d v.
Proof.
  intros H E. destruct (C03_entry_points_agree pw cfg cap s H) as (E1 & E2 & _).
  destruct (C11_conversion_never_panics pw cfg cap s d (rust_str_slice _ _ H)) as (v & _ & Ev); [congruence|]. exists v, cap. right. split; [exact H|]. split; congruence.
Qed.
Lemma document_constructible pw cfg s d v : document_for pw cfg s d v -> constructible pw v.
Proof. intro H. eapply parsed_constructible, document_parsed, H. Qed.
Lemma preorder_parts pw : forall v, constructible pw v -> Forall (fun n => Forall (sound pw) (node_items n)) (preorder v).
Proof.
  intros v Hv. apply Forall_forall. intros n Hn. destruct n as [| |x|x| |]; cbn [node_items]; try apply Forall_nil; apply one; cbn [sound].
  - eapply string_in_all; [exact (proj1 Hv)|apply preorder_string, Hn].
  - eapply number_in_all; [exact (proj2 Hv)|apply preorder_number, Hn].
Qed.
Lemma string_in_preorder x v : string_in x v -> In (NString x) (preorder v).
Proof.
  induction 1 as [|l v Hin _ IH|o v Hin|o k v Hin _ IH]; cbn [preorder].
  - left. reflexivity.
  - right. apply in_flat_map. exists v. split; assumption.
  - right. apply in_flat_map. exists (x, v). split; [exact Hin|left; reflexivity].
  - right. apply in_flat_map. exists (k, v). split; [exact Hin|right; exact IH].
Qed.
Lemma number_in_preorder x v : number_in x v -> In (NNumber x) (preorder v).
Proof.
  induction 1 as [|l v Hin _ IH|o k v Hin _ IH]; cbn [preorder].
  - left. reflexivity.
  - right. apply in_flat_map. exists v. split; assumption.
  - right. apply in_flat_map. exists (k, v). split; [exact Hin|right; exact IH].
Qed.
Lemma all_numbers_in (P : json_number -> Prop) : forall v, (forall x, number_in x v -> P x) -> all_numbers P v.
Proof.
  induction v as [n|s|b|o IH|l IH|] using value_ind'; intro H; constructor.
  - apply H. constructor.
  - rewrite Forall_forall in *. intros [k v] He. apply (IH (k, v) He). intros x Hx. apply H. eapply number_member; eassumption.
  - rewrite Forall_forall in *. intros v He. apply (IH v He). intros x Hx. apply H. eapply number_elem; eassumption.
Qed.
Lemma inside_constructible pw v w pre rest : constructible pw v -> preorder v = pre ++ preorder w ++ rest -> constructible pw w.
Proof.
  intros Hv E. assert (K : forall n, In n (preorder w) -> In n (preorder v)) by (intros n Hn; rewrite E; apply in_or_app; right; apply in_or_app; left; exact Hn).
  split.
  - apply all_strings_in. intros x Hx. apply string_in_preorder, K, preorder_string in Hx. exact (string_in_all _ _ _ (proj1 Hv) Hx).
  - apply all_numbers_in. intros x Hx. apply number_in_preorder, K, preorder_number in Hx. exact (number_in_all _ _ _ (proj2 Hv) Hx).
Qed.

Lemma tok_run_app g pw cs : forall it ds, snd (tok_run g pw it (cs ++ ds)) = snd (tok_run g pw (snd (tok_run g pw it cs)) ds).
Proof.
  induction cs as [|c cs IH]; intros it ds; [reflexivity|]. cbn [app tok_run]. destruct (tok_step g pw it c) as [o it1].
  specialize (IH it1 ds). destruct (tok_run g pw it1 (cs ++ ds)) as [os it2]. destruct (tok_run g pw it1 cs) as [os' it2']. exact IH.
Qed.
Lemma reach_step g pw s it c : reachable g pw s it -> reachable g pw s (snd (tok_step g pw it c)).
Proof.
  intros (cs & ->). exists (cs ++ [c]). rewrite tok_run_app. cbn [tok_run]. destruct (tok_step g pw (snd (tok_run g pw (tokenizer_new s) cs)) c). reflexivity.
Qed.
Lemma reach_next g pw s it : reachable g pw s it -> reachable g pw s (snd (tokenizer_next g pw it)).
Proof. intro H. apply (reach_step _ _ _ _ CallNext) in H. cbn [tok_step] in H. destruct (tokenizer_next g pw it). exact H. Qed.
Lemma reach_eof g pw s it : reachable g pw s it -> reachable g pw s (snd (next_or_eof g pw it)).
Proof. intro H. apply (reach_step _ _ _ _ CallNextOrEof) in H. cbn [tok_step] in H. destruct (next_or_eof g pw it). exact H. Qed.
Lemma reach_peek g pw s it : reachable g pw s it -> reachable g pw s (snd (tokenizer_peek it)).
Proof. intro H. apply (reach_step _ _ _ _ CallPeek) in H. cbn [tok_step] in H. destruct (tokenizer_peek it). exact H. Qed.

Lemma token_sound g pw s it t it' : input_ok g pw s -> reachable g pw s it -> tokenizer_next g pw it = (Some (Ok t), it') -> Forall (sound pw) (token_items t).
Proof.
  intros Hi Hr E. destruct t as [| |x|x| | | | | |]; cbn [token_items]; try apply Forall_nil; apply one; cbn [sound].
  - left. eapply parsed_token; eassumption.
  - eapply number_of_token; eassumption.
Qed.
Lemma eof_token g pw s it t it' : input_ok g pw s -> reachable g pw s it -> next_or_eof g pw it = (Ok t, it') -> tokenizer_next g pw it = (Some (Ok t), it').
Proof.
  intros Hi Hr E. pose proof (C19_next_or_eof_agrees g pw s it Hi Hr) as K. destruct (tokenizer_next g pw it) as [[r|] it1]; rewrite E in K; congruence.
Qed.

(** ** Lookup *)
Lemma lookup_cases pw v key : constructible pw v -> is_utf8 key ->
  (exists x store, value_get pw v key = Ok (Some x) /\ value_index_str pw v key = Ok x /\
     value_get_mut pw v key = Ok (Some (x, store)) /\ value_index_str_mut pw v key = Ok (x, store) /\
     constructible pw x /\ forall w, constructible pw w -> constructible pw (store w)) \/
  (value_get pw v key = Ok None /\ value_index_str pw v key = Fault FExpect /\
     value_get_mut pw v key = Ok None /\ value_index_str_mut pw v key = Fault FExpect).
Proof.
  intros Hv Hk. destruct (C40_value_lookup pw v key Hk) as [K1 K2]. destruct v as [n|s|b|o|l|]; try (right; apply K2; intros; discriminate).
  destruct (K1 o eq_refl (constructible_keys _ _ Hv)) as [(pre & k & x & post & store & (Ho & _) & E1 & E2 & E3 & E4 & Hst)|(_ & E)]; [left|right; exact E].
  destruct (nth_split_entry pw o pre k x post Ho Hv) as (Hx & Hs & Hk' & _). exists x, store. repeat (split; [assumption|]). intros w Hw. rewrite Hst. apply Hs; assumption.
Qed.
Lemma index_cases pw v i : constructible pw v ->
  (exists x store, get_index v i = Some x /\ value_index v i = Ok x /\ get_index_mut v i = Some (x, store) /\ value_index_mut v i = Ok (x, store) /\
     constructible pw x /\ forall w, constructible pw w -> constructible pw (store w)) \/
  (get_index v i = None /\ value_index v i = Fault FExpect /\ get_index_mut v i = None /\ value_index_mut v i = Fault FExpect).
Proof.
  intro Hv. destruct (C41_value_index v i) as [(pre & x & post & store & -> & _ & E1 & E2 & E3 & E4 & Hst)|(_ & E)]; [left|right; exact E].
  apply constructible_array, Forall_app in Hv as [H1 H2]. inversion H2 as [|? ? H3 H4]; subst. exists x, store. repeat (split; [assumption|]).
  intros w Hw. rewrite Hst. apply constructible_array, Forall_app. split; [exact H1|]. constructor; assumption.
Qed.

Lemma remove_at (pre post : object) e : object_remove (pre ++ e :: post) (length pre) = Ok (e, pre ++ post).
Proof.
  unfold object_remove. rewrite nth_error_app2, Nat.sub_diag by lia. cbn [nth_error]. do 2 f_equal.
  rewrite firstn_app, firstn_all, Nat.sub_diag. cbn [firstn]. rewrite app_nil_r. f_equal.
  rewrite skipn_app, skipn_all2 by lia. replace (S (length pre) - length pre)%nat with 1%nat by lia. reflexivity.
Qed.

(** ** Answers *)
Ltac inv H := inversion H; subst; clear H.
Ltac take H := repeat match type of H with Forall _ (_ :: _) => let K := fresh "A" in apply Forall_cons_iff in H as [K H]; cbn [sound] in K end.
Lemma gets_ok {E A} (r : res E A) f new : gets r f = Ok new -> exists a, r = Ok a /\ new = f a.
Proof. destruct r; cbn; intro H; try discriminate. injection H as <-. eauto. Qed.
Lemma gets_fault {E A} (r : res E A) f x : gets r f = Fault x -> r = Fault x.
Proof. destruct r; cbn; intro H; congruence. Qed.
Lemma text_fits pw s : is_utf8 s -> Forall (fits pw) [IText s] -> Forall (sound pw) [IText s].
Proof. intros H F. inv F. apply one. split; assumption. Qed.

Lemma answer_sound pw c new : Forall (sound pw) (uses c) -> answer pw c = Ok new -> Forall (fits pw) new -> Forall (sound pw) new.
Proof.
  intros U E F. destruct c; cbn [uses answer] in *; take U;
    try (apply gets_ok in E as (ret & E & ->)); try (injection E as <-); try (constructor; fail).

  - apply one. eapply parsed_constructible. right. split; eassumption.
  - apply one. eapply parsed_constructible. left. split; eassumption.
  - apply one. destruct (for_document_of_str _ _ _ _ _ A E) as (v & K). exists cfg, s, v. exact K.
  - apply one. destruct (for_document_of _ _ _ _ _ A E) as (v & K). exists cfg, s, v. exact K.
  - apply one. left. eapply parsed_string; eassumption.
  - apply one. eapply number_of_number; eassumption.
  - apply one. exists s. split; [exact A|exists []; reflexivity].
  - apply one. exists s. split; [exact A|exists []; reflexivity].
  - destruct A as (s & Hi & Hr). pose proof (reach_next _ _ _ _ Hr) as Hr'. destruct (tokenizer_next utf8 pw it) as [[[t|e|f]|] it'] eqn:En; cbn [snd] in Hr'; try discriminate E; injection E as <-;
      (apply Forall_cons; [exists s; split; assumption|]); try apply Forall_nil; exact (token_sound _ _ _ _ _ _ Hi Hr En).
  - destruct A as (s & Hi & Hr). pose proof (reach_eof _ _ _ _ Hr) as Hr'. destruct (next_or_eof utf8 pw it) as [[t|e|f] it'] eqn:En; cbn [snd] in Hr'; try discriminate E; injection E as <-;
      (apply Forall_cons; [exists s; split; assumption|]); try apply Forall_nil; exact (token_sound _ _ _ _ _ _ Hi Hr (eof_token _ _ _ _ _ _ Hi Hr En)).
  - apply one. destruct A as (s & Hi & Hr). exists s. split; [exact Hi|apply reach_peek, Hr].
  - apply one. destruct A as (cfg & s & v & H). exists cfg, s, d, v, []. split; [exact H|reflexivity].
  - destruct A as (cfg & s & d & v & pre & H & Ed). destruct it as [|n it]; cbn [doc_next] in E; injection E as <-; cbn [opt].
    + apply one. exists cfg, s, d, v, pre. auto.
    + constructor; [exists cfg, s, d, v, (pre ++ [n]); split; [exact H|rewrite <- app_assoc; exact Ed]|].
      pose proof (preorder_parts pw v (document_constructible _ _ _ _ _ H)) as K. rewrite <- (document_preorder _ _ _ _ _ H), Ed in K.
      apply Forall_app in K as [_ K]. inv K. assumption.
  - destruct A as (cfg & s & d & v & pre & H & Ed). destruct ret as [o it']. cbn [fst snd] in *. pose proof (document_preorder _ _ _ _ _ H) as Ep.
    destruct it as [|n it].
    + cbn in E. injection E as <- <-. apply one. exists cfg, s, d, v, pre. auto.
    + rewrite Ep in Ed. destruct (preorder_starts v _ _ Ed ltac:(discriminate)) as (w & rest & Ew). rewrite Ew, next_value_preorder in E. injection E as <- <-. cbn [opt].
      constructor; [exists cfg, s, d, v, (pre ++ preorder w); split; [exact H|rewrite Ep, Ed, Ew, <- app_assoc; reflexivity]|].
      apply one. apply (inside_constructible pw v w pre rest); [eapply document_constructible, H|rewrite Ed, Ew; reflexivity].
  - destruct A as (cfg & s & d & v & pre & H & Ed). destruct (C13_skip_total it) as (p & it' & E' & Ei). rewrite E in E'. injection E' as <-.
    apply one. exists cfg, s, d, v, (pre ++ p). split; [exact H|rewrite Ed, Ei, <- app_assoc; reflexivity].
  - destruct A as (cfg & s & v & H). rewrite (document_preorder _ _ _ _ _ H), value_from_document_preorder in E. injection E as <-.
    apply one. eapply document_constructible, H.
  - apply text_fits; [|exact F]. destruct (C23_decoding_never_panics pw x A) as (cs & E' & Hc & _). rewrite E in E'. injection E' as <-. apply scalars_utf8, Hc.
  - apply text_fits; [|exact F]. destruct (C23_decoding_never_panics pw x A) as (cs & _ & Hc & E'). rewrite E in E'. injection E' as ->. apply scalars_utf8, Hc.
  - apply text_fits; [|exact F]. destruct (C23_decoding_never_panics pw x A) as (cs & E' & Hc & _). destruct (C34_decode_if_needed pw x cs A E') as (b & E2 & Eb & _).
    rewrite E in E2. injection E2 as ->. rewrite Eb. apply scalars_utf8, Hc.
  - apply text_fits; [|exact F]. apply scalars_utf8. apply (as_json_loose pw x _ A E).
  - apply text_fits; [|exact F]. unfold js_escape_if_needed in E. pose proof (obtainable_utf8 pw x A) as Hu. unfold stored in Hu. destruct (js_source x) as [b|b].
    + injection E as <-. exact Hu.
    + destruct (js_as_json pw x) as [cs|[]|f] eqn:Ej; cbn [bind] in E; [|discriminate]. injection E as <-. cbn [any_str]. apply scalars_utf8, (as_json_loose pw x _ A Ej).
  - pose proof (obtainable_utf8 pw x A) as Hu. unfold stored, js_as_json_str in *. destruct (js_source x) as [b|b]; cbn [opt] in *; [|constructor]. apply text_fits; assumption.
  - pose proof (obtainable_utf8 pw x A) as Hu. unfold stored, js_as_str in *. destruct (js_source x) as [b|b]; cbn [opt] in *; [destruct (negb (has_escapes pw (js_info x))); cbn [opt] in *|]; try apply Forall_nil; apply text_fits; assumption.
  - apply one. right. exists s. split; [exact A|left; exact E].
  - apply one. right. exists s. split; [exact A|right; exact E].
  - apply text_fits; [|exact F]. apply (number_utf8 pw), A.
  - apply one. split; constructor.
  - apply one. split; constructor.
  - apply one. apply constructible_number, A.
  - apply one. apply constructible_string, A.
  - apply one. apply values_sound, U.
  - apply one. exact A.
  - unfold value_from_str in E. destruct (js_from_str pw s) as [x|[]|f] eqn:Ex; cbn [bind] in E; [|discriminate]. injection E as <-. apply one, constructible_string. right. exists s. split; [exact A|left; exact Ex].
  - unfold value_from_string in E. destruct (js_from_string pw s) as [x|[]|f] eqn:Ex; cbn [bind] in E; [|discriminate]. injection E as <-. apply one, constructible_string. right. exists s. split; [exact A|right; exact Ex].
  - destruct v; cbn [as_object opt]; try apply Forall_nil. apply one. exact A.
  - destruct v; cbn [as_array opt]; try apply Forall_nil. apply values_sound. exact A.
  - destruct v; cbn [as_string opt]; try apply Forall_nil. apply one. apply constructible_string. exact A.
  - destruct v; cbn [as_number opt]; try apply Forall_nil. apply one. apply constructible_number. exact A.
  - destruct v as [|x| | | |]; cbn [value_as_str opt] in *; try apply Forall_nil. apply constructible_string in A. pose proof (obtainable_utf8 pw x A) as Hu.
    unfold stored, js_as_str in *. destruct (js_source x) as [b|b]; cbn [opt] in *; [destruct (negb (has_escapes pw (js_info x))); cbn [opt] in *|]; try apply Forall_nil; apply text_fits; assumption.
  - destruct (lookup_cases pw v key A (proj1 A0)) as [(x & st & E1 & _ & _ & _ & Hx & _)|(E1 & _)]; rewrite E in E1; injection E1 as ->; [apply one, Hx|constructor].
  - destruct (index_cases pw v i A) as [(x & st & E1 & _ & _ & _ & Hx & _)|(E1 & _)]; rewrite E1; cbn [opt]; [apply one, Hx|constructor].
  - destruct (index_cases pw v i A) as [(x & st & _ & E1 & _ & _ & Hx & _)|(_ & E1 & _)]; rewrite E in E1; [injection E1 as ->; apply one, Hx|discriminate].
  - destruct (lookup_cases pw v key A (proj1 A0)) as [(x & st & _ & E1 & _ & _ & Hx & _)|(_ & E1 & _)]; rewrite E in E1; [injection E1 as ->; apply one, Hx|discriminate].
  - destruct (lookup_cases pw v key A (proj1 A0)) as [(x & st & _ & _ & E1 & _ & Hx & Hs)|(_ & _ & E1 & _)]; rewrite E in E1; injection E1 as ->; cbn [opt]; [|constructor].
    constructor; [apply Hs; assumption|apply one, Hx].
  - destruct (index_cases pw v i A) as [(x & st & _ & _ & E1 & _ & Hx & Hs)|(_ & _ & E1 & _)]; rewrite E1; cbn [opt]; [|constructor].
    constructor; [apply Hs; assumption|apply one, Hx].
  - destruct (index_cases pw v i A) as [(x & st & _ & _ & _ & E1 & Hx & Hs)|(_ & _ & _ & E1)]; rewrite E in E1; [injection E1 as ->|discriminate].
    constructor; [apply Hs; assumption|apply one, Hx].
  - destruct (lookup_cases pw v key A (proj1 A0)) as [(x & st & _ & _ & _ & E1 & Hx & Hs)|(_ & _ & _ & E1)]; rewrite E in E1; [injection E1 as ->|discriminate].
    constructor; [apply Hs; assumption|apply one, Hx].
  - apply text_fits; [|exact F]. eapply written_text; [exact A| |exact E]. discriminate.
  - apply text_fits; [|exact F]. eapply written_text; [exact A| |exact E]. intros _. split; (apply utf8_valid_iff; reflexivity).
  - apply text_fits; [|exact F]. eapply written_text; [exact A1| |exact E]. intros _. split; [apply A|apply A0].
  - apply one. apply constructible_object. constructor.
  - apply one. apply entries_sound, U.
  - apply entries_sound, A.
  - apply one. apply constructible_object, Forall_app. split; [apply constructible_object, A|]. constructor; [split; assumption|constructor].
  - unfold object_insert in E. destruct (Nat.leb i (length o)); [|discriminate]. injection E as <-. apply one. apply constructible_object in A. rewrite <- (firstn_skipn i o) in A.
    apply Forall_app in A as [H1 H2]. apply constructible_object, Forall_app. split; [exact H1|]. constructor; [split; assumption|exact H2].
  - destruct (nth_error o i) as [[k v]|] eqn:En; [|unfold object_remove in E; rewrite En in E; discriminate].
    apply nth_error_split in En as (pre & post & -> & <-). rewrite remove_at in E. injection E as <-. cbn [fst snd].
    destruct (nth_split_entry pw _ pre k v post eq_refl A) as (Hv & _ & Hk & Hr). constructor; [exact Hr|]. constructor; [exact Hk|apply one, Hv].
  - destruct (C69_retain pw o key (constructible_keys _ _ A) (proj1 A0)) as (o' & E' & Hin & _). rewrite E in E'. injection E' as <-. apply one.
    apply constructible_object. apply constructible_object in A. rewrite Forall_forall in *. intros e He. apply A, Hin, He.
  - destruct (C40_get pw o key (constructible_keys _ _ A) (proj1 A0)) as (r & E' & K). rewrite E in E'. injection E' as <-. destruct ret as [v|]; cbn [opt]; [|constructor].
    destruct K as (pre & k & post & Ho & _). apply one. apply (nth_split_entry pw o pre k v post Ho A).
  - destruct (C40_get_mut pw o key (constructible_keys _ _ A) (proj1 A0)) as (r & E' & K). rewrite E in E'. injection E' as <-. destruct ret as [[v st]|]; cbn [opt]; [|constructor].
    destruct K as (pre & k & post & (Ho & _) & Hst). destruct (nth_split_entry pw o pre k v post Ho A) as (Hv & Hs & Hk & _).
    constructor; [cbn [sound fst snd]; rewrite Hst; apply Hs; assumption|apply one, Hv].
  - destruct (C40_get_entry_mut pw o key (constructible_keys _ _ A) (proj1 A0)) as (r & E' & K). rewrite E in E'. injection E' as <-. destruct ret as [[[k0 v] st]|]; cbn [opt]; [|constructor].
    destruct K as (pre & post & (Ho & _) & Hst). cbn [fst snd] in *. destruct (nth_split_entry pw o pre k0 v post Ho A) as (Hv & Hs & Hk & _).
    constructor; [cbn [sound fst snd]; rewrite Hst; apply Hs; assumption|]. constructor; [exact Hk|apply one, Hv].
Qed.

Lemma returns_not {E A} (r : res E A) f : returns r -> r <> Fault f.
Proof. intros [[a ->]|[e ->]]; discriminate. Qed.
Lemma answer_panics pw c f : Forall (sound pw) (uses c) -> answer pw c = Fault f -> may_panic pw c f.
Proof.
  intros U E. destruct c; cbn [uses answer may_panic] in *; take U; try discriminate E; try (apply gets_fault in E).
  - apply returns_not in E; [exact E|apply (C05_parsing_returns_str pw cfg None s A)].
  - apply returns_not in E; [exact E|apply (C05_parsing_returns pw cfg None s A)].
  - apply returns_not in E; [exact E|apply (C05_parsing_returns_str pw cfg cap s A)].
  - apply returns_not in E; [exact E|apply (C05_parsing_returns pw cfg cap s A)].
  - apply returns_not in E; [exact E|apply (C05_parsing_returns_str pw cfg None s A)].
  - apply returns_not in E; [exact E|apply (C05_parsing_returns pw cfg None s A)].
  - pose proof (str_scalar pw s A) as G. cbn zeta in G. destruct (C05_parsing_returns_str pw config_default None s A) as (K & _).
    change (value_from_json_with_config pw s config_default) with (value_from_json pw s) in K. rewrite E in G. destruct K as [[v Ev]|[e Ev]]; rewrite Ev in G.
    + destruct G as [(a & _ & G)|[(o & G) _]]; discriminate.
    + destruct G as [G|(o & G)]; discriminate.
  - pose proof (num_scalar pw s A) as G. cbn zeta in G. destruct (C05_parsing_returns_str pw config_default None s A) as (K & _).
    change (value_from_json_with_config pw s config_default) with (value_from_json pw s) in K. rewrite E in G. destruct K as [[v Ev]|[e Ev]]; rewrite Ev in G.
    + destruct G as [(a & _ & G)|[(o & G) _]]; discriminate.
    + destruct G as [G|(o & G)]; discriminate.
  - destruct A as (s & Hi & Hr). destruct (C05_tokenizer_never_panics utf8 pw s it f Hi Hr) as [K _]. apply K. destruct (tokenizer_next utf8 pw it) as [[[t|e|g]|] it']; cbn [fst]; congruence.
  - destruct A as (s & Hi & Hr). destruct (C05_tokenizer_never_panics utf8 pw s it f Hi Hr) as [_ K]. apply K. destruct (next_or_eof utf8 pw it) as [[t|e|g] it']; cbn [fst]; congruence.
  - destruct (doc_next it). discriminate.
  - destruct A as (cfg & s & d & v & pre & H & Ed). pose proof (document_preorder _ _ _ _ _ H) as Ep. destruct it as [|n it]; [discriminate|].
    rewrite Ep in Ed. destruct (preorder_starts v _ _ Ed ltac:(discriminate)) as (w & rest & Ew). rewrite Ew, next_value_preorder in E. discriminate.
  - destruct (C13_skip_total it) as (p & it' & E' & _). congruence.
  - destruct A as (cfg & s & v & H). rewrite (document_preorder _ _ _ _ _ H), value_from_document_preorder in E. discriminate.
  - destruct A as (cfg & s & v & H), A0 as (cfg' & s' & v' & H'). destruct (C73_document_equality _ _ _ _ _ _ _ _ _ H H') as (r & K & _). congruence.
  - destruct (C23_decoding_never_panics pw x A) as (cs & E' & _). congruence.
  - destruct (C23_decoding_never_panics pw x A) as (cs & _ & _ & E'). congruence.
  - destruct (C23_decoding_never_panics pw x A) as (cs & E' & _). destruct (C34_decode_if_needed pw x cs A E') as (b & E2 & _). congruence.
  - apply as_json_panics; auto.
  - apply as_json_panics; auto.
  - apply from_panics; auto.
  - apply from_panics; auto.
  - destruct (C23_comparing_never_panics pw x y [] A A0 (ex_intro _ [] (conj (Forall_nil _) eq_refl))) as ((b & K) & _). congruence.
  - destruct (C23_comparing_never_panics pw x x s A A (proj1 A0)) as (_ & (b & K) & _). congruence.
  - destruct (C23_comparing_never_panics pw x y [] A A0 (ex_intro _ [] (conj (Forall_nil _) eq_refl))) as (_ & _ & (b & K) & _). congruence.
  - destruct (C23_comparing_never_panics pw x y [] A A0 (ex_intro _ [] (conj (Forall_nil _) eq_refl))) as (_ & _ & _ & (b & K) & _). congruence.
  - destruct (C23_comparing_never_panics pw x x s A A (proj1 A0)) as (_ & _ & _ & _ & (b & K) & _). congruence.
  - destruct (C23_comparing_never_panics pw x x [] A A (ex_intro _ [] (conj (Forall_nil _) eq_refl))) as (_ & _ & _ & _ & _ & b & K). congruence.
  - apply C63_from_text_panics_like_json_string in E. apply from_panics; auto.
  - apply C63_from_text_panics_like_json_string in E. apply from_panics; auto.
  - destruct (lookup_cases pw v key A (proj1 A0)) as [(x & st & E1 & _)|(E1 & _)]; congruence.
  - destruct (index_cases pw v i A) as [(x & st & E1 & E2 & _)|(E1 & E2 & _)]; split; congruence.
  - destruct (lookup_cases pw v key A (proj1 A0)) as [(x & st & E1 & E2 & _)|(E1 & E2 & _)]; split; congruence.
  - destruct (lookup_cases pw v key A (proj1 A0)) as [(x & st & _ & _ & E1 & _)|(_ & _ & E1 & _)]; congruence.
  - destruct (index_cases pw v i A) as [(x & st & E1 & _ & _ & E2 & _)|(E1 & _ & _ & E2)]; split; congruence.
  - destruct (lookup_cases pw v key A (proj1 A0)) as [(x & st & E1 & _ & _ & E2 & _)|(E1 & _ & _ & E2)]; split; congruence.
  - destruct (C54_never_panics pw v w (proj1 A) (proj1 A0)) as (b & K). congruence.
  - split; [eapply written_overflow; [exact A|exact E]|apply unwritten; [exact A|intros u K; congruence]].
  - split; [eapply written_overflow; [exact A|exact E]|apply (unwritten_pretty pw [32; 32] [10]); [exact A|intros u K]]. change (to_json_pretty pw v = Ok u) in K. congruence.
  - split; [eapply written_overflow; [exact A1|exact E]|eapply unwritten_pretty; [exact A1|intros u K]; rewrite E in K; discriminate].
  - unfold object_insert in E. destruct (Nat.leb_spec i (length o)); [discriminate|]. split; [congruence|assumption].
  - unfold object_remove in E. destruct (nth_error o i) eqn:En; [discriminate|]. apply nth_error_None in En. split; [congruence|assumption].
  - destruct (C69_retain pw o key (constructible_keys _ _ A) (proj1 A0)) as (o' & E' & _). congruence.
  - destruct (C40_get pw o key (constructible_keys _ _ A) (proj1 A0)) as (r & E' & K). congruence.
  - destruct (C40_get_mut pw o key (constructible_keys _ _ A) (proj1 A0)) as (r & E' & K). congruence.
  - destruct (C40_get_entry_mut pw o key (constructible_keys _ _ A) (proj1 A0)) as (r & E' & K). congruence.
Qed.

Lemma holds_sound pw env : holds pw env -> Forall (sound pw) env.
Proof.
  induction 1 as [|s env Hs _ IH|s env Hs _ IH|c new env _ IH Hu Ha Hf]; [constructor|constructor; assumption|constructor; assumption|].
  apply Forall_app. split; [|exact IH]. apply (answer_sound pw c); [|exact Ha|exact Hf]. rewrite Forall_forall in *. intros i Hi. apply IH, Hu, Hi.
Qed.
Lemma uses_sound pw env c : holds pw env -> incl (uses c) env -> Forall (sound pw) (uses c).
Proof. intros H Hu. apply holds_sound in H. rewrite Forall_forall in *. intros i Hi. apply H, Hu, Hi. Qed.

(** * C99 *)

(** Whatever a program has done before: a call with what it holds never executes the undefined behaviour of [from_utf8_unchecked]
    or [char::from_u32_unchecked]; it returns, or it panics for one of the listed reasons - text too long to count, or an index
    or key that is not there. *)
Theorem C99_no_undefined_behaviour pw env c : holds pw env -> incl (uses c) env ->
  answer pw c <> Fault FUtf8UB /\ answer pw c <> Fault FCharUB.
Proof.
  intros H Hu. pose proof (uses_sound pw env c H Hu) as K. split; intro E; apply (answer_panics pw c _ K) in E; destruct c; cbn [may_panic] in E; try exact E; destruct E as [E _]; discriminate E.
Qed.
Theorem C99_only_these_panics pw env c f : holds pw env -> incl (uses c) env -> answer pw c = Fault f -> may_panic pw c f.
Proof. intros H Hu. apply answer_panics, (uses_sound pw env c H Hu). Qed.

(** ** What can be held *)
Definition can (pw : pwidth) (i : item) : Prop := exists env, holds pw env /\ In i env.
Lemma holds_merge pw e1 e2 : holds pw e1 -> holds pw e2 -> holds pw (e1 ++ e2).
Proof.
  intros H1 H2. induction H1 as [|s env Hs _ IH|s env Hs _ IH|c new env _ IH Hu Ha Hf]; cbn [app]; [exact H2|apply holds_text; assumption|apply holds_bytes; assumption|].
  rewrite <- app_assoc. apply (holds_answer pw c); [exact IH| |exact Ha|exact Hf]. intros i Hi. apply in_or_app. left. apply Hu, Hi.
Qed.
Lemma can_all pw l : Forall (can pw) l -> exists env, holds pw env /\ incl l env.
Proof.
  induction 1 as [|i l (e1 & H1 & Hi) _ (e2 & H2 & Hl)]; [exists []; split; [constructor|intros i []]|].
  exists (e1 ++ e2). split; [apply holds_merge; assumption|]. intros j [<-|Hj]; apply in_or_app; [left; exact Hi|right; apply Hl, Hj].
Qed.
Lemma can_call pw c new i : Forall (can pw) (uses c) -> answer pw c = Ok new -> Forall (fits pw) new -> In i new -> can pw i.
Proof.
  intros Hu Ha Hf Hi. apply can_all in Hu as (env & H & Hu). exists (new ++ env). split; [apply (holds_answer pw c); assumption|apply in_or_app; left; exact Hi].
Qed.
Lemma can_one pw c i : Forall (can pw) (uses c) -> answer pw c = Ok [i] -> fits pw i -> can pw i.
Proof. intros Hu Ha Hf. apply (can_call pw c [i]); [exact Hu|exact Ha|constructor; [exact Hf|constructor]|left; reflexivity]. Qed.
Lemma can_text pw s : rust_str pw s -> can pw (IText s).
Proof. intro H. exists [IText s]. split; [apply holds_text; [exact H|constructor]|left; reflexivity]. Qed.
Lemma can_bytes pw s : rust_slice pw s -> can pw (IBytes s).
Proof. intro H. exists [IBytes s]. split; [apply holds_bytes; [exact H|constructor]|left; reflexivity]. Qed.
Lemma only_one pw i : can pw i -> Forall (can pw) [i].
Proof. intro H. constructor; [exact H|constructor]. Qed.
Lemma fits_values pw l : Forall (fits pw) (map IValue l).
Proof. apply Forall_map, Forall_forall. intros. exact I. Qed.
Lemma fits_entries pw o : Forall (fits pw) (entries o).
Proof. unfold entries. apply Forall_flat_map, Forall_forall. intros e _. repeat constructor. Qed.
Lemma fits_node pw n : Forall (fits pw) (node_items n).
Proof. destruct n; repeat constructor. Qed.
Lemma fits_token pw t : Forall (fits pw) (token_items t).
Proof. destruct t; repeat constructor. Qed.

Lemma can_entry pw o e : can pw (IValue (VObject o)) -> In e o -> can pw (IString (fst e)) /\ can pw (IValue (snd e)).
Proof.
  intros H Hin. assert (Ho : can pw (IObject o)) by (apply (can_one pw (AsObject (VObject o))); [apply only_one, H|reflexivity|exact I]).
  split; apply (can_call pw (ObjectEntries o) (entries o)); try apply only_one, Ho; try reflexivity; try apply fits_entries;
    unfold entries; apply in_flat_map; exists e; (split; [exact Hin|cbn; auto]).
Qed.
Lemma can_element pw l v : can pw (IValue (VArray l)) -> In v l -> can pw (IValue v).
Proof.
  intros H Hin. apply (can_call pw (AsArray (VArray l)) (map IValue l)); [apply only_one, H|reflexivity|apply fits_values|apply in_map, Hin].
Qed.
Lemma can_string_in pw x v : string_in x v -> can pw (IValue v) -> can pw (IString x).
Proof.
  induction 1 as [|l v Hin _ IH|o v Hin|o k v Hin _ IH]; intro H.
  - apply (can_one pw (AsString (VString x))); [apply only_one, H|reflexivity|exact I].
  - apply IH. eapply can_element; eassumption.
  - apply (can_entry pw o (x, v) H Hin).
  - apply IH. apply (can_entry pw o (k, v) H Hin).
Qed.
Lemma can_number_in pw x v : number_in x v -> can pw (IValue v) -> can pw (INumber x).
Proof.
  induction 1 as [|l v Hin _ IH|o k v Hin _ IH]; intro H.
  - apply (can_one pw (AsNumber (VNumber x))); [apply only_one, H|reflexivity|exact I].
  - apply IH. eapply can_element; eassumption.
  - apply IH. apply (can_entry pw o (k, v) H Hin).
Qed.
Lemma can_value_bytes pw s cfg v : rust_slice pw s -> value_from_json_bytes_with_config pw s cfg = Ok v -> can pw (IValue v).
Proof. intros H E. apply (can_one pw (ParseValueBytes s cfg)); [apply only_one, can_bytes, H|cbn [answer]; rewrite E; reflexivity|exact I]. Qed.
Lemma can_value_str pw s cfg v : rust_str pw s -> value_from_json_with_config pw s cfg = Ok v -> can pw (IValue v).
Proof. intros H E. apply (can_one pw (ParseValue s cfg)); [apply only_one, can_text, H|cbn [answer]; rewrite E; reflexivity|exact I]. Qed.
Lemma can_document pw s cap cfg d : rust_slice pw s -> document_from_json_bytes_with_config pw cap s cfg = Ok d -> can pw (IDocument d).
Proof. intros H E. apply (can_one pw (ParseDocumentBytes cap s cfg)); [apply only_one, can_bytes, H|cbn [answer]; rewrite E; reflexivity|exact I]. Qed.
Lemma can_node pw n i : In i (node_items n) -> forall it, In n it -> can pw (IIter it) -> can pw i.
Proof.
  intros Hi. induction it as [|m it IH]; intros Hn H; [destruct Hn|].
  assert (K : forall j, In j (IIter it :: node_items m) -> can pw j).
  { intros j Hj. apply (can_call pw (IterNext (m :: it)) (IIter it :: node_items m)); [apply only_one, H|reflexivity|constructor; [exact I|apply fits_node]|exact Hj]. }
  destruct Hn as [->|Hn]; [apply K; right; exact Hi|apply IH; [exact Hn|apply K; left; reflexivity]].
Qed.
Lemma can_in_document pw s cap cfg d n i : rust_slice pw s -> document_from_json_bytes_with_config pw cap s cfg = Ok d -> In n d -> In i (node_items n) -> can pw i.
Proof.
  intros H E Hn Hi. apply (can_node pw n i Hi d Hn). apply (can_one pw (DocumentIterate d)); [apply only_one; eapply can_document; eassumption|reflexivity|exact I].
Qed.
Lemma can_next g pw s it j : input_ok g pw s -> reachable g pw s it -> can pw (ITokenizer g it) ->
  In j (ITokenizer g (snd (tokenizer_next g pw it)) :: match fst (tokenizer_next g pw it) with Some (Ok t) => token_items t | _ => [] end) -> can pw j.
Proof.
  intros Hi Hr H Hj. destruct (tokenizer_next g pw it) as [r it'] eqn:E. cbn [fst snd] in Hj.
  apply (can_call pw (TokenizerNext g it) (ITokenizer g it' :: match r with Some (Ok t) => token_items t | _ => [] end)); [apply only_one, H| | |exact Hj].
  - cbn [answer]. rewrite E. destruct r as [[t|e|f]|]; try reflexivity. exfalso. apply (proj1 (C05_tokenizer_never_panics g pw s it f Hi Hr)). rewrite E. reflexivity.
  - constructor; [exact I|]. destruct r as [[t|e|f]|]; try apply Forall_nil. apply fits_token.
Qed.
Lemma can_tokenizer g pw s it : input_ok g pw s -> reachable g pw s it -> can pw (ITokenizer g it).
Proof.
  intros Hi (cs & ->). assert (K : can pw (ITokenizer g (tokenizer_new s))).
  { destruct g; cbn [input_ok] in Hi; [apply (can_one pw (TokenizerNew s)); [apply only_one, can_text, Hi|reflexivity|exact I]|
      apply (can_one pw (TokenizerNewBytes s)); [apply only_one, can_bytes, Hi|reflexivity|exact I]]. }
  induction cs as [|c cs IH] using rev_ind; [exact K|]. assert (Hr : reachable g pw s (snd (tok_run g pw (tokenizer_new s) cs))) by (exists cs; reflexivity).
  rewrite tok_run_app. generalize dependent (snd (tok_run g pw (tokenizer_new s) cs)). intros it IH Hr. cbn [tok_run].
  destruct c; cbn [tok_step].
  - pose proof (can_next g pw s it _ Hi Hr IH (or_introl eq_refl)) as G. destruct (tokenizer_next g pw it) as [r it']. exact G.
  - destruct (next_or_eof g pw it) as [r it'] eqn:E. cbn [snd].
    apply (can_call pw (TokenizerNextOrEof g it) (ITokenizer g it' :: match r with Ok t => token_items t | _ => [] end)); [apply only_one, IH| | |left; reflexivity].
    + cbn [answer]. rewrite E. destruct r as [t|e|f]; try reflexivity. exfalso. apply (proj2 (C05_tokenizer_never_panics g pw s it f Hi Hr)). rewrite E. reflexivity.
    + constructor; [exact I|]. destruct r; try apply Forall_nil. apply fits_token.
  - assert (G : can pw (ITokenizer g (snd (tokenizer_peek it)))) by (apply (can_one pw (TokenizerPeek g it)); [apply only_one, IH|reflexivity|exact I]).
    destruct (tokenizer_peek it). exact G.
Qed.
Lemma can_token g pw s it t it' j : input_ok g pw s -> reachable g pw s it -> tokenizer_next g pw it = (Some (Ok t), it') -> In j (token_items t) -> can pw j.
Proof.
  intros Hi Hr E Hj. apply (can_next g pw s it j Hi Hr (can_tokenizer g pw s it Hi Hr)). rewrite E. right. exact Hj.
Qed.

Lemma can_obtain pw x : obtainable pw x -> can pw (IString x).
Proof.
  intros [H|(s & Hs & [E|E])].
  - destruct H as [s cfg v H E Hx|s cfg v H E Hx|s cfg cap d H E Hx|g s it it' Hi Hr E|s H E].
    + eapply can_string_in; [exact Hx|eapply can_value_bytes; eassumption].
    + eapply can_string_in; [exact Hx|eapply can_value_str; eassumption].
    + eapply can_in_document; [exact H|exact E|exact Hx|left; reflexivity].
    + eapply can_token; [exact Hi|exact Hr|exact E|left; reflexivity].
    + apply (can_one pw (StringFromJson s)); [apply only_one, can_text, H|cbn [answer]; rewrite E; reflexivity|exact I].
  - apply (can_one pw (FromStr s)); [apply only_one, can_text, Hs|cbn [answer]; rewrite E; reflexivity|exact I].
  - apply (can_one pw (FromString s)); [apply only_one, can_text, Hs|cbn [answer]; rewrite E; reflexivity|exact I].
Qed.
Lemma can_number pw x : number_obtainable pw x -> can pw (INumber x).
Proof.
  intros [s cfg v H E Hx|s cfg v H E Hx|s cfg cap d H E Hx|g s it it' Hi Hr E|s H E].
  - eapply can_number_in; [exact Hx|eapply can_value_bytes; eassumption].
  - eapply can_number_in; [exact Hx|eapply can_value_str; eassumption].
  - eapply can_in_document; [exact H|exact E|exact Hx|left; reflexivity].
  - eapply can_token; [exact Hi|exact Hr|exact E|left; reflexivity].
  - apply (can_one pw (NumberFromJson s)); [apply only_one, can_text, H|cbn [answer]; rewrite E; reflexivity|exact I].
Qed.
Lemma can_construct pw v : constructible pw v -> can pw (IValue v).
Proof.
  induction v as [n|s|b|o IH|l IH|] using value_ind'; intro H.
  - apply (can_one pw (MakeNumber n)); [apply only_one, can_number, constructible_number, H|reflexivity|exact I].
  - apply (can_one pw (MakeString s)); [apply only_one, can_obtain, constructible_string, H|reflexivity|exact I].
  - apply (can_one pw (MakeBool b)); [constructor|reflexivity|exact I].
  - apply (can_one pw (MakeObject o)); [|reflexivity|exact I]. apply only_one. apply (can_one pw (ObjectFromIter o)); [|reflexivity|exact I].
    cbn [uses]. unfold entries. apply Forall_flat_map. apply constructible_object in H. rewrite Forall_forall in *. intros e He. destruct (H e He) as [H1 H2].
    constructor; [apply can_obtain, H1|apply only_one, (IH e He), H2].
  - apply (can_one pw (MakeArray l)); [|reflexivity|exact I]. cbn [uses]. apply Forall_map. apply constructible_array in H. rewrite Forall_forall in *. intros v Hv. apply (IH v Hv), H, Hv.
  - apply (can_one pw MakeNull); [constructor|reflexivity|exact I].
Qed.

(** What a program can hold is exactly what the other claims quantify over: UTF-8 texts that fit, the strings of [obtainable], the
    numbers of [number_obtainable], the values of [constructible], and documents and iterators read from some input. *)
Theorem C99_what_a_program_can_hold pw :
  (forall s, (exists env, holds pw env /\ In (IText s) env) <-> is_utf8 s /\ N.of_nat (length s) <= isize_max pw) /\
  (forall x, (exists env, holds pw env /\ In (IString x) env) <-> obtainable pw x) /\
  (forall n, (exists env, holds pw env /\ In (INumber n) env) <-> number_obtainable pw n) /\
  (forall v, (exists env, holds pw env /\ In (IValue v) env) <-> constructible pw v) /\
  (forall o, (exists env, holds pw env /\ In (IObject o) env) <-> constructible pw (VObject o)) /\
  (forall d, (exists env, holds pw env /\ In (IDocument d) env) <-> exists cfg s v, document_for pw cfg s d v) /\
  (forall g it, (exists env, holds pw env /\ In (ITokenizer g it) env) <-> exists s, input_ok g pw s /\ reachable g pw s it).
Proof.
  assert (S : forall i, can pw i -> sound pw i) by (intros i (env & H & Hi); apply holds_sound in H; rewrite Forall_forall in H; apply H, Hi).
  repeat split; try (intro H; apply S in H; exact H); try (apply S in H; apply H).
  - intros [H1 H2]. apply can_text. split; assumption.
  - apply can_obtain.
  - apply can_number.
  - apply can_construct.
  - intro H. apply (can_one pw (AsObject (VObject o))); [apply only_one, can_construct, H|reflexivity|exact I].
  - intros (cfg & s & v & cap & [(H & E & _)|(H & E & _)]); [eapply can_document; eassumption|].
    apply (can_one pw (ParseDocument cap s cfg)); [apply only_one, can_text, H|cbn [answer]; rewrite E; reflexivity|exact I].
  - intros (s & Hi & Hr). eapply can_tokenizer; eassumption.
Qed.

(** ** Exactly which calls panic *)

(** The exact conditions.  A text is refused by the conversions to [JsonString] exactly if the library's count of its escaped form -
    the number of bytes of the escaped text, less one for every character from U+0080 to U+00FF, which is two bytes long and counted as one - exceeds [isize::MAX].
    All the others are as listed above. *)
Definition uncounted_text (pw : pwidth) (s : list N) : Prop :=
  exists cs, Forall (fun c => is_scalar c = true) cs /\ s = utf8_string cs /\ isize_max pw < escaped_length cs - latin1_count cs.
Definition panics (pw : pwidth) (c : call) (f : fault) : Prop :=
  match c with
  | FromStr s | FromString s | ValueFromStr s | ValueFromString s => f = FOverflow /\ uncounted_text pw s
  | _ => may_panic pw c f
  end.

Lemma from_exactly pw s : rust_str pw s ->
  (forall f, js_from_str pw s = Fault f <-> f = FOverflow /\ uncounted_text pw s) /\
  (forall f, js_from_string pw s = Fault f <-> f = FOverflow /\ uncounted_text pw s).
Proof.
  intro Hs. split; intro f; split.
  1,3: intro E; pose proof Hs as [(cs & Hc & Ecs) _]; pose proof (C45_from_exactly pw cs s Hc Ecs Hs) as K;
    destruct (N.leb_spec (escaped_length cs - latin1_count cs) (isize_max pw)) as [L|L]; destruct K as [K1 K2];
    [destruct K1, K2; congruence|split; [congruence|exists cs; auto]].
  1,2: intros [-> (cs & Hc & Ecs & L)]; pose proof (C45_from_exactly pw cs s Hc Ecs Hs) as K;
    destruct (N.leb_spec (escaped_length cs - latin1_count cs) (isize_max pw)); [lia|apply K].
Qed.
Lemma uncountable_panics pw x : obtainable pw x -> uncountable pw x -> js_as_json pw x = Fault FOverflow /\ js_escape_if_needed pw x = Fault FOverflow.
Proof.
  intros Hx [H1 H2]. pose proof (C45_as_json_exactly pw x Hx) as K. unfold is_json_form in H1. destruct (js_source x); [tauto|].
  destruct (N.leb_spec (2 * js_len pw x) (isize_max pw)); [lia|exact K].
Qed.
Lemma uncountable_unwritten pw v x u : constructible pw v -> string_in x v -> uncountable pw x -> to_json pw v <> Ok u.
Proof.
  intros Hv Hx [H1 H2] E. assert (A : all_strings (recount_fits pw) v) by (apply (C38_serializes_iff pw v Hv); eauto).
  assert (B : recount_fits pw x) by (clear - A Hx; revert A; induction Hx; inversion 1; subst; rewrite ?Forall_forall in *; firstorder).
  destruct B; [tauto|lia].
Qed.
Lemma uncountable_unwritten_pretty pw indent eol v x u : constructible pw v -> string_in x v -> uncountable pw x -> to_json_pretty_custom pw indent eol v <> Ok u.
Proof.
  intros Hv Hx H E. apply to_json_pretty_iff in E as (t & Ht & _). eapply uncountable_unwritten; [exact Hv|exact Hx|exact H|]. apply to_json_iff. eauto.
Qed.
Lemma not_ok {A} (r : res infallible A) : (forall a, r <> Ok a) -> exists f, r = Fault f.
Proof. intro H. destruct r as [a|[]|f]; [destruct (H a eq_refl)|eauto]. Qed.
Lemma gets_faults {E A} (r : res E A) g f : r = Fault f -> gets r g = Fault f.
Proof. intros ->. reflexivity. Qed.

(** Whatever a program has done before, a call with what it holds panics exactly in these cases: nothing else panics, and each of
    these does. *)
Theorem C99_panics_exactly pw env c f : holds pw env -> incl (uses c) env -> answer pw c = Fault f <-> panics pw c f.
Proof.
  intros H Hu. pose proof (uses_sound pw env c H Hu) as U. clear env H Hu. split.
  - intro E. pose proof (answer_panics pw c f U E) as K. destruct c; try exact K; clear K; cbn [uses answer panics] in *; apply gets_fault in E;
      inversion U as [|? ? A _]; subst; cbn [sound] in A; destruct (from_exactly pw s A) as [F1 F2].
    + apply F1, E.
    + apply F2, E.
    + apply (proj1 (C63_from_text_panics_like_json_string pw s f)) in E. apply F1, E.
    + apply (proj2 (C63_from_text_panics_like_json_string pw s f)) in E. apply F2, E.
  - intro E. destruct c; cbn [panics may_panic uses answer] in *; try contradiction;
      repeat match goal with Q : Forall _ (_ :: _) |- _ => inversion Q; subst; clear Q end; cbn [sound] in *; try apply gets_faults;
      lazymatch goal with
      | A : rust_str ?pw ?s |- js_from_str _ _ = _ => apply (proj1 (from_exactly pw s A)), E
      | A : rust_str ?pw ?s |- js_from_string _ _ = _ => apply (proj2 (from_exactly pw s A)), E
      | A : rust_str ?pw ?s |- value_from_str _ _ = _ => apply (proj1 (C63_from_text_panics_like_json_string pw s f)), (proj1 (from_exactly pw s A)), E
      | A : rust_str ?pw ?s |- value_from_string _ _ = _ => apply (proj2 (C63_from_text_panics_like_json_string pw s f)), (proj2 (from_exactly pw s A)), E
      | _ => destruct E as [-> E]
      end;
      lazymatch goal with
      | |- js_as_json _ _ = _ => apply uncountable_panics; assumption
      | |- js_escape_if_needed _ _ = _ => apply uncountable_panics; assumption
      | A : constructible ?pw ?v |- value_index ?v ?i = _ => destruct (index_cases pw v i A) as [(x & st & E1 & _)|(_ & E1 & _)]; congruence
      | A : constructible ?pw ?v |- value_index_mut ?v ?i = _ => destruct (index_cases pw v i A) as [(x & st & E1 & _)|(_ & _ & _ & E1)]; congruence
      | A : constructible ?pw ?v, K : rust_str _ ?key |- value_index_str _ ?v ?key = _ =>
        destruct (lookup_cases pw v key A (proj1 K)) as [(x & st & E1 & _)|(_ & E1 & _)]; congruence
      | A : constructible ?pw ?v, K : rust_str _ ?key |- value_index_str_mut _ ?v ?key = _ =>
        destruct (lookup_cases pw v key A (proj1 K)) as [(x & st & E1 & _)|(_ & _ & _ & E1)]; congruence
      | |- object_insert ?o ?i _ = _ => unfold object_insert; destruct (Nat.leb_spec i (length o)); [lia|reflexivity]
      | |- object_remove _ _ = _ => unfold object_remove; apply nth_error_None in E; rewrite E; reflexivity
      | |- ?r = _ => destruct E as (x & Hx & E); destruct (not_ok r) as [g Eg]; [intro u|rewrite Eg; f_equal; eapply written_overflow; [|exact Eg]; assumption]
      end.
    + eapply uncountable_unwritten; eassumption.
    + apply (uncountable_unwritten_pretty pw [32; 32] [10] v x u); assumption.
    + eapply uncountable_unwritten_pretty; eassumption.
Qed.

(** Each kind of panic does happen, for some program: none of the listed cases could be left out. *)
Lemma utf8_repeat c n : c < 128 -> utf8_string (repeat c n) = repeat c n.
Proof. intro H. induction n as [|n IH]; [reflexivity|]. cbn [repeat]. rewrite utf8_string_cons, utf8_encode_ascii, IH by exact H. reflexivity. Qed.
Lemma latin1_repeat c n : c < 128 -> latin1_count (repeat c n) = 0.
Proof. intro H. induction n as [|n IH]; [reflexivity|]. cbn [repeat latin1_count]. rewrite IH. assert (128 <=? c = false) as -> by lia. reflexivity. Qed.
Lemma escaped_repeat c n : escaped_length (repeat c n) = escaped_length1 c * N.of_nat n.
Proof. induction n as [|n IH]; [cbn; lia|]. cbn [repeat escaped_length fold_right]. fold (escaped_length (repeat c n)). rewrite IH. lia. Qed.
Lemma scalar_repeat c n : is_scalar c = true -> Forall (fun c => is_scalar c = true) (repeat c n).
Proof. intro H. induction n; constructor; assumption. Qed.
Lemma isize_big pw : 0x7FFFFFFF <= isize_max pw.
Proof. destruct pw; cbn [isize_max]; lia. Qed.

Theorem C99_every_listed_panic_happens pw :
  (exists env s, holds pw env /\ In (IText s) env /\
     answer pw (FromStr s) = Fault FOverflow /\ answer pw (FromString s) = Fault FOverflow /\
     answer pw (ValueFromStr s) = Fault FOverflow /\ answer pw (ValueFromString s) = Fault FOverflow) /\
  (exists env x, holds pw env /\ In (IString x) env /\ In (IValue (VString x)) env /\
     answer pw (AsJson x) = Fault FOverflow /\ answer pw (EscapeIfNeeded x) = Fault FOverflow /\
     answer pw (ToJson (VString x)) = Fault FOverflow /\ answer pw (ToJsonPretty (VString x)) = Fault FOverflow /\
     answer pw (ToJsonPrettyCustom [] [] (VString x)) = Fault FOverflow) /\
  (exists env v w key o x, holds pw env /\ incl [IValue v; IValue w; IText key; IObject o; IString x] env /\
     answer pw (Index v 0) = Fault FExpect /\ answer pw (SetIndex v 0 w) = Fault FExpect /\
     answer pw (IndexStr v key) = Fault FExpect /\ answer pw (SetIndexStr v key w) = Fault FExpect /\
     answer pw (ObjectInsert o 1 x v) = Fault FIndex /\ answer pw (ObjectRemove o 0) = Fault FIndex).
Proof.
  pose proof (isize_big pw) as B. repeat apply conj.
  - pose (n := N.to_nat (isize_max pw)). assert (En : N.of_nat n = isize_max pw) by apply N2Nat.id. clearbody n.
    assert (Hs : rust_str pw (repeat 34 n)).
    { split; [|rewrite repeat_length; lia]. exists (repeat 34 n). split; [apply scalar_repeat; reflexivity|symmetry; apply utf8_repeat; lia]. }
    assert (U : uncounted_text pw (repeat 34 n)).
    { exists (repeat 34 n). split; [apply scalar_repeat; reflexivity|]. split; [symmetry; apply utf8_repeat; lia|].
      rewrite latin1_repeat, escaped_repeat by lia. change (escaped_length1 34) with 2. lia. }
    exists [IText (repeat 34 n)], (repeat 34 n). assert (H : holds pw [IText (repeat 34 n)]) by (apply holds_text; [exact Hs|constructor]).
    split; [exact H|]. split; [left; reflexivity|].
    repeat split; (apply (C99_panics_exactly pw _ _ _ H); [intros i Hi; exact Hi|split; [reflexivity|exact U]]).
  - pose (n := N.to_nat (isize_max pw / 4 + 1)). assert (En : N.of_nat n = isize_max pw / 4 + 1) by apply N2Nat.id. clearbody n.
    pose proof (N.div_mod (isize_max pw) 4 ltac:(lia)) as Dm. pose proof (N.mod_lt (isize_max pw) 4 ltac:(lia)) as Dl.
    assert (Hu : utf8_string (repeat 34 n) = repeat 34 n) by (apply utf8_repeat; lia).
    assert (Hc : scalars (repeat 34 n)) by (apply scalar_repeat; reflexivity).
    assert (Hs : rust_str pw (repeat 34 n)) by (split; [exists (repeat 34 n); split; [exact Hc|symmetry; exact Hu]|rewrite repeat_length; lia]).
    assert (Ek : counted (repeat 34 n) = 2 * N.of_nat n).
    { pose proof (counted_exact (repeat 34 n)) as K. rewrite <- escaped_length_eq, latin1_repeat, escaped_repeat in K by lia. change (escaped_length1 34) with 2 in K. lia. }
    assert (E : js_from_str pw (repeat 34 n) = Ok (JStr (CRaw (Borrowed (repeat 34 n))) (info_new pw true (2 * N.of_nat n)))).
    { unfold js_from_str. rewrite (from_any_ok pw _ (repeat 34 n) Hc); [|symmetry; exact Hu|rewrite Ek; lia]. unfold built_from. rewrite Ek.
      destruct n; [lia|reflexivity]. }
    pose (x := JStr (CRaw (Borrowed (repeat 34 n))) (info_new pw true (2 * N.of_nat n))). fold x in E.
    assert (U : uncountable pw x).
    { split; [intros []|]. unfold js_len, x. cbn [js_source js_info]. rewrite expected_length_info by lia. lia. }
    clearbody x.
    assert (Hx : can pw (IString x)) by (apply (can_one pw (FromStr (repeat 34 n))); [apply only_one, can_text, Hs|cbn [answer]; rewrite E; reflexivity|exact I]).
    assert (Hv : can pw (IValue (VString x))) by (apply (can_one pw (MakeString x)); [apply only_one, Hx|reflexivity|exact I]).
    assert (Ht : can pw (IText [])) by (apply can_text; split; [exists []; split; [constructor|reflexivity]|cbn; lia]).
    destruct (can_all pw [IString x; IValue (VString x); IText []]) as (env & H & Hi); [repeat constructor; assumption|].
    exists env, x. split; [exact H|]. split; [apply Hi; left; reflexivity|]. split; [apply Hi; right; left; reflexivity|].
    repeat split; (apply (C99_panics_exactly pw env _ _ H); [intros i Ii; apply Hi; cbn [uses In] in *; tauto|split; [reflexivity|]]);
      try exact U; exists x; (split; [constructor|exact U]).
  - assert (Ht : can pw (IText [])) by (apply can_text; split; [exists []; split; [constructor|reflexivity]|cbn; lia]).
    assert (Hv : can pw (IValue VNull)) by (apply (can_one pw MakeNull); [constructor|reflexivity|exact I]).
    assert (Ho : can pw (IObject object_new)) by (apply (can_one pw ObjectNew); [constructor|reflexivity|exact I]).
    assert (E : js_from_str pw [] = Ok (JStr (CJson (Borrowed [])) (info_new pw false 0))).
    { unfold js_from_str. rewrite (from_any_ok pw _ []); [reflexivity|constructor|reflexivity|cbn [counted]; lia]. }
    pose (x := JStr (CJson (Borrowed [])) (info_new pw false 0)). fold x in E.
    assert (Hx : can pw (IString x)) by (apply (can_one pw (FromStr [])); [apply only_one, Ht|cbn [answer]; rewrite E; reflexivity|exact I]).
    destruct (can_all pw [IValue VNull; IValue VNull; IText []; IObject object_new; IString x]) as (env & H & Hi); [repeat constructor; assumption|].
    exists env, VNull, VNull, [], object_new, x. split; [exact H|]. split; [exact Hi|].
    repeat split; reflexivity.
Qed.
