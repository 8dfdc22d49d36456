(** C101: no delegate makes the parser accept what is not JSON, and none makes it call JSON wrong. *)
From Verif Require Import Base Utf8 Utf8Facts StrModel ErrorModel Tokenizer Parser ValueModel DocModel NumModel Spec SpecError SpecTok SpecWrite
  TokBase ParserGen Trace ParserSound ParserComplete View ParseMain PropParse PropDelegate PropExact PropParam PropTold.
Local Open Scope N_scope.

(** * Specification *)

(** [cfg] with trailing commas and all types at the root allowed; the recursion limit is kept. *)
Definition tolerant (cfg : parse_config) : parse_config := Config true (recursion_limit cfg) true.
(** The two kinds by which the parser acts upon the answers of [*_is_empty] and [kind_of]; it asks only if the configuration
    disallows trailing commas, or scalars at the root. *)
Definition by_answer {E} (cfg : parse_config) (k : error_kind E) : Prop :=
  (k = KIllegalTrailingComma /\ allow_trailing_commas cfg = false) \/
  (k = KPayloadsShouldBeObjectOrArray /\ allow_all_types_at_root cfg = false).

(** * Proof: the run under [cfg] and the run under [tolerant cfg] *)
Section Tolerant.
  Variables (g : bool) (pw : pwidth) (cfg : parse_config) (D : delegate).
  Notation tol := (tolerant cfg).
  Definition follows {A} (m1 m2 : pm D A) : Prop := forall x,
    match m1 x with
    | (Ok a, y) => m2 x = (Ok a, y)
    | (Err e, y) => by_answer cfg (err_kind e) \/ m2 x = (Err e, y)
    | (Fault _, _) => True
    end.
  Lemma tf_refl {A} (m : pm D A) : follows m m.
  Proof. intro x. destruct (m x) as [[a|e|f] y]; auto. Qed.
  Lemma tf_bind {A B} (m1 m2 : pm D A) (k1 k2 : A -> pm D B) : follows m1 m2 -> (forall a, follows (k1 a) (k2 a)) -> follows (pbind D m1 k1) (pbind D m2 k2).
  Proof.
    intros Hm Hk x. specialize (Hm x). unfold pbind. destruct (m1 x) as [[a|e|f] y]; [| |exact I].
    - rewrite Hm. apply Hk.
    - destruct Hm as [Hm|Hm]; [left; exact Hm|right; rewrite Hm; reflexivity].
  Qed.
  Lemma tf_fault {A} f (m2 : pm D A) : follows (fun x => (Fault f, x)) m2.
  Proof. intro x. exact I. Qed.
  Lemma tf_map_err {A} k (m1 m2 : pm D A) : follows m1 m2 -> follows (p_map_err D (eof_to D k) m1) (p_map_err D (eof_to D k) m2).
  Proof.
    intros H x. specialize (H x). unfold p_map_err. destruct (m1 x) as [[a|e|f] y]; cbn [map_err]; [| |exact I].
    - rewrite H. reflexivity.
    - destruct H as [H|H]; [left|right; rewrite H; reflexivity]. unfold eof_to.
      destruct H as [[H Hc]|[H Hc]]; rewrite H; [left|right]; auto.
  Qed.
  (** The container is asked only if trailing commas are not allowed. *)
  Lemma tf_comma {A} (q : d_st D -> res infallible bool) (a : A) o :
    follows (pbind D (if allow_trailing_commas cfg then pret D true else p_query D q) (fun ok => if ok then pret D a else perr D o KIllegalTrailingComma))
            (pbind D (if allow_trailing_commas tol then pret D true else p_query D q) (fun ok => if ok then pret D a else perr D o KIllegalTrailingComma)).
  Proof.
    intro x. cbn [tolerant allow_trailing_commas]. destruct (allow_trailing_commas cfg) eqn:Ec; [reflexivity|]. unfold pbind, p_query, pret, perr.
    destruct (q (ps_del x)) as [[|]|[]|f]; [reflexivity| |exact I]. left. left. auto.
  Qed.
  Ltac tf := repeat match goal with
    | |- follows (pbind D (if allow_trailing_commas _ then _ else _) _) _ => apply tf_comma
    | |- follows (pbind D _ _) (pbind D _ _) => apply tf_bind; [|intro]
    | |- follows (p_map_err _ _ _) _ => apply tf_map_err
    | |- follows (match ?t with TkNull => _ | _ => _ end) _ => destruct t
    | |- follows (let '(_, _) := ?p in _) _ => destruct p
    | |- follows (if ?b then _ else _) _ => destruct b
    | |- follows _ _ => apply tf_refl
    end.
  Lemma tf_object_loop rv1 rv2 : follows rv1 rv2 -> forall n o, follows (object_loop g pw cfg D rv1 n o) (object_loop g pw tol D rv2 n o).
  Proof.
    intros H. induction n as [|n IH]; intro o; cbn [object_loop]; [apply tf_fault|].
    apply tf_bind; [apply tf_refl|intro]. apply tf_bind; [apply tf_refl|intros token]. destruct token; try apply tf_refl; [|apply tf_comma].
    apply tf_bind; [apply tf_refl|intros [o1 key]]. do 2 (apply tf_bind; [apply tf_refl|intros ?]).
    match goal with |- follows (match ?t with TkNull => _ | _ => _ end) _ => destruct t end; try apply tf_refl.
    apply tf_bind; [apply tf_refl|intro]. apply tf_bind; [exact H|intro]. do 3 (apply tf_bind; [apply tf_refl|intros ?]).
    match goal with |- follows (match ?t with TkNull => _ | _ => _ end) _ => destruct t end; try apply tf_refl. apply IH.
  Qed.
  Lemma tf_array_loop rv1 rv2 : follows rv1 rv2 -> forall n a, follows (array_loop g pw cfg D rv1 n a) (array_loop g pw tol D rv2 n a).
  Proof.
    intros H. induction n as [|n IH]; intro a; cbn [array_loop]; [apply tf_fault|].
    apply tf_bind; [apply tf_refl|intro]. apply tf_bind; [apply tf_refl|intros [|]]; [apply tf_comma|].
    apply tf_bind; [exact H|intro]. do 4 (apply tf_bind; [apply tf_refl|intros ?]).
    match goal with |- follows (match ?t with TkNull => _ | _ => _ end) _ => destruct t end; try apply tf_refl. apply IH.
  Qed.
  Lemma tf_read_tokens loops fuel : follows (read_tokens g pw cfg D loops fuel) (read_tokens g pw tol D loops fuel).
  Proof.
    induction fuel as [|fuel IH]; cbn [read_tokens]; [apply tf_fault|].
    apply tf_bind; [apply tf_refl|intro]. apply tf_bind; [apply tf_refl|intros token]. destruct token; try apply tf_refl.
    - apply tf_bind; [apply tf_refl|intro]. apply tf_map_err. unfold read_object. do 2 (apply tf_bind; [apply tf_refl|intro]).
      apply tf_bind; [apply tf_object_loop, IH|intro]. apply tf_refl.
    - apply tf_bind; [apply tf_refl|intro]. apply tf_map_err. unfold read_array. do 2 (apply tf_bind; [apply tf_refl|intro]).
      apply tf_bind; [apply tf_array_loop, IH|intro]. apply tf_refl.
  Qed.
  Lemma tf_root v : follows (check_root cfg D v) (check_root tol D v).
  Proof.
    intro x. unfold check_root. cbn [tolerant allow_all_types_at_root negb]. destruct (allow_all_types_at_root cfg) eqn:Ec; cbn [negb]; [reflexivity|].
    unfold pbind, p_query, pret, perr. destruct (d_kind_of D (ps_del x) v) as [k|[]|f]; [|exact I].
    destruct k; try reflexivity; left; right; auto.
  Qed.
  Lemma tf_parse s st :
    match parse_with g pw D s cfg st with
    | (Ok v, st') => parse_with g pw D s tol st = (Ok v, st')
    | (Err e, st') => by_answer cfg (err_kind e) \/ parse_with g pw D s tol st = (Err e, st')
    | (Fault _, _) => True
    end.
  Proof.
    rewrite !parse_with_eq. unfold parse_bytes.
    assert (H : follows (parse_body g pw cfg D (S (length s)) (S (length s))) (parse_body g pw tol D (S (length s)) (S (length s)))).
    { unfold parse_body. apply tf_bind; [apply tf_read_tokens|intro]. apply tf_bind; [apply tf_root|intro]. apply tf_refl. }
    specialize (H (parse_state pw cfg D s st)). change (parse_state pw tol D s st) with (parse_state pw cfg D s st).
    destruct (parse_body g pw cfg D _ _ _) as [[v|e|f] x]; [rewrite H; reflexivity| |exact I].
    destruct H as [H|H]; [left; exact H|right; rewrite H; reflexivity].
  Qed.
End Tolerant.

Definition value_of (utf8 : bool) (pw : pwidth) (s : list N) (cfg : parse_config) : res (error infallible) value :=
  if utf8 then value_from_json_with_config pw s cfg else value_from_json_bytes_with_config pw s cfg.
(** Under [tolerant cfg] nothing is asked, so every delegate runs along with [Value]'s. *)
Lemma along utf8 pw cfg D s st :
  match fst (parse_with utf8 pw D s (tolerant cfg) st) with
  | Ok _ => exists v, value_of utf8 pw s (tolerant cfg) = Ok v
  | Err (Error o k) => (exists x, k = KErrorFromDelegate x) \/
      exists k0, k = kind_into_fallable k0 /\ value_of utf8 pw s (tolerant cfg) = Err (Error o k0)
  | Fault _ => True
  end.
Proof.
  assert (K : delegates_correspond (tolerant cfg) D value_delegate (fun _ _ => True) (fun _ _ => True) (fun _ _ => True) (fun _ _ => True)
    (fun _ _ => True) (fun _ _ => False) (fun _ => True)).
  { constructor; cbn [tolerant allow_trailing_commas allow_all_types_at_root]; try discriminate; intros; cbn [value_delegate d_null d_boolean d_number d_string
      d_begin_object d_object_key d_object_value d_end_object d_begin_array d_array_value d_end_array]; unfold corresponds_or, corresponds, stopped;
      match goal with |- _ \/ match fst ?r with _ => _ end => destruct r as [[?|?|?] ?] end; cbn; auto;
      left; split; [exact I|split; exact I]. }
  pose proof (C91_runs_correspond utf8 pw (tolerant cfg) D value_delegate _ _ _ _ _ _ _ s st tt K I) as C.
  assert (Ev : value_of utf8 pw s (tolerant cfg) = fst (parse_with utf8 pw value_delegate s (tolerant cfg) tt)) by (destruct utf8; reflexivity).
  rewrite Ev. destruct (parse_with utf8 pw D s (tolerant cfg) st) as [r st'], (parse_with utf8 pw value_delegate s (tolerant cfg) tt) as [r2 u].
  cbn [fst snd]. destruct C as [[_ C]|C]; cbn [fst snd] in C.
  - destruct r as [v|[o k]|f], r2 as [w|[o2 k2]|f2]; try contradiction; [eauto| |exact I].
    destruct C as [Ho [(a & [] & _)|(k0 & E1 & E2)]]. cbn [err_offset err_kind] in *. subst o2 k. right. exists k0. split; [reflexivity|].
    rewrite E2. destruct k0; try reflexivity. destruct d.
  - destruct r as [v|[o k]|f]; cbn in C; [destruct C| |exact I]. destruct C as (x & E & _). left. eauto.
Qed.
Lemma value_of_wrong utf8 pw s cfg o k : PropTok.input_ok utf8 pw s -> (value_of utf8 pw s cfg = Err (Error o k) <-> wrong_at cfg s o k).
Proof. destruct utf8; intro H; [apply C56_error_is_the_described_one_str, H|apply C56_error_is_the_described_one, H]. Qed.
Lemma value_of_ok utf8 pw s cfg : PropTok.input_ok utf8 pw s -> ((exists v, value_of utf8 pw s cfg = Ok v) <-> exists t, accepted cfg t s).
Proof. destruct utf8; intro H; [apply C01_str_accepts_config, H|apply C01_bytes_accepts_config, H]. Qed.

(** * C101 *)

(** No delegate makes the parser accept anything but JSON (with trailing commas, within the recursion limit). *)
Theorem C101_only_json_is_accepted utf8 pw cfg D s st v st' : PropTok.input_ok utf8 pw s ->
  parse_with utf8 pw D s cfg st = (Ok v, st') ->
  exists t, json_text true t s /\ match recursion_limit cfg with Some n => tree_depth t <= n | None => True end.
Proof.
  intros Hi E. pose proof (tf_parse utf8 pw cfg D s st) as T. rewrite E in T. pose proof (along utf8 pw cfg D s st) as A. rewrite T in A. cbn [fst] in A.
  apply value_of_ok in A as (t & H1 & H2 & _); [|exact Hi]. exists t. split; [exact H1|exact H2].
Qed.

(** An error that neither is the delegate's own nor goes back to its answers about emptiness and kind is the error of the text:
    what [wrong_at] says is wrong, where it says so. *)
Theorem C101_errors_are_of_the_text utf8 pw cfg D s st o k st' : PropTok.input_ok utf8 pw s ->
  parse_with utf8 pw D s cfg st = (Err (Error o k), st') ->
  (exists x, k = KErrorFromDelegate x) \/ by_answer cfg k \/ (exists k0, k = kind_into_fallable k0 /\ wrong_at (tolerant cfg) s o k0).
Proof.
  intros Hi E. pose proof (tf_parse utf8 pw cfg D s st) as T. rewrite E in T. destruct T as [T|T]; [auto|].
  pose proof (along utf8 pw cfg D s st) as A. rewrite T in A. cbn [fst] in A. destruct A as [A|(k0 & Ek & A)]; [auto|]. right. right.
  exists k0. split; [exact Ek|]. apply (value_of_wrong utf8 pw), A. exact Hi.
Qed.

(** So a JSON text is rejected only by the delegate: by an error or a panic of its own, or by its answers. *)
Theorem C101_json_is_rejected_by_the_delegate_only utf8 pw cfg D s st t : PropTok.input_ok utf8 pw s -> accepted (tolerant cfg) t s ->
  match fst (parse_with utf8 pw D s cfg st) with
  | Ok _ => True
  | Err (Error _ k) => (exists x, k = KErrorFromDelegate x) \/ by_answer cfg k
  | Fault f => delegate_faults D f
  end.
Proof.
  intros Hi Ha. destruct (parse_with utf8 pw D s cfg st) as [[v|[o k]|f] st'] eqn:E; cbn [fst]; [exact I| |].
  - apply C101_errors_are_of_the_text in E as [E|[E|(k0 & _ & E)]]; [auto|auto| |exact Hi]. exfalso. apply (value_of_wrong utf8 pw) in E; [|exact Hi].
    destruct (proj2 (value_of_ok utf8 pw s (tolerant cfg) Hi) (ex_intro _ t Ha)) as (v & Ev). rewrite Ev in E. discriminate E.
  - apply (f_equal fst) in E. cbn [fst] in E. destruct utf8; [eapply C05_any_delegate_str|eapply C05_any_delegate]; eassumption.
Qed.

(** And a text that is wrong is never accepted. *)
Theorem C101_wrong_texts_are_rejected utf8 pw cfg D s st o k : PropTok.input_ok utf8 pw s -> wrong_at (tolerant cfg) s o k ->
  match fst (parse_with utf8 pw D s cfg st) with
  | Ok _ => False
  | Err (Error o' k') => (exists x, k' = KErrorFromDelegate x) \/ by_answer cfg k' \/ (o' = o /\ k' = kind_into_fallable k)
  | Fault f => delegate_faults D f
  end.
Proof.
  intros Hi Hw. apply (value_of_wrong utf8 pw) in Hw; [|exact Hi]. destruct (parse_with utf8 pw D s cfg st) as [[v|[o' k']|f] st'] eqn:E; cbn [fst].
  - pose proof (tf_parse utf8 pw cfg D s st) as T. rewrite E in T. pose proof (along utf8 pw cfg D s st) as A. rewrite T in A. destruct A as (w & A). congruence.
  - apply C101_errors_are_of_the_text in E as [E|[E|(k0 & Ek & E)]]; [auto|auto| |exact Hi]. apply (value_of_wrong utf8 pw) in E; [|exact Hi].
    right. right. rewrite Hw in E. injection E as -> ->. auto.
  - apply (f_equal fst) in E. cbn [fst] in E. destruct utf8; [eapply C05_any_delegate_str|eapply C05_any_delegate]; eassumption.
Qed.

(** * Concrete cases *)

(** [liar] (PropTold.v) calls all containers empty, so trailing commas pass although the configuration disallows them;
    [denier] calls none empty, so that an empty array is taken for one with a trailing comma. *)
Definition denier : delegate := {|
  d_st := nat; d_value := unit; d_object := unit; d_array := unit; d_key := unit; d_error := bool;
  d_null := d_null liar; d_boolean := d_boolean liar; d_number := d_number liar; d_string := d_string liar;
  d_begin_object := d_begin_object liar; d_object_key := d_object_key liar; d_object_value := d_object_value liar;
  d_object_is_empty := fun _ _ => Ok false; d_end_object := d_end_object liar;
  d_begin_array := d_begin_array liar; d_array_value := d_array_value liar;
  d_array_is_empty := fun _ _ => Ok false; d_end_array := d_end_array liar; d_kind_of := d_kind_of liar |}.
Example liars_and_deniers :
  parse_with true W64 liar (bs "{""a"":[1,],}") config_new O = (Ok tt, 1%nat) /\
  value_from_json W64 (bs "{""a"":[1,],}") = Err (Error 8 KIllegalTrailingComma) /\
  parse_with true W64 denier (bs "{""a"":[]}") config_new O = (Err (Error 6 KIllegalTrailingComma), O) /\
  parse_with true W64 liar (bs "[1,2]") config_new O = (Err (Error 3 (KErrorFromDelegate true)), 1%nat) /\
  parse_with true W64 liar (bs "[1,}]") config_new O = (Err (Error 3 (KUnexpected 125)), 1%nat) /\
  parse_with true W64 denier (bs "[1 1]") config_new O = (Err (Error 2 KExpectedCommaOrEndOfArray), 1%nat).
Proof. vm_compute. repeat split. Qed.
