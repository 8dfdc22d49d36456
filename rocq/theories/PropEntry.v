(** Property theorems: the entry points agree with one another (C03, C09-C14, C46, C55). *)
From Verif Require Import Base Utf8 Utf8Facts StrModel ErrorModel Tokenizer Parser ValueModel DocModel NumModel Spec
  TokBase TokStr TokNum TokFacts ParserGen Trace ParserSound ParserComplete Sim SimInst StrSpec View ParseMain DocFacts
  GrammarFacts PropParse.
Local Open Scope N_scope.

(** * C03: str and bytes *)
Theorem C03_entry_points_agree pw cfg cap s : rust_str pw s ->
  value_from_json_with_config pw s cfg = value_from_json_bytes_with_config pw s cfg /\
  document_from_json_with_config pw cap s cfg = document_from_json_bytes_with_config pw cap s cfg /\
  validate_json_with_config pw s cfg = validate_json_bytes_with_config pw s cfg.
Proof.
  intro H. apply rust_str_good in H.
  unfold value_from_json_with_config, value_from_json_bytes_with_config, document_from_json_with_config,
    document_from_json_bytes_with_config, validate_json_with_config, validate_json_bytes_with_config,
    parse_json_with_config, parse_json_bytes_with_config.
  rewrite !(parse_bytes_agree pw cfg _ s H). auto.
Qed.
Theorem C03_default_entry_points_agree pw cap s : rust_str pw s ->
  value_from_json pw s = value_from_json_bytes pw s /\
  document_from_json pw cap s = document_from_json_bytes pw cap s /\
  validate_json pw s = validate_json_bytes pw s.
Proof. intro H. exact (C03_entry_points_agree pw config_default cap s H). Qed.

(** With any user-supplied delegate: same result and same delegate state. *)
Theorem C03_any_delegate pw cfg D s st : rust_str pw s ->
  parse_json_with_config pw D s cfg st = parse_json_bytes_with_config pw D s cfg st.
Proof. intro H. apply parse_bytes_agree, rust_str_good, H. Qed.

(** * C09, C10, C11, C12: values, documents and validators *)

(** The documented [JsonKind] of a value. *)
Definition documented_kind (v : value) : json_kind :=
  match v with
  | VNull => JkNull | VBoolean _ => JkBoolean | VNumber _ => JkNumber
  | VString _ => JkString | VObject _ => JkObject | VArray _ => JkArray
  end.

Lemma documented_kind_eq v : value_kind v = documented_kind v.
Proof. destruct v; reflexivity. Qed.

Lemma validate_eq g pw cfg s : fst (parse_bytes g pw cfg unit_delegate s tt) =
  map_ok documented_kind (fst (parse_bytes g pw cfg value_delegate s tt)).
Proof.
  rewrite unit_parse_eq, value_parse_eq. destruct (parse_bytes g pw cfg trace_delegate s []) as [[v|e|f] st]; [|reflexivity..].
  destruct v; reflexivity.
Qed.

Lemma doc_eq g pw cfg s : good g pw s ->
  document_of (parse_bytes g pw cfg (nodes_delegate None) s []) =
  map_ok preorder (fst (parse_bytes g pw cfg value_delegate s tt)).
Proof.
  intro Hg. rewrite value_parse_eq. pose proof (nodes_parse_eq g pw cfg None s Hg) as H. cbn zeta in H.
  destruct (parse_bytes g pw cfg trace_delegate s []) as [[v|e|f] st]; cbn [fst map_ok] in *.
  - rewrite H, nodes_of_preorder. reflexivity.
  - destruct H as [H|(o & _ & H)]; [exact H|contradiction].
  - contradiction.
Qed.

(** The validator's result is the value's kind, or the same error. *)
Theorem C09_C10_validate_bytes pw cfg s : rust_slice pw s ->
  validate_json_bytes_with_config pw s cfg =
  match value_from_json_bytes_with_config pw s cfg with
  | Ok v => Ok (documented_kind v) | Err e => Err e | Fault f => Fault f end.
Proof. intros _. apply validate_eq. Qed.
Theorem C09_C10_validate_str pw cfg s : rust_str pw s ->
  validate_json_with_config pw s cfg =
  match value_from_json_with_config pw s cfg with
  | Ok v => Ok (documented_kind v) | Err e => Err e | Fault f => Fault f end.
Proof. intros _. apply validate_eq. Qed.

(** The document's nodes are the preorder of the value, or the same error. *)
Theorem C09_C12_document_bytes pw cfg s : rust_slice pw s ->
  document_from_json_bytes_with_config pw None s cfg =
  match value_from_json_bytes_with_config pw s cfg with
  | Ok v => Ok (preorder v) | Err e => Err e | Fault f => Fault f end.
Proof. intro H. apply doc_eq, rust_slice_good, H. Qed.
Theorem C09_C12_document_str pw cfg s : rust_str pw s ->
  document_from_json_with_config pw None s cfg =
  match value_from_json_with_config pw s cfg with
  | Ok v => Ok (preorder v) | Err e => Err e | Fault f => Fault f end.
Proof. intro H. apply doc_eq, rust_str_good, H. Qed.

(** C12, stated on the list alone: [segment n l] says that [l] is [n] complete values in a row, an object node
    [NObject k] being followed by exactly [k] pairs of a string node and a value, an array node [NArray k] by
    exactly [k] values. *)
Inductive one_value : list node -> Prop :=
| ov_null : one_value [NNull]
| ov_boolean b : one_value [NBoolean b]
| ov_number n : one_value [NNumber n]
| ov_string s : one_value [NString s]
| ov_array k l : n_values k l -> one_value (NArray k :: l)
| ov_object k l : n_pairs k l -> one_value (NObject k :: l)
with n_values : nat -> list node -> Prop :=
| nv_nil : n_values 0 []
| nv_cons k a l : one_value a -> n_values k l -> n_values (S k) (a ++ l)
with n_pairs : nat -> list node -> Prop :=
| np_nil : n_pairs 0 []
| np_cons k s a l : one_value a -> n_pairs k l -> n_pairs (S k) (NString s :: a ++ l).

Lemma preorder_shape v : one_value (preorder v).
Proof.
  induction v as [n|s|b|o IH|l IH|] using value_ind'; cbn [preorder]; try constructor.
  - induction IH as [|[k v] o Hv Ho IHo]; [constructor|]. cbn. constructor; assumption.
  - induction IH as [|v l Hv Hl IHl]; [constructor|]. cbn. constructor; assumption.
Qed.

Theorem C12_document_shape pw cfg cap s nodes : rust_slice pw s ->
  document_from_json_bytes_with_config pw cap s cfg = Ok nodes -> one_value nodes.
Proof.
  intros H E. pose proof (nodes_parse_eq false pw cfg cap s (rust_slice_good _ _ H)) as G. cbn zeta in G.
  change (document_of (parse_bytes false pw cfg (nodes_delegate cap) s []) = Ok nodes) in E. rewrite E in G.
  destruct (parse_bytes false pw cfg trace_delegate s []) as [[v|e|f] st]; cbn [fst] in G.
  - destruct (match cap with Some k => _ | None => true end); [|destruct G; discriminate].
    injection G as ->. apply preorder_shape.
  - destruct G as [G|(o & G & _)]; discriminate.
  - contradiction.
Qed.

(** C11 *)
Theorem C11_document_to_value_bytes pw cfg s v : rust_slice pw s ->
  (value_from_json_bytes_with_config pw s cfg = Ok v <->
   exists doc, document_from_json_bytes_with_config pw None s cfg = Ok doc /\ value_from_document doc = Ok v).
Proof.
  intro H. rewrite C09_C12_document_bytes by exact H. split.
  - intro E. rewrite E. exists (preorder v). split; [reflexivity|apply value_from_document_preorder].
  - intros (doc & E & Ed). destruct (value_from_json_bytes_with_config pw s cfg) as [v'|e|f]; try discriminate.
    injection E as <-. rewrite value_from_document_preorder in Ed. injection Ed as ->. reflexivity.
Qed.
Theorem C11_document_to_value_str pw cfg s v : rust_str pw s ->
  (value_from_json_with_config pw s cfg = Ok v <->
   exists doc, document_from_json_with_config pw None s cfg = Ok doc /\ value_from_document doc = Ok v).
Proof.
  intro H. destruct (C03_entry_points_agree pw cfg None s H) as (-> & -> & _).
  apply C11_document_to_value_bytes, rust_str_slice, H.
Qed.
(** Bounded documents too; in particular the conversion never panics. *)
Theorem C11_conversion_never_panics pw cfg cap s doc : rust_slice pw s ->
  document_from_json_bytes_with_config pw cap s cfg = Ok doc ->
  exists v, value_from_document doc = Ok v /\ value_from_json_bytes_with_config pw s cfg = Ok v.
Proof.
  intros H E. pose proof (nodes_parse_eq false pw cfg cap s (rust_slice_good _ _ H)) as G. cbn zeta in G.
  change (document_of (parse_bytes false pw cfg (nodes_delegate cap) s []) = Ok doc) in E. rewrite E in G.
  pose proof (value_parse_eq false pw cfg s) as V.
  destruct (parse_bytes false pw cfg trace_delegate s []) as [[v|e|f] st]; cbn [fst] in G, V.
  - destruct (match cap with Some k => _ | None => true end); [|destruct G; discriminate].
    injection G as ->. exists v. split; [apply value_from_document_preorder|exact V].
  - destruct G as [G|(o & G & _)]; discriminate.
  - contradiction.
Qed.

(** * C13: skipping and reading *)
Definition starts_values (l : list node) : Prop :=
  forall pre it, l = pre ++ it -> it <> [] -> exists w rest, it = preorder w ++ rest.

Lemma app_split {A} (l1 l2 pre it : list A) : l1 ++ l2 = pre ++ it ->
  (exists a, l2 = a ++ it) \/ (exists a, it = a ++ l2 /\ l1 = pre ++ a).
Proof.
  revert pre. induction l1 as [|x l1 IH]; intros [|y pre] E; cbn in E.
  - left. exists []. exact E.
  - left. exists (y :: pre). exact E.
  - right. exists (x :: l1). auto.
  - injection E as -> E. destruct (IH _ E) as [(a & ->)|(a & -> & ->)]; [left|right]; exists a; auto.
Qed.

Lemma starts_app l1 l2 : starts_values l1 -> starts_values l2 -> starts_values (l1 ++ l2).
Proof.
  intros H1 H2 pre it E Hn. destruct (app_split _ _ _ _ E) as [(a & E')|(a & -> & E')].
  - eapply H2; eassumption.
  - destruct a as [|n a].
    + apply (H2 [] _ eq_refl Hn).
    + destruct (H1 pre (n :: a) E' ltac:(discriminate)) as (w & rest & ->). exists w, (rest ++ l2). symmetry. apply app_assoc.
Qed.
Lemma starts_nil : starts_values [].
Proof. intros pre it E Hn. destruct pre; [|discriminate]. cbn in E. subst. contradiction. Qed.
Lemma starts_cons n l : (exists w rest, n :: l = preorder w ++ rest) -> starts_values l -> starts_values (n :: l).
Proof.
  intros Hw H pre it E Hn. destruct pre as [|x pre]; cbn in E; [subst; exact Hw|]. injection E as -> E. eapply H; eassumption.
Qed.

Lemma preorder_starts v : starts_values (preorder v).
Proof.
  induction v as [n|s|b|o IH|l IH|] using value_ind'; cbn [preorder];
    try (match goal with |- starts_values [?n] => apply starts_cons; [|apply starts_nil] end).
  - exists (VNumber n), []. reflexivity.
  - exists (VString s), []. reflexivity.
  - exists (VBoolean b), []. reflexivity.
  - apply starts_cons; [exists (VObject o), []; symmetry; apply app_nil_r|].
    induction IH as [|[k v] o Hv Ho IHo]; [apply starts_nil|]. cbn.
    apply starts_cons; [exists (VString k); eexists; reflexivity|]. apply starts_app; assumption.
  - apply starts_cons; [exists (VArray l), []; symmetry; apply app_nil_r|].
    induction IH as [|v l Hv Hl IHl]; [apply starts_nil|]. cbn. apply starts_app; assumption.
  - exists VNull, []. reflexivity.
Qed.

(** [it]: the iterator of a parsed document after some nodes have been consumed in any way. *)
Theorem C13_skip_agrees_with_read pw cfg cap s doc pre it : rust_slice pw s ->
  document_from_json_bytes_with_config pw cap s cfg = Ok doc -> doc_iter doc = pre ++ it ->
  (it = [] /\ next_value it = Ok (None, []) /\ skip_next_value it = Ok []) \/
  (exists v rest, it = preorder v ++ rest /\ next_value it = Ok (Some v, rest) /\ skip_next_value it = Ok rest).
Proof.
  intros H E Ei. destruct it as [|n it]; [left; auto|right].
  destruct (C11_conversion_never_panics pw cfg cap s doc H E) as (v & Ev & _).
  assert (Hd : doc = preorder v).
  { pose proof (nodes_parse_eq false pw cfg cap s (rust_slice_good _ _ H)) as G. cbn zeta in G.
    change (document_of (parse_bytes false pw cfg (nodes_delegate cap) s []) = Ok doc) in E. rewrite E in G.
    destruct (parse_bytes false pw cfg trace_delegate s []) as [[v'|e|f] st]; cbn [fst] in G.
    - destruct (match cap with Some k => _ | None => true end); [|destruct G; discriminate].
      injection G as ->. rewrite nodes_of_preorder, value_from_document_preorder in Ev. injection Ev as ->. reflexivity.
    - destruct G as [G|(o & G & _)]; discriminate.
    - contradiction. }
  subst doc. destruct (preorder_starts v _ _ Ei ltac:(discriminate)) as (w & rest & ->).
  exists w, rest. split; [reflexivity|]. split; [apply next_value_preorder|apply skip_preorder].
Qed.

(** On any node list at all (also positions that no document has): if [next_value] reads a value,
    [skip_next_value] ends at the same place; and [skip_next_value] never panics and never moves back. *)
Theorem C13_skip_follows_read it v rest : next_value it = Ok (Some v, rest) -> skip_next_value it = Ok rest.
Proof. intro H. apply next_value_sound in H. subst it. apply skip_preorder. Qed.
Theorem C13_skip_total it : exists pre it', skip_next_value it = Ok it' /\ it = pre ++ it'.
Proof. apply skip_total. Qed.

(** * C14: bounded documents *)
Theorem C14_bounded_capacity pw cfg n s nodes : rust_slice pw s ->
  (document_from_json_bytes_with_config pw (Some n) s cfg = Ok nodes <->
   document_from_json_bytes_with_config pw None s cfg = Ok nodes /\ (length nodes <= n)%nat).
Proof.
  intro H. rewrite C09_C12_document_bytes by exact H.
  pose proof (nodes_parse_eq false pw cfg (Some n) s (rust_slice_good _ _ H)) as G. cbn zeta in G.
  change (document_from_json_bytes_with_config pw (Some n) s cfg)
    with (document_of (parse_bytes false pw cfg (nodes_delegate (Some n)) s [])).
  unfold value_from_json_bytes_with_config, parse_json_bytes_with_config. rewrite value_parse_eq.
  destruct (parse_bytes false pw cfg trace_delegate s []) as [[v|e|f] st]; cbn [fst] in *.
  - rewrite nodes_of_preorder in G. destruct (Nat.leb_spec (length (preorder v)) n) as [L|L].
    + rewrite G. split; [intro K; split; [exact K|injection K as <-; exact L]|intros [K _]; exact K].
    + destruct G as [o ->]. split; [discriminate|]. intros [K L']. injection K as <-. lia.
  - split; [|intros [K _]; discriminate]. destruct G as [G|(o & G & _)]; rewrite G; discriminate.
  - contradiction.
Qed.

Theorem C14_bounded_errors pw cfg n s : rust_slice pw s ->
  match document_from_json_bytes_with_config pw None s cfg with
  | Ok nodes => (n < length nodes)%nat ->
      exists o, document_from_json_bytes_with_config pw (Some n) s cfg = Err (Error o KPaylodTooLarge)
  | Err e => document_from_json_bytes_with_config pw (Some n) s cfg = Err e \/
      exists o, document_from_json_bytes_with_config pw (Some n) s cfg = Err (Error o KPaylodTooLarge)
  | Fault _ => False
  end.
Proof.
  intro H. rewrite C09_C12_document_bytes by exact H.
  pose proof (nodes_parse_eq false pw cfg (Some n) s (rust_slice_good _ _ H)) as G. cbn zeta in G.
  change (document_from_json_bytes_with_config pw (Some n) s cfg)
    with (document_of (parse_bytes false pw cfg (nodes_delegate (Some n)) s [])).
  unfold value_from_json_bytes_with_config, parse_json_bytes_with_config. rewrite value_parse_eq.
  destruct (parse_bytes false pw cfg trace_delegate s []) as [[v|e|f] st]; cbn [fst] in *.
  - rewrite nodes_of_preorder in G. intro L. destruct (Nat.leb_spec (length (preorder v)) n) as [L'|L']; [lia|exact G].
  - destruct G as [G|(o & G & _)]; eauto.
  - exact G.
Qed.

(** * C46: JsonString::from_json and JsonNumber::from_json *)
Lemma str_scalar pw s : rust_str pw s ->
  let y := value_from_json pw s in
  match y with
  | Ok v => (exists a, v = VString a /\ string_from_json pw s = Ok a) \/
      ((exists o, string_from_json pw s = Err (Error o KExpectedString)) /\ forall a, v <> VString a)
  | Err e => string_from_json pw s = Err e \/ exists o, string_from_json pw s = Err (Error o KExpectedString)
  | Fault _ => False
  end.
Proof.
  intro H. pose proof (scalar_parse_eq true pw config_default eq_refl json_string KExpectedString
    (fun _ => Err KExpectedString) (fun s => Ok s) VString (or_intror (fun _ => eq_refl))
    (or_introl (fun s => ex_intro _ s (conj eq_refl eq_refl))) s (rust_str_good _ _ H)) as G. cbn zeta in G |- *.
  unfold value_from_json, value_from_json_with_config, parse_json_with_config. rewrite value_parse_eq.
  destruct (parse_bytes true pw config_default trace_delegate s []) as [[v|e|f] st]; cbn [fst] in *.
  - destruct G as [(a & Ea & G)|(o & G & K)]; [left; eauto|]. right. split; [eauto|]. intros a ->. specialize (K a). discriminate.
  - exact G.
  - exact G.
Qed.
Lemma num_scalar pw s : rust_str pw s ->
  let y := value_from_json pw s in
  match y with
  | Ok v => (exists a, v = VNumber a /\ number_from_json pw s = Ok a) \/
      ((exists o, number_from_json pw s = Err (Error o KExpectedNumber)) /\ forall a, v <> VNumber a)
  | Err e => number_from_json pw s = Err e \/ exists o, number_from_json pw s = Err (Error o KExpectedNumber)
  | Fault _ => False
  end.
Proof.
  intro H. pose proof (scalar_parse_eq true pw config_default eq_refl json_number KExpectedNumber
    (fun n => Ok n) (fun _ => Err KExpectedNumber) VNumber (or_introl (fun s => ex_intro _ s (conj eq_refl eq_refl)))
    (or_intror (fun _ => eq_refl)) s (rust_str_good _ _ H)) as G. cbn zeta in G |- *.
  unfold value_from_json, value_from_json_with_config, parse_json_with_config. rewrite value_parse_eq.
  destruct (parse_bytes true pw config_default trace_delegate s []) as [[v|e|f] st]; cbn [fst] in *.
  - destruct G as [(a & Ea & G)|(o & G & K)]; [left; eauto|]. right. split; [eauto|]. intros a ->. specialize (K a). discriminate.
  - exact G.
  - exact G.
Qed.

Theorem C46_string_from_json pw s str : rust_str pw s ->
  (string_from_json pw s = Ok str <-> value_from_json pw s = Ok (VString str)).
Proof.
  intro H. pose proof (str_scalar pw s H) as G. cbn zeta in G. split; intro E.
  - destruct (value_from_json pw s) as [v|e|f]; try rewrite E in G.
    + destruct G as [(a & -> & G)|[(o & G) _]]; [injection G as <-; reflexivity|discriminate].
    + destruct G as [G|(o & G)]; discriminate.
    + contradiction.
  - rewrite E in G. destruct G as [(a & Ea & G)|[_ G]]; [injection Ea as <-; exact G|]. destruct (G str). reflexivity.
Qed.
Theorem C46_number_from_json pw s num : rust_str pw s ->
  (number_from_json pw s = Ok num <-> value_from_json pw s = Ok (VNumber num)).
Proof.
  intro H. pose proof (num_scalar pw s H) as G. cbn zeta in G. split; intro E.
  - destruct (value_from_json pw s) as [v|e|f]; try rewrite E in G.
    + destruct G as [(a & -> & G)|[(o & G) _]]; [injection G as <-; reflexivity|discriminate].
    + destruct G as [G|(o & G)]; discriminate.
    + contradiction.
  - rewrite E in G. destruct G as [(a & Ea & G)|[_ G]]; [injection Ea as <-; exact G|]. destruct (G num). reflexivity.
Qed.

(** In terms of the grammar. *)
Theorem C46_string_accepts_exactly pw s raw : rust_str pw s ->
  ((exists str, string_from_json pw s = Ok str /\ is_json_form str /\ stored str = raw) <->
   exists w1 w2 cs, ws w1 /\ ws w2 /\ str_body raw cs /\ s = w1 ++ ([34] ++ raw ++ [34]) ++ w2).
Proof.
  intro H. split.
  - intros (str & E & _ & <-). apply C46_string_from_json in E; [|exact H].
    apply (C02_value_is_denoted_tree_str pw config_default s _ H) in E as [(w1 & b & w2 & H1 & Hb & H2 & ->) _].
    cbn in Hb. inversion Hb as [ | | | |r cs Hc| | | | ]; subst. exists w1, w2, cs. auto.
  - intros (w1 & w2 & cs & H1 & H2 & Hb & ->).
    assert (Ha : accepted config_default (TStr raw) (w1 ++ ([34] ++ raw ++ [34]) ++ w2)).
    { split; [|split; [cbn; lia|left; reflexivity]].
      exists w1, ([34] ++ raw ++ [34]), w2. repeat split; auto. econstructor. exact Hb. }
    destruct (accepted_repr pw true _ _ _ (rust_str_good _ _ H) Ha) as (v & Hr).
    assert (E : value_from_json pw (w1 ++ ([34] ++ raw ++ [34]) ++ w2) = Ok v) by (apply value_str_iff; eauto).
    inversion Hr as [ | | |r cs' Hb' | | ]; subst. exists (string_for pw raw cs').
    split; [apply C46_string_from_json; assumption|]. split; [exact I|reflexivity].
Qed.
Theorem C46_number_accepts_exactly pw s n : rust_str pw s ->
  ((exists num, number_from_json pw s = Ok num /\ jn_str num = n) <->
   exists w1 w2, ws w1 /\ ws w2 /\ number n /\ s = w1 ++ n ++ w2).
Proof.
  intro H. split.
  - intros (num & E & <-). apply C46_number_from_json in E; [|exact H].
    apply (C02_value_is_denoted_tree_str pw config_default s _ H) in E as [(w1 & b & w2 & H1 & Hb & H2 & ->) _].
    cbn in Hb. inversion Hb; subst. exists w1, w2. auto.
  - intros (w1 & w2 & H1 & H2 & Hn & ->).
    assert (Ha : accepted config_default (TNum n) (w1 ++ n ++ w2)).
    { split; [|split; [cbn; lia|left; reflexivity]]. exists w1, n, w2. repeat split; auto. constructor. exact Hn. }
    destruct (accepted_repr pw true _ _ _ (rust_str_good _ _ H) Ha) as (v & Hr).
    assert (E : value_from_json pw (w1 ++ n ++ w2) = Ok v) by (apply value_str_iff; eauto).
    inversion Hr; subst. eexists. split; [apply C46_number_from_json; eassumption|reflexivity].
Qed.

(** Any other well-formed value gives ExpectedString / ExpectedNumber; never a panic. *)
(** [JsonNumber::parse] hands its [FromStr] the literal as it was written, without the whitespace around it. *)
Theorem C46_parse_gets_the_literal pw (w1 n w2 : list N) (R : Type) (from_str : list N -> R) :
  rust_str pw (w1 ++ n ++ w2) -> ws w1 -> ws w2 -> number n ->
  exists num, number_from_json pw (w1 ++ n ++ w2) = Ok num /\ number_parse from_str num = from_str n /\
    exists num', value_from_json pw (w1 ++ n ++ w2) = Ok (VNumber num') /\ number_parse from_str num' = from_str n.
Proof.
  intros H H1 H2 Hn. destruct (proj2 (C46_number_accepts_exactly pw _ n H)) as (num & E & E2).
  { exists w1, w2. auto. }
  exists num. split; [exact E|]. unfold number_parse. rewrite E2. split; [reflexivity|].
  exists num. split; [apply C46_number_from_json; assumption|]. rewrite E2. reflexivity.
Qed.
Example C46_parse_sample : exists num, number_from_json W64 (bs " -1.50e+2 ") = Ok num /\ number_parse (fun t => t) num = bs "-1.50e+2".
Proof. eexists. split; [vm_compute; reflexivity|reflexivity]. Qed.

Theorem C46_other_values pw s v : rust_str pw s -> value_from_json pw s = Ok v ->
  ((forall a, v <> VString a) -> exists o, string_from_json pw s = Err (Error o KExpectedString)) /\
  ((forall a, v <> VNumber a) -> exists o, number_from_json pw s = Err (Error o KExpectedNumber)).
Proof.
  intros H E. pose proof (str_scalar pw s H) as G1. pose proof (num_scalar pw s H) as G2. cbn zeta in *. rewrite E in *.
  split; intro K.
  - destruct G1 as [(a & Ea & _)|[G _]]; [destruct (K _ Ea)|exact G].
  - destruct G2 as [(a & Ea & _)|[G _]]; [destruct (K _ Ea)|exact G].
Qed.
Theorem C46_never_panics pw s : rust_str pw s -> returns (string_from_json pw s) /\ returns (number_from_json pw s).
Proof.
  intro H. pose proof (str_scalar pw s H) as G1. pose proof (num_scalar pw s H) as G2. cbn zeta in *. unfold returns.
  destruct (value_from_json pw s) as [v|e|f]; [| |contradiction]; split.
  - destruct G1 as [(a & _ & ->)|[(o & ->) _]]; eauto.
  - destruct G2 as [(a & _ & ->)|[(o & ->) _]]; eauto.
  - destruct G1 as [->|(o & ->)]; eauto.
  - destruct G2 as [->|(o & ->)]; eauto.
Qed.

(** * Concrete cases *)
Definition entry_sample : list N := bs " {""a"":[1,{}],""b"":""x""} ".
Example entry_sample_ok : rust_str W64 entry_sample /\ rust_slice W64 entry_sample.
Proof.
  split; split; [apply utf8_valid_iff; vm_compute; reflexivity|vm_compute; discriminate|
                 repeat constructor|vm_compute; discriminate].
Qed.
Example entry_sample_doc : exists k1 k2 x n,
  document_from_json_bytes W64 None entry_sample =
  Ok [NObject 2; NString k1; NArray 2; NNumber n; NObject 0; NString k2; NString x] /\
  stored k1 = bs "a" /\ stored k2 = bs "b" /\ stored x = bs "x" /\ jn_str n = bs "1" /\
  document_from_json_bytes W64 (Some 7%nat) entry_sample = document_from_json_bytes W64 None entry_sample /\
  document_from_json_bytes W64 (Some 6%nat) entry_sample = Err (Error 17 KPaylodTooLarge) /\
  (* skipping the array consumes its two elements *)
  skip_next_value [NArray 2; NNumber n; NObject 0; NString k2; NString x] = Ok [NString k2; NString x] /\
  validate_json_bytes W64 entry_sample = Ok JkObject.
Proof. eexists _, _, _, _. split; [vm_compute; reflexivity|]. repeat (split; [vm_compute; reflexivity|]). vm_compute; reflexivity. Qed.
Example entry_sample_scalars : exists a n,
  string_from_json W64 (bs " ""a\u0041"" ") = Ok a /\ stored a = bs "a\u0041" /\
  number_from_json W64 (bs "-1e5") = Ok n /\ jn_str n = bs "-1e5" /\
  string_from_json W64 (bs "[1]") = Err (Error 1 KExpectedString) /\
  number_from_json W64 (bs "null") = Err (Error 0 KExpectedNumber).
Proof. eexists _, _. split; [vm_compute; reflexivity|]. repeat (split; [vm_compute; reflexivity|]). vm_compute; reflexivity. Qed.
