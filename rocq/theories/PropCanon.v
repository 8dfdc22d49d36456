(** Property theorems: the serialized text identifies the value (C76). *)
From Verif Require Import Base Utf8 Utf8Facts StrModel ErrorModel Tokenizer Parser ValueModel DocModel NumModel Spec SpecStr SpecNum SpecLex SpecWrite
  TokBase TokStr TokNum TokFacts Trace ParserGen ParserSound ParserComplete Sim SimInst StrSpec StrFacts StrWf StrEsc StrObt View ParseMain DocFacts
  GrammarFacts Lexemes StringScan WriteFacts WriteGrammar WriteStops PropTok PropEntry PropNumber PropStr PropEsc PropValue PropWrite PropSpace.
Local Open Scope N_scope.

Lemma parsed_compact pw cfg s v : parsed_from pw cfg s v ->
  exists t, value_repr pw t v /\ to_json pw v = Ok (compact t) /\ json_text false t (compact t) /\ N.of_nat (length (compact t)) <= isize_max pw.
Proof.
  intro H. destruct (C36_C37_layout pw cfg s v H) as (E & _). apply parsed_from_repr in H as (Hl & t & Ha & Hv).
  rewrite (value_repr_tree _ _ _ Hv) in E. exists t. split; [exact Hv|]. split; [exact E|]. split; [apply compact_text; eapply accepted_tree_ok; exact Ha|].
  destruct Ha as [Ht _]. apply compact_shorter in Ht. lia.
Qed.

(** Two parsed values (whatever texts and configurations they come from) are the same value if and only if they
    have the same compact text, if and only if they have the same pretty text; they are then [==]. *)
Theorem C76_same_text_same_value pw cfg1 cfg2 s1 s2 v1 v2 : parsed_from pw cfg1 s1 v1 -> parsed_from pw cfg2 s2 v2 ->
  (to_json pw v1 = to_json pw v2 <-> v1 = v2) /\ (to_json_pretty pw v1 = to_json_pretty pw v2 <-> v1 = v2) /\
  (forall indent eol, ws indent -> ws eol -> to_json_pretty_custom pw indent eol v1 = to_json_pretty_custom pw indent eol v2 <-> v1 = v2) /\
  (v1 = v2 -> value_eq pw v1 v2 = Ok true).
Proof.
  intros H1 H2.
  assert (K : to_json pw v1 = to_json pw v2 <-> v1 = v2).
  { split; [|congruence]. destruct (parsed_compact _ _ _ _ H1) as (t1 & R1 & E1 & T1 & L1). destruct (parsed_compact _ _ _ _ H2) as (t2 & R2 & E2 & T2 & _).
    rewrite E1, E2. intro E. injection E as E. rewrite <- E in T2. pose proof (json_text_unique pw false _ _ _ L1 T1 T2). subst t2. eapply value_repr_fun; eassumption. }
  assert (P : forall indent eol, ws indent -> ws eol -> to_json_pretty_custom pw indent eol v1 = to_json_pretty_custom pw indent eol v2 <-> v1 = v2).
  { intros indent eol Hi He. split; [|congruence]. intro E. apply K.
    destruct (C36_C37_layout pw cfg1 s1 v1 H1) as (_ & E1 & _). specialize (E1 indent eol).
    rewrite (C37_pretty_minifies_to_compact pw cfg1 s1 v1 indent eol _ H1 Hi He E1). symmetry.
    apply (C37_pretty_minifies_to_compact pw cfg2 s2 v2 indent eol _ H2 Hi He). congruence. }
  split; [exact K|]. split; [|split; [exact P|]].
  - rewrite !C37_to_json_pretty_is_two_spaces_newline. apply P; repeat (apply Forall_cons; [unfold ws_byte; auto|]); apply Forall_nil.
  - intros <-. destruct (C35_compact_round_trip pw cfg1 s1 v1 H1) as (t & _ & _ & E & _). exact E.
Qed.

Lemma value_lex_det :
  (forall t ls, value_lex false t ls -> forall ls', value_lex false t ls' -> ls = ls') /\
  (forall l ls, elements_lex false l ls -> forall ls', elements_lex false l ls' -> ls = ls') /\
  (forall l ls, members_lex false l ls -> forall ls', members_lex false l ls' -> ls = ls').
Proof.
  assert (Htr : forall tr, trail_lex false tr -> tr = []) by (intros tr [|]; [reflexivity|discriminate]).
  apply lex_mutind.
  - intros ls' H. inversion H. reflexivity.
  - intros ls' H. inversion H. reflexivity.
  - intros ls' H. inversion H. reflexivity.
  - intros n Hn ls' H. inversion H. reflexivity.
  - intros raw cs Hb ls' H. inversion H. reflexivity.
  - intros ls' H. inversion H as [ | | | | | |l ls K| | ]; [reflexivity|subst]. inversion K.
  - intros l ls Hl IH ls' H. inversion H as [ | | | | | |l' ls1 K| | ]; subst; [inversion Hl|]. rewrite (IH _ K). reflexivity.
  - intros ls' H. inversion H as [ | | | | | | | |l ls K]; [reflexivity|subst]. inversion K.
  - intros l ls Hl IH ls' H. inversion H as [ | | | | | | | |l' ls1 K]; subst; [inversion Hl|]. rewrite (IH _ K). reflexivity.
  - intros t ls tr Ht IH Htr1 ls' H. inversion H as [t' ls1 tr' K Htr2|t' l' ls1 r K K']; subst; [|inversion K'].
    rewrite (Htr _ Htr1), (Htr _ Htr2), (IH _ K). reflexivity.
  - intros t l ls r Ht IH Hl IHl ls' H. inversion H as [t' ls1 tr' K Htr2|t' l' ls1 r' K K']; subst; [inversion Hl|].
    rewrite (IH _ K), (IHl _ K'). reflexivity.
  - intros k cs t ls tr Hk Ht IH Htr1 ls' H. inversion H as [k' cs' t' ls1 tr' Hk' K Htr2|k' cs' t' l' ls1 r Hk' K K']; subst; [|inversion K'].
    rewrite (Htr _ Htr1), (Htr _ Htr2), (IH _ K). reflexivity.
  - intros k cs t l ls r Hk Ht IH Hl IHl ls' H. inversion H as [k' cs' t' ls1 tr' Hk' K Htr2|k' cs' t' l' ls1 r' Hk' K K']; subst; [inversion Hl|].
    rewrite (IH _ K), (IHl _ K'). reflexivity.
Qed.

(** Two accepted texts (trailing commas off) give the same value exactly if they consist of the same lexemes, that is, differ at most in whitespace between lexemes. *)
Theorem C76_same_value_iff_same_lexemes pw cfg1 cfg2 s1 s2 v1 v2 : parsed_from pw cfg1 s1 v1 -> parsed_from pw cfg2 s2 v2 ->
  allow_trailing_commas cfg1 = false -> allow_trailing_commas cfg2 = false ->
  (v1 = v2 <-> exists ls, spaced ls s1 /\ spaced ls s2) /\
  (v1 = v2 <-> minify Outside s1 = minify Outside s2).
Proof.
  intros H1 H2 C1 C2. pose proof (C36_compact_is_minified_source _ _ _ _ H1 C1) as M1. pose proof (C36_compact_is_minified_source _ _ _ _ H2 C2) as M2.
  destruct (C76_same_text_same_value _ _ _ _ _ _ _ H1 H2) as (K & _). rewrite M1, M2 in K.
  assert (K' : v1 = v2 <-> minify Outside s1 = minify Outside s2) by (rewrite <- K; split; [congruence|intro E; rewrite E; reflexivity]).
  split; [|exact K']. split.
  - intros <-. apply parsed_from_repr in H1 as (L1 & t1 & (T1 & _) & R1). apply parsed_from_repr in H2 as (L2 & t2 & (T2 & _) & R2).
    assert (E12 : t2 = t1) by (rewrite <- (value_repr_tree _ _ _ R1), <- (value_repr_tree _ _ _ R2); reflexivity). rewrite E12 in *. clear E12 t2.
    rewrite C1 in T1. rewrite C2 in T2. apply json_text_to_lex in T1 as (ls1 & V1 & S1). apply json_text_to_lex in T2 as (ls2 & V2 & S2).
    rewrite (proj1 value_lex_det _ _ V1 _ V2) in S1. eauto.
  - intros (ls & S1 & S2). apply K'. rewrite (minify_spaced _ _ S1), (minify_spaced _ _ S2). reflexivity.
Qed.

(** Serializing what was read back from serialized text gives the same text again: compact after compact, compact
    after pretty, pretty after compact. *)
Theorem C76_serialization_is_stable pw cfg s v indent eol c p v' : parsed_from pw cfg s v -> ws indent -> ws eol ->
  to_json pw v = Ok c -> to_json_pretty_custom pw indent eol v = Ok p ->
  (parsed_from pw cfg c v' \/ parsed_from pw cfg p v') ->
  to_json pw v' = Ok c /\ to_json_pretty_custom pw indent eol v' = Ok p.
Proof.
  intros H Hi He Ec Ep Hp. enough (v' = v) as -> by auto.
  destruct Hp as [Hp|Hp].
  - destruct (C35_compact_round_trip pw cfg s v H) as (t & Et & _ & _ & _ & E1 & E2). assert (t = c) by congruence. subst t.
    destruct Hp as [[_ E]|[_ E]]; congruence.
  - assert (L : N.of_nat (length p) <= isize_max pw) by (apply parsed_from_repr in Hp as [L _]; exact L).
    destruct (C37_pretty_round_trip pw cfg s v indent eol p H Hi He Ep L) as (_ & E1 & E2). destruct Hp as [[_ E]|[_ E]]; congruence.
Qed.

(** * Strings made from text *)
Fixpoint is_prefix (a b : list N) : bool :=
  match a, b with [], _ => true | x :: a', y :: b' => (x =? y) && is_prefix a' b' | _, [] => false end.

Lemma app_prefix a : forall b r r', a ++ r = b ++ r' -> is_prefix a b = true \/ is_prefix b a = true.
Proof.
  induction a as [|x a IH]; intros [|y b] r r' E; cbn [app is_prefix] in *; auto. injection E as <- E.
  rewrite N.eqb_refl. cbn [andb]. eapply IH. exact E.
Qed.

Lemma escaped_code c d r r' : escaped1 c ++ r = escaped1 d ++ r' -> c = d.
Proof.
  assert (T : forall n, must_escape n = true -> n < 128) by (intro n; unfold must_escape; lia).
  assert (E92 : forall n, must_escape n = true -> exists t, escaped1 n = 92 :: t).
  { intros n Hn. unfold escaped1. rewrite Hn. cbn [negb]. repeat match goal with |- context [if ?b then _ else _] => destruct b end; eauto. }
  assert (N92 : forall n, must_escape n = false -> n <> 92) by (intro n; unfold must_escape; lia).
  destruct (must_escape c) eqn:Ec, (must_escape d) eqn:Ed.
  - intro E. apply app_prefix in E.
    pose (all := map N.of_nat (seq 0 128)).
    assert (Hall : forallb (fun a => forallb (fun b => implb (is_prefix (escaped1 a) (escaped1 b)) (a =? b)) all) all = true) by (vm_compute; reflexivity).
    assert (Hin : forall n, n < 128 -> In n all).
    { intros n Hn. apply in_map_iff. exists (N.to_nat n). split; [lia|]. apply in_seq. lia. }
    rewrite forallb_forall in Hall.
    destruct E as [E|E].
    + pose proof (Hall c (Hin c (T c Ec))) as H. cbv beta in H. rewrite forallb_forall in H. specialize (H d (Hin d (T d Ed))). cbv beta in H. rewrite E in H. cbn [implb] in H. lia.
    + pose proof (Hall d (Hin d (T d Ed))) as H. cbv beta in H. rewrite forallb_forall in H. specialize (H c (Hin c (T c Ec))). cbv beta in H. rewrite E in H. cbn [implb] in H. lia.
  - destruct (E92 c Ec) as (t & ->). unfold escaped1. rewrite Ed. cbn [negb app]. intro E. injection E as E _. apply N92 in Ed. congruence.
  - destruct (E92 d Ed) as (t & ->). unfold escaped1. rewrite Ec. cbn [negb app]. intro E. injection E as E _. apply N92 in Ec. congruence.
  - unfold escaped1. rewrite Ec, Ed. cbn [negb app]. intro E. injection E as E _. exact E.
Qed.

Lemma escaped_inj cs : forall ds, escaped cs = escaped ds -> cs = ds.
Proof.
  assert (Hn : forall c, escaped1 c <> []).
  { intros c. unfold escaped1. repeat match goal with |- context [if ?b then _ else _] => destruct b end; discriminate. }
  unfold escaped. induction cs as [|c cs IH]; intros [|d ds] E; cbn [flat_map] in E.
  - reflexivity.
  - symmetry in E. apply app_eq_nil in E as [E _]. destruct (Hn d E).
  - apply app_eq_nil in E as [E _]. destruct (Hn c E).
  - pose proof (escaped_code _ _ _ _ E). subst d. apply app_inv_head in E. f_equal. apply IH. exact E.
Qed.

(** Strings made from different texts have different encodings, whatever escapes are used ... *)
Theorem C76_built_strings pw s1 s2 x1 x2 out1 out2 : built pw s1 x1 -> built pw s2 x2 ->
  js_as_json pw x1 = Ok out1 -> js_as_json pw x2 = Ok out2 -> (out1 = out2 <-> s1 = s2).
Proof.
  intros H1 H2 E1 E2.
  destruct (C23_decoding_never_panics pw x1 (or_intror (ex_intro (fun s => built pw s x1) s1 H1))) as (cs1 & D1 & _).
  destruct (C23_decoding_never_panics pw x2 (or_intror (ex_intro (fun s => built pw s x2) s2 H2))) as (cs2 & D2 & _).
  destruct (built_as_json _ _ _ _ _ H1 D1 E1) as (K1 & -> & ->). destruct (built_as_json _ _ _ _ _ H2 D2 E2) as (K2 & -> & ->).
  split; intro E.
  - f_equal. apply escaped_inj. exact E.
  - apply utf8_string_inj in E; [|assumption|assumption]. congruence.
Qed.

(** ... but a string made from text can have the encoding of a different string read from JSON (the escapes of the crate are wrong, see C32). *)
Theorem C76_built_and_parsed_may_collide : exists x y t, js_from_str W64 [1] = Ok x /\ value_from_json W64 t = Ok (VString y) /\ rust_str W64 t /\
  to_json W64 (VString x) = Ok t /\ to_json W64 (VString y) = Ok t /\ value_eq W64 (VString x) (VString y) = Ok false.
Proof.
  eexists _, _, (bs """\u1000"""). split; [vm_compute; reflexivity|]. split; [vm_compute; reflexivity|].
  split; [apply utf8_checked; [vm_compute; reflexivity|vm_compute; discriminate]|].
  split; [vm_compute; reflexivity|]. split; vm_compute; reflexivity.
Qed.

(** * The hypotheses are met *)
Example C76_sample :
  let s1 := bs " [ 1 , ""\u0041"" ] " in let s2 := bs "[1,""\u0041""]" in let s3 := bs "[1,""A""]" in
  exists v v3, parsed_from W64 (Config false (Some 128%N) true) s1 v /\ parsed_from W64 (Config false None false) s2 v /\
    parsed_from W64 (Config false (Some 1%N) true) s3 v3 /\ to_json W64 v = Ok s2 /\ to_json W64 v3 = Ok s3 /\ v <> v3 /\ value_eq W64 v v3 = Ok true /\
    to_json_pretty_custom W64 [9] [13] v = Ok (bs "[" ++ [13; 9] ++ bs "1," ++ [13; 9] ++ bs """\u0041""" ++ [13] ++ bs "]").
Proof.
  cbv zeta. eexists _, _.
  split; [left; split; [apply rust_str_slice, utf8_checked; [vm_compute; reflexivity|vm_compute; discriminate]|vm_compute; reflexivity]|].
  split; [left; split; [apply rust_str_slice, utf8_checked; [vm_compute; reflexivity|vm_compute; discriminate]|vm_compute; reflexivity]|].
  split; [left; split; [apply rust_str_slice, utf8_checked; [vm_compute; reflexivity|vm_compute; discriminate]|vm_compute; reflexivity]|].
  split; [vm_compute; reflexivity|]. split; [vm_compute; reflexivity|]. split; [discriminate|]. split; vm_compute; reflexivity.
Qed.
