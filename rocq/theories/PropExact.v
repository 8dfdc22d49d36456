(** Property theorems: which error is reported, and where (C56-C59); the vocabulary is that of SpecError.v. *)
From Verif Require Import Base Utf8 Utf8Facts StrModel ErrorModel Tokenizer Parser ValueModel DocModel NumModel Spec SpecError
  TokBase TokStr TokNum TokFacts ErrTok ParserGen Trace ParserSound ParserComplete ErrSound ErrComplete Sim SimInst StrSpec
  View SpecWrite ParseMain DocFacts PropParse PropTok PropEntry ErrFinal ErrPlace.
Local Open Scope N_scope.

(** What [SpecError.text_error] says under a configuration. *)
Definition wrong_at (cfg : parse_config) : list N -> nat -> kind -> Prop :=
  text_error (allow_trailing_commas cfg) (recursion_limit cfg) (allow_all_types_at_root cfg).

Lemma trace_error_iff g pw cfg s o k : good g pw s ->
  (fst (parse_bytes g pw cfg trace_delegate s []) = Err (Error o k) <-> wrong_at cfg s o k).
Proof.
  intro Hg. split.
  - destruct (parse_bytes g pw cfg trace_delegate s []) as [r tr] eqn:E. cbn. intros ->.
    exact (trace_error_sound g pw cfg s _ tr Hg E).
  - apply trace_error_complete. exact Hg.
Qed.

(** * C56 *)
Theorem C56_error_is_the_described_one pw cfg s o k : rust_slice pw s ->
  (value_from_json_bytes_with_config pw s cfg = Err (Error o k) <-> wrong_at cfg s o k).
Proof.
  intro H. apply rust_slice_good in H. unfold value_from_json_bytes_with_config, parse_json_bytes_with_config.
  rewrite value_parse_eq. apply trace_error_iff. exact H.
Qed.

Theorem C56_error_is_the_described_one_str pw cfg s o k : rust_str pw s ->
  (value_from_json_with_config pw s cfg = Err (Error o k) <-> wrong_at cfg s o k).
Proof.
  intro H. destruct (C03_entry_points_agree pw cfg None s H) as (-> & _).
  apply C56_error_is_the_described_one, rust_str_slice, H.
Qed.

Theorem C56_documents_and_validators pw cfg s o k : rust_slice pw s ->
  (document_from_json_bytes_with_config pw None s cfg = Err (Error o k) <-> wrong_at cfg s o k) /\
  (validate_json_bytes_with_config pw s cfg = Err (Error o k) <-> wrong_at cfg s o k).
Proof.
  intro H. rewrite C09_C12_document_bytes, C09_C10_validate_bytes by exact H.
  rewrite <- (C56_error_is_the_described_one pw cfg s o k H).
  destruct (value_from_json_bytes_with_config pw s cfg); split; split; intro E; try discriminate; injection E as ->; reflexivity.
Qed.

(** The description is complete and consistent: a text is accepted or wrong, never both, and wrong in one way only. *)
Theorem C56_accepted_or_wrong pw cfg s : rust_slice pw s ->
  (exists t, accepted cfg t s) \/ (exists o k, wrong_at cfg s o k).
Proof.
  intro H. pose proof (rust_slice_good _ _ H) as Hg. destruct (parse_total false pw cfg s Hg) as [(v & E)|([o k] & E)].
  - left. apply parse_iff in E as (t & Ht & _); eauto.
  - right. exists o, k. apply (trace_error_iff false pw cfg s o k Hg). exact E.
Qed.

Theorem C56_not_both pw cfg s t o k : rust_slice pw s -> accepted cfg t s -> ~ wrong_at cfg s o k.
Proof.
  intros H Ha He. pose proof (rust_slice_good _ _ H) as Hg. apply (trace_error_iff false pw cfg s o k Hg) in He.
  destruct (accepted_repr pw false cfg t s Hg Ha) as (v & Hv).
  assert (E : fst (parse_bytes false pw cfg trace_delegate s []) = Ok v) by (apply parse_iff; eauto). congruence.
Qed.

Theorem C56_one_error pw cfg s o k o' k' : rust_slice pw s -> wrong_at cfg s o k -> wrong_at cfg s o' k' -> o = o' /\ k = k'.
Proof.
  intros H H1 H2. apply (C56_error_is_the_described_one pw cfg s _ _ H) in H1, H2. rewrite H1 in H2.
  injection H2 as -> ->. auto.
Qed.

(** Non-vacuity: one text for each kind of error, with its offset. *)
Definition reported (cfg : parse_config) (s : list N) (o : nat) (k : kind) : Prop :=
  rust_slice W64 s /\ value_from_json_bytes_with_config W64 s cfg = Err (Error o k).

Ltac rep := split; [split; [apply Forall_forall; intros b Hb; cbn in Hb; lia|vm_compute; congruence]|vm_compute; reflexivity].

Example C56_samples :
  reported config_new (bs "  ") 2 KUnexpectedEof /\
  reported config_new (bs "[1 2]") 2 KExpectedCommaOrEndOfArray /\
  reported config_new (bs "[1, 2") 5 KUnclosedArray /\
  reported config_new (bs "[1, ]") 3 KIllegalTrailingComma /\
  reported config_new (bs "{""a"":1 ""b"":2}") 6 KExpectedCommaOrEndOfObject /\
  reported config_new (bs "{""a"" 1}") 4 KExpectedColon /\
  reported config_new (bs "{""a"" tru:}") 8 KExpectedColon /\
  reported config_new (bs "{1:2}") 1 KObjectKeysMustBeStrings /\
  reported config_new (bs "{,}") 1 KExpectedObjectKey /\
  reported config_new (bs "{""a"":1,") 7 KUnclosedObject /\
  reported config_new (bs "[""a") 3 KUnclosedString /\
  reported config_new (bs "[-]") 2 KExpectedDigit /\
  reported config_new (bs "[1.]") 3 KExpectedDecimalDigit /\
  reported config_new (bs "[1e+]") 4 KExpectedExponent /\
  reported config_new (bs "[""\q""]") 3 KInvalidEscape /\
  reported config_new (bs "[""\u12g4""]") 6 KInvalidHexadecimal /\
  reported config_new (bs "[""\ud800\u0041""]") 3 KUtf8 /\
  reported config_new (bs "[]]") 2 KTrailingNonWhitespace /\
  reported config_new (bs "nul!") 3 (KUnexpected 33) /\
  reported config_new (bs " ]") 0 (KUnexpected 93) /\
  reported config_strict (bs " 1 2") 0 KPayloadsShouldBeObjectOrArray /\
  reported (with_recursion_limit config_new 1) (bs "[ [1]]") 2 KRecursionLimitReached.
Proof. repeat match goal with |- _ /\ _ => split end; rep. Qed.

(** * C57: an error strictly inside the input is final *)

(** However the input is continued, it stays rejected.  (Bytes that are not UTF-8 may have been cut inside a character.) *)
Theorem C57_error_inside_is_final pw cfg s y o k v : rust_slice pw (s ++ y) ->
  value_from_json_bytes_with_config pw s cfg = Err (Error o k) -> (o < length s)%nat -> (k = KUtf8 -> is_utf8 s) ->
  value_from_json_bytes_with_config pw (s ++ y) cfg <> Ok v.
Proof.
  intros H E Ho Hu. assert (Hs : rust_slice pw s).
  { destruct H as [Hb Hl]. apply Forall_app in Hb as [Hb _]. rewrite app_length in Hl. split; [exact Hb|lia]. }
  apply C56_error_is_the_described_one in E; [|exact Hs].
  destruct (text_error_persists _ _ pw y _ _ _ _ E Ho) as [_ (o' & k' & E')].
  - intro K. apply utf8_valid_iff. auto.
  - exact (proj2 H).
  - apply (C56_error_is_the_described_one pw cfg (s ++ y) _ _ H) in E'. congruence.
Qed.

(** The error itself does not change either, unless the continuation prolongs a number. *)
Theorem C57_same_error_for_every_continuation pw cfg s y o k : rust_slice pw (s ++ y) ->
  value_from_json_bytes_with_config pw s cfg = Err (Error o k) -> (o < length s)%nat ->
  (k = KUtf8 \/ k = KExpectedColon -> is_utf8 s) ->
  (forall b y', y = b :: y' -> ~ (48 <= b <= 57 \/ In b [46; 101; 69; 43; 45])) ->
  value_from_json_bytes_with_config pw (s ++ y) cfg = Err (Error o k).
Proof.
  intros H E Ho Hu Hy. assert (Hs : rust_slice pw s).
  { destruct H as [Hb Hl]. apply Forall_app in Hb as [Hb _]. rewrite app_length in Hl. split; [exact Hb|lia]. }
  apply C56_error_is_the_described_one in E; [|exact Hs]. apply C56_error_is_the_described_one; [exact H|].
  destruct (text_error_persists _ _ pw y _ _ _ _ E Ho) as [E' _].
  - intro K. apply utf8_valid_iff. auto.
  - exact (proj2 H).
  - apply E'; [|intro K; apply utf8_valid_iff; auto]. unfold stable. destruct y as [|b y']; cbn [starts]; [tauto|].
    specialize (Hy _ _ eq_refl). unfold digit. exact Hy.
Qed.

(** Read backwards: a text cut short is accepted, or wrong at its end. *)
Corollary C57_every_prefix_of_an_accepted_text pw cfg s y v : rust_slice pw (s ++ y) ->
  value_from_json_bytes_with_config pw (s ++ y) cfg = Ok v ->
  (exists v', value_from_json_bytes_with_config pw s cfg = Ok v') \/
  (exists k, value_from_json_bytes_with_config pw s cfg = Err (Error (length s) k)) \/
  (exists o, value_from_json_bytes_with_config pw s cfg = Err (Error o KUtf8) /\ ~ is_utf8 s).
Proof.
  intros H E. assert (Hs : rust_slice pw s).
  { destruct H as [Hb Hl]. apply Forall_app in Hb as [Hb _]. rewrite app_length in Hl. split; [exact Hb|lia]. }
  destruct (C05_parsing_returns pw cfg None s Hs) as (T & _). destruct (C16_C50_parse_error_offsets pw cfg None s Hs) as (Hle & _).
  destruct (value_from_json_bytes_with_config pw s cfg) as [v'|[o k]|f] eqn:Es; [left; eauto| |destruct T as [(? & T)|(? & T)]; discriminate].
  right. destruct Hle as [Hle _]. cbn in Hle.
  destruct (Nat.eq_dec o (length s)) as [->|Hne]; [left; eauto|right].
  assert (Ho : (o < length s)%nat) by lia.
  destruct (utf8_valid s) eqn:Eu.
  - exfalso. eapply C57_error_inside_is_final; try eassumption. intros _. apply utf8_valid_iff. exact Eu.
  - assert (Hu : ~ is_utf8 s) by (intro K; apply utf8_valid_iff in K; congruence).
    exists o. split; [|exact Hu]. assert (Hk : k = KUtf8 \/ k <> KUtf8) by (destruct k; (left; reflexivity) || (right; discriminate)).
    destruct Hk as [->|Hk]; [reflexivity|].
    exfalso. eapply C57_error_inside_is_final; try eassumption. intro K. contradiction.
Qed.

(** The side conditions are needed, and met. *)
Example C57_cut_character : exists v,
  reported config_new [34; 0xC3] 1 KUtf8 /\ ~ is_utf8 [34; 0xC3] /\
  value_from_json_bytes_with_config W64 ([34; 0xC3] ++ [0xA9; 34]) config_new = Ok v.
Proof.
  eexists. split; [rep|]. split; [|vm_compute; reflexivity]. intro H. apply utf8_valid_iff in H. vm_compute in H. discriminate H.
Qed.
Example C57_prolonged_number :
  reported config_new (bs "[1 2") 2 KExpectedCommaOrEndOfArray /\ reported config_new (bs "[1 2" ++ bs ".") 5 KExpectedDecimalDigit /\
  reported config_new (bs "[1 2" ++ bs " 3, 4]") 2 KExpectedCommaOrEndOfArray.
Proof. split; [rep|]. split; rep. Qed.

(** * C58: the first error is the one reported *)

(** The input up to the reported offset, or up to the start of the ill-formed token the offset lies in, is the beginning of
    some JSON text. *)
Theorem C58_text_before_the_error_is_viable pw cfg s o k : rust_slice pw s ->
  value_from_json_bytes_with_config pw s cfg = Err (Error o k) ->
  exists p x, s = p ++ x /\ (exists y t, json_text (allow_trailing_commas cfg) t (p ++ y)) /\
    (o = length p \/ exists m k', o = (length p + m)%nat /\ token_error x m k').
Proof. intros H E. apply C56_error_is_the_described_one in E; [|exact H]. eapply text_error_placed, E. Qed.

(** Together with C57: unless it is at the end of the input, what is reported is the first thing that no continuation could
    have repaired. *)
Corollary C58_first_error pw s o k : rust_str pw s ->
  value_from_json_with_config pw s (without_recursion_limit config_new) = Err (Error o k) -> (o < length s)%nat ->
  (forall y t, rust_slice pw (s ++ y) -> ~ json_text false t (s ++ y)) /\
  exists p x, s = p ++ x /\ (exists y t, json_text false t (p ++ y)) /\
    (o = length p \/ exists m k', o = (length p + m)%nat /\ token_error x m k').
Proof.
  intros H E Ho. destruct (C03_entry_points_agree pw (without_recursion_limit config_new) None s H) as (Es & _). rewrite Es in E.
  pose proof (rust_str_slice _ _ H) as Hs. split.
  - intros y t Hy Ht. destruct (accepted_repr pw false (without_recursion_limit config_new) t (s ++ y)) as (v & Hv).
    + apply rust_slice_good, Hy.
    + split; [exact Ht|]. split; [exact I|left; reflexivity].
    + eapply (C57_error_inside_is_final pw (without_recursion_limit config_new) s y o k v); try eassumption.
      * intros _. exact (proj1 H).
      * apply value_bytes_iff; [exact Hy|]. exists t. split; [|exact Hv]. split; [exact Ht|]. split; [exact I|left; reflexivity].
  - exact (C58_text_before_the_error_is_viable pw (without_recursion_limit config_new) s o k Hs E).
Qed.

Example C58_sample : reported config_new (bs "[1, tru]") 7 (KUnexpected 93) /\
  token_error (bs "tru]") 3 (KUnexpected 93) /\ exists y t, json_text false t (bs "[1, " ++ y).
Proof.
  split; [rep|]. split.
  - apply te_literal with (lit := lit_true); [cbn; auto|]. apply (le_bad lit_true (bs "tru") 101 [] 93 []); [reflexivity|discriminate..].
  - exists (bs "0]"). assert (R : rust_slice W64 (bs "[1, 0]")).
    { split; [apply Forall_forall; intros b Hb; cbn in Hb; lia|vm_compute; congruence]. }
    assert (K : exists v, value_from_json_bytes_with_config W64 (bs "[1, 0]") config_new = Ok v) by (eexists; vm_compute; reflexivity).
    destruct K as (v & K). apply (value_bytes_iff _ _ _ _ R) in K as (t & (Ht & _) & _). exists t. exact Ht.
Qed.

(** * C59: the recursion limit only ever adds its own error, at the bracket that is too deep *)

Theorem C59_limit_changes_no_other_result pw cfg n s : rust_slice pw s ->
  value_from_json_bytes_with_config pw s (with_recursion_limit cfg n) =
    value_from_json_bytes_with_config pw s (without_recursion_limit cfg) \/
  exists o, value_from_json_bytes_with_config pw s (with_recursion_limit cfg n) = Err (Error o KRecursionLimitReached).
Proof.
  intro H. destruct (C05_parsing_returns pw (with_recursion_limit cfg n) None s H) as ([(v & E)|([o k] & E)] & _); rewrite E.
  - left. symmetry. apply value_bytes_iff in E as (t & (H1 & _ & H3) & Hr); [|exact H]. apply value_bytes_iff; [exact H|].
    exists t. split; [|exact Hr]. split; [exact H1|]. split; [exact I|exact H3].
  - assert (Hk : k = KRecursionLimitReached \/ k <> KRecursionLimitReached) by (destruct k; (left; reflexivity) || (right; discriminate)).
    destruct Hk as [->|Hk]; [right; eauto|left]. symmetry. apply C56_error_is_the_described_one in E; [|exact H].
    apply C56_error_is_the_described_one; [exact H|]. eapply text_error_generous; [|exact E|exact Hk]. discriminate.
Qed.

Theorem C59_higher_limit pw cfg n m s : rust_slice pw s -> n <= m ->
  value_from_json_bytes_with_config pw s (with_recursion_limit cfg n) =
    value_from_json_bytes_with_config pw s (with_recursion_limit cfg m) \/
  exists o, value_from_json_bytes_with_config pw s (with_recursion_limit cfg n) = Err (Error o KRecursionLimitReached).
Proof.
  intros H Hnm. destruct (C05_parsing_returns pw (with_recursion_limit cfg n) None s H) as ([(v & E)|([o k] & E)] & _); rewrite E.
  - left. symmetry. apply value_bytes_iff in E as (t & (H1 & H2 & H3) & Hr); [|exact H]. apply value_bytes_iff; [exact H|].
    exists t. split; [|exact Hr]. split; [exact H1|]. split; [|exact H3]. cbn in *. lia.
  - assert (Hk : k = KRecursionLimitReached \/ k <> KRecursionLimitReached) by (destruct k; (left; reflexivity) || (right; discriminate)).
    destruct Hk as [->|Hk]; [right; eauto|left]. symmetry. apply C56_error_is_the_described_one in E; [|exact H].
    apply C56_error_is_the_described_one; [exact H|]. eapply text_error_generous; [|exact E|exact Hk].
    cbn. intros m' Em. injection Em as <-. eauto.
Qed.

(** At the reported offset exactly [n] containers are open, and the next thing opens another one. *)
Theorem C59_limit_error_place pw cfg s o : rust_slice pw s ->
  value_from_json_bytes_with_config pw s cfg = Err (Error o KRecursionLimitReached) ->
  exists n w b x, recursion_limit cfg = Some n /\ nesting Outside 0 (firstn o s) = (Outside, n) /\
    skipn o s = w ++ b :: x /\ ws w /\ (b = 91 \/ b = 123).
Proof.
  intros H E. apply C56_error_is_the_described_one in E; [|exact H].
  apply text_error_limit in E as (p & w & b & x & m & -> & -> & Hw & Hb & Hl & Hn).
  exists m, w, b, x. rewrite firstn_app, firstn_all, Nat.sub_diag, app_nil_r, skipn_app, skipn_all, Nat.sub_diag.
  cbn [In] in Hb. repeat split; auto. lia.
Qed.

Corollary C59_no_limit_no_error pw cfg s o : rust_slice pw s ->
  value_from_json_bytes_with_config pw s (without_recursion_limit cfg) <> Err (Error o KRecursionLimitReached).
Proof. intros H E. destruct (C59_limit_error_place _ _ _ _ H E) as (n & w & b & x & K & _). discriminate K. Qed.

Example C59_sample : reported (with_recursion_limit config_new 2) (bs "{""]"": [ {}]}") 8 KRecursionLimitReached /\
  nesting Outside 0 (firstn 8 (bs "{""]"": [ {}]}")) = (Outside, 2).
Proof. split; [|vm_compute; reflexivity]. rep. Qed.
