(** Concrete cases meeting the hypotheses of the theorems of PropParse.v and PropTrail.v. *)
From Verif Require Import Base Utf8 Utf8Facts StrModel ErrorModel Tokenizer Parser ValueModel DocModel NumModel Spec View
  GrammarFacts PropParse PropTrail PropWrite PropIter WitBase.
Local Open Scope N_scope.

Definition at_C01_bytes_accepts_exactly_json := C01_bytes_accepts_exactly_json W64 text0 slice0.
Definition at_C01_str_accepts_exactly_json := C01_str_accepts_exactly_json W64 text0 str0.
Definition at_C01_bytes_accepts_config := C01_bytes_accepts_config W64 cfg1 text1 slice1.
Definition at_C01_str_accepts_config := C01_str_accepts_config W64 cfg1 text1 str1.
Definition at_C02_value_is_denoted_tree_bytes := C02_value_is_denoted_tree_bytes W64 cfg1 text1 value1 slice1 parse1.
Definition at_C02_value_is_denoted_tree_str := C02_value_is_denoted_tree_str W64 config_default text0 value0 str0 parse0s.
Definition at_C02_denoted_tree_is_returned := C02_denoted_tree_is_returned W64 config_default text0 tree0 slice0 accepted0.
Definition at_C04_C52_parsed_sources := C04_C52_parsed_sources W64 config_default text0 value0 slice0 parse0.
Definition at_C04_C52_parsed_sources_str := C04_C52_parsed_sources_str W64 config_default text0 value0 str0 parse0s.
Definition at_C05_parsing_returns := C05_parsing_returns W64 config_default (Some 3%nat) text3 slice3.
Definition at_C05_parsing_returns_str := C05_parsing_returns_str W64 config_default (Some 3%nat) text3 str3.

(** A delegate that panics on [false]. *)
Definition panics_on_false : delegate := {|
  d_st := unit; d_value := unit; d_object := bool; d_array := bool; d_key := unit; d_error := unit;
  d_null := fun s => (Ok tt, s); d_boolean := fun s b => ((if b then Ok tt else Fault FExpect), s);
  d_number := fun s _ => (Ok tt, s); d_string := fun s _ => (Ok tt, s);
  d_begin_object := fun s => (Ok true, s); d_object_key := fun s _ _ => (Ok (false, tt), s);
  d_object_value := fun s _ _ _ => (Ok false, s); d_object_is_empty := fun _ o => Ok o; d_end_object := fun s _ => (Ok tt, s);
  d_begin_array := fun s => (Ok true, s); d_array_value := fun s _ _ => (Ok false, s); d_array_is_empty := fun _ a => Ok a;
  d_end_array := fun s _ => (Ok tt, s); d_kind_of := fun _ _ => Ok JkNull |}.
Definition at_C05_any_delegate :=
  C05_any_delegate W64 config_default panics_on_false text0 tt FExpect slice0 ltac:(vm_compute; reflexivity).
Definition at_C05_any_delegate_str :=
  C05_any_delegate_str W64 config_default panics_on_false text0 tt FExpect str0 ltac:(vm_compute; reflexivity).

Definition at_C06_option_accepts_exactly := C06_option_accepts_exactly W64 config_default text1 slice1.
Definition at_C06_same_value_without_comma := C06_same_value_without_comma W64 config_default text1 value1 slice1 parse1.
Definition at_C06_option_only_adds := C06_option_only_adds W64 config_default text0 value0 slice0 parse0.
Definition at_C06_rejected_without_option := C06_rejected_without_option W64 config_default (bs "1, {}") (bs " ") 91 93
  eq_refl ltac:(repeat constructor) ltac:(left; split; reflexivity) ltac:(slice).

Definition elements_text : list N := bs "1, {""a"":[]} , ""x\n"" ".
Definition elements_value : value :=
  Eval vm_compute in match value_from_json_bytes W64 (91 :: elements_text ++ [93]) with Ok v => v | _ => VNull end.
Definition elements_trees : list tree := Eval vm_compute in match tree_of elements_value with TArr l => l | _ => [] end.
Lemma elements_slice : rust_slice W64 (91 :: elements_text ++ [93]). Proof. slice. Qed.
Lemma elements_parse : value_from_json_bytes_with_config W64 (91 :: elements_text ++ [93]) config_default = Ok elements_value.
Proof. vm_compute. reflexivity. Qed.
Lemma elements_value_text : value_text false (TArr elements_trees) (91 :: elements_text ++ [93]).
Proof.
  refine (value_text_of config_default _ elements_value 91 93 _ (91 :: elements_text) elements_slice elements_parse eq_refl eq_refl _ _); lia.
Qed.
Lemma elements_ok : elements false elements_trees elements_text.
Proof. apply elements_of; [exact elements_value_text|discriminate]. Qed.
Definition at_C06_accepted_with_option := C06_accepted_with_option W64 config_default elements_trees elements_text (bs "  ")
  ltac:(slice) ltac:(repeat constructor) elements_ok (denotes _ _ _ elements_slice elements_parse).

Definition members_text : list N := bs """a"":1, ""b\t"" : [{}] ,""c"":null".
Definition members_value : value :=
  Eval vm_compute in match value_from_json_bytes W64 (123 :: members_text ++ [125]) with Ok v => v | _ => VNull end.
Definition members_trees : list (list N * tree) := Eval vm_compute in match tree_of members_value with TObj l => l | _ => [] end.
Lemma members_slice : rust_slice W64 (123 :: members_text ++ [125]). Proof. slice. Qed.
Lemma members_parse : value_from_json_bytes_with_config W64 (123 :: members_text ++ [125]) config_default = Ok members_value.
Proof. vm_compute. reflexivity. Qed.
Lemma members_value_text : value_text false (TObj members_trees) (123 :: members_text ++ [125]).
Proof.
  refine (value_text_of config_default _ members_value 123 125 _ (123 :: members_text) members_slice members_parse eq_refl eq_refl _ _); lia.
Qed.
Lemma members_ok : members false members_trees members_text.
Proof. apply members_of; [exact members_value_text|discriminate]. Qed.
Definition at_C06_accepted_with_option_object := C06_accepted_with_option_object W64 config_default members_trees members_text (bs "  ")
  ltac:(slice) ltac:(repeat constructor) members_ok (denotes _ _ _ members_slice members_parse).
Definition at_C06_extra_commas_mean_nothing := C06_extra_commas_mean_nothing W64 config_default text1 value1 slice1 eq_refl parse1.

(** The depth of [text0] is 4. *)
Definition at_C07_limit_is_exact_at_4 : value_from_json_bytes_with_config W64 text0 (with_recursion_limit config_default 4) = Ok value0 :=
  proj2 (C07_limit_is_exact W64 config_default 4 text0 value0 slice0) ltac:(split; [vm_compute; reflexivity|vm_compute; discriminate]).
Definition at_C07_limit_is_exact_at_3 : value_from_json_bytes_with_config W64 text0 (with_recursion_limit config_default 3) <> Ok value0 :=
  fun H => ltac:(destruct (proj1 (C07_limit_is_exact W64 config_default 3 text0 value0 slice0) H) as [_ K]; vm_compute in K; apply K; reflexivity).
Definition at_C07_no_limit_any_depth :=
  C07_no_limit_any_depth W64 config_default text0 tree0 slice0 json0 ltac:(left; reflexivity).
Definition at_C08_root_restriction := C08_root_restriction W64 config_default text0 value0 slice0.
Definition at_C08_scalar_root_error := C08_scalar_root_error W64 config_default text2 value2 slice2 parse2 eq_refl.
Definition at_C08_strict_is_default_with_container_root := C08_strict_is_default_with_container_root W64 text0 value0 slice0.
Definition at_C16_C50_parse_error_offsets := C16_C50_parse_error_offsets W64 config_default None text4 slice4.
Definition at_C16_C50_parse_error_offsets_str := C16_C50_parse_error_offsets_str W64 config_default None text4 str4.
Definition at_C16_C50_any_delegate := C16_C50_any_delegate W64 config_default panics_on_false text4 tt
  (Error 11 KUnclosedArray) slice4 ltac:(vm_compute; reflexivity).
(** A prefix of [text0] that is accepted: all but the trailing space. *)
Definition at_C49_truncated_rejected := C49_truncated_rejected W64 config_default (firstn (length text0 - 1) text0) (bs " ") value0 value0
  ltac:(slice) ltac:(vm_compute; reflexivity) ltac:(intros n E; discriminate E) ltac:(vm_compute; reflexivity).
Definition at_C51_texts_are_unambiguous := C51_texts_are_unambiguous false tree0 tree0 text0 json0 json0.
Definition at_C51_trailing_commas_add_no_meaning :=
  C51_trailing_commas_add_no_meaning false true tree0 tree0 text0 json0 (json_text_mono _ _ json0).
Lemma body : str_body (bs "\u0041\ud83d\ude39\nz") [0x41; 0x1F639; 10; 122].
Proof.
  assert (H : forall b, 48 <= b <= 57 -> hex_digit_val b (b - 48)) by exact hex_09.
  assert (A : forall b, 97 <= b <= 102 -> hex_digit_val b (b - 97 + 10)) by exact hex_af.
  apply (sb_cons (bs "\u0041")).
  { apply (si_unicode (bs "0041") 0x41); [|reflexivity].
    exact (hex4_intro 48 48 52 49 0 0 4 1 (H 48 ltac:(lia)) (H 48 ltac:(lia)) (H 52 ltac:(lia)) (H 49 ltac:(lia))). }
  apply (sb_cons (bs "\ud83d\ude39")).
  { apply (si_pair (bs "d83d") 0xD83D (bs "de39") 0xDE39); [| lia | | lia].
    - exact (hex4_intro 100 56 51 100 13 8 3 13 (A 100 ltac:(lia)) (H 56 ltac:(lia)) (H 51 ltac:(lia)) (A 100 ltac:(lia))).
    - exact (hex4_intro 100 101 51 57 13 14 3 9 (A 100 ltac:(lia)) (A 101 ltac:(lia)) (H 51 ltac:(lia)) (H 57 ltac:(lia))). }
  apply (sb_cons (bs "\n")). { apply si_simple. cbn. tauto. }
  apply (sb_cons (bs "z") 122 []); [|constructor]. apply (si_plain 122); [reflexivity|lia|lia|lia].
Qed.
Definition at_C51_strings_are_unambiguous := C51_strings_are_unambiguous _ _ _ body body.
Definition at_C07_limit_is_exact :=
  proj2 (C07_limit_is_exact W64 config_default 4 text0 value0 slice0) ltac:(split; [vm_compute; reflexivity|vm_compute; discriminate]).
