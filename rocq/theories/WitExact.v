(** Concrete cases meeting the hypotheses of the theorems of PropExact.v and PropSpace.v. *)
From Verif Require Import Base Utf8 Utf8Facts StrModel ErrorModel Tokenizer Parser ValueModel DocModel NumModel Spec SpecError SpecLex View
  PropParse PropExact PropSpace PropWrite PropIter WitBase.
Local Open Scope N_scope.

Definition at_C56_error_is_the_described_one :=
  proj1 (C56_error_is_the_described_one W64 config_default text3 13 (KUnexpected 32) slice3) ltac:(vm_compute; reflexivity).
Definition at_C56_error_is_the_described_one_str :=
  proj1 (C56_error_is_the_described_one_str W64 config_default text4 11 KUnclosedArray str4) ltac:(vm_compute; reflexivity).
Definition at_C56_documents_and_validators := C56_documents_and_validators W64 config_default text4 11 KUnclosedArray slice4.
Definition at_C56_accepted_or_wrong := C56_accepted_or_wrong W64 cfg1 text1 slice1.
Definition at_C56_not_both := C56_not_both W64 config_default text0 tree0 14 KUnclosedArray slice0 accepted0.
Definition at_C56_one_error := C56_one_error W64 config_default text3 13 (KUnexpected 32) 13 (KUnexpected 32) slice3
  at_C56_error_is_the_described_one at_C56_error_is_the_described_one.
Definition at_C57_error_inside_is_final := C57_error_inside_is_final W64 config_default text3 (bs ", 1]") 13 (KUnexpected 32) value0
  ltac:(slice) ltac:(vm_compute; reflexivity) ltac:(vm_compute; lia) ltac:(discriminate).
Definition at_C57_same_error_for_every_continuation :=
  C57_same_error_for_every_continuation W64 config_default text3 (bs ", 1]") 13 (KUnexpected 32)
  ltac:(slice) ltac:(vm_compute; reflexivity) ltac:(vm_compute; lia) ltac:(intros [K|K]; discriminate K)
  ltac:(intros b y E; injection E as <- _; cbn; lia).
Definition at_C57_every_prefix_of_an_accepted_text :=
  C57_every_prefix_of_an_accepted_text W64 config_default (firstn 20 text0) (skipn 20 text0) value0 slice0 parse0.
Definition at_C58_text_before_the_error_is_viable :=
  C58_text_before_the_error_is_viable W64 config_default text3 13 (KUnexpected 32) slice3 ltac:(vm_compute; reflexivity).
Definition at_C58_first_error := C58_first_error W64 text3 13 (KUnexpected 32) str3 ltac:(vm_compute; reflexivity) ltac:(vm_compute; lia).
Definition at_C59_limit_changes_no_other_result := C59_limit_changes_no_other_result W64 config_default 3 text0 slice0.
Definition at_C59_higher_limit := C59_higher_limit W64 config_default 3 4 text0 slice0 ltac:(lia).
Definition at_C59_limit_error_place := C59_limit_error_place W64 (with_recursion_limit config_default 3) text0 76 slice0 ltac:(vm_compute; reflexivity).
Definition at_C59_no_limit_no_error := C59_no_limit_no_error W64 config_default text0 76 slice0.

Definition dense : list N := bs "[1,{""a"":true}]".
Definition loose : list N := bs " [ 1 ,{ ""a"" : true }] ".
Definition spaced_dense : spaced space_lexemes dense := proj1 space_sample.
Definition spaced_loose : spaced space_lexemes loose := proj1 (proj2 space_sample).
Lemma dense_slice : rust_slice W64 dense. Proof. slice. Qed.
Lemma loose_slice : rust_slice W64 loose. Proof. slice. Qed.
Definition dense_value : value := Eval vm_compute in match value_from_json_bytes W64 dense with Ok v => v | _ => VNull end.
Lemma dense_parse : value_from_json_bytes_with_config W64 dense config_default = Ok dense_value. Proof. vm_compute. reflexivity. Qed.
Definition at_C48_whitespace_is_insignificant_in_grammar :=
  C48_whitespace_is_insignificant_in_grammar W64 false _ space_lexemes dense loose ltac:(vm_compute; discriminate) spaced_dense spaced_loose
  (proj1 (C02_value_is_denoted_tree_bytes W64 config_default dense dense_value dense_slice dense_parse)).
Definition at_C48_whitespace_is_insignificant := proj1
  (C48_whitespace_is_insignificant W64 config_default space_lexemes dense loose dense_value dense_slice loose_slice spaced_dense spaced_loose)
  dense_parse.
Definition at_C48_documents_and_validation :=
  C48_documents_and_validation W64 config_default space_lexemes dense loose dense_slice loose_slice spaced_dense spaced_loose.
Definition at_C48_bounded_documents :=
  C48_bounded_documents W64 config_default (Some 5%nat) space_lexemes dense loose (preorder dense_value) dense_slice loose_slice spaced_dense spaced_loose.
Definition at_C48_inserting_whitespace :=
  C48_inserting_whitespace W64 config_default [bs "["; bs "1"] [bs "]"] (bs "[1") (bs "]") [32; 10] (VArray [VNumber (JNum (Borrowed [49]))])
  (proj1 C48_sample_insert) (proj1 (proj2 C48_sample_insert)) (proj1 (proj2 (proj2 C48_sample_insert)))
  (proj1 (proj2 (proj2 (proj2 C48_sample_insert)))) (proj1 (proj2 (proj2 (proj2 (proj2 C48_sample_insert))))).
Definition at_C48_accepted_texts_are_spaced := C48_accepted_texts_are_spaced W64 cfg1 text1 value1 slice1 parse1.
