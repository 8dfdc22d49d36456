(** Concrete cases meeting the hypotheses of the theorems of PropEntry.v and PropErrors.v. *)
From Verif Require Import Base Utf8 Utf8Facts StrModel ErrorModel Tokenizer Parser ValueModel DocModel NumModel Spec View
  PropParse PropEntry PropErrors PropTok PropWrite PropIter WitBase WitParse.
Local Open Scope N_scope.

Definition at_C03_entry_points_agree := C03_entry_points_agree W64 cfg1 (Some 9%nat) text1 str1.
Definition at_C03_default_entry_points_agree := C03_default_entry_points_agree W64 None text0 str0.
Definition at_C03_any_delegate := C03_any_delegate W64 config_default panics_on_false text3 tt str3.
Definition at_C09_C10_validate_bytes := C09_C10_validate_bytes W64 config_default text0 slice0.
Definition at_C09_C10_validate_str := C09_C10_validate_str W64 config_default text0 str0.
Definition at_C09_C12_document_bytes := C09_C12_document_bytes W64 config_default text0 slice0.
Definition at_C09_C12_document_str := C09_C12_document_str W64 config_default text0 str0.
Definition at_C12_document_shape := C12_document_shape W64 config_default None text0 doc0 slice0 docparse0.
Definition at_C11_document_to_value_bytes := C11_document_to_value_bytes W64 config_default text0 value0 slice0.
Definition at_C11_document_to_value_str := C11_document_to_value_str W64 config_default text0 value0 str0.
Definition at_C11_conversion_never_panics := C11_conversion_never_panics W64 config_default None text0 doc0 slice0 docparse0.
(** After three nodes have been read: the iterator is inside the array. *)
Definition at_C13_skip_agrees_with_read := C13_skip_agrees_with_read W64 config_default None text0 doc0 (firstn 3 doc0) (skipn 3 doc0)
  slice0 docparse0 eq_refl.
Definition rest0 : list node := Eval vm_compute in skipn 2 doc0.
Definition next0 : value * list node := Eval vm_compute in match next_value rest0 with Ok (Some v, r) => (v, r) | _ => (VNull, []) end.
Definition at_C13_skip_follows_read := C13_skip_follows_read rest0 (fst next0) (snd next0) eq_refl.
Definition at_C14_bounded_capacity := C14_bounded_capacity W64 config_default 14 text0 doc0 slice0.
Definition at_C14_bounded_errors := C14_bounded_errors W64 config_default 3 text0 slice0.
Definition str2v : json_string := Eval vm_compute in match value2 with VString s => s | _ => JStr (CRaw (Borrowed [])) 0 end.
Definition at_C46_string_from_json := proj2 (C46_string_from_json W64 text2 str2v str2) ltac:(vm_compute; reflexivity).
Definition num_text : list N := bs " -1.50e+2 ".
Lemma num_str : rust_str W64 num_text. Proof. str. Qed.
Lemma num_slice : rust_slice W64 (bs "-1.50e+2"). Proof. slice. Qed.
Definition num_value : value := Eval vm_compute in match value_from_json_bytes W64 (bs "-1.50e+2") with Ok v => v | _ => VNull end.
Lemma num_ok : number (bs "-1.50e+2").
Proof.
  refine (number_of false _ (bs "-1.50e+2") (value_text_of config_default _ num_value 45 50 _ (bs "-1.50e+") num_slice _ eq_refl eq_refl _ _));
    [vm_compute; reflexivity|lia|lia].
Qed.
Definition at_C46_number_from_json :=
  proj2 (C46_number_from_json W64 num_text (JNum (Borrowed (bs "-1.50e+2"))) num_str) ltac:(vm_compute; reflexivity).
Definition at_C46_string_accepts_exactly := C46_string_accepts_exactly W64 text2 (bs "caf\u00e9 \ud83d\ude39 \t") str2.
Definition at_C46_number_accepts_exactly := C46_number_accepts_exactly W64 num_text (bs "-1.50e+2") num_str.
Definition at_C46_parse_gets_the_literal := C46_parse_gets_the_literal W64 (bs " ") (bs "-1.50e+2") (bs " ") nat (@length N)
  num_str ltac:(repeat constructor) ltac:(repeat constructor) num_ok.
Definition at_C46_other_values := C46_other_values W64 text0 value0 str0 parse0s.
Definition at_C46_never_panics := C46_never_panics W64 text0 str0.

(** [text3] is [[1, {"a": tru }]]: the tokenizer fails at the space after [tru]. *)
Definition at_C55_lexical_errors_surface := C55_lexical_errors_surface false W64 config_default value_delegate text3 tt
  (Error 13 (KUnexpected 32)) slice3 ltac:(vm_compute; reflexivity) ltac:(cbn; lia).
Definition at_C55_accepted_input_tokenizes := C55_accepted_input_tokenizes true W64 config_default value_delegate text0 tt value0
  str0 ltac:(vm_compute; reflexivity).
Definition at_C55_lexical_errors_of_values := C55_lexical_errors_of_values W64 config_default text3
  (Error 13 (KUnexpected 32)) slice3 ltac:(vm_compute; reflexivity) ltac:(cbn; lia).
Definition at_C55_only_own_kinds_are_added := C55_only_own_kinds_are_added W64 config_default 3 text0
  (Error 9 KPaylodTooLarge) slice0 ltac:(vm_compute; reflexivity).
Definition at_C55_scalar_parsers_add_only_their_kind := proj1 (C55_scalar_parsers_add_only_their_kind W64 text0 (Error 2 KExpectedString) str0) ltac:(vm_compute; reflexivity).
