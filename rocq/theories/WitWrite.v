(** Concrete cases meeting the hypotheses of the theorems of PropStrExact.v, PropText.v, PropValue.v, PropWork.v, PropWrite.v and PropWriteDepth.v. *)
From Verif Require Import Base Utf8 Utf8Facts StrModel ErrorModel Tokenizer Parser ValueModel DocModel NumModel Spec SpecStr SpecLex SpecWrite View
  StrEsc StrObt PropParse PropDelegate PropEsc PropWrite PropIter PropValue PropStrExact PropText PropWork PropWriteDepth WitBase WitParse WitCall WitData WitEsc WitNum WitStr.
Local Open Scope N_scope.

(** * PropStrExact *)
Definition at_C27_eq_transitive_exactly :=
  C27_eq_transitive_exactly W64 jstr jstr' jstr obt_j obt_j' obt_j ltac:(vm_compute; reflexivity) ltac:(vm_compute; reflexivity).
Definition at_C29_cmp_consistent_exactly := C29_cmp_consistent_exactly W64 jstr kstr jcs jcs obt_j obt_k jdec kdec.
Definition at_C30_hash_exactly := C30_hash_exactly W64 jstr jcs obt_j jdec.
Definition at_C30_hashes_agree_exactly := C30_hashes_agree_exactly W64 jstr kstr jcs jcs obt_j obt_k jdec kdec.
Lemma rstr_raw : ~ is_json_form rstr. Proof. intro H. exact H. Qed.
Definition at_C44_size_hint_exactly :=
  C44_size_hint_exactly W64 raw1 rstr rcs (bs "a\") esc1 (bs "n\""" ++ [0xE9; 0x1F639]) built1 rstr_raw rdec esc1_steps esc1_rest.
Definition astr : json_string := Eval vm_compute in match js_from_str W64 [97; 10] with Ok x => x | _ => JStr (CRaw (Borrowed [])) 0 end.
Definition at_C44_size_hint_upper_wrong_for_raw_ascii :=
  C44_size_hint_upper_wrong_for_raw_ascii W64 [97; 10] astr (bs "a\n") ltac:(split; [str|left; vm_compute; reflexivity]) ltac:(intro H; exact H)
    ltac:(repeat constructor) ltac:(exists 9%nat; eexists; vm_compute; reflexivity).

(** * PropText *)
Definition text_edited : list N := Eval vm_compute in match to_json W64 edited0 with Ok s => s | _ => [] end.
Definition text_edited_p : list N := Eval vm_compute in match to_json_pretty_custom W64 [9] [13; 10] edited0 with Ok s => s | _ => [] end.
Definition at_C64_compact_is_one_line := C64_compact_is_one_line W64 edited0 text_edited built_value ltac:(vm_compute; reflexivity).
Definition at_C64_pretty_control_characters :=
  C64_pretty_control_characters W64 [9] [13; 10] edited0 text_edited_p 13 built_value ltac:(vm_compute; reflexivity)
    ltac:(vm_compute; right; left; reflexivity) ltac:(lia).
Lemma constructible_arr : constructible W64 (VArray [edited0; VString rstr; VNull]).
Proof.
  split; constructor; repeat (apply Forall_cons || apply Forall_nil); try apply built_value; constructor. exact obt_r.
Qed.
Lemma tab : no_newline [9]. Proof. repeat constructor; discriminate. Qed.
Definition at_C64_pretty_array := fun u => C64_pretty_array W64 [9] [13; 10] [edited0; VString rstr; VNull] u constructible_arr tab (proj1 (proj2 (proj2 text_sample))).
Definition members0 : list (json_string * value) := Eval vm_compute in match edited0 with VObject o => o | _ => [] end.
Definition at_C64_pretty_object := fun u => C64_pretty_object W64 [9] [13; 10] members0 u built_value tab (proj1 (proj2 (proj2 text_sample))).
Definition at_C64_pretty_scalars := fun u => C64_pretty_scalars W64 [9] [13; 10] (VString rstr) u eq_refl eq_refl.
Lemma from0n : parsed_from W64 (Config false (Some 4) true) text0 value0.
Proof. left. split; [exact slice0|vm_compute; reflexivity]. Qed.
Definition at_C70_array :=
  proj1 (C70_array W64 true (Some 127) true (bs "[1,[2,3 , ],]")
   (match value1 with VObject ((_, VArray l) :: _) => l | _ => [] end)) ltac:(left; split; [slice|vm_compute; reflexivity]).
Definition at_C70_object :=
  proj1 (C70_object W64 false (Some 3) true text0 (match value0 with VObject o => o | _ => [] end)) from0n.
Definition at_C70_limit_zero := C70_limit_zero W64 false true text2 value2 ltac:(left; split; [slice|vm_compute; reflexivity]).
Definition at_C70_scalar_any_limit := C70_scalar_any_limit W64 false (Some 128) None text2 value2 eq_refl eq_refl from2.
Definition at_C70_wrap := C70_wrap W64 false (Some 4) false text0 value0 from0n ltac:(vm_compute; discriminate).

(** * PropValue *)
Lemma pstrings0 : all_strings (parsed W64) value0. Proof. exact (parsed_from_strings _ _ _ _ from0). Qed.
(** The same value, spelled differently. *)
Definition text0' : list N :=
  bs "{""\u0061"":[1,-2.5e+3,""xA\u000a"",null],""\uD83D\uDE39"":{""\u00e9" ++ [0xE2; 0x82; 0xAC; 0xF0; 0x9F; 0x98; 0xB9] ++ bs """:[true,[]]},""a"":false}".
Definition value0' : value := Eval vm_compute in match value_from_json_bytes W64 text0' with Ok v => v | _ => VNull end.
Lemma from0' : parsed_from W64 config_default text0' value0'. Proof. left. split; [slice|vm_compute; reflexivity]. Qed.
Lemma pstrings0' : all_strings (parsed W64) value0'. Proof. exact (parsed_from_strings _ _ _ _ from0'). Qed.
Lemma strings0' : all_strings (obtainable W64) value0'. Proof. exact (parsed_obtainable _ _ pstrings0'). Qed.
Lemma equal0 : value_eq W64 value0 value0' = Ok true /\ value0 <> value0'. Proof. split; [vm_compute; reflexivity|discriminate]. Qed.
Definition at_C54_reflexive := C54_reflexive W64 value0 strings0.
Definition at_C54_symmetric := proj1 (C54_symmetric W64 value0 value0' strings0 strings0') (proj1 equal0).
Lemma parsed_trans x y z : parsed W64 x -> parsed W64 y -> parsed W64 z -> js_eq W64 x y = Ok true -> js_eq W64 y z = Ok true -> js_eq W64 x z = Ok true.
Proof.
  intros Hx Hy Hz E1 E2.
  destruct (PropStr.C23_decoding_never_panics W64 x (or_introl Hx)) as (cx & Dx & _). destruct (PropStr.C23_decoding_never_panics W64 y (or_introl Hy)) as (cy & Dy & _).
  destruct (PropStr.C23_decoding_never_panics W64 z (or_introl Hz)) as (cz & Dz & _).
  apply (PropStr.C26_parsed_strings W64 x y cx cy Hx Hy Dx Dy) in E1. apply (PropStr.C26_parsed_strings W64 y z cy cz Hy Hz Dy Dz) in E2.
  apply (PropStr.C26_parsed_strings W64 x z cx cz Hx Hz Dx Dz). congruence.
Qed.
Definition at_C54_transitive_if_strings_are :=
  C54_transitive_if_strings_are W64 (parsed W64) parsed_trans value0 value0' value0 pstrings0 pstrings0' pstrings0 (proj1 equal0) at_C54_symmetric.
Definition at_C54_parsed_values := proj1 (C54_parsed_values W64 value0 value0' pstrings0 pstrings0') (proj1 equal0).
Definition at_C54_parsed_transitive := C54_parsed_transitive W64 value0 value0' value0 pstrings0 pstrings0' pstrings0 (proj1 equal0) at_C54_symmetric.
Definition at_C54_never_panics := C54_never_panics W64 value0 value0' strings0 strings0'.
Definition at_C40_get := C40_get W64 keys raw1 keys_ok raw1_utf8.
Definition at_C40_get_entry_mut := C40_get_entry_mut W64 keys raw1 keys_ok raw1_utf8.
Definition at_C40_get_mut := C40_get_mut W64 keys raw1 keys_ok raw1_utf8.
Definition at_C40_value_lookup := proj1 (C40_value_lookup W64 (VObject keys) raw1 raw1_utf8) keys eq_refl keys_ok.

(** * PropWork *)
Definition at_C78_callbacks_are_linear := C78_callbacks_are_linear false W64 config_default PropProtocol.counting text0 0%nat slice0.
Definition strict_new : allows_more config_strict config_new := proj1 C79_sample.
Definition at_C79_more_permissive :=
  C79_more_permissive false W64 config_strict config_new value_delegate text0 tt (Ok value0) tt strict_new ltac:(vm_compute; reflexivity) I.
Definition at_C79_more_permissive_error :=
  C79_more_permissive false W64 config_strict config_new value_delegate text3 tt (Err (Error 13 (KUnexpected 32))) tt strict_new ltac:(vm_compute; reflexivity)
    ltac:(cbn; intros [H|[H|H]]; discriminate).
Definition at_C79_values_and_documents := C79_values_and_documents W64 config_strict config_new text0 strict_new.
Definition at_C79_accepted_once := C79_accepted_once W64 config_default cfg1 text0 value0 value0 parse0 ltac:(vm_compute; reflexivity).

(** * PropWrite *)
Definition at_C36_C37_layout := C36_C37_layout W64 cfg1 text1 value1 from1.
Definition at_C35_parsed_admits := C35_parsed_admits W64 config_default text0 value0 from0.
Definition at_C35_compact_round_trip := C35_compact_round_trip W64 config_default text0 value0 from0.
Definition at_C36_compact_is_minified_source := C36_compact_is_minified_source W64 config_default text0 value0 from0 eq_refl.
Definition at_C36_compact_drops_trailing_commas := C36_compact_drops_trailing_commas W64 cfg1 text1 value1 from1.
Lemma ws_tab : ws [9]. Proof. repeat constructor; unfold ws_byte; lia. Qed.
Lemma ws_cr : ws [13]. Proof. repeat constructor; unfold ws_byte; lia. Qed.
Definition at_C37_pretty_round_trip :=
  C37_pretty_round_trip W64 config_default text0 value0 [9] [13] text0p from0 ws_tab ws_cr ltac:(vm_compute; reflexivity) ltac:(vm_compute; discriminate).
Definition at_C37_pretty_minifies_to_compact :=
  C37_pretty_minifies_to_compact W64 config_default text0 value0 [9] [13] text0p from0 ws_tab ws_cr ltac:(vm_compute; reflexivity).
Definition at_C38_serializes_iff := proj1 (C38_serializes_iff W64 edited0 built_value) (ex_intro _ text_edited eq_refl).
Lemma edited_serialized : serialized W64 edited0 text_edited.
Proof. apply ser_compact. vm_compute. reflexivity. Qed.
Definition at_C38_reparses_iff := C38_reparses_iff W64 config_default edited0 text_edited built_value edited_serialized ltac:(vm_compute; discriminate).
Definition at_C38_same_texts_iff := C38_same_texts_iff W64 config_default edited0 text_edited built_value edited_serialized ltac:(vm_compute; discriminate).
Definition at_C38_round_trip_iff := C38_round_trip_iff W64 config_default edited0 text_edited built_value edited_serialized ltac:(vm_compute; discriminate).
Definition at_C38_built_round_trip_partial :=
  C38_built_round_trip_partial W64 config_default sample_built_value (proj1 sample_constructible) (proj1 (proj2 sample_constructible))
    (proj1 (proj2 (proj2 sample_constructible))).

(** * PropWriteDepth *)
Definition at_C71_serializer :=
  C71_serializer W64 string_write true [9] [10] config_default text0 value0 [] 129 from0 ltac:(left; exists 128; split; [reflexivity|vm_compute; reflexivity]).
