(** Concrete cases meeting the hypotheses of the theorems of PropDelegate.v, PropDepth.v, PropDisplay.v, PropDocEq.v and PropEsc.v. *)
From Verif Require Import Base Utf8 Utf8Facts StrModel ErrorModel Tokenizer Parser ValueModel DocModel DisplayModel NumModel Spec SpecStr View Trace
  StrEsc StrWf StrObt PropParse PropDelegate PropDepth PropDisplay PropDocEq PropEsc PropWrite PropIter PropValue WitBase WitCall.
Local Open Scope N_scope.

(** * PropDelegate *)
Definition at_C15_callbacks_of_truthful_delegate := C15_callbacks_of_truthful_delegate true W64 config_default picky text0 tt str0 picky_truthful.
Definition at_C15_results_of_truthful_delegate := C15_results_of_truthful_delegate true W64 config_default picky text0 tt str0 picky_truthful.
Definition at_C15_function_of_input := C15_function_of_input true W64 config_default picky tt picky tt text0 str0 picky_truthful picky_truthful.
Definition at_C15_canonical_log_is_bracketed := C15_canonical_log_is_bracketed false W64 config_default text4 slice4.
Definition at_C15_canonical_log_of_accepted := C15_canonical_log_of_accepted false W64 config_default text0 value0 slice0 ltac:(vm_compute; reflexivity).

(** * PropDepth *)
Definition at_C71_calls_bounded :=
  C71_calls_bounded false W64 config_default picky text0 tt 129 slice0 ltac:(left; exists 128; split; [reflexivity|vm_compute; reflexivity]).
Definition at_C71_calls_bounded_by_length :=
  C71_calls_bounded false W64 (without_recursion_limit config_default) picky text4 tt 12 slice4 ltac:(right; apply Nat.ltb_lt; vm_compute; reflexivity).
Definition at_C71_bound_is_exact :=
  C71_bound_is_exact false W64 config_default 300 128 ltac:(vm_compute; discriminate) ltac:(lia) ltac:(intros lim E; injection E as <-; vm_compute; discriminate).
Definition at_C71_document_readers :=
  C71_document_readers W64 config_default text0 doc0 value0 129 docfor0 ltac:(left; exists 128; split; [reflexivity|vm_compute; reflexivity]).

(** * PropDisplay *)
Definition dec2 : decoded := Eval vm_compute in
  match decoded_next (js_decoded_iter W64 jstr) with Ok (_, it) => match decoded_next it with Ok (_, it') => it' | _ => it end | _ => js_decoded_iter W64 jstr end.
Definition esc1 : as_json := Eval vm_compute in
  match as_json_next W64 (js_as_json_iter rstr) with Ok (_, it) => match as_json_next W64 it with Ok (_, it') => it' | _ => it end | _ => js_as_json_iter rstr end.
Lemma dec2_steps : StrEsc.steps decoded_next (js_decoded_iter W64 jstr) (bs "ca") dec2.
Proof. econstructor; [vm_compute; reflexivity|]. econstructor; [vm_compute; reflexivity|constructor]. Qed.
(** In the middle of an escape: after [a\] of [a\n...]. *)
Lemma esc1_steps : StrEsc.steps (as_json_next W64) (js_as_json_iter rstr) (bs "a\") esc1.
Proof. econstructor; [vm_compute; reflexivity|]. econstructor; [vm_compute; reflexivity|constructor]. Qed.
Definition at_C85_decoded_display := C85_decoded_display W64 jstr (bs "ca") dec2 obt_j dec2_steps.
Definition at_C85_string_display := C85_string_display W64 jstr obt_j.
Definition at_C85_as_json_display := C85_as_json_display W64 rstr (bs "a\") esc1 obt_r fits_r esc1_steps.
Definition at_C85_display_ends := proj2 (C85_display_ends W64 limited) rstr (bs "a\") esc1 (1%nat, []) esc1_steps.
Definition at_C61_debug_tells_apart := C61_debug_tells_apart W32 true 0x80000001 1 ltac:(vm_compute; discriminate) ltac:(vm_compute; discriminate).

(** * PropDocEq *)
Lemma strings0 : all_strings (obtainable W64) value0.
Proof. exact (parsed_obtainable W64 value0 (parsed_from_strings _ _ _ _ from0)). Qed.
Definition at_C73_like_value_equality := C73_like_value_equality W64 value0 (VArray [value0; VString rstr]) strings0
  ltac:(constructor; apply Forall_cons; [exact strings0|]; apply Forall_cons; [constructor; exact obt_r|]; apply Forall_nil).
Definition at_C73_document_equality := C73_document_equality W64 config_default text0 doc0 value0 config_default text0 doc0 value0 docfor0 docfor0.
Definition at_C73_equal_documents := C73_equal_documents W64 config_default text0 doc0 value0 config_default text0 doc0 value0 docfor0 docfor0.
Definition at_C52_document_sources := C52_document_sources W64 config_default text0 doc0 value0 docfor0.
Definition at_C52_every_document := proj1 (C52_every_document W64 config_default None text0 doc0) slice0 docparse0.

(** * PropEsc *)
Definition jcs : list N := bs "caf" ++ [0xE9; 32; 0x1F639; 32; 9].
Definition rcs : list N := [97; 10; 34; 0xE9; 0x1F639].
Definition rout : list N := bs "a\n\""" ++ [0xE9; 0x1F639].
Lemma jdec : js_decoded W64 jstr = Ok jcs. Proof. vm_compute. reflexivity. Qed.
Lemma rdec : js_decoded W64 rstr = Ok rcs. Proof. vm_compute. reflexivity. Qed.
Lemma rjson : js_as_json W64 rstr = Ok rout. Proof. vm_compute. reflexivity. Qed.
Definition at_C24_parsed_decoded_len := C24_parsed_decoded_len W64 jstr jcs parsed_j jdec.
Definition at_C24_built_decoded_len_exactly := C24_built_decoded_len_exactly W64 raw1 rstr rcs built1 rdec.
Definition at_C24_decoded_len_partial := C24_decoded_len_partial W64 jstr jcs obt_j jdec (or_introl parsed_j).
Definition at_C33_len_exactly := C33_len_exactly W64 rstr rcs rout obt_r rdec rjson.
Definition jout : list N := bs "caf\u00e9 \ud83d\ude39 \t".
Definition at_C33_len_partial := C33_len_partial W64 jstr jcs jout obt_j jdec ltac:(vm_compute; reflexivity) (or_introl I).
Definition at_C33_is_empty := C33_is_empty W64 jstr jcs obt_j jdec.
Definition at_C34_as_str := C34_as_str W64 jstr jcs obt_j jdec.
Definition at_C34_decode_if_needed := C34_decode_if_needed W64 jstr jcs obt_j jdec.
Definition at_C34_as_json_str_and_escape := C34_as_json_str_and_escape W64 rstr obt_r fits_r.
Definition at_C32_escaping_exactly := C32_escaping_exactly W64 raw1 rstr rcs rout built1 rdec rjson.
Lemma rcs_sound : Forall (fun c => 32 <= c \/ In c [0; 9; 10; 12; 13]) rcs.
Proof. repeat (apply Forall_cons; [cbn; lia|]). apply Forall_nil. Qed.
Definition at_C32_escaping_denotes_text_partial := C32_escaping_denotes_text_partial W64 raw1 rstr rcs rout built1 rdec rjson rcs_sound.
Definition at_C32_crate_reads_back_exactly := C32_crate_reads_back_exactly W64 raw1 rstr rcs rout built1 rdec rjson ltac:(vm_compute; discriminate).
Lemma esc1_rest : as_json_rest W64 esc1 (bs "n\""" ++ [0xE9; 0x1F639]).
Proof. exists 10%nat. eexists. vm_compute. reflexivity. Qed.
Definition at_C44_size_hint_lower := C44_size_hint_lower W64 rstr (bs "a\") esc1 _ obt_r esc1_steps esc1_rest.
Definition esc2 : as_json := Eval vm_compute in match as_json_next W64 (js_as_json_iter jstr) with Ok (_, it) => it | _ => js_as_json_iter jstr end.
Lemma esc2_steps : as_json_after W64 jstr (bs "c") esc2. Proof. econstructor; [vm_compute; reflexivity|constructor]. Qed.
Lemma esc2_rest : as_json_rest W64 esc2 (tl jout). Proof. exists 50%nat. eexists. vm_compute. reflexivity. Qed.
Definition at_C44_size_hint_upper_partial := C44_size_hint_upper_partial W64 jstr (bs "c") esc2 _ obt_j I esc2_steps esc2_rest.
Lemma rcs_scalars : Forall (fun c => is_scalar c = true) rcs. Proof. repeat (apply Forall_cons; [reflexivity|]). apply Forall_nil. Qed.
Definition at_C45_from_exactly := C45_from_exactly W32 rcs raw1 rcs_scalars eq_refl ltac:(str).
Definition at_C45_from_never_panics := C45_from_never_panics W32 rcs raw1 rcs_scalars eq_refl ltac:(str) ltac:(vm_compute; discriminate).
Definition at_C45_from_sixth := C45_from_sixth W32 raw1 ltac:(str) ltac:(vm_compute; discriminate).
Definition at_C45_from_plain := C45_from_plain W32 [97; 0xE9; 0x1F639] (utf8_string [97; 0xE9; 0x1F639])
  ltac:(repeat (apply Forall_cons; [reflexivity|]); apply Forall_nil) eq_refl ltac:(str) ltac:(repeat (apply Forall_cons; [lia|]); apply Forall_nil).
Definition at_C45_as_json_exactly := C45_as_json_exactly W64 rstr obt_r.
