(** Concrete cases meeting the hypotheses of the theorems of PropDebug.v. *)
From Verif Require Import Base Utf8 StrModel ErrorModel Tokenizer Parser ValueModel DocModel View StrObt PropTok PropNumber PropWrite DebugModel PropDebug
  WitBase WitParse WitEntry WitTok WitEq WitNum WitStr.
Local Open Scope N_scope.

(** A parsed value and the same value after an edit. *)
Definition at_C97_values_print_apart := C97_values_print_apart sample_table true W64 value0 edited0 constructible_0 built_value.
Definition at_C97_same_print_equal := C97_same_print_equal sample_table false W64 edited0 edited0 built_value built_value eq_refl.
Definition at_C97_strings_print_apart := C97_strings_print_apart sample_table false W64 tok1 tok9 (or_introl (PropEq.returned_parsed _ _ ret1)) (or_introl (PropEq.returned_parsed _ _ ret9)).
(** Two spellings of one text are [==] and print apart. *)
Example C97_strings_computes : js_eq W64 tok1 tok9 = Ok true /\ string_debug sample_table false W64 tok1 <> string_debug sample_table false W64 tok9.
Proof. split; [vm_compute; reflexivity|]. vm_compute. intro H. discriminate H. Qed.
Lemma num1 : number_obtainable W64 (JNum (Borrowed (bs "1"))).
Proof. eapply (number_of_token W64 _ false text0 it0 it0'); [exact slice0|exact reach0|vm_compute; reflexivity]. Qed.
Definition at_C97_numbers_print_apart := C97_numbers_print_apart sample_table true W64 _ _ num1 num1.
Definition at_C97_tokens_print_apart := C97_tokens_print_apart sample_table false W64 _ _ ret0 ret1.
Definition at_C97_errors_print_apart := C97_errors_print_apart N int_dbg sample_table true (Error 3 (KErrorFromDelegate 7)) (Error 3 (KErrorFromDelegate 8)) int_ok int_dbg_inj.
Lemma docs0 : parsed_document_of W64 doc0.
Proof. exists text0, config_default, None. split; [exact slice0|exact docparse0]. Qed.
Definition at_C97_documents_print_apart := C97_documents_print_apart (bs "PhantomData<&()>") sample_table true W64 doc0 doc0 docs0 docs0.
Definition at_C97_nodes_print_apart := C97_nodes_print_apart sample_table false W64 doc0 doc0 (nth 0 doc0 NNull) (nth 1 doc0 NNull) docs0 docs0
  ltac:(vm_compute; left; reflexivity) ltac:(vm_compute; right; left; reflexivity).
Definition at_C97_print_is_utf8 := C97_print_is_utf8 sample_table true W64 edited0 built_value.
Lemma sample_table_ok c : c < 32 \/ c = 127 -> sample_table c = true.
Proof. unfold sample_table. intros [H| ->]; [|reflexivity]. apply N.ltb_lt in H. rewrite H. reflexivity. Qed.
Definition at_C97_one_line := C97_one_line sample_table false W64 edited0 sample_table_ok built_value.
