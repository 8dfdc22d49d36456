(** Concrete cases meeting the hypotheses of the theorems of PropCollection.v and PropData.v. *)
From Verif Require Import Base Utf8 Utf8Facts StrModel ErrorModel Tokenizer Parser ValueModel DocModel CollectionModel ObjectModel NumModel Spec View
  StrObt PropParse PropWrite PropValue PropData PropCollection WitBase WitCall.
Local Open Scope N_scope.

(** * PropCollection: a collection that charges for string bytes *)
Definition bc := budget_collection 200.
Definition bl := proj1 (budget_lawful 200).
Definition at_C82_stores_the_value := C82_stores_the_value bc W64 config_default text0 value0 bl slice0 parse0.
Definition bst : nc_st bc := Eval vm_compute in match store bc value0 ([], 0%nat) with Ok st => st | _ => ([], 0%nat) end.
Definition at_C82_stored_nodes := C82_stored_nodes bc value0 ([], 0%nat) bst bl ltac:(vm_compute; reflexivity).
Definition at_C82_rejects_what_values_reject :=
  C82_rejects_what_values_reject bc W64 config_default text3 (Error 13 (KUnexpected 32)) bl slice3 ltac:(vm_compute; reflexivity).
Definition at_C82_documents_hold_the_value :=
  C82_documents_hold_the_value bc W64 config_default text0 bst bl (proj1 (proj2 (budget_lawful 200))) slice0 ltac:(vm_compute; reflexivity).
Definition at_C82_never_panics := fun f => C82_never_panics bc W64 config_default text3 f bl (proj2 (proj2 (budget_lawful 200))) slice3.
Lemma at_C82_unbounded_collections : exists doc, generic_from_json_bytes_with_config (crate_collection None) W64 text0 config_default = Ok doc /\
  nc_as_ref (crate_collection None) doc = preorder value0.
Proof.
  pose proof (C82_unbounded_collections (crate_collection None) W64 config_default text0
    (proj1 (C82_crate_collections None W64 config_default text0)) ltac:(intros st n; reflexivity) slice0) as K.
  rewrite parse0 in K. exact K.
Qed.
Definition at_C82_str_and_bytes_agree := C82_str_and_bytes_agree bc W64 config_default text0 str0.

(** * PropData *)
Definition at_C61_info_round_trip := C61_info_round_trip W32 true 0x7FFFFFFF ltac:(vm_compute; discriminate).
Definition at_C61_info_exactly := C61_info_exactly W32 false 0x80000001 ltac:(vm_compute; discriminate).
Definition at_C61_info_equality := C61_info_equality W32 0x80000001 1 ltac:(vm_compute; discriminate) ltac:(vm_compute; discriminate).
Definition at_C62_kind_is_told_by_the_first_byte := C62_kind_is_told_by_the_first_byte W64 config_default text0 value0 from0.
Definition at_C62_scalars_show_their_text := proj1 (proj2 (C62_scalars_show_their_text W64 config_default text2 value2 from2)) jstr eq_refl.
Lemma data_from : parsed_from W64 config_default (bs " ""ab"" ") (match value_from_json W64 (bs " ""ab"" ") with Ok v => v | _ => VNull end).
Proof. exact (proj1 data_sample). Qed.
Definition at_C62_as_str := proj1 (C62_as_str W64 config_default _ _ (bs "ab") data_from) ltac:(vm_compute; reflexivity).
Definition at_C63_from_text := C63_from_text W64 raw1 (VString rstr) ltac:(str) ltac:(left; vm_compute; reflexivity).
Definition at_C63_from_bool_is_parsed := C63_from_bool_is_parsed W64 true cfg1 eq_refl.
Definition keys : list (json_string * value) := [(rstr, VNull); (jstr, value0); (rstr, VBoolean true)].
Lemma keys_ok : keys_obtainable W64 keys.
Proof. unfold keys_obtainable, keys. apply Forall_cons; [exact obt_r|]. apply Forall_cons; [exact obt_j|]. apply Forall_cons; [exact obt_r|]. apply Forall_nil. Qed.
Lemma raw1_utf8 : is_utf8 raw1. Proof. apply utf8_valid_iff. reflexivity. Qed.
Lemma raw1_first : first_entry W64 keys raw1 [] rstr VNull (tl keys).
Proof. split; [reflexivity|]. split; [|constructor]. exists [97; 10; 34; 0xE9; 0x1F639]. split; vm_compute; reflexivity. Qed.
Definition at_C63_from_iter := C63_from_iter W64 keys raw1 keys_ok raw1_utf8.
Definition at_C69_push := C69_push W64 keys jstr VNull raw1 keys_ok obt_j raw1_utf8.
Definition at_C69_insert_front := C69_insert_front W64 keys jstr VNull raw1 keys_ok obt_j raw1_utf8.
Definition at_C69_remove_uncovers := C69_remove_uncovers W64 keys raw1 [] rstr VNull (tl keys) keys_ok raw1_utf8 raw1_first.
Definition at_C69_retain := C69_retain W64 keys raw1 keys_ok raw1_utf8.
