(** Concrete cases meeting the hypotheses of the theorems of PropPath.v, PropPortable.v, PropProgress.v, PropProtocol.v, PropRelease.v and PropStr.v. *)
From Verif Require Import Base Utf8 Utf8Facts StrModel ErrorModel Tokenizer Parser ValueModel DocModel ReleaseModel NumModel Spec SpecStr View Trace
  StrFacts StrEsc StrObt PropTok PropParse PropDelegate PropWrite PropIter PropValue PropFused PropPath PropPortable PropProgress PropProtocol PropRelease PropStr
  WitBase WitParse WitCall WitEsc WitNum.
Local Open Scope N_scope.

(** * PropPath: the second element of the member a *)
Definition path0 : path := [Key (bs "a"); Index 1].
Definition part0 : value := VNumber (JNum (Borrowed (bs "-2.5e+3"))).
Lemma path0_utf8 : keys_utf8 path0.
Proof. unfold keys_utf8. repeat constructor. apply utf8_valid_iff. reflexivity. Qed.
Definition at_C86_chains := C86_chains W64 value0 path0 strings0 path0_utf8.
Definition edited0 : value := Eval vm_compute in match path_get_mut W64 value0 path0 with Ok (Some (_, store)) => store (VString rstr) | _ => VNull end.
Lemma replaced0 : replaced W64 value0 path0 part0 (VString rstr) edited0.
Proof.
  destruct at_C86_chains as [(x & store & E1 & E2 & H)|[E _]]; [|vm_compute in E; discriminate].
  specialize (H (VString rstr)).
  assert (x = part0) as -> by (vm_compute in E1; injection E1 as <-; reflexivity).
  assert (store (VString rstr) = edited0) as <-; [|exact H].
  vm_compute in E2. injection E2 as <-. vm_compute. reflexivity.
Qed.
Definition at_C86_store_then_read := C86_store_then_read W64 value0 path0 part0 (VString rstr) edited0 strings0 path0_utf8 replaced0.
Definition at_C86_edits_repeat := C86_edits_repeat W64 value0 path0 part0 (VString rstr) edited0 strings0 replaced0.
Lemma path1_utf8 : keys_utf8 [Key (bs "a"); Index 2].
Proof. unfold keys_utf8. repeat constructor. apply utf8_valid_iff. reflexivity. Qed.
Definition at_C86_elsewhere :=
  C86_elsewhere W64 value0 [Key (bs "a")] (Index 1) [] (Index 2) [] part0 (VString rstr) edited0 strings0 path0_utf8 path1_utf8 ltac:(discriminate) replaced0.
Definition at_C86_text := C86_text W64 value0 path0 part0 (VString rstr) edited0 text0c replaced0 ltac:(vm_compute; reflexivity).
Definition at_C86_edit_parsed := C86_edit_parsed W64 config_default text0 value0 path0 from0 path0_utf8.

(** * PropPortable *)
Definition rstr32 : json_string := Eval vm_compute in match js_from_str W32 raw1 with Ok x => x | _ => JStr (CRaw (Borrowed [])) 0 end.
Lemma obt32 : obtainable W32 rstr32. Proof. right. exists raw1. split; [str|left; vm_compute; reflexivity]. Qed.
Definition value32 : value := Eval vm_compute in match value_from_json_bytes W32 text0 with Ok v => v | _ => VNull end.
Definition at_C81_built_strings := proj1 (C81_built_strings raw1 rstr32 ltac:(str)) ltac:(vm_compute; reflexivity).
Definition at_C81_escaping := proj1 (C81_escaping rstr32 rout obt32) ltac:(vm_compute; reflexivity).
Definition at_C81_values := proj1 (C81_values config_default text0) ltac:(slice).
Definition at_C81_documents := proj2 (C81_documents config_default text0) ltac:(str).
Definition at_C81_serialization := C81_serialization config_default text0 value32 ltac:(left; split; [slice|vm_compute; reflexivity]).
Definition at_C81_every_delegate := C81_every_delegate true config_default counting text0 0%nat ltac:(str).
Definition at_C81_validation := proj1 (C81_validation config_default text3) ltac:(slice).

(** * PropProgress: a value with strings built from text *)
Lemma built_value : constructible W64 edited0.
Proof.
  split.
  - exact (proj2 at_C86_edits_repeat ltac:(constructor; exact obt_r)).
  - pose proof (proj2 constructible_0) as H. unfold value0 in H. unfold edited0.
    repeat match goal with
    | H : all_numbers _ (VObject _) |- _ => inversion H; clear H; subst
    | H : all_numbers _ (VArray _) |- _ => inversion H; clear H; subst
    | H : Forall _ (_ :: _) |- _ => inversion H; clear H; subst
    end.
    repeat first [assumption | apply Forall_nil | apply Forall_cons | constructor].
    apply (PropNumber.number_of_number W64 _ (bs "1")); [str|vm_compute; reflexivity].
Qed.
Definition at_C93_calls_carry_text := C93_calls_carry_text W64 edited0 built_value.
Definition at_C93_pretty_calls_carry_text := C93_pretty_calls_carry_text W64 edited0 built_value.
Definition at_C93_custom_calls_carry_text := C93_custom_calls_carry_text W64 [9] [13; 10] edited0 built_value.
Definition at_C93_steady := C93_steady W64 edited0 built_value.

(** * PropProtocol *)
Definition run_counting := Eval vm_compute in parse_with true W64 (recording counting) (bs "[true,{""k"":[1]}]") config_default (0%nat, []).
Definition at_C72_never_deeper_than_the_limit := C72_never_deeper_than_the_limit true W64 config_default 128 counting text0 0%nat eq_refl.
Definition at_C72_balanced_on_success :=
  C72_balanced_on_success true W64 config_default counting (bs "[true,{""k"":[1]}]") 0%nat 12%nat 13%nat (snd (snd run_counting)) ltac:(vm_compute; reflexivity).
(** An invariant of the counting delegate: the state counts at least the open containers and is above the value handed over last. *)
Definition counting_inv (q : situation counting) (st : d_st counting) : Prop :=
  (length (fst q) <= st)%nat /\ match snd q with Some (v, _) => (v < st)%nat | None => True end.
Lemma at_C72_invariants : let (r, st) := parse_with true W64 counting text0 config_default 0%nat in
  match r with Err (Error _ (KErrorFromDelegate e)) => (e < st)%nat | Ok v => (v < st)%nat | _ => True end.
Proof.
  pose proof (C72_invariants true W64 config_default counting text0 0%nat counting_inv) as K.
  destruct (parse_with true W64 counting text0 config_default 0%nat) as [r st].
  assert (H0 : counting_inv ([], None) 0%nat) by (split; cbn; [apply le_n|exact I]).
  specialize (K H0). match type of K with ?A -> _ => assert (H1 : A) end.
  { intros q st1 ev m q' st' [H1 H2] Hc E. destruct Hc; cbn in *; try (injection E as <- <-; split; cbn; lia).
    destruct b; [|discriminate]. injection E as <- <-. split; cbn; lia. }
  specialize (K H1). destruct r as [v|[o k]|f]; [|destruct k|]; try exact I.
  - destruct K as (kind & _ & K). exact K.
  - destruct K as (q & st1 & ev & m & _ & Hc & E). destruct Hc; cbn in E; try discriminate. destruct b; [discriminate|]. injection E as <- <-. lia.
Qed.

(** * PropRelease *)
Definition at_C92_decoding := C92_decoding W64 jstr obt_j 3.
Definition at_C92_serializing := C92_serializing W64 string_write true [32] [10] edited0 [] ltac:(vm_compute; discriminate).
Definition at_C92_serializing_parsed := C92_serializing_parsed W64 string_write true [32] [10] config_default text0 value0 [] from0.
Definition at_C92_node_lengths := C92_node_lengths W64 config_default text0 doc0 value0 (NObject 3) docfor0 (or_introl eq_refl).

(** * PropStr *)
Definition raw2 : list N := bs "\u0041\ud83d\ude39\nz".
Lemma at_C22_every_content_is_parsed : exists x l, parsed W64 x /\ stored x = raw2 /\ items_text l (stored x).
Proof. exact (C22_every_content_is_parsed W64 raw2 _ body ltac:(vm_compute; discriminate)). Qed.
Lemma at_C22_decoded_exactly : exists x l, stored x = raw2 /\ js_decoded W64 x = Ok (map crate_char l) /\ str_body raw2 (map rfc_char l).
Proof.
  destruct at_C22_every_content_is_parsed as (x & l & H1 & H2 & H3). exists x, l.
  destruct (C22_decoded_exactly W64 x l H1 H3) as [A B]. rewrite H2 in B. auto.
Qed.
Lemma at_C22_decoded_is_denoted_partial : exists x l, stored x = raw2 /\ ((exists cs, str_body (stored x) cs /\ js_decoded W64 x = Ok cs) <-> Forall decoded_right l).
Proof.
  destruct at_C22_every_content_is_parsed as (x & l & H1 & H2 & H3). exists x, l. split; [exact H2|].
  exact (C22_decoded_is_denoted_partial W64 x l H1 H3).
Qed.
(** The text of [jstr], made from a &str: equal to [jstr] exactly if the recorded lengths agree, and they do not. *)
Definition jraw : list N := Eval vm_compute in utf8_string jcs.
Definition kstr : json_string := Eval vm_compute in match js_from_str W64 jraw with Ok x => x | _ => JStr (CRaw (Borrowed [])) 0 end.
Lemma built_k : built W64 jraw kstr. Proof. split; [str|left; vm_compute; reflexivity]. Qed.
Lemma obt_k : obtainable W64 kstr. Proof. right. exists jraw. exact built_k. Qed.
Lemma kdec : js_decoded W64 kstr = Ok jcs. Proof. vm_compute. reflexivity. Qed.
Lemma jraw_utf8 : is_utf8 jraw. Proof. apply utf8_valid_iff. reflexivity. Qed.
Definition at_C23_decoding_never_panics := C23_decoding_never_panics W64 kstr obt_k.
Definition at_C23_comparing_never_panics := C23_comparing_never_panics W64 jstr kstr jraw obt_j obt_k jraw_utf8.
Definition at_C25_eq_str_is_text_equality := C25_eq_str_is_text_equality W64 jstr jcs jraw obt_j jdec jraw_utf8.
Definition at_C26_eq_exactly := C26_eq_exactly W64 jstr kstr jcs jcs obt_j obt_k jdec kdec.
Definition at_C26_eq_is_text_equality_partial := C26_eq_is_text_equality_partial W64 jstr kstr jcs jcs obt_j obt_k jdec kdec.
(** Another spelling of the same text. *)
Definition text2' : list N := bs "[""caf\u00E9\u0020\uD83D\uDE39 \u0009""]".
Definition jstr' : json_string := Eval vm_compute in match value_from_json_bytes W64 text2' with Ok (VArray [VString x]) => x | _ => JStr (CRaw (Borrowed [])) 0 end.
Lemma parsed_j' : parsed W64 jstr'.
Proof.
  eapply (parsed_bytes W64 jstr' text2' config_default (VArray [VString jstr'])); [slice|vm_compute; reflexivity|].
  eapply string_elem; [left; reflexivity|constructor].
Qed.
Lemma obt_j' : obtainable W64 jstr'. Proof. left. exact parsed_j'. Qed.
Lemma jdec' : js_decoded W64 jstr' = Ok jcs. Proof. vm_compute. reflexivity. Qed.
Definition at_C26_parsed_strings := proj2 (C26_parsed_strings W64 jstr jstr' jcs jcs parsed_j parsed_j' jdec jdec') eq_refl.
Definition at_C27_eq_reflexive := C27_eq_reflexive W64 rstr obt_r.
Definition at_C27_eq_symmetric := C27_eq_symmetric W64 jstr kstr obt_j obt_k.
Definition at_C27_eq_transitive_partial :=
  C27_eq_transitive_partial W64 jstr jstr' jstr obt_j obt_j' obt_j (or_intror eq_refl) ltac:(vm_compute; reflexivity) ltac:(vm_compute; reflexivity).
Definition at_C28_cmp_is_text_order := C28_cmp_is_text_order W64 jstr rstr jcs rcs obt_j obt_r jdec rdec.
Definition at_C28_cmp_str_is_text_order := C28_cmp_str_is_text_order W64 rstr rcs jraw obt_r rdec jraw_utf8.
Definition at_C28_cmp_total_order := C28_cmp_total_order W64 jstr kstr rstr obt_j obt_k obt_r.
Definition at_C29_cmp_str_consistent := C29_cmp_str_consistent W64 jstr jraw obt_j jraw_utf8.
Definition at_C29_cmp_consistent_partial := C29_cmp_consistent_partial W64 jstr kstr obt_j obt_k.
Definition at_C30_hash_bytes_of_text_partial := C30_hash_bytes_of_text_partial W64 jstr jcs obt_j jdec.
Definition at_C30_equal_strings_hash_equally_partial :=
  C30_equal_strings_hash_equally_partial W64 jstr jstr' (@List.concat N) ltac:(auto) obt_j obt_j' ltac:(vm_compute; reflexivity).
Definition at_C30_hash_like_str := C30_hash_like_str W64 kstr jcs jraw obt_k kdec ltac:(vm_compute; reflexivity).
Definition at_C31_from_keeps_text := C31_from_keeps_text W64 raw1 rstr built1.
Definition rstr_owned : json_string := Eval vm_compute in match js_from_string W64 raw1 with Ok x => x | _ => JStr (CRaw (Borrowed [])) 0 end.
Definition at_C31_from_string_is_from_str :=
  C31_from_string_is_from_str W64 raw1 rstr rstr_owned ltac:(str) ltac:(vm_compute; reflexivity) ltac:(vm_compute; reflexivity).
