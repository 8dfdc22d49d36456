(** Concrete cases meeting the hypotheses of the theorems of PropCall.v, PropAbnf.v, PropBorrow.v, PropBoundary.v, PropCanon.v and PropCausal.v. *)
From Verif Require Import Base Utf8 Utf8Facts StrModel ErrorModel Tokenizer Parser ValueModel DocModel NumModel Spec SpecCall SpecAbnf SpecLex SpecWrite View Trace
  StrObt CallSound CallExact PropTok PropDelegate PropParse PropWrite PropIter PropEsc PropCall AbnfFacts PropAbnf PropBorrow PropBoundary PropCanon PropCausal WitBase.
Local Open Scope N_scope.

(** * PropCall *)
Definition calls_text : list N := bs " [1, {""k"":[true".
Definition at_C66_delegate_errors_are_located := C66_delegate_errors_are_located true W64 config_default countdown text0 3%nat str0.
Definition at_C66_offsets_are_determined := C66_offsets_are_determined false W64 calls_text _ _ ltac:(slice) C66_sample_calls C66_sample_calls.
Definition at_C66_described_callbacks_are_made :=
  C66_described_callbacks_are_made false W64 calls_text [(2, CBeginArr); (2, CNum (bs "1")); (3, CElement); (6, CBeginObj);
  (6, CKey (bs "k")); (11, CBeginArr)]%nat 11 (CBool true) ltac:(slice) C66_sample_calls.
Lemma at_C66_offset_of_delegate_error : exists e st' log,
  parse_with false W64 (recording countdown) calls_text lenient (6%nat, []) = (Err (Error 11 (KErrorFromDelegate e)), (st', log)) /\
  calls_events ([(2, CBeginArr); (2, CNum (bs "1")); (3, CElement); (6, CBeginObj); (6, CKey (bs "k")); (11, CBeginArr)] ++ [(11, CBool true)])%nat log.
Proof.
  eexists _, _, _. match goal with |- ?A /\ _ => assert (E : A) by (vm_compute; reflexivity) end. split; [exact E|].
  exact (proj2 (C66_offset_of_delegate_error false W64 lenient countdown calls_text 6%nat
    [(2, CBeginArr); (2, CNum (bs "1")); (3, CElement); (6, CBeginObj); (6, CKey (bs "k")); (11, CBeginArr)]%nat (CBool true) 11 11 _ _ _ ltac:(slice) E C66_sample_calls eq_refl)).
Qed.
Definition bounded_text : list N := bs "[1, {""k"":2}]".
Definition at_C67_too_large_is_located := C67_too_large_is_located W64 config_default 4 bounded_text 9 ltac:(slice) ltac:(vm_compute; reflexivity).
Lemma at_C67_too_large_is_exact :
  document_from_json_bytes_with_config W64 (Some 4%nat) bounded_text config_default = Err (Error 9 KPaylodTooLarge).
Proof.
  destruct at_C67_too_large_is_located as (cs & c & H1 & H2 & H3).
  eapply (C67_too_large_is_exact W64 config_default 4 bounded_text); [slice|vm_compute; reflexivity| |exact H1|exact H2|exact H3].
  apply Nat.leb_le. vm_compute. reflexivity.
Qed.
Definition at_C67_scalar_errors_are_located :=
  proj1 (C67_scalar_errors_are_located W64 (bs " [1]") 2 ltac:(str)) ltac:(vm_compute; reflexivity).
Definition at_C67_scalar_error_offset :=
  C67_scalar_error_offset W64 (bs "  [1]") (bs "  ") 91 (bs "1]") 3 ltac:(str) eq_refl
    ltac:(repeat constructor) ltac:(unfold ws_byte; lia) ltac:(left; vm_compute; reflexivity).

(** * PropAbnf *)
Definition nolimit : parse_config := without_recursion_limit config_default.
Lemma sample_str : rust_str W64 (utf8_string sample_cs).
Proof. split; [exists sample_cs; split; [exact (proj1 C88_sample)|reflexivity]|vm_compute; discriminate]. Qed.
Definition at_C88_accepts_exactly_the_grammar :=
  proj2 (C88_accepts_exactly_the_grammar W64 nolimit sample_cs (proj1 C88_sample) sample_str eq_refl) (proj1 (proj2 C88_sample)).
Definition at_C88_bytes_accepts_exactly_the_grammar :=
  proj1 (C88_bytes_accepts_exactly_the_grammar W64 nolimit text0 slice0 eq_refl) ltac:(exists value0; vm_compute; reflexivity).
Definition at_C88_with_a_limit := proj1 (C88_with_a_limit W64 config_default text0 slice0) (ex_intro _ value0 parse0).
Definition at_C88_accepted_is_rfc8259 := C88_accepted_is_rfc8259 W64 text0 value0 slice0 parse0.
Definition plain_cs : list N := bs "[""\u00E9"", " ++ [34; 0xE9; 0x20AC; 34] ++ bs " ]".
Lemma at_C88_rfc8259_is_accepted : exists v, value_from_json_with_config W64 (utf8_string plain_cs) nolimit = Ok v.
Proof.
  assert (Hs : Forall (fun c => is_scalar c = true) plain_cs) by (repeat (constructor; [reflexivity|]); constructor).
  assert (Hr : rust_str W64 (utf8_string plain_cs)) by (split; [exists plain_cs; split; [exact Hs|reflexivity]|vm_compute; discriminate]).
  refine (proj1 (C88_rfc8259_is_accepted W64 plain_cs Hs Hr _ _)).
  - assert (H : derives rfc8259_paired (Ref JSON_text) plain_cs).
    { apply (C88_accepts_exactly_the_grammar W64 nolimit plain_cs Hs Hr eq_refl). eexists. vm_compute. reflexivity. }
    apply (derives_sem _ in_rfc paired_in_rfc) in H. exact H.
  - intros (a & u & r & (d & h & -> & Hd & Hh) & E).
    do 18 (destruct a as [|? a]; [cbn in E; first [discriminate|injection E as <- <- _; lia]|cbn in E; first [discriminate|injection E as _ E]]).
Qed.

(** * PropBorrow *)
Definition raw1 : list N := [97; 10; 34; 0xC3; 0xA9; 0xF0; 0x9F; 0x98; 0xB9].
Definition rstr : json_string := Eval vm_compute in match js_from_str W64 raw1 with Ok x => x | _ => JStr (CRaw (Borrowed [])) 0 end.
Definition jstr : json_string := Eval vm_compute in match value2 with VString x => x | _ => JStr (CRaw (Borrowed [])) 0 end.
Lemma built1 : built W64 raw1 rstr. Proof. split; [str|left; vm_compute; reflexivity]. Qed.
Lemma obt_r : obtainable W64 rstr. Proof. right. exists raw1. exact built1. Qed.
Lemma parsed_j : parsed W64 jstr.
Proof. eapply (parsed_bytes W64 jstr text2 config_default value2); [slice|exact parse2|constructor]. Qed.
Lemma obt_j : obtainable W64 jstr. Proof. left. exact parsed_j. Qed.
Lemma fits_r : recount_fits W64 rstr. Proof. right. vm_compute. discriminate. Qed.
Definition at_C87_conversions := proj1 (proj2 (proj2 (C87_conversions W64 raw1 rstr))) ltac:(vm_compute; reflexivity).
Definition at_C87_decode_copies_only_changed_text := C87_decode_copies_only_changed_text W64 jstr obt_j.
Definition at_C87_escape_copies_only_changed_text := C87_escape_copies_only_changed_text W64 rstr obt_r fits_r.
Definition at_C87_borrowed_unless_changed := C87_borrowed_unless_changed W64 rstr raw1 obt_r ltac:(vm_compute; reflexivity).

(** * PropBoundary *)
Definition at_C94_input_before_an_error_is_text :=
  C94_input_before_an_error_is_text W64 config_default unit_delegate text3 tt (Error 13 (KUnexpected 32)) slice3 ltac:(vm_compute; reflexivity).
Definition at_C94_str_errors_at_char_boundaries :=
  C94_str_errors_at_char_boundaries W64 config_default unit_delegate text3 tt (Error 13 (KUnexpected 32)) str3 ltac:(vm_compute; reflexivity).
Definition at_C94_all_entry_points_bytes := C94_all_entry_points_bytes W64 config_default (Some 1%nat) text4 slice4.
Definition at_C94_all_entry_points_str := C94_all_entry_points_str W64 config_default (Some 1%nat) text4 str4.
Definition at_C94_tokenizer_until_first_error :=
  C94_tokenizer_until_first_error true W64 text3 [CallNext; CallNext; CallNext; CallNext; CallNext; CallNext] CallNext str3 ltac:(repeat constructor).

(** * PropCanon *)
Definition text0c : list N := Eval vm_compute in match to_json W64 value0 with Ok s => s | _ => [] end.
Definition text0p : list N := Eval vm_compute in match to_json_pretty_custom W64 [9] [13] value0 with Ok s => s | _ => [] end.
Lemma from0c : parsed_from W64 config_default text0c value0.
Proof. left. split; [slice|vm_compute; reflexivity]. Qed.
Definition at_C76_same_text_same_value := C76_same_text_same_value W64 config_default cfg1 text0 text1 value0 value1 from0 from1.
Definition at_C76_same_value_iff_same_lexemes :=
  proj1 (proj1 (C76_same_value_iff_same_lexemes W64 config_default config_default text0 text0c value0 value0 from0 from0c eq_refl eq_refl)) eq_refl.
Definition at_C76_serialization_is_stable :=
  C76_serialization_is_stable W64 config_default text0 value0 [9] [13] text0c text0p value0 from0 ltac:(repeat constructor; unfold ws_byte; lia)
   ltac:(repeat constructor; unfold ws_byte; lia) ltac:(vm_compute; reflexivity) ltac:(vm_compute; reflexivity) (or_introl from0c).
Definition at_C76_built_strings :=
  C76_built_strings W64 raw1 raw1 rstr rstr (bs "a\n\""" ++ [0xE9; 0x1F639]) (bs "a\n\""" ++ [0xE9; 0x1F639]) built1 built1
   ltac:(vm_compute; reflexivity) ltac:(vm_compute; reflexivity).

(** * PropCausal *)
Definition half : list N := bs "{""a"":[1,".
Definition rest : list N := bs "2]} x".
Lemma half_end : ~ ends_in_digit half.
Proof.
  intros (q & d & E & Hd). apply (f_equal (@rev N)) in E. rewrite rev_app_distr in E. vm_compute in E. injection E as <- _.
  destruct Hd as [Hd _]. vm_compute in Hd. congruence.
Qed.
Definition run_half := Eval vm_compute in parse_with true W64 (recording unit_delegate) half config_default (tt, []).
Definition run_whole := Eval vm_compute in parse_with true W64 (recording unit_delegate) (half ++ rest) config_default (tt, []).
Definition at_C80_callbacks_are_causal :=
  C80_callbacks_are_causal true W64 config_default unit_delegate half rest tt (fst run_half) (fst (snd run_half)) (snd (snd run_half))
    (fst run_whole) (fst (snd run_whole)) (snd (snd run_whole)) ltac:(str) ltac:(str) half_end ltac:(vm_compute; reflexivity) ltac:(vm_compute; reflexivity).
Definition half_tokens : list token := Eval vm_compute in
  List.concat (map (fun r => match r with Some (Ok t) => [t] | _ => [] end) (fst (next_n true W64 5 (tokenizer_new half)))).
Definition at_C80_tokens_are_causal :=
  C80_tokens_are_causal true W64 half rest 5 half_tokens ltac:(str) ltac:(str) half_end ltac:(vm_compute; reflexivity).
