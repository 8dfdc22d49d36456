(** Concrete cases meeting the hypotheses of the theorems of PropTok.v, PropTokExact.v and PropTokens.v. *)
From Verif Require Import Base Utf8 Utf8Facts StrModel ErrorModel Tokenizer Parser ValueModel DocModel NumModel Spec SpecError SpecLex SpecTok View
  TokFacts PropParse PropTok PropTokExact PropTokens PropWrite PropIter WitBase WitParse WitEntry.
Local Open Scope N_scope.

Definition calls0 : list tok_call := [CallNext; CallPeek; CallNext; CallNextOrEof; CallNext; CallPeek].
(** The tokenizer inside [text0], before the number [1]. *)
Definition it0 : byte_iter := Eval vm_compute in snd (tok_run false W64 (tokenizer_new text0) calls0).
Lemma reach0 : reachable false W64 text0 it0. Proof. exists calls0. vm_compute. reflexivity. Qed.
(** The tokenizer before the string [x\u0041\n]. *)
Definition calls1 : list tok_call := calls0 ++ [CallNext; CallNext; CallNext; CallNext].
Definition it1 : byte_iter := Eval vm_compute in snd (tok_run true W64 (tokenizer_new text0) calls1).
Lemma reach1 : reachable true W64 text0 it1. Proof. exists calls1. vm_compute. reflexivity. Qed.
(** The tokenizer before the misspelt literal of [text3]. *)
Definition calls3 : list tok_call := [CallNext; CallNext; CallNext; CallNext; CallNext; CallNext].
Definition it3 : byte_iter := Eval vm_compute in snd (tok_run false W64 (tokenizer_new text3) calls3).
Lemma reach3 : reachable false W64 text3 it3. Proof. exists calls3. vm_compute. reflexivity. Qed.

Definition at_C03_tokenizers_agree := C03_tokenizers_agree W64 text0 calls1 str0.
Definition it3' : byte_iter := Eval vm_compute in snd (tokenizer_next false W64 it3).
Definition at_C16_C50_token_error_offsets := C16_C50_token_error_offsets false W64 text3 it3 (Error 13 (KUnexpected 32)) it3'
  slice3 reach3 ltac:(left; vm_compute; reflexivity).
Definition at_C05_tokenizer_never_panics := C05_tokenizer_never_panics false W64 text3 it3 FIndex slice3 reach3.
Definition it0' : byte_iter := Eval vm_compute in snd (tokenizer_next false W64 it0).
Definition at_C04_C20_C21_tokens_are_spelled_in_input := C04_C20_C21_tokens_are_spelled_in_input false W64 text0 it0
  (TkNumber (JNum (Borrowed (bs "1")))) it0' slice0 reach0 ltac:(vm_compute; reflexivity).
Definition at_C17_progress := C17_progress false W64 text0 it0 slice0 reach0.
Definition at_C17_never_back := C17_never_back false W64 text0 it0 CallNextOrEof slice0 reach0.
Definition at_C17_iteration_ends := C17_iteration_ends false W64 text3 it3 slice3 reach3.
Definition at_C18_peek_is_transparent := C18_peek_is_transparent true W64 text0 it1 str0 reach1.
Definition at_C18_peek_predicts := C18_peek_predicts true W64 text0 it1 str0 reach1.
Definition at_C19_next_or_eof_agrees := C19_next_or_eof_agrees true W64 text0 it1 str0 reach1.
Definition at_C20_number_tokens_longest_match := C20_number_tokens_longest_match false W64 text0 it0
  (JNum (Borrowed (bs "1"))) it0' slice0 reach0 ltac:(vm_compute; reflexivity).
Definition at_C20_numbers_are_tokenized := C20_numbers_are_tokenized true W64 (bs "[") (bs "  ") (bs "-1.50e+2") (bs ", null")
  ltac:(str) ltac:(exists [CallNext]; vm_compute; reflexivity) ltac:(repeat constructor) num_ok ltac:(unfold digit; cbn; lia).
Definition it1' : byte_iter := Eval vm_compute in snd (tokenizer_next true W64 it1).
Definition tok1 : json_string := Eval vm_compute in
  match fst (tokenizer_next true W64 it1) with Some (Ok (TkString s)) => s | _ => JStr (CRaw (Borrowed [])) 0 end.
Definition at_C21_string_tokens := C21_string_tokens true W64 text0 it1 tok1 it1' str0 reach1 ltac:(vm_compute; reflexivity).
Definition at_C21_strings_are_tokenized := C21_strings_are_tokenized true W64 (bs "[") (bs "  ") (bs "\u0041\ud83d\ude39\nz") _ (bs ", null")
  ltac:(str) ltac:(exists [CallNext]; vm_compute; reflexivity) ltac:(repeat constructor) body.

(** The same offset reached in two ways. *)
Definition it0_again : byte_iter := Eval vm_compute in snd (tok_run false W64 (tokenizer_new text0) [CallNextOrEof; CallNext; CallNext; CallNext]).
Lemma reach0_again : reachable false W64 text0 it0_again. Proof. exists [CallNextOrEof; CallNext; CallNext; CallNext]. vm_compute. reflexivity. Qed.
Definition at_C77_offset_is_state := C77_offset_is_state false W64 text0 it0 it0_again calls1 slice0 reach0 reach0_again eq_refl.
Definition pre0 : list N := firstn (tokenizer_offset it0) text0.
Definition post0 : list N := skipn (tokenizer_offset it0) text0.
Definition at_C77_next_exactly := C77_next_exactly false W64 pre0 post0 it0 slice0 reach0 eq_refl.
Definition at_C77_peek_exactly := C77_peek_exactly false W64 pre0 post0 it0 slice0 reach0 eq_refl.
Definition at_C77_descriptions_unique := C77_descriptions_unique text3 (proj1 slice3) (proj2 slice3).

(** [ [1 -2,] ] as lexemes. *)
Lemma spaced0 : spaced [[91]; [49]; bs "-2"; [44]; [93]] (bs " [1 -2,] ").
Proof.
  apply (sp_p [32] 91 _ (bs "1 -2,] ")); [repeat constructor|cbn; tauto|].
  apply (sp_lexeme [] [49] _ (bs " -2,] ")); [exact (Forall_nil _)|apply lex_num, one_digit; lia| |].
  2: intros _ _; exists 32, (bs "-2,] "); split; [reflexivity|left; reflexivity].
  apply (sp_np [32] (bs "-2") 44 _ (bs ",] ")); [repeat constructor|exact (minus_digit 50 ltac:(lia))|cbn; tauto|].
  apply (sp_p [] 44 _ (bs "] ")); [exact (Forall_nil _)|cbn; tauto|].
  apply (sp_p [] 93 _ [32]); [exact (Forall_nil _)|cbn; tauto|].
  apply sp_end. repeat constructor.
Qed.
Definition at_C84_lexemes_tokenize := C84_lexemes_tokenize true W64 (bs " [1 -2,] ") _ ltac:(str) spaced0.
Definition toks0 : list token := Eval vm_compute in tokens_of value0.
Definition at_C84_tokens_unique := C84_tokens_unique true W64 text0 toks0 toks0 ltac:(vm_compute; reflexivity) ltac:(vm_compute; reflexivity).
Definition at_C84_parser_reads_the_tokens := C84_parser_reads_the_tokens false W64 text1 cfg1 value1 slice1.
Definition at_C84_default_config := C84_default_config false W64 text0 value0 slice0.
