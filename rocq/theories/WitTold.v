(** Concrete cases meeting the hypotheses of the theorems of PropTold.v. *)
From Verif Require Import Base Utf8Facts StrModel ErrorModel Tokenizer Parser Trace PropTok PropDelegate PropTold.
Local Open Scope N_scope.

Definition at_C100_delegates_are_told_the_tokens := C100_delegates_are_told_the_tokens true W64 config_new liar liar_text O (proj1 liar_told).
Definition at_C100_told_the_same := C100_told_the_same true W64 config_new liar O config_strict picky tt liar_text (proj1 liar_told).
Definition liar_log : list event := Eval vm_compute in snd (snd (parse_with true W64 (recording liar) liar_text config_new (O, []))).
Lemma liar_log_eq : snd (snd (parse_with true W64 (recording liar) liar_text config_new (O, []))) = liar_log.
Proof. vm_compute. reflexivity. Qed.
Lemma liar_in ev : In ev liar_log ->
  match ev with EString x | EObjectKey x => StrObt.parsed W64 x | ENumber n => PropNumber.number_obtainable W64 n | _ => True end.
Proof. intro H. apply (C100_parts_are_obtainable true W64 config_new liar liar_text O ev (proj1 liar_told)). exact (eq_ind_r (fun l => In ev l) H liar_log_eq). Qed.
Definition liar_key : event := Eval vm_compute in nth 7 liar_log ENull.
Definition liar_number : event := Eval vm_compute in nth 8 liar_log ENull.
Definition at_C100_parts_are_obtainable : In liar_key liar_log /\ In liar_number liar_log /\
  match liar_key with EObjectKey x => StrObt.parsed W64 x | _ => False end /\ match liar_number with ENumber n => PropNumber.number_obtainable W64 n | _ => False end.
Proof.
  assert (H1 : In liar_key liar_log) by (change liar_key with (nth 7 liar_log ENull); apply nth_In; cbn; apply Nat.ltb_lt; reflexivity).
  assert (H2 : In liar_number liar_log) by (change liar_number with (nth 8 liar_log ENull); apply nth_In; cbn; apply Nat.ltb_lt; reflexivity).
  split; [exact H1|]. split; [exact H2|]. split; [exact (liar_in _ H1)|exact (liar_in _ H2)].
Qed.
