(** Concrete cases meeting the hypotheses of the theorems of PropRefuse.v. *)
From Verif Require Import Base Utf8Facts StrModel ErrorModel Tokenizer Parser ValueModel Spec SpecError PropExact View PropTok PropDelegate PropTold PropRefuse.
Local Open Scope N_scope.

Definition refuse_a : list N := bs "{""a"":[1,],}".
Definition refuse_b : list N := bs "[1,2]".
Definition refuse_c : list N := bs "[1,}]".
Lemma refuse_ok : PropTok.input_ok true W64 refuse_a /\ PropTok.input_ok true W64 refuse_b /\ PropTok.input_ok true W64 refuse_c.
Proof. repeat split; (apply utf8_valid_iff; vm_compute; reflexivity) || (vm_compute; discriminate). Qed.
Lemma refuse_accepts : parse_with true W64 liar refuse_a config_new O = (Ok tt, 1%nat).
Proof. vm_compute. reflexivity. Qed.
Definition at_C101_only_json_is_accepted := C101_only_json_is_accepted true W64 config_new liar refuse_a O tt 1%nat (proj1 refuse_ok) refuse_accepts.
Lemma refuse_errs : parse_with true W64 liar refuse_c config_new O = (Err (Error 3 (KUnexpected 125)), 1%nat).
Proof. vm_compute. reflexivity. Qed.
Definition at_C101_errors_are_of_the_text : wrong_at (tolerant config_new) refuse_c 3 (KUnexpected 125).
Proof.
  destruct (C101_errors_are_of_the_text true W64 config_new liar refuse_c O _ _ 1%nat (proj2 (proj2 refuse_ok)) refuse_errs) as [(x & E)|[[[E _]|[E _]]|(k0 & E & H)]]; try discriminate E.
  destruct k0; try discriminate E; [|destruct d]. injection E as <-. exact H.
Qed.
Lemma refuse_accepted : exists t, accepted (tolerant config_new) t refuse_b.
Proof.
  apply (value_of_ok true W64 _ _ (proj1 (proj2 refuse_ok))). eexists. vm_compute. reflexivity.
Qed.
(** [liar] refuses the second number of [1,2]; the text is JSON. *)
Definition at_C101_json_is_rejected_by_the_delegate_only :
  (exists t, accepted (tolerant config_new) t refuse_b /\
     match fst (parse_with true W64 liar refuse_b config_new O) with
     | Ok _ => True | Err (Error _ k) => (exists x, k = KErrorFromDelegate x) \/ by_answer config_new k | Fault f => ParserGen.delegate_faults liar f end) /\
  fst (parse_with true W64 liar refuse_b config_new O) = Err (Error 3 (KErrorFromDelegate true)).
Proof.
  split; [|vm_compute; reflexivity]. destruct refuse_accepted as (t & Ht). exists t. split; [exact Ht|].
  exact (C101_json_is_rejected_by_the_delegate_only true W64 config_new liar refuse_b O t (proj1 (proj2 refuse_ok)) Ht).
Qed.
Definition at_C101_wrong_texts_are_rejected :=
  C101_wrong_texts_are_rejected true W64 config_new denier refuse_c O _ _ (proj2 (proj2 refuse_ok)) at_C101_errors_are_of_the_text.
