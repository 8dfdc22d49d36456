(** Concrete cases meeting the hypotheses of the theorems of PropEq.v. *)
From Verif Require Import Base Utf8 StrModel ErrorModel Tokenizer Parser ValueModel View PropTok PropValue EqModel PropEq WitBase WitParse WitEntry WitTok.
Local Open Scope N_scope.

Lemma ret0 : returned_token W64 (TkNumber (JNum (Borrowed (bs "1")))).
Proof. exists false, text0, it0, it0'. split; [exact slice0|]. split; [exact reach0|]. vm_compute. reflexivity. Qed.
Lemma ret1 : returned_token W64 (TkString tok1).
Proof. exists true, text0, it1, it1'. split; [exact str0|]. split; [exact reach1|]. vm_compute. reflexivity. Qed.
(** The same text as [tok1], spelled without the escape of the letter. *)
Definition text9 : list N := bs """xA\n""".
Definition it9 : byte_iter := tokenizer_new text9.
Definition it9' : byte_iter := Eval vm_compute in snd (tokenizer_next false W64 it9).
Definition tok9 : json_string := Eval vm_compute in
  match fst (tokenizer_next false W64 it9) with Some (Ok (TkString s)) => s | _ => JStr (CRaw (Borrowed [])) 0 end.
Lemma slice9 : rust_slice W64 text9. Proof. slice. Qed.
Lemma ret9 : returned_token W64 (TkString tok9).
Proof. exists false, text9, it9, it9'. split; [exact slice9|]. split; [exists []; reflexivity|]. vm_compute. reflexivity. Qed.
Definition at_C96_token_equality := C96_token_equality W64 (TkString tok1) (TkString tok9) ret1 ret9.
Definition at_C96_token_equality' := C96_token_equality W64 (TkString tok1) (TkNumber (JNum (Borrowed (bs "1")))) ret1 ret0.
Example C96_token_equality_computes : token_eq W64 (TkString tok1) (TkString tok9) = Ok true /\
  any_str (match js_source tok1 with CJson a | CRaw a => a end) <> any_str (match js_source tok9 with CJson a | CRaw a => a end) /\
  token_eq W64 (TkString tok1) (TkNumber (JNum (Borrowed (bs "1")))) = Ok false.
Proof. split; [vm_compute; reflexivity|]. split; [vm_compute; intro H; discriminate H|vm_compute; reflexivity]. Qed.
Definition at_C96_sign_tests := C96_sign_tests W64 TkColon TkComma ltac:(cbn; tauto).
Definition at_C96_parse_results := C96_parse_results W64 (value_from_json_bytes_with_config W64 text0 config_new) (value_from_json_bytes_with_config W64 text3 config_strict)
  ltac:(left; exists text0, config_new; split; [exact slice0|reflexivity]) ltac:(left; exists text3, config_strict; split; [exact slice3|reflexivity]).
