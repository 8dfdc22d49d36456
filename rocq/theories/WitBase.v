(** Concrete inputs and values used by the Wit*.v files, which apply each theorem with hypotheses to a concrete,
    non-trivial case.  A definition [at_<theorem>] there is accepted only if those hypotheses hold of that case. *)
From Verif Require Import Base Utf8 Utf8Facts StrModel ErrorModel Tokenizer Parser ValueModel DocModel NumModel Spec SpecLex View PropParse PropWrite PropIter PropData.
Local Open Scope N_scope.

(** [ {"a" : [1, -2.5e+3, "x\u0041\n", null], "\ud83d\ude39": {"é€😹":[true,[]]}, "a": false} ] *)
Definition text0 : list N :=
  bs " {""a"" : [1, -2.5e+3, ""x\u0041\n"", null], ""\ud83d\ude39"": {""" ++ [0xC3; 0xA9; 0xE2; 0x82; 0xAC; 0xF0; 0x9F; 0x98; 0xB9]
  ++ bs """:[true,[]]}, ""a"": false} ".
Definition value0 : value := Eval vm_compute in match value_from_json_bytes W64 text0 with Ok v => v | _ => VNull end.
Definition tree0 : tree := Eval vm_compute in tree_of value0.
Definition doc0 : document := Eval vm_compute in match document_from_json_bytes W64 None text0 with Ok d => d | _ => [] end.

(** The same with trailing commas, and a scalar, and two texts that are rejected. *)
Definition text1 : list N := bs "{""k"":[1,[2,3 , ],], ""l"" : {} ,}".
Definition cfg1 : parse_config := allowing_trailing_commas config_default.
Definition value1 : value := Eval vm_compute in match value_from_json_bytes_with_config W64 text1 cfg1 with Ok v => v | _ => VNull end.
Definition text2 : list N := bs " ""caf\u00e9 \ud83d\ude39 \t"" ".
Definition value2 : value := Eval vm_compute in match value_from_json_bytes W64 text2 with Ok v => v | _ => VNull end.
Definition text3 : list N := bs "[1, {""a"": tru }]".
Definition text4 : list N := bs "{""a"": [1, 2".

Ltac slice := split; [repeat constructor|vm_compute; discriminate].
Ltac str := split; [apply utf8_valid_iff; vm_compute; reflexivity|vm_compute; discriminate].
(** Side conditions of the kinds met below. *)
Ltac w := first [ solve [slice] | solve [str] | solve [vm_compute; reflexivity] | solve [vm_compute; discriminate] | solve [lia] ].

Lemma slice0 : rust_slice W64 text0. Proof. slice. Qed.
Lemma str0 : rust_str W64 text0. Proof. str. Qed.
Lemma parse0 : value_from_json_bytes_with_config W64 text0 config_default = Ok value0. Proof. vm_compute. reflexivity. Qed.
Lemma parse0s : value_from_json_with_config W64 text0 config_default = Ok value0. Proof. vm_compute. reflexivity. Qed.
Lemma from0 : parsed_from W64 config_default text0 value0. Proof. left. split; [exact slice0|exact parse0]. Qed.
Lemma docparse0 : document_from_json_bytes_with_config W64 None text0 config_default = Ok doc0. Proof. vm_compute. reflexivity. Qed.
Lemma docfor0 : document_for W64 config_default text0 doc0 value0.
Proof. exists None. left. split; [exact slice0|]. split; [exact docparse0|exact parse0]. Qed.
Lemma json0 : json_text false tree0 text0.
Proof. exact (proj1 (C02_value_is_denoted_tree_bytes W64 config_default text0 value0 slice0 parse0)). Qed.
Lemma accepted0 : accepted config_default tree0 text0.
Proof. split; [exact json0|]. split; [vm_compute; discriminate|left; reflexivity]. Qed.

Lemma slice1 : rust_slice W64 text1. Proof. slice. Qed.
Lemma str1 : rust_str W64 text1. Proof. str. Qed.
Lemma parse1 : value_from_json_bytes_with_config W64 text1 cfg1 = Ok value1. Proof. vm_compute. reflexivity. Qed.
Lemma from1 : parsed_from W64 cfg1 text1 value1. Proof. left. split; [exact slice1|exact parse1]. Qed.
Lemma json1 : json_text true (tree_of value1) text1.
Proof. exact (proj1 (C02_value_is_denoted_tree_bytes W64 cfg1 text1 value1 slice1 parse1)). Qed.
Lemma slice2 : rust_slice W64 text2. Proof. slice. Qed.
Lemma str2 : rust_str W64 text2. Proof. str. Qed.
Lemma parse2 : value_from_json_bytes_with_config W64 text2 config_default = Ok value2. Proof. vm_compute. reflexivity. Qed.
Lemma from2 : parsed_from W64 config_default text2 value2. Proof. left. split; [exact slice2|exact parse2]. Qed.
Lemma slice3 : rust_slice W64 text3. Proof. slice. Qed.
Lemma str3 : rust_str W64 text3. Proof. str. Qed.
Lemma slice4 : rust_slice W64 text4. Proof. slice. Qed.
Lemma str4 : rust_str W64 text4. Proof. str. Qed.

(** The value of a text that parses is what the text denotes. *)
Lemma denotes cfg s v : rust_slice W64 s -> value_from_json_bytes_with_config W64 s cfg = Ok v -> accepted cfg (tree_of v) s.
Proof.
  intros H E. assert (P : parsed_from W64 cfg s v) by (left; auto).
  split; [apply (C02_value_is_denoted_tree_bytes W64 cfg s v H E)|]. exact (C35_parsed_admits _ _ _ _ P).
Qed.

Lemma ws_nonws x s : ws (x :: s) -> x <> 32 /\ x <> 9 /\ x <> 10 /\ x <> 13 -> False.
Proof. intros H. inversion H; subst. unfold ws_byte in *. lia. Qed.

(** A text with no whitespace around it. *)
Lemma value_text_of cfg s v a b x y : rust_slice W64 s -> value_from_json_bytes_with_config W64 s cfg = Ok v ->
  s = a :: x -> s = y ++ [b] -> a <> 32 /\ a <> 9 /\ a <> 10 /\ a <> 13 -> b <> 32 /\ b <> 9 /\ b <> 10 /\ b <> 13 ->
  value_text (allow_trailing_commas cfg) (tree_of v) s.
Proof.
  intros H E Ea Eb Ha Hb. destruct (C02_value_is_denoted_tree_bytes W64 cfg s v H E) as [(w1 & t & w2 & H1 & Ht & H2 & Es) _].
  assert (w1 = []) as ->.
  { destruct w1 as [|c w1]; [reflexivity|]. rewrite Ea in Es. injection Es as -> _. destruct (ws_nonws _ _ H1 Ha). }
  assert (w2 = []) as ->.
  { destruct w2 as [|c w2] using rev_ind; [reflexivity|]. rewrite Eb in Es. cbn in Es. rewrite app_assoc in Es.
    apply app_inj_tail in Es as [_ ->]. apply Forall_app in H2 as [_ H2]. destruct (ws_nonws _ _ H2 Hb). }
  rewrite app_nil_r in Es. cbn in Es. rewrite Es. exact Ht.
Qed.
Lemma elements_of tc l x : value_text tc (TArr l) (91 :: x ++ [93]) -> l <> [] -> elements tc l x.
Proof.
  intros H Hl. remember (91 :: x ++ [93]) as s eqn:E. remember (TArr l) as t eqn:Et.
  destruct H; try discriminate.
  - congruence.
  - injection Et as ->. injection E as E. apply app_inj_tail in E as [<- _]. assumption.
Qed.
Lemma members_of tc l x : value_text tc (TObj l) (123 :: x ++ [125]) -> l <> [] -> members tc l x.
Proof.
  intros H Hl. remember (123 :: x ++ [125]) as s eqn:E. remember (TObj l) as t eqn:Et.
  destruct H; try discriminate.
  - congruence.
  - injection Et as ->. injection E as E. apply app_inj_tail in E as [<- _]. assumption.
Qed.
Lemma str_body_of tc raw : value_text tc (TStr raw) (34 :: raw ++ [34]) -> exists cs, str_body raw cs.
Proof.
  intro H. remember (34 :: raw ++ [34]) as s eqn:E. remember (TStr raw) as t eqn:Et.
  destruct H; try discriminate. injection Et as ->. eauto.
Qed.
Lemma number_of tc n s : value_text tc (TNum n) s -> number n.
Proof. intro H. inversion H; subst. assumption. Qed.

(** Texts as spaced lexemes. *)
Lemma punct_no_number b : In b [91; 93; 123; 125; 58; 44] -> ~ number [b].
Proof. intros H K. apply number_first in K as (x & r & E & Hx). injection E as <- _. cbn in H. lia. Qed.
Lemma sp_p w b ls s : ws w -> In b [91; 93; 123; 125; 58; 44] -> spaced ls s -> spaced ([b] :: ls) (w ++ [b] ++ s).
Proof. intros Hw Hb H. apply sp_lexeme; [exact Hw|apply lex_punct; exact Hb|exact H|]. intro K. destruct (punct_no_number b Hb K). Qed.
Lemma sp_np w n b ls s : ws w -> number n -> In b [91; 93; 123; 125; 58; 44] -> spaced ([b] :: ls) s -> spaced (n :: [b] :: ls) (w ++ n ++ s).
Proof.
  intros Hw Hn Hb H. apply sp_lexeme; [exact Hw|apply lex_num; exact Hn|exact H|].
  intros _ (y & r & E & K). injection E as <- _. destruct (punct_no_number b Hb K).
Qed.
Lemma sp_s w raw cs ls s : ws w -> str_body raw cs -> spaced ls s -> spaced ((34 :: raw ++ [34]) :: ls) (w ++ (34 :: raw ++ [34]) ++ s).
Proof.
  intros Hw Hb H. apply sp_lexeme; [exact Hw|eapply lex_str; exact Hb|exact H|].
  intro K. apply number_first in K as (x & r & E & Hx). injection E as <- _. exfalso. lia.
Qed.
Lemma one_digit d : 49 <= d <= 57 -> number [d].
Proof.
  intro H. exists [], [d], [], []. split; [left; reflexivity|]. split; [right; exists d, []; split; [lia|split; [constructor|reflexivity]]|].
  split; [left; reflexivity|]. split; [left; reflexivity|reflexivity].
Qed.
Lemma minus_digit d : 49 <= d <= 57 -> number [45; d].
Proof.
  intro H. exists [45], [d], [], []. split; [right; reflexivity|]. split; [right; exists d, []; split; [lia|split; [constructor|reflexivity]]|].
  split; [left; reflexivity|]. split; [left; reflexivity|reflexivity].
Qed.
