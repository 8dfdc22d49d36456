(** Property theorems about insignificant whitespace (C48). *)
From Verif Require Import Base Utf8 Utf8Facts StrModel ErrorModel Tokenizer Parser ValueModel DocModel NumModel Spec SpecLex
  TokBase TokStr TokNum TokFacts ParserGen Trace SimInst StrSpec View ParseMain DocFacts GrammarFacts Lexemes PropParse PropEntry.
Local Open Scope N_scope.

(** Two texts with the same lexemes, differing in whitespace between them only, denote the same. *)
Theorem C48_whitespace_is_insignificant_in_grammar pw tc t ls s1 s2 : N.of_nat (length s1) <= isize_max pw ->
  spaced ls s1 -> spaced ls s2 -> json_text tc t s1 -> json_text tc t s2.
Proof.
  intros Hl H1 H2 Ht. destruct (json_text_to_lex tc t s1 Ht) as (ls' & Hv & Hs).
  rewrite <- (lex_unique pw ls ls' [] s1 Hl H1 Hs) in Hv. eapply lex_to_json_text; eassumption.
Qed.

Theorem C48_whitespace_is_insignificant pw cfg ls s1 s2 v : rust_slice pw s1 -> rust_slice pw s2 ->
  spaced ls s1 -> spaced ls s2 ->
  (value_from_json_bytes_with_config pw s1 cfg = Ok v <-> value_from_json_bytes_with_config pw s2 cfg = Ok v).
Proof.
  assert (W : forall s1 s2, rust_slice pw s1 -> rust_slice pw s2 -> spaced ls s1 -> spaced ls s2 ->
    value_from_json_bytes_with_config pw s1 cfg = Ok v -> value_from_json_bytes_with_config pw s2 cfg = Ok v).
  { clear. intros s1 s2 R1 R2 H1 H2 E. apply value_bytes_iff in E as (t & (Ht & Hd & Hr) & Hv); [|exact R1].
    apply value_bytes_iff; [exact R2|]. exists t. split; [|exact Hv]. split; [|auto].
    eapply C48_whitespace_is_insignificant_in_grammar; [apply R1|exact H1|exact H2|exact Ht]. }
  intros R1 R2 H1 H2. split; apply W; assumption.
Qed.

(** The same for documents and the validator. *)
Theorem C48_documents_and_validation pw cfg ls s1 s2 : rust_slice pw s1 -> rust_slice pw s2 ->
  spaced ls s1 -> spaced ls s2 ->
  (forall nodes, document_from_json_bytes_with_config pw None s1 cfg = Ok nodes <->
                 document_from_json_bytes_with_config pw None s2 cfg = Ok nodes) /\
  (forall k, validate_json_bytes_with_config pw s1 cfg = Ok k <-> validate_json_bytes_with_config pw s2 cfg = Ok k).
Proof.
  intros R1 R2 H1 H2. pose proof (fun v => C48_whitespace_is_insignificant pw cfg ls s1 s2 v R1 R2 H1 H2) as W.
  split; intro x; [rewrite !C09_C12_document_bytes by assumption|rewrite !C09_C10_validate_bytes by assumption].
  - destruct (value_from_json_bytes_with_config pw s1 cfg) as [v|e|f] eqn:E1.
    + rewrite (proj1 (W v) eq_refl). reflexivity.
    + destruct (value_from_json_bytes_with_config pw s2 cfg) as [v|e2|f2]; [destruct (W v) as [_ K]; discriminate K; reflexivity|split; discriminate..].
    + destruct (value_from_json_bytes_with_config pw s2 cfg) as [v|e2|f2]; [destruct (W v) as [_ K]; discriminate K; reflexivity|split; discriminate..].
  - destruct (value_from_json_bytes_with_config pw s1 cfg) as [v|e|f] eqn:E1.
    + rewrite (proj1 (W v) eq_refl). reflexivity.
    + destruct (value_from_json_bytes_with_config pw s2 cfg) as [v|e2|f2]; [destruct (W v) as [_ K]; discriminate K; reflexivity|split; discriminate..].
    + destruct (value_from_json_bytes_with_config pw s2 cfg) as [v|e2|f2]; [destruct (W v) as [_ K]; discriminate K; reflexivity|split; discriminate..].
Qed.

(** Documents of any capacity. *)
Theorem C48_bounded_documents pw cfg cap ls s1 s2 nodes : rust_slice pw s1 -> rust_slice pw s2 -> spaced ls s1 -> spaced ls s2 ->
  (document_from_json_bytes_with_config pw cap s1 cfg = Ok nodes <-> document_from_json_bytes_with_config pw cap s2 cfg = Ok nodes).
Proof.
  intros R1 R2 H1 H2. destruct (C48_documents_and_validation pw cfg ls s1 s2 R1 R2 H1 H2) as [W _].
  destruct cap as [n|]; [|apply W]. rewrite !C14_bounded_capacity by assumption. rewrite W. reflexivity.
Qed.

(** Inserting whitespace where one lexeme ends and the next begins. *)
Lemma spaced_ws ls w s : ws w -> spaced ls s -> spaced ls (w ++ s).
Proof.
  intros Hw [w' Hw'|w' x ls' s' Hw' Hx Hs Hn]; [|rewrite app_assoc]; constructor; try assumption; apply Forall_app; split; assumption.
Qed.
Lemma spaced_app l1 x l2 b w y : spaced l1 x -> ws (b :: w) -> spaced l2 y -> spaced (l1 ++ l2) (x ++ (b :: w) ++ y).
Proof.
  intros H Hw Hy. induction H as [w0 H0|w0 x0 ls s H0 Hx Hs IH Hn]; cbn [app].
  - apply spaced_ws; [exact H0|]. apply (spaced_ws _ (b :: w)); assumption.
  - rewrite <- !app_assoc. constructor; try assumption. intros N1 (y0 & r & E & N2). destruct ls as [|l0 ls].
    + inversion Hs as [w1 Hw1 Ew|]; subst. inversion Hw; subst. destruct s as [|c s]; [exists b, (w ++ y); auto|]. inversion Hw1; subst. exists c, (s ++ (b :: w) ++ y). auto.
    + cbn in E. injection E as <- <-. destruct (Hn N1) as (c & r' & -> & Hc); [eauto|]. exists c, (r' ++ (b :: w) ++ y). auto.
Qed.
Theorem C48_inserting_whitespace pw cfg l1 l2 x y w v : rust_slice pw (x ++ w ++ y) ->
  spaced l1 x -> spaced l2 y -> spaced (l1 ++ l2) (x ++ y) -> ws w ->
  (value_from_json_bytes_with_config pw (x ++ y) cfg = Ok v <-> value_from_json_bytes_with_config pw (x ++ w ++ y) cfg = Ok v).
Proof.
  intros R H1 H2 H Hw. destruct w as [|b w]; [reflexivity|]. apply (C48_whitespace_is_insignificant pw cfg (l1 ++ l2)); auto.
  - destruct R as [Rb Rl]. unfold is_bytes in *. split; [rewrite !Forall_app in *; unfold is_bytes; rewrite !Forall_app; tauto|].
    rewrite !app_length in *. cbn [length] in Rl. lia.
  - apply spaced_app; assumption.
Qed.
(** Every accepted text is made of lexemes and can be cut at each of them. *)
Theorem C48_accepted_texts_are_spaced pw cfg s v : rust_slice pw s -> value_from_json_bytes_with_config pw s cfg = Ok v ->
  exists ls, spaced ls s /\ ls <> [] /\
    forall l1 l2, ls = l1 ++ l2 -> exists x y, s = x ++ y /\ spaced l1 x /\ spaced l2 y.
Proof.
  intros R E. apply value_bytes_iff in E as (t & (Ht & _) & _); [|exact R].
  destruct (json_text_to_lex _ t s Ht) as (ls & Hv & Hs). exists ls. split; [exact Hs|]. split.
  - intros ->. inversion Hs as [w Hw|]; subst. destruct Ht as (w1 & b & w2 & _ & Hb & _ & ->).
    apply Forall_app in Hw as [_ Hw]. apply Forall_app in Hw as [Hw _].
    destruct Hb; try (inversion Hw as [|? ? K _]; subst; cbv in K; intuition discriminate).
    destruct H as (sg & i & f & e & Hsg & Hi & _ & _ & ->). 
    assert (K : Forall ws_byte i) by (apply Forall_app in Hw as [_ Hw]; apply Forall_app in Hw as [Hw _]; exact Hw).
    destruct Hi as [->|(d & ds & Hd & _ & ->)]; inversion K as [|? ? K' _]; subst; cbv in K'; intuition (subst; try discriminate; lia).
  - clear -Hs. revert s Hs.
    assert (G : forall l1 l2 s, spaced (l1 ++ l2) s -> exists x y, s = x ++ y /\ spaced l1 x /\ spaced l2 y).
    { induction l1 as [|a l1 IH]; intros l2 s H.
      - exists [], s. split; [reflexivity|]. split; [constructor; constructor|exact H].
      - cbn in H. inversion H as [|w x0 ls0 s0 Hw Hx Hs Hn]; subst. destruct (IH _ _ Hs) as (x & y & -> & H1 & H2).
        destruct l1 as [|a' l1].
        + exists (w ++ a), (x ++ y). split; [rewrite <- !app_assoc; reflexivity|]. split.
          * rewrite <- (app_nil_r a) at 2. constructor; auto; [constructor; constructor|]. intros _ (? & ? & E & _). discriminate.
          * apply spaced_ws; [inversion H1; assumption|exact H2].
        + exists (w ++ a ++ x), y. split; [rewrite <- !app_assoc; reflexivity|]. split; [|exact H2]. constructor; auto.
          intros N1 (y0 & r & E & N2). injection E as <- <-. destruct (Hn N1) as (b & r' & E & Hb); [exists a', (l1 ++ l2); auto|].
          destruct x as [|b' x]; [|cbn in E; injection E as <- _; eauto]. exfalso.
          inversion H1 as [|w1 x1 ls1 s1 Hw1 Hx1 Hs1 Hn1 El E1]. apply app_eq_nil in E1 as [_ E1]. apply app_eq_nil in E1 as [E1 _].
          subst. clear -Hx1. inversion Hx1 as [| | | |n Hn En|]. subst.
          destruct Hn as (sg & i & f & e & _ & Hi & _ & _ & E). symmetry in E. apply app_eq_nil in E as [_ E]. apply app_eq_nil in E as [E _].
          destruct Hi as [->|(d & ds & _ & _ & ->)]; discriminate. }
    intros s Hs l1 l2 ->. apply G, Hs.
Qed.

(** * Concrete cases *)
Definition space_lexemes : list (list N) := [bs "["; bs "1"; bs ","; bs "{"; bs """a"""; bs ":"; bs "true"; bs "}"; bs "]"].
Lemma num_1 : number (bs "1").
Proof. exists [], [49], [], []. repeat split; [left|right|left|left]; auto. exists 49, []. repeat split; [lia..|constructor]. Qed.
Lemma str_a : str_body (bs "a") [97].
Proof. apply (sb_cons (bs "a") 97 [] []); [|constructor]. apply (si_plain 97); [reflexivity|lia..]. Qed.
Example space_sample : spaced space_lexemes (bs "[1,{""a"":true}]") /\ spaced space_lexemes (bs " [ 1 ,{ ""a"" : true }] ") /\
  (exists v, value_from_json_bytes W64 (bs "[1,{""a"":true}]") = Ok v) /\
  rust_slice W64 (bs "[1,{""a"":true}]") /\ rust_slice W64 (bs " [ 1 ,{ ""a"" : true }] ").
Proof.
  assert (W0 : ws []) by constructor. assert (W1 : ws [32]) by (repeat constructor).
  assert (L2 : lexeme (bs """a""")) by apply (lex_str _ _ str_a).
  assert (NN : forall b x, b <> 45 -> ~ digit b -> ~ number (b :: x)) by apply not_number.
  split; [|split; [|split; [eexists; vm_compute; reflexivity|split; split; [repeat constructor|vm_compute; discriminate|repeat constructor|vm_compute; discriminate]]]].
  - apply (sp_lexeme [] (bs "[") _ (bs "1,{""a"":true}]")); [exact W0|punct| |intro H; destruct (NN 91 [] ltac:(lia) ltac:(unfold digit; lia) H)].
    apply (sp_lexeme [] (bs "1") _ (bs ",{""a"":true}]")); [exact W0|apply lex_num, num_1| |intros _ (y & r & E & H); injection E as <- <-; destruct (NN 44 [] ltac:(lia) ltac:(unfold digit; lia) H)].
    apply (sp_lexeme [] (bs ",") _ (bs "{""a"":true}]")); [exact W0|punct| |intro H; destruct (NN 44 [] ltac:(lia) ltac:(unfold digit; lia) H)].
    apply (sp_lexeme [] (bs "{") _ (bs """a"":true}]")); [exact W0|punct| |intro H; destruct (NN 123 [] ltac:(lia) ltac:(unfold digit; lia) H)].
    apply (sp_lexeme [] (bs """a""") _ (bs ":true}]")); [exact W0|exact L2| |intro H; destruct (NN 34 _ ltac:(lia) ltac:(unfold digit; lia) H)].
    apply (sp_lexeme [] (bs ":") _ (bs "true}]")); [exact W0|punct| |intro H; destruct (NN 58 _ ltac:(lia) ltac:(unfold digit; lia) H)].
    apply (sp_lexeme [] (bs "true") _ (bs "}]")); [exact W0|constructor| |intro H; destruct (NN 116 _ ltac:(lia) ltac:(unfold digit; lia) H)].
    apply (sp_lexeme [] (bs "}") _ (bs "]")); [exact W0|punct| |intro H; destruct (NN 125 _ ltac:(lia) ltac:(unfold digit; lia) H)].
    apply (sp_lexeme [] (bs "]") _ []); [exact W0|punct|constructor; constructor|intro H; destruct (NN 93 _ ltac:(lia) ltac:(unfold digit; lia) H)].
  - apply (sp_lexeme [32] (bs "[") _ (bs " 1 ,{ ""a"" : true }] ")); [exact W1|punct| |intro H; destruct (NN 91 [] ltac:(lia) ltac:(unfold digit; lia) H)].
    apply (sp_lexeme [32] (bs "1") _ (bs " ,{ ""a"" : true }] ")); [exact W1|apply lex_num, num_1| |intros _ (y & r & E & H); injection E as <- <-; destruct (NN 44 [] ltac:(lia) ltac:(unfold digit; lia) H)].
    apply (sp_lexeme [32] (bs ",") _ (bs "{ ""a"" : true }] ")); [exact W1|punct| |intro H; destruct (NN 44 [] ltac:(lia) ltac:(unfold digit; lia) H)].
    apply (sp_lexeme [] (bs "{") _ (bs " ""a"" : true }] ")); [exact W0|punct| |intro H; destruct (NN 123 [] ltac:(lia) ltac:(unfold digit; lia) H)].
    apply (sp_lexeme [32] (bs """a""") _ (bs " : true }] ")); [exact W1|exact L2| |intro H; destruct (NN 34 _ ltac:(lia) ltac:(unfold digit; lia) H)].
    apply (sp_lexeme [32] (bs ":") _ (bs " true }] ")); [exact W1|punct| |intro H; destruct (NN 58 _ ltac:(lia) ltac:(unfold digit; lia) H)].
    apply (sp_lexeme [32] (bs "true") _ (bs " }] ")); [exact W1|constructor| |intro H; destruct (NN 116 _ ltac:(lia) ltac:(unfold digit; lia) H)].
    apply (sp_lexeme [32] (bs "}") _ (bs "] ")); [exact W1|punct| |intro H; destruct (NN 125 _ ltac:(lia) ltac:(unfold digit; lia) H)].
    apply (sp_lexeme [] (bs "]") _ [32]); [exact W0|punct|constructor; exact W1|intro H; destruct (NN 93 _ ltac:(lia) ltac:(unfold digit; lia) H)].
Qed.
Example C48_sample_insert : rust_slice W64 (bs "[1" ++ [32; 10] ++ bs "]") /\
  spaced [bs "["; bs "1"] (bs "[1") /\ spaced [bs "]"] (bs "]") /\ spaced ([bs "["; bs "1"] ++ [bs "]"]) (bs "[1" ++ bs "]") /\ ws [32; 10] /\
  exists v, value_from_json_bytes W64 (bs "[1" ++ bs "]") = Ok v /\ value_from_json_bytes W64 (bs "[1" ++ [32; 10] ++ bs "]") = Ok v.
Proof.
  assert (P : forall b, In b [91; 93; 123; 125; 58; 44] -> ~ number [b]).
  { intros b Hb (sg & i & f & e & Hsg & Hi & _ & _ & E). destruct Hsg as [->| ->].
    - destruct Hi as [->|(d & ds & Hd & _ & ->)]; cbn in E; injection E as ->; cbn in Hb; lia.
    - injection E as ->. cbn in Hb; lia. }
  assert (E0 : spaced [] []) by (constructor; constructor).
  assert (E1 : spaced [bs "]"] (bs "]")).
  { apply (sp_lexeme [] [93] [] []); [constructor|constructor; cbn; tauto|exact E0|]. intros K. destruct (P 93); [cbn; tauto|exact K]. }
  assert (E2 : spaced [bs "1"] (bs "1")).
  { apply (sp_lexeme [] [49] [] []); [constructor|apply lex_num, num_1|exact E0|]. intros _ (? & ? & K & _). discriminate. }
  assert (E3 : spaced [bs "1"; bs "]"] (bs "1]")).
  { apply (sp_lexeme [] [49] [bs "]"] (bs "]")); [constructor|apply lex_num, num_1|exact E1|]. intros _ (? & ? & K & K2). injection K as <- <-. destruct (P 93); [cbn; tauto|exact K2]. }
  split; [split; [repeat constructor|vm_compute; discriminate]|].
  split; [|split; [exact E1|split; [|split]]].
  - apply (sp_lexeme [] [91] [bs "1"] (bs "1")); [constructor|constructor; cbn; tauto|exact E2|]. intros K. destruct (P 91); [cbn; tauto|exact K].
  - apply (sp_lexeme [] [91] [bs "1"; bs "]"] (bs "1]")); [constructor|constructor; cbn; tauto|exact E3|]. intros K. destruct (P 91); [cbn; tauto|exact K].
  - repeat (constructor; [cbv; tauto|]). constructor.
  - eexists. split; vm_compute; reflexivity.
Qed.
