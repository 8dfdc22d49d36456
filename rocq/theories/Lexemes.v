(** JSON texts as lexeme sequences: a token-level grammar, unique lexing, both directions. *)
From Verif Require Import Base Utf8 Utf8Facts StrModel ErrorModel Tokenizer Parser Spec SpecLex
  TokBase TokStr TokNum TokFacts ParserGen StrSpec ParseMain GrammarFacts.
Local Open Scope N_scope.

(** * The grammar over lexemes *)
Inductive trail_lex (tc : bool) : list (list N) -> Prop :=
| tl_none : trail_lex tc []
| tl_comma : tc = true -> trail_lex tc [[44]].
Inductive value_lex (tc : bool) : tree -> list (list N) -> Prop :=
| vl_null : value_lex tc TNull [lit_null]
| vl_true : value_lex tc (TBool true) [lit_true]
| vl_false : value_lex tc (TBool false) [lit_false]
| vl_num n : number n -> value_lex tc (TNum n) [n]
| vl_str raw cs : str_body raw cs -> value_lex tc (TStr raw) [34 :: raw ++ [34]]
| vl_arr_empty : value_lex tc (TArr []) [[91]; [93]]
| vl_arr l ls : elements_lex tc l ls -> value_lex tc (TArr l) ([91] :: ls ++ [[93]])
| vl_obj_empty : value_lex tc (TObj []) [[123]; [125]]
| vl_obj l ls : members_lex tc l ls -> value_lex tc (TObj l) ([123] :: ls ++ [[125]])
with elements_lex (tc : bool) : list tree -> list (list N) -> Prop :=
| ell_last t ls tr : value_lex tc t ls -> trail_lex tc tr -> elements_lex tc [t] (ls ++ tr)
| ell_cons t l ls r : value_lex tc t ls -> elements_lex tc l r -> elements_lex tc (t :: l) (ls ++ [44] :: r)
with members_lex (tc : bool) : list (list N * tree) -> list (list N) -> Prop :=
| mel_last k cs t ls tr : str_body k cs -> value_lex tc t ls -> trail_lex tc tr ->
    members_lex tc [(k, t)] ((34 :: k ++ [34]) :: [58] :: ls ++ tr)
| mel_cons k cs t l ls r : str_body k cs -> value_lex tc t ls -> members_lex tc l r ->
    members_lex tc ((k, t) :: l) ((34 :: k ++ [34]) :: [58] :: ls ++ [44] :: r).
Scheme value_lex_mind := Induction for value_lex Sort Prop
  with elements_lex_mind := Induction for elements_lex Sort Prop
  with members_lex_mind := Induction for members_lex Sort Prop.
Combined Scheme lex_mutind from value_lex_mind, elements_lex_mind, members_lex_mind.

(** * Lexemes with whitespace before each (none after the last) *)
Inductive spc : list (list N) -> list N -> Prop :=
| spc_nil : spc [] []
| spc_cons w x ls s : ws w -> lexeme x -> spc ls s -> spc (x :: ls) (w ++ x ++ s).

Lemma spc_app a s b r : spc a s -> spc b r -> spc (a ++ b) (s ++ r).
Proof.
  induction 1 as [|w x ls s Hw Hx Hs IH]; intro Hr; [exact Hr|]. cbn [app]. rewrite <- !app_assoc. constructor; auto.
Qed.
Lemma spc_one w x : ws w -> lexeme x -> spc [x] (w ++ x).
Proof. intros Hw Hx. rewrite <- (app_nil_r x) at 2. constructor; [assumption..|constructor]. Qed.
Lemma spc_lead w x ls s : ws w -> spc (x :: ls) s -> spc (x :: ls) (w ++ s).
Proof.
  intros Hw H. inversion H as [|w' x' ls' s' Hw' Hx Hs]; subst. rewrite app_assoc. constructor; auto.
  apply Forall_app. auto.
Qed.
Lemma spc_lead' w ls s : ws w -> ls <> [] -> spc ls s -> spc ls (w ++ s).
Proof. destruct ls; [congruence|]. intros. apply spc_lead; assumption. Qed.
Lemma lex_p b : In b [91; 93; 123; 125; 58; 44] -> lexeme [b]. Proof. apply lex_punct. Qed.
Ltac punct := apply lex_punct; cbn; tauto.

Lemma value_lex_nonnil tc t ls : value_lex tc t ls -> ls <> [].
Proof. intros []; discriminate. Qed.
Lemma elements_lex_nonnil tc t ls : elements_lex tc t ls -> ls <> [].
Proof. intros [t' ls' tr H|t' l ls' r H]; apply value_lex_nonnil in H; destruct ls'; congruence || discriminate. Qed.
Lemma members_lex_nonnil tc t ls : members_lex tc t ls -> ls <> [].
Proof. intros []; discriminate. Qed.

(** * From texts to lexemes *)
Lemma text_to_lex tc :
  (forall t s, value_text tc t s -> exists ls, value_lex tc t ls /\ spc ls s) /\
  (forall l s, elements tc l s -> exists ls s0 w, elements_lex tc l ls /\ spc ls s0 /\ ws w /\ s = s0 ++ w) /\
  (forall l s, members tc l s -> exists ls s0 w, members_lex tc l ls /\ spc ls s0 /\ ws w /\ s = s0 ++ w).
Proof.
  assert (N0 : ws []) by constructor.
  assert (One : forall x, lexeme x -> spc [x] x) by (intros x Hx; apply (spc_one [] x N0 Hx)).
  apply text_mutind.
  - exists [lit_null]. split; [constructor|apply One; constructor].
  - exists [lit_true]. split; [constructor|apply One; constructor].
  - exists [lit_false]. split; [constructor|apply One; constructor].
  - intros n Hn. exists [n]. split; [constructor; exact Hn|apply One; constructor; exact Hn].
  - intros raw cs Hb. exists [34 :: raw ++ [34]]. split; [econstructor; exact Hb|apply One; econstructor; exact Hb].
  - intros w Hw. exists [[91]; [93]]. split; [constructor|]. apply (spc_app [[91]] [91] [[93]] (w ++ [93])).
    + apply One. punct.
    + apply spc_one; [exact Hw|punct].
  - intros l s _ (ls & s0 & w & Hl & Hs & Hw & ->). exists ([91] :: ls ++ [[93]]). split; [constructor; exact Hl|].
    apply (spc_app [[91]] [91] (ls ++ [[93]]) ((s0 ++ w) ++ [93])); [apply One; punct|].
    rewrite <- app_assoc. apply spc_app; [exact Hs|]. apply spc_one; [exact Hw|punct].
  - intros w Hw. exists [[123]; [125]]. split; [constructor|]. apply (spc_app [[123]] [123] [[125]] (w ++ [125])).
    + apply One. punct.
    + apply spc_one; [exact Hw|punct].
  - intros l s _ (ls & s0 & w & Hl & Hs & Hw & ->). exists ([123] :: ls ++ [[125]]). split; [constructor; exact Hl|].
    apply (spc_app [[123]] [123] (ls ++ [[125]]) ((s0 ++ w) ++ [125])); [apply One; punct|].
    rewrite <- app_assoc. apply spc_app; [exact Hs|]. apply spc_one; [exact Hw|punct].
  - intros t w1 s w2 tr H1 Ht (ls & Hl & Hs) H2 Htr. destruct Htr as [|w Htc Hw].
    + exists (ls ++ []), (w1 ++ s), w2. split; [constructor; [exact Hl|constructor]|].
      split; [rewrite app_nil_r; apply spc_lead'; [exact H1|eapply value_lex_nonnil; exact Hl|exact Hs]|].
      split; [exact H2|]. rewrite app_nil_r, <- app_assoc. reflexivity.
    + exists (ls ++ [[44]]), ((w1 ++ s) ++ w2 ++ [44]), w. split; [constructor; [exact Hl|constructor; exact Htc]|].
      split; [apply spc_app; [apply spc_lead'; [exact H1|eapply value_lex_nonnil; exact Hl|exact Hs]|apply spc_one; [exact H2|punct]]|].
      split; [exact Hw|]. rewrite <- !app_assoc. reflexivity.
  - intros t l w1 s w2 r H1 Ht (ls & Hl & Hs) H2 Hr (ls' & s0 & w & Hl' & Hs' & Hw & ->).
    exists (ls ++ [44] :: ls'), ((w1 ++ s) ++ (w2 ++ [44]) ++ s0), w. split; [constructor; assumption|].
    split; [apply spc_app; [apply spc_lead'; [exact H1|eapply value_lex_nonnil; exact Hl|exact Hs]|]|].
    + apply (spc_app [[44]]); [apply spc_one; [exact H2|punct]|exact Hs'].
    + split; [exact Hw|]. rewrite <- !app_assoc. reflexivity.
  - intros k cs t w1 w2 w3 s w4 tr H1 Hk H2 H3 Ht (ls & Hl & Hs) H4 Htr.
    assert (Hkc : spc ((34 :: k ++ [34]) :: [58] :: ls) ((w1 ++ 34 :: k ++ [34]) ++ (w2 ++ [58]) ++ w3 ++ s)).
    { apply (spc_app [34 :: k ++ [34]]); [apply spc_one; [exact H1|econstructor; exact Hk]|].
      apply (spc_app [[58]]); [apply spc_one; [exact H2|punct]|]. apply spc_lead'; [exact H3|eapply value_lex_nonnil; exact Hl|exact Hs]. }
    destruct Htr as [|w Htc Hw].
    + exists ((34 :: k ++ [34]) :: [58] :: ls ++ []), ((w1 ++ 34 :: k ++ [34]) ++ (w2 ++ [58]) ++ w3 ++ s), w4.
      split; [econstructor; [exact Hk|exact Hl|constructor]|]. split; [rewrite app_nil_r; exact Hkc|].
      split; [exact H4|]. rewrite app_nil_r, <- !app_assoc. reflexivity.
    + exists ((34 :: k ++ [34]) :: [58] :: ls ++ [[44]]), (((w1 ++ 34 :: k ++ [34]) ++ (w2 ++ [58]) ++ w3 ++ s) ++ w4 ++ [44]), w.
      split; [econstructor; [exact Hk|exact Hl|constructor; exact Htc]|].
      split; [exact (spc_app _ _ [[44]] (w4 ++ [44]) Hkc ltac:(apply spc_one; [exact H4|punct]))|].
      split; [exact Hw|]. rewrite <- !app_assoc. reflexivity.
  - intros k cs t l w1 w2 w3 s w4 r H1 Hk H2 H3 Ht (ls & Hl & Hs) H4 Hr (ls' & s0 & w & Hl' & Hs' & Hw & ->).
    assert (Hkc : spc ((34 :: k ++ [34]) :: [58] :: ls) ((w1 ++ 34 :: k ++ [34]) ++ (w2 ++ [58]) ++ w3 ++ s)).
    { apply (spc_app [34 :: k ++ [34]]); [apply spc_one; [exact H1|econstructor; exact Hk]|].
      apply (spc_app [[58]]); [apply spc_one; [exact H2|punct]|]. apply spc_lead'; [exact H3|eapply value_lex_nonnil; exact Hl|exact Hs]. }
    exists ((34 :: k ++ [34]) :: [58] :: ls ++ [44] :: ls'), (((w1 ++ 34 :: k ++ [34]) ++ (w2 ++ [58]) ++ w3 ++ s) ++ (w4 ++ [44]) ++ s0), w.
    split; [econstructor; eassumption|].
    split; [refine (spc_app _ _ ([44] :: ls') ((w4 ++ [44]) ++ s0) Hkc _); apply (spc_app [[44]]); [apply spc_one; [exact H4|punct]|exact Hs']|].
    split; [exact Hw|]. rewrite <- !app_assoc. reflexivity.
Qed.

(** * No two numbers are adjacent in a value *)
Definition no_adj (ls : list (list N)) : Prop := forall a x y b, ls = a ++ x :: y :: b -> number x -> number y -> False.
Lemma not_number b x : b <> 45 -> ~ digit b -> ~ number (b :: x).
Proof. intros H1 H2 H. apply number_head_cases in H. unfold digit in H2. lia. Qed.
Lemma no_adj_nil : no_adj []. Proof. intros [|? ?] ? ? ? E; discriminate. Qed.
Lemma no_adj_cons x b : ~ number x -> no_adj b -> no_adj (x :: b).
Proof.
  intros Hx Hb [|z a] x' y r E; cbn in E; injection E as -> E; [contradiction|]. exact (Hb _ _ _ _ E).
Qed.
Lemma no_adj_one x : no_adj [x].
Proof. intros [|z [|? ?]] x' y r E; discriminate. Qed.
Lemma no_adj_app a p b : ~ number p -> no_adj a -> no_adj b -> no_adj (a ++ p :: b).
Proof.
  intros Hp Ha Hb. induction a as [|z a IH]; [apply no_adj_cons; assumption|].
  intros [|z' c] x y r E; cbn in E; injection E as -> E.
  - destruct a as [|y' a]; cbn in E; injection E as -> E; [intros _ H; contradiction|]. intros H1 H2. eapply (Ha []); [reflexivity|exact H1|exact H2].
  - eapply IH; [|exact E]. intros d x' y' r' ->. apply (Ha (z' :: d) x' y' r' eq_refl).
Qed.
Lemma value_no_adj tc : (forall t ls, value_lex tc t ls -> no_adj ls) /\ (forall l ls, elements_lex tc l ls -> no_adj ls) /\
  (forall l ls, members_lex tc l ls -> no_adj ls).
Proof.
  assert (P : forall b, In b [34; 91; 93; 123; 125; 58; 44] -> forall x, ~ number (b :: x)).
  { intros b Hb x. apply not_number; unfold digit; cbn in Hb; lia. }
  apply lex_mutind; intros; try apply no_adj_one.
  - apply no_adj_cons; [apply P; cbn; tauto|apply no_adj_one].
  - apply no_adj_cons; [apply P; cbn; tauto|]. apply no_adj_app; [apply P; cbn; tauto|assumption|apply no_adj_nil].
  - apply no_adj_cons; [apply P; cbn; tauto|apply no_adj_one].
  - apply no_adj_cons; [apply P; cbn; tauto|]. apply no_adj_app; [apply P; cbn; tauto|assumption|apply no_adj_nil].
  - destruct t0; [rewrite app_nil_r; assumption|]. apply no_adj_app; [apply P; cbn; tauto|assumption|apply no_adj_nil].
  - apply no_adj_app; [apply P; cbn; tauto|assumption..].
  - apply no_adj_cons; [apply P; cbn; tauto|]. apply no_adj_cons; [apply P; cbn; tauto|].
    destruct t0; [rewrite app_nil_r; assumption|]. apply no_adj_app; [apply P; cbn; tauto|assumption|apply no_adj_nil].
  - apply no_adj_cons; [apply P; cbn; tauto|]. apply no_adj_cons; [apply P; cbn; tauto|].
    apply no_adj_app; [apply P; cbn; tauto|assumption..].
Qed.

Lemma spc_spaced ls s w : spc ls s -> no_adj ls -> ws w -> spaced ls (s ++ w).
Proof.
  intros H Hn Hw. induction H as [|w' x ls s Hw' Hx Hs IH]; [constructor; exact Hw|].
  rewrite <- !app_assoc. constructor; auto.
  - apply IH. intros a x' y b -> . apply (Hn (x :: a) x' y b eq_refl).
  - intros Hnx (y & r & -> & Hny). destruct (Hn [] x y r eq_refl Hnx Hny).
Qed.

Lemma json_text_to_lex tc t s : json_text tc t s -> exists ls, value_lex tc t ls /\ spaced ls s.
Proof.
  intros (w1 & b & w2 & H1 & Hb & H2 & ->). destruct (proj1 (text_to_lex tc) t b Hb) as (ls & Hl & Hs).
  exists ls. split; [exact Hl|]. rewrite app_assoc. apply spc_spaced; [|eapply (proj1 (value_no_adj tc)); exact Hl|exact H2].
  apply spc_lead'; [exact H1|eapply value_lex_nonnil; exact Hl|exact Hs].
Qed.

(** * From lexemes to texts *)
Lemma spaced_inv x ls s : spaced (x :: ls) s -> exists w r, s = w ++ x ++ r /\ ws w /\ spaced ls r.
Proof. intro H. inversion H; subst. eauto 6. Qed.

Lemma lex_to_text tc :
  (forall t ls, value_lex tc t ls -> forall rest s, spaced (ls ++ rest) s ->
     exists w b r, s = w ++ b ++ r /\ ws w /\ value_text tc t b /\ spaced rest r) /\
  (forall l ls, elements_lex tc l ls -> forall c rest s, spaced (ls ++ [c] :: rest) s ->
     exists b r, s = b ++ c :: r /\ elements tc l b /\ spaced rest r) /\
  (forall l ls, members_lex tc l ls -> forall c rest s, spaced (ls ++ [c] :: rest) s ->
     exists b r, s = b ++ c :: r /\ members tc l b /\ spaced rest r).
Proof.
  assert (N0 : ws []) by constructor.
  apply lex_mutind.
  - intros rest s H. apply spaced_inv in H as (w & r & -> & Hw & Hr). exists w, lit_null, r. repeat split; auto. constructor.
  - intros rest s H. apply spaced_inv in H as (w & r & -> & Hw & Hr). exists w, lit_true, r. repeat split; auto. constructor.
  - intros rest s H. apply spaced_inv in H as (w & r & -> & Hw & Hr). exists w, lit_false, r. repeat split; auto. constructor.
  - intros n Hn rest s H. apply spaced_inv in H as (w & r & -> & Hw & Hr). exists w, n, r. repeat split; auto. constructor; auto.
  - intros raw cs Hb rest s H. apply spaced_inv in H as (w & r & -> & Hw & Hr). exists w, (34 :: raw ++ [34]), r.
    repeat split; auto. econstructor; eauto.
  - intros rest s H. cbn [app] in H. apply spaced_inv in H as (w & r & -> & Hw & Hr). apply spaced_inv in Hr as (w' & r' & -> & Hw' & Hr).
    exists w, ([91] ++ w' ++ [93]), r'. rewrite <- !app_assoc. repeat split; auto. constructor. exact Hw'.
  - intros l ls Hl IH rest s H. cbn [app] in H. apply spaced_inv in H as (w & r & -> & Hw & Hr).
    rewrite <- app_assoc in Hr. cbn [app] in Hr. destruct (IH _ _ _ Hr) as (b & r' & -> & Hb & Hr').
    exists w, (91 :: b ++ [93]), r'. cbn. rewrite <- !app_assoc. repeat split; auto. constructor. exact Hb.
  - intros rest s H. cbn [app] in H. apply spaced_inv in H as (w & r & -> & Hw & Hr). apply spaced_inv in Hr as (w' & r' & -> & Hw' & Hr).
    exists w, ([123] ++ w' ++ [125]), r'. rewrite <- !app_assoc. repeat split; auto. constructor. exact Hw'.
  - intros l ls Hl IH rest s H. cbn [app] in H. apply spaced_inv in H as (w & r & -> & Hw & Hr).
    rewrite <- app_assoc in Hr. cbn [app] in Hr. destruct (IH _ _ _ Hr) as (b & r' & -> & Hb & Hr').
    exists w, (123 :: b ++ [125]), r'. cbn. rewrite <- !app_assoc. repeat split; auto. constructor. exact Hb.
  - intros t ls tr Ht IH Htr c rest s H. rewrite <- app_assoc in H. destruct (IH _ _ H) as (w & b & r & -> & Hw & Hb & Hr).
    destruct Htr as [|Htc]; cbn [app] in Hr; apply spaced_inv in Hr as (w' & r' & -> & Hw' & Hr).
    + exists (w ++ b ++ w' ++ []), r'. rewrite app_nil_r, <- !app_assoc. repeat split; auto.
      rewrite <- (app_nil_r w'). constructor; auto. constructor.
    + apply spaced_inv in Hr as (w2 & r2 & -> & Hw2 & Hr). exists (w ++ b ++ w' ++ 44 :: w2), r2.
      split; [rewrite <- !app_assoc; cbn; rewrite <- ?app_assoc; reflexivity|]. split; [|exact Hr]. constructor; auto. constructor; auto.
  - intros t l ls r0 Ht IH Hl IHl c rest s H. rewrite <- app_assoc in H. cbn [app] in H.
    destruct (IH _ _ H) as (w & b & r & -> & Hw & Hb & Hr).
    apply spaced_inv in Hr as (w' & r' & -> & Hw' & Hr). destruct (IHl _ _ _ Hr) as (b2 & r2 & -> & Hb2 & Hr2).
    exists (w ++ b ++ w' ++ 44 :: b2), r2. split; [rewrite <- !app_assoc; cbn; rewrite <- ?app_assoc; reflexivity|].
    split; [|exact Hr2]. constructor; auto.
  - intros k cs t ls tr Hk Ht IH Htr c rest s H. cbn [app] in H. rewrite <- app_assoc in H.
    apply spaced_inv in H as (w1 & r1 & -> & Hw1 & H). apply spaced_inv in H as (w2 & r2 & -> & Hw2 & H).
    destruct (IH _ _ H) as (w & b & r & -> & Hw & Hb & Hr).
    destruct Htr as [|Htc]; cbn [app] in Hr; apply spaced_inv in Hr as (w' & r' & -> & Hw' & Hr).
    + exists (w1 ++ (34 :: k ++ [34]) ++ w2 ++ 58 :: w ++ b ++ w' ++ []), r'.
      split; [rewrite app_nil_r, <- !app_assoc; cbn; rewrite <- ?app_assoc; reflexivity|]. split; [|exact Hr].
      econstructor; eauto. constructor.
    + apply spaced_inv in Hr as (w3 & r3 & -> & Hw3 & Hr).
      exists (w1 ++ (34 :: k ++ [34]) ++ w2 ++ 58 :: w ++ b ++ w' ++ 44 :: w3), r3.
      split; [repeat (rewrite <- ?app_assoc; cbn [app]); reflexivity|]. split; [|exact Hr].
      econstructor; eauto. constructor; auto.
  - intros k cs t l ls r0 Hk Ht IH Hl IHl c rest s H. cbn [app] in H. rewrite <- app_assoc in H. cbn [app] in H.
    apply spaced_inv in H as (w1 & r1 & -> & Hw1 & H). apply spaced_inv in H as (w2 & r2 & -> & Hw2 & H).
    destruct (IH _ _ H) as (w & b & r & -> & Hw & Hb & Hr).
    apply spaced_inv in Hr as (w' & r' & -> & Hw' & Hr). destruct (IHl _ _ _ Hr) as (b2 & r3 & -> & Hb2 & Hr2).
    exists (w1 ++ (34 :: k ++ [34]) ++ w2 ++ 58 :: w ++ b ++ w' ++ 44 :: b2), r3.
    split; [repeat (rewrite <- ?app_assoc; cbn [app]); reflexivity|]. split; [|exact Hr2]. econstructor; eauto.
Qed.

Lemma lex_to_json_text tc t ls s : value_lex tc t ls -> spaced ls s -> json_text tc t s.
Proof.
  intros Hl Hs. rewrite <- (app_nil_r ls) in Hs. destruct (proj1 (lex_to_text tc) t ls Hl [] s Hs) as (w & b & r & -> & Hw & Hb & Hr).
  inversion Hr; subst. exists w, b, r. auto.
Qed.

(** * Unique lexing *)
Lemma lexeme_token pw x : lexeme x -> exists tk, token_text pw tk x /\ (token_is_number tk = true -> number x) /\
  (number x -> token_is_number tk = true).
Proof.
  assert (P : forall b, In b [34; 91; 93; 123; 125; 58; 44; 110; 116; 102] -> forall x, ~ number (b :: x)).
  { intros b Hb y. apply not_number; unfold digit; cbn in Hb; lia. }
  intros [b Hb| | | |n Hn|raw cs Hb].
  - cbn in Hb. assert (Hnn : ~ number [b]) by (apply P; cbn; tauto).
    destruct Hb as [<-|[<-|[<-|[<-|[<-|[<-|[]]]]]]]; eexists; (split; [constructor|split; [discriminate|contradiction]]).
  - exists TkNull. split; [constructor|]. split; [discriminate|]. intro H. destruct (P 110 ltac:(cbn; tauto) _ H).
  - exists (TkBool true). split; [constructor|]. split; [discriminate|]. intro H. destruct (P 116 ltac:(cbn; tauto) _ H).
  - exists (TkBool false). split; [constructor|]. split; [discriminate|]. intro H. destruct (P 102 ltac:(cbn; tauto) _ H).
  - eexists. split; [constructor; exact Hn|]. auto.
  - eexists. split; [constructor; exact Hb|]. split; [discriminate|]. intro H. destruct (P 34 ltac:(cbn; tauto) _ H).
Qed.

Lemma lexeme_head x : lexeme x -> exists b y, x = b :: y /\ ~ ws_byte b /\
  (~ number x -> ~ digit b /\ b <> 46 /\ b <> 101 /\ b <> 69).
Proof.
  intros [b Hb| | | |n Hn|raw cs Hb].
  - exists b, []. split; [reflexivity|]. unfold ws_byte, digit. cbn in Hb. lia.
  - eexists _, _. split; [reflexivity|]. unfold ws_byte, digit. lia.
  - eexists _, _. split; [reflexivity|]. unfold ws_byte, digit. lia.
  - eexists _, _. split; [reflexivity|]. unfold ws_byte, digit. lia.
  - destruct (num_head _ Hn) as (b & y & -> & Hb). exists b, y. split; [reflexivity|]. split; [unfold ws_byte, digit in *; lia|contradiction].
  - eexists _, _. split; [reflexivity|]. unfold ws_byte, digit. lia.
Qed.

Lemma ws_num_stop b r : ws_byte b -> num_stop (b :: r).
Proof. unfold ws_byte. cbn. unfold digit. lia. Qed.

Lemma number_dec_lexeme x : lexeme x -> number x \/ ~ number x.
Proof.
  intro H. destruct (lexeme_token W64 x H) as (tk & _ & H1 & H2). destruct (token_is_number tk); [left; auto|right; intro K; specialize (H2 K); discriminate].
Qed.

Lemma spaced_stop x ls s : number x -> spaced ls s ->
  (number x -> (exists y r, ls = y :: r /\ number y) -> exists b r, s = b :: r /\ ws_byte b) -> num_stop s.
Proof.
  intros Hx Hs Hg. destruct Hs as [w Hw|w y ls s Hw Hy Hs Hg'].
  - destruct w as [|b w]; [exact I|]. inversion Hw; subst. apply ws_num_stop. assumption.
  - destruct w as [|b w]; [|inversion Hw; subst; apply ws_num_stop; assumption]. cbn [app].
    destruct (number_dec_lexeme y Hy) as [Hn|Hn].
    + destruct (Hg Hx) as (b & r & E & Hb); [eauto|]. cbn in E. rewrite E. apply ws_num_stop. exact Hb.
    + destruct (lexeme_head y Hy) as (b & z & -> & _ & H). apply H. exact Hn.
Qed.

Theorem lex_unique pw ls : forall ls' pre s, N.of_nat (length (pre ++ s)) <= isize_max pw ->
  spaced ls s -> spaced ls' s -> ls = ls'.
Proof.
  induction ls as [|x ls IH]; intros ls' pre s Hl H H'.
  - inversion H as [w Hw|]; subst. inversion H' as [|w x ls0 s0 Hw' Hx]; subst; [reflexivity|].
    destruct (lexeme_head x Hx) as (b & y & -> & Hb & _). apply Forall_app in Hw as [_ Hw]. inversion Hw; subst. contradiction.
  - inversion H as [|w x0 ls0 s0 Hw Hx Hs Hg]; subst.
    inversion H' as [w' Hw' E|w' x' ls2 s2 Hw' Hx' Hs' Hg' E1 E]; subst.
    + destruct (lexeme_head x Hx) as (b & y & -> & Hb & _). apply Forall_app in Hw' as [_ Hw']. inversion Hw'; subst. contradiction.
    + assert (G1 : good false pw (pre ++ w ++ x ++ s0)) by (split; [exact Hl|discriminate]).
      assert (G2 : good false pw (pre ++ w' ++ x' ++ s2)) by (rewrite E; exact G1).
      destruct (lexeme_token pw x Hx) as (tk & Ht & Hn & _). destruct (lexeme_token pw x' Hx') as (tk' & Ht' & Hn' & _).
      assert (S1 : token_stop tk x s0).
      { unfold token_stop. destruct (token_is_number tk); [|exact I]. specialize (Hn eq_refl).
        apply number_num_token; [exact Hn|]. eapply spaced_stop; eassumption. }
      assert (S2 : token_stop tk' x' s2).
      { unfold token_stop. destruct (token_is_number tk'); [|exact I]. specialize (Hn' eq_refl).
        apply number_num_token; [exact Hn'|]. eapply spaced_stop; eassumption. }
      pose proof (next_or_eof_complete false pw pre w x tk s0 G1 Hw Ht S1) as C1.
      pose proof (next_or_eof_complete false pw pre w' x' tk' s2 G2 Hw' Ht' S2) as C2.
      rewrite E, C1 in C2. unfold mk in C2. injection C2 as _ _ Eo.
      rewrite !app_length in Eo.
      destruct (lexeme_head x Hx) as (b & y & -> & Hb & _). destruct (lexeme_head x' Hx') as (b' & y' & -> & Hb' & _).
      cbn [app] in E. destruct (ws_lead _ _ _ _ _ _ Hw' Hw Hb' Hb E) as (-> & -> & E').
      assert (Ey : y' = y /\ s2 = s0).
      { apply app_eq_len; [|exact E']. cbn in Eo. lia. }
      destruct Ey as [-> ->]. f_equal.
      apply (IH ls2 (pre ++ w ++ b :: y) s0); [rewrite <- !app_assoc; exact Hl|exact Hs|exact Hs'].
Qed.
