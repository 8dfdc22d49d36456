(** Property theorems relating the Tokenizer to the parser (C84). *)
From Verif Require Import Base Utf8 Utf8Facts StrModel ErrorModel Tokenizer Parser ValueModel DocModel NumModel Spec SpecLex SpecTok
  TokBase TokStr TokNum TokFacts ParserGen Trace SimInst StrSpec View ParseMain GrammarFacts Lexemes PropTok.
Local Open Scope N_scope.

(** [Tokenizer::for_json(s)] ([utf8]) or [for_json_bytes(s)], iterated with [next]: the tokens [tks], then [None]. *)
Definition tokenizes (utf8 : bool) (pw : pwidth) (s : list N) (tks : list token) : Prop :=
  fst (next_n utf8 pw (S (length tks)) (tokenizer_new s)) = map (fun tk => Some (Ok tk)) tks ++ [None].

(** * Tokens and lexemes *)
Lemma token_text_lexeme pw tk x : token_text pw tk x -> lexeme x.
Proof.
  intros [ | | | | | | | | |raw cs Hb|n Hn]; try (apply lex_punct; cbn; tauto);
    [constructor|constructor|constructor|apply (lex_str raw cs Hb)|apply lex_num; exact Hn].
Qed.

Lemma next_token g pw pre w x tk r : good g pw (pre ++ w ++ x ++ r) -> ws w -> token_text pw tk x -> token_stop tk x r ->
  tokenizer_next g pw (mk pre (w ++ x ++ r)) = (Some (Ok tk), mk (pre ++ w ++ x) r).
Proof.
  intros Hg Hw Ht Hs. pose proof (next_or_eof_complete g pw pre w x tk r Hg Hw Ht Hs) as E.
  unfold next_or_eof, read_non_ws in E. unfold tokenizer_next, next_non_ws.
  destruct (token_text_head _ _ _ Ht) as (b & y & -> & Hb & _). cbn [app] in *.
  rewrite skip_ws_mk_app in * by assumption. unfold bi_read in E. rewrite bi_next_mk in *. rewrite E. reflexivity.
Qed.
Lemma next_none g pw pre r : ws r -> exists it, tokenizer_next g pw (mk pre r) = (None, it).
Proof.
  intro Hw. rewrite tokenizer_next_mk. cbn zeta. pose proof (take_while_app is_ws r []) as HT. rewrite app_nil_r in HT.
  destruct HT as [-> ->]; [|exact I|eauto]. eapply Forall_impl; [|exact Hw]. intros c Hc. apply is_ws_spec. exact Hc.
Qed.

Lemma lexemes_tokens pw ls : Forall lexeme ls -> exists tks, Forall2 (token_text pw) tks ls.
Proof.
  induction 1 as [|x ls Hx H (tks & IH)]; [exists []; constructor|].
  destruct (lexeme_token pw x Hx) as (tk & Ht & _). exists (tk :: tks). constructor; assumption.
Qed.
Lemma spaced_lexemes ls s : spaced ls s -> Forall lexeme ls.
Proof. induction 1; constructor; assumption. Qed.

Lemma spaced_tokenizes g pw tks ls : Forall2 (token_text pw) tks ls -> forall pre s, good g pw (pre ++ s) -> spaced ls s ->
  fst (next_n g pw (S (length tks)) (mk pre s)) = map (fun tk => Some (Ok tk)) tks ++ [None].
Proof.
  induction 1 as [|tk x tks ls Ht H IH]; intros pre s Hg Hs.
  - inversion Hs as [w Hw|]; subst. cbn [length next_n]. destruct (next_none g pw pre s Hw) as (it & ->). reflexivity.
  - inversion Hs as [|w x0 ls0 s0 Hw Hx Hs0 Hgap]; subst. cbn [length]. change (S (S (length tks))) with (S (S (length tks))).
    remember (S (length tks)) as k. cbn [next_n].
    assert (Hst : token_stop tk x s0).
    { unfold token_stop. destruct (token_is_number tk) eqn:En; [|exact I].
      assert (Hn : number x) by (destruct Ht; try discriminate; assumption).
      apply number_num_token; [exact Hn|]. eapply spaced_stop; eassumption. }
    rewrite (next_token g pw pre w x tk s0 Hg Hw Ht Hst). subst k.
    specialize (IH (pre ++ w ++ x) s0). rewrite <- !app_assoc in IH. specialize (IH Hg Hs0).
    rewrite !app_assoc in *. destruct (next_n g pw (S (length tks)) (mk ((pre ++ w) ++ x) s0)) as [rs it2]. cbn [fst] in *.
    cbn [map app]. f_equal. exact IH.
Qed.

Lemma tokenizes_spc g pw tks : forall pre s, good g pw (pre ++ s) ->
  fst (next_n g pw (S (length tks)) (mk pre s)) = map (fun tk => Some (Ok tk)) tks ++ [None] ->
  exists ls b w, Forall2 (token_text pw) tks ls /\ spc ls b /\ ws w /\ s = b ++ w.
Proof.
  induction tks as [|tk tks IH]; intros pre s Hg E.
  - cbn [length next_n] in E. pose proof (tokenizer_next_spec g pw pre s Hg) as H.
    destruct (tokenizer_next g pw (mk pre s)) as [o it]. cbn in E. injection E as ->. destruct H as [Hw _].
    exists [], [], s. split; [constructor|]. split; [constructor|]. auto.
  - cbn [length] in E. remember (S (length tks)) as k. cbn [next_n] in E. pose proof (tokenizer_next_spec g pw pre s Hg) as H.
    destruct (tokenizer_next g pw (mk pre s)) as [o it]. subst k.
    destruct (next_n g pw (S (length tks)) it) as [rs it2] eqn:E2. cbn [fst map app] in E. injection E as -> E.
    destruct H as (w & x & r & -> & Hw & Ht & -> & Hst).
    destruct (IH (pre ++ w ++ x) r) as (ls & b & w2 & H1 & H2 & H3 & ->).
    { rewrite <- !app_assoc. exact Hg. }
    { rewrite E2. exact E. }
    exists (x :: ls), (w ++ x ++ b), w2. split; [constructor; assumption|]. split; [constructor; [exact Hw|eapply token_text_lexeme; exact Ht|exact H2]|].
    split; [exact H3|]. rewrite <- !app_assoc. reflexivity.
Qed.

(** * Tokens of a text and of a value *)
Lemma trail_tokens pw tc tr tks n : n <> 0%nat -> trail_lex tc tr -> Forall2 (token_text pw) tks tr -> trailing_tokens tc n tks.
Proof.
  intros Hn Htr H. destruct Htr as [|Htc]; inversion H as [|tk x ? ? Ht H2]; subst; [left; reflexivity|].
  inversion H2; subst. right. split; [reflexivity|]. split; [exact Hn|]. inversion Ht; subst; [reflexivity|].
  match goal with K : number [44] |- _ => apply number_head_cases in K; unfold digit in K; lia end.
Qed.

Lemma lex_tokens pw tc :
  (forall t ls, value_lex tc t ls -> forall v tks, value_repr pw t v -> Forall2 (token_text pw) tks ls -> value_tokens tc v tks) /\
  (forall l ls, elements_lex tc l ls -> forall vs tks, Forall2 (value_repr pw) l vs -> Forall2 (token_text pw) tks ls ->
     exists parts tr, Forall2 (value_tokens tc) vs parts /\ trailing_tokens tc (length vs) tr /\ tks = comma_separated parts ++ tr /\ parts <> []) /\
  (forall l ls, members_lex tc l ls -> forall vs tks,
     Forall2 (fun e f => (exists cs, str_body (fst e) cs /\ fst f = string_for pw (fst e) cs) /\ value_repr pw (snd e) (snd f)) l vs ->
     Forall2 (token_text pw) tks ls ->
     exists parts tr, Forall2 (fun e p => exists q, p = TkString (fst e) :: TkColon :: q /\ value_tokens tc (snd e) q) vs parts /\
       trailing_tokens tc (length vs) tr /\ tks = comma_separated parts ++ tr /\ parts <> []).
Proof.
  assert (Comma : forall tk, token_text pw tk [44] -> tk = TkComma).
  { intros tk H. inversion H; subst; try reflexivity. match goal with K : number _ |- _ => apply number_head_cases in K; unfold digit in K; lia end. }
  assert (P : forall tk b, token_text pw tk [b] -> b = 91 -> tk = TkArray).
  { intros tk b H E. inversion H; subst; try discriminate; try reflexivity. match goal with K : number _ |- _ => apply number_head_cases in K; unfold digit in K; lia end. }
  assert (P2 : forall tk b, token_text pw tk [b] -> b = 93 -> tk = TkArrayEnd).
  { intros tk b H E. inversion H; subst; try discriminate; try reflexivity. match goal with K : number _ |- _ => apply number_head_cases in K; unfold digit in K; lia end. }
  assert (P3 : forall tk b, token_text pw tk [b] -> b = 123 -> tk = TkObject).
  { intros tk b H E. inversion H; subst; try discriminate; try reflexivity. match goal with K : number _ |- _ => apply number_head_cases in K; unfold digit in K; lia end. }
  assert (P4 : forall tk b, token_text pw tk [b] -> b = 125 -> tk = TkObjectEnd).
  { intros tk b H E. inversion H; subst; try discriminate; try reflexivity. match goal with K : number _ |- _ => apply number_head_cases in K; unfold digit in K; lia end. }
  assert (P5 : forall tk, token_text pw tk [58] -> tk = TkColon).
  { intros tk H. inversion H; subst; try reflexivity. match goal with K : number _ |- _ => apply number_head_cases in K; unfold digit in K; lia end. }
  assert (PS : forall tk raw cs, token_text pw tk (34 :: raw ++ [34]) -> str_body raw cs -> tk = TkString (string_for pw raw cs)).
  { intros tk raw cs H Hb. inversion H as [| | | | | | | | |raw' cs' Hb' E1 E2|n Hn E1 E2]; subst.
    - apply app_inj_tail in E2 as [-> _]. f_equal. eapply string_for_det; eassumption.
    - apply number_head_cases in Hn. unfold digit in Hn. lia. }
  assert (PN : forall tk n, token_text pw tk n -> number n -> tk = TkNumber (JNum (Borrowed n))).
  { intros tk n H Hn. inversion H; subst; try reflexivity; apply number_head_cases in Hn; unfold digit in Hn; lia. }
  apply lex_mutind.
  - intros v tks Hr Ht. inversion Hr; subst. inversion Ht as [|tk ? ? ? H1 H2]; subst. inversion H2; subst. inversion H1; subst; try constructor.
    match goal with K : number _ |- _ => apply number_head_cases in K; unfold digit in K; lia end.
  - intros v tks Hr Ht. inversion Hr; subst. inversion Ht as [|tk ? ? ? H1 H2]; subst. inversion H2; subst. inversion H1; subst; try constructor.
    match goal with K : number _ |- _ => apply number_head_cases in K; unfold digit in K; lia end.
  - intros v tks Hr Ht. inversion Hr; subst. inversion Ht as [|tk ? ? ? H1 H2]; subst. inversion H2; subst. inversion H1; subst; try constructor.
    match goal with K : number _ |- _ => apply number_head_cases in K; unfold digit in K; lia end.
  - intros n Hn v tks Hr Ht. inversion Hr; subst. inversion Ht as [|tk ? ? ? H1 H2]; subst. inversion H2; subst.
    rewrite (PN _ _ H1 Hn). constructor.
  - intros raw cs Hb v tks Hr Ht. inversion Hr; subst. inversion Ht as [|tk ? ? ? H1 H2]; subst. inversion H2; subst.
    rewrite (PS _ _ _ H1 Hb). match goal with K : str_body raw ?c |- context [string_for pw raw ?c] => rewrite (string_for_det pw raw c cs K Hb) end.
    constructor.
  - intros v tks Hr Ht. inversion Hr as [| | | |l vs H|]; subst. inversion H; subst.
    inversion Ht as [|tk ? ? ? H1 H2]; subst. inversion H2 as [|tk2 ? ? ? H3 H4]; subst. inversion H4; subst.
    rewrite (P _ _ H1 eq_refl), (P2 _ _ H3 eq_refl). apply (vt_array tc [] [] []); [constructor|left; reflexivity].
  - intros l ls Hl IH v tks Hr Ht. inversion Hr as [| | | |l' vs H|]; subst.
    inversion Ht as [|tk ? ? ? H1 H2]; subst. apply Forall2_app_inv_r in H2 as (t1 & t2 & H2 & H3 & ->).
    inversion H3 as [|tk2 ? ? ? H4 H5]; subst. inversion H5; subst.
    rewrite (P _ _ H1 eq_refl), (P2 _ _ H4 eq_refl). destruct (IH vs t1 H H2) as (parts & tr & Hp & Htr & -> & _).
    rewrite <- app_assoc. constructor; assumption.
  - intros v tks Hr Ht. inversion Hr as [| | | | |l vs H]; subst. inversion H; subst.
    inversion Ht as [|tk ? ? ? H1 H2]; subst. inversion H2 as [|tk2 ? ? ? H3 H4]; subst. inversion H4; subst.
    rewrite (P3 _ _ H1 eq_refl), (P4 _ _ H3 eq_refl). apply (vt_object tc [] [] []); [constructor|left; reflexivity].
  - intros l ls Hl IH v tks Hr Ht. inversion Hr as [| | | | |l' vs H]; subst.
    inversion Ht as [|tk ? ? ? H1 H2]; subst. apply Forall2_app_inv_r in H2 as (t1 & t2 & H2 & H3 & ->).
    inversion H3 as [|tk2 ? ? ? H4 H5]; subst. inversion H5; subst.
    rewrite (P3 _ _ H1 eq_refl), (P4 _ _ H4 eq_refl). destruct (IH vs t1 H H2) as (parts & tr & Hp & Htr & -> & _).
    rewrite <- app_assoc. constructor; assumption.
  - intros t ls tr Hl IH Htr vs tks Hr Ht. inversion Hr as [|? v ? ? Hv Hr']; subst. inversion Hr'; subst.
    apply Forall2_app_inv_r in Ht as (t1 & t2 & H1 & H2 & ->). exists [t1], t2.
    split; [constructor; [apply IH; assumption|constructor]|]. split; [apply (trail_tokens pw tc tr t2); [discriminate|assumption..]|].
    split; [reflexivity|discriminate].
  - intros t l ls r Hl IH Hl2 IH2 vs tks Hr Ht. inversion Hr as [|? v ? vs' Hv Hr']; subst.
    apply Forall2_app_inv_r in Ht as (t1 & t2 & H1 & H2 & ->). inversion H2 as [|tk ? t3 ? H3 H4]; subst.
    rewrite (Comma _ H3). destruct (IH2 vs' t3 Hr' H4) as (parts & tr & Hp & Htr & -> & Hne).
    exists (t1 :: parts), tr. split; [constructor; [apply IH; assumption|exact Hp]|].
    split; [destruct Htr as [->|(Htc & Hn & ->)]; [left; reflexivity|right; split; [exact Htc|split; [discriminate|reflexivity]]]|].
    split; [|discriminate]. destruct parts; [congruence|]. cbn [comma_separated]. rewrite <- app_assoc. reflexivity.
  - intros k cs t ls tr Hk Hl IH Htr vs tks Hr Ht. inversion Hr as [|? [k' v] ? ? [(cs' & Hk' & Ek) Hv] Hr']; subst. cbn [fst] in Ek; subst k'. inversion Hr'; subst.
    cbn [fst snd] in *. inversion Ht as [|tk ? t0 ? H1 H2]; subst. inversion H2 as [|tk2 ? t3 ? H3 H4]; subst.
    apply Forall2_app_inv_r in H4 as (t1 & t2 & H5 & H6 & ->).
    rewrite (PS _ _ _ H1 Hk), (P5 _ H3). exists [TkString (string_for pw k cs') :: TkColon :: t1], t2.
    split; [constructor; [exists t1; split; [reflexivity|apply IH; assumption]|constructor]|].
    split; [apply (trail_tokens pw tc tr t2); [discriminate|assumption..]|].
    split; [|discriminate]. rewrite (string_for_det pw k cs' cs Hk' Hk). reflexivity.
  - intros k cs t l ls r Hk Hl IH Hl2 IH2 vs tks Hr Ht. inversion Hr as [|? [k' v] ? vs' [(cs' & Hk' & Ek) Hv] Hr']; subst. cbn [fst] in Ek; subst k'.
    cbn [fst snd] in *. inversion Ht as [|tk ? t0 ? H1 H2]; subst. inversion H2 as [|tk2 ? t3 ? H3 H4]; subst.
    apply Forall2_app_inv_r in H4 as (t1 & t2 & H5 & H6 & ->). inversion H6 as [|tk3 ? t4 ? H7 H8]; subst.
    rewrite (PS _ _ _ H1 Hk), (P5 _ H3), (Comma _ H7). destruct (IH2 vs' t4 Hr' H8) as (parts & tr & Hp & Htr & -> & Hne).
    exists ((TkString (string_for pw k cs') :: TkColon :: t1) :: parts), tr.
    split; [constructor; [exists t1; split; [reflexivity|apply IH; assumption]|exact Hp]|].
    split; [destruct Htr as [->|(Htc & Hn & ->)]; [left; reflexivity|right; split; [exact Htc|split; [discriminate|reflexivity]]]|].
    split; [|discriminate]. destruct parts; [congruence|]. cbn [comma_separated]. rewrite (string_for_det pw k cs' cs Hk' Hk).
    cbn [app]. rewrite <- app_assoc. reflexivity.
Qed.

Lemma trailing_lex pw tc n tr ls : trailing_tokens tc n tr -> Forall2 (token_text pw) tr ls -> trail_lex tc ls.
Proof.
  intros [->|(Htc & _ & ->)] H; inversion H as [|? ? ? ? H1 H2]; subst; [constructor|]. inversion H2; subst. inversion H1; subst. constructor. reflexivity.
Qed.

Lemma tokens_lex pw tc : forall v tks ls, value_tokens tc v tks -> Forall2 (token_text pw) tks ls ->
  exists t, value_lex tc t ls /\ value_repr pw t v.
Proof.
  induction v as [n|s|b|o IH|l IH|] using value_ind'; intros tks ls Hv Ht; inversion Hv as [| | | |l' parts tr Hp Htr|o' parts tr Hp Htr]; subst.
  - inversion Ht as [|? ? ? ? H1 H2]; subst. inversion H2; subst. inversion H1; subst. eexists. split; constructor. assumption.
  - inversion Ht as [|? ? ? ? H1 H2]; subst. inversion H2; subst. inversion H1; subst. eexists. split; econstructor; eassumption.
  - inversion Ht as [|? ? ? ? H1 H2]; subst. inversion H2; subst. inversion H1; subst; eexists; split; constructor.
  - inversion Ht as [|? x ? ls1 H1 H2]; subst. rewrite app_assoc in H2. apply Forall2_app_inv_l in H2 as (l1 & l2 & H2 & H3 & ->).
    inversion H3 as [|? y ? ls2 H4 H5]; subst. inversion H5; subst. inversion H1; subst. inversion H4; subst.
    destruct o as [|e o].
    + inversion Hp; subst. destruct Htr as [->|(_ & K & _)]; [|destruct (K eq_refl)]. inversion H2; subst.
      exists (TObj []). split; constructor. constructor.
    + assert (K : exists ts, members_lex tc ts l1 /\ Forall2 (fun e f => (exists cs, str_body (fst e) cs /\ fst f = string_for pw (fst e) cs) /\
                    value_repr pw (snd e) (snd f)) ts (e :: o)).
      { clear Hv Ht H1 H3 H4 H5. revert e parts IH Hp Htr l1 H2. induction o as [|e' o IHo]; intros [k v] parts IH Hp Htr l1 H2.
        - inversion Hp as [|? p ? ? (q & -> & Hq) Hp']; subst. inversion Hp'; subst. cbn [comma_separated app fst snd] in *.
          inversion IH as [|? ? Hi _]; subst. inversion H2 as [|? ? ? ? A1 A2]; subst. inversion A2 as [|? ? ? ? A3 A4]; subst.
          inversion A1; subst. inversion A3; subst. apply Forall2_app_inv_l in A4 as (b1 & b2 & A4 & A5 & ->).
          destruct (Hi _ _ Hq A4) as (t & Hl & Hr). eexists [(_, t)]. split; [econstructor; [eassumption|exact Hl|eapply trailing_lex; eassumption]|].
          constructor; [|constructor]. split; [eexists; split; [eassumption|reflexivity]|exact Hr].
        - inversion Hp as [|? p ? parts' (q & -> & Hq) Hp']; subst. inversion IH as [|? ? Hi IH']; subst.
          assert (Hne : parts' <> []) by (inversion Hp'; discriminate).
          replace (comma_separated ((TkString (fst (k, v)) :: TkColon :: q) :: parts') ++ tr)
            with (TkString k :: TkColon :: q ++ TkComma :: comma_separated parts' ++ tr) in H2
            by (destruct parts'; [congruence|cbn [comma_separated fst app]; rewrite <- !app_assoc; reflexivity]).
          cbn [fst snd] in *. inversion H2 as [|? ? ? ? A1 A2]; subst. inversion A2 as [|? ? ? ? A3 A4]; subst.
          inversion A1; subst. inversion A3; subst. apply Forall2_app_inv_l in A4 as (b1 & b2 & A4 & A5 & ->).
          inversion A5 as [|? ? ? ? A6 A7]; subst. inversion A6; subst.
          destruct (Hi _ _ Hq A4) as (t & Hl & Hr).
          destruct (IHo e' parts' IH' Hp') with (l1 := l') as (ts & Hts & Hrs); [|exact A7|].
          { destruct Htr as [->|(Htc & _ & ->)]; [left; reflexivity|right; split; [exact Htc|split; [discriminate|reflexivity]]]. }
          eexists ((_, t) :: ts). split; [econstructor; eassumption|]. constructor; [|exact Hrs].
          split; [eexists; split; [eassumption|reflexivity]|exact Hr]. }
      destruct K as (ts & Hl & Hr). exists (TObj ts). split; [constructor; exact Hl|constructor; exact Hr].
  - inversion Ht as [|? x ? ls1 H1 H2]; subst. rewrite app_assoc in H2. apply Forall2_app_inv_l in H2 as (l1 & l2 & H2 & H3 & ->).
    inversion H3 as [|? y ? ls2 H4 H5]; subst. inversion H5; subst. inversion H1; subst. inversion H4; subst.
    destruct l as [|e o].
    + inversion Hp; subst. destruct Htr as [->|(_ & K & _)]; [|destruct (K eq_refl)]. inversion H2; subst.
      exists (TArr []). split; constructor. constructor.
    + assert (K : exists ts, elements_lex tc ts l1 /\ Forall2 (value_repr pw) ts (e :: o)).
      { clear Hv Ht H1 H3 H4 H5. revert e parts IH Hp Htr l1 H2. induction o as [|e' o IHo]; intros v parts IH Hp Htr l1 H2.
        - inversion Hp as [|? p ? ? Hq Hp']; subst. inversion Hp'; subst. cbn [comma_separated app] in *.
          inversion IH as [|? ? Hi _]; subst. apply Forall2_app_inv_l in H2 as (b1 & b2 & A4 & A5 & ->).
          destruct (Hi _ _ Hq A4) as (t & Hl & Hr). exists [t]. split; [constructor; [exact Hl|eapply trailing_lex; eassumption]|].
          constructor; [exact Hr|constructor].
        - inversion Hp as [|? p ? parts' Hq Hp']; subst. inversion IH as [|? ? Hi IH']; subst.
          assert (Hne : parts' <> []) by (inversion Hp'; discriminate).
          replace (comma_separated (p :: parts') ++ tr) with (p ++ TkComma :: comma_separated parts' ++ tr) in H2
            by (destruct parts'; [congruence|cbn [comma_separated]; rewrite <- !app_assoc; reflexivity]).
          apply Forall2_app_inv_l in H2 as (b1 & b2 & A4 & A5 & ->).
          inversion A5 as [|? ? ? ? A6 A7]; subst. inversion A6; subst.
          destruct (Hi _ _ Hq A4) as (t & Hl & Hr).
          destruct (IHo e' parts' IH' Hp') with (l1 := l') as (ts & Hts & Hrs); [|exact A7|].
          { destruct Htr as [->|(Htc & _ & ->)]; [left; reflexivity|right; split; [exact Htc|split; [discriminate|reflexivity]]]. }
          exists (t :: ts). split; [constructor; eassumption|]. constructor; assumption. }
      destruct K as (ts & Hl & Hr). exists (TArr ts). split; [constructor; exact Hl|constructor; exact Hr].
  - inversion Ht as [|? ? ? ? H1 H2]; subst. inversion H2; subst. inversion H1; subst. eexists. split; constructor.
Qed.

(** * Main theorems *)
Lemma spc_of_lexemes g pw s tks : input_ok g pw s -> tokenizes g pw s tks ->
  exists ls b w, Forall2 (token_text pw) tks ls /\ spc ls b /\ ws w /\ s = b ++ w.
Proof. intros Hi H. apply (tokenizes_spc g pw tks [] s); [apply input_good; exact Hi|exact H]. Qed.

(** ** C84 Any text that is lexemes separated by whitespace tokenizes, one token for each lexeme, and the tokens are theirs *)
Theorem C84_lexemes_tokenize utf8 pw s ls : input_ok utf8 pw s -> spaced ls s ->
  exists tks, tokenizes utf8 pw s tks /\ Forall2 (token_text pw) tks ls.
Proof.
  intros Hi Hs. destruct (lexemes_tokens pw ls (spaced_lexemes ls s Hs)) as (tks & Ht). exists tks. split; [|exact Ht].
  unfold tokenizes. apply (spaced_tokenizes utf8 pw tks ls Ht [] s); [apply input_good; exact Hi|exact Hs].
Qed.

(** A tokenizer run that ends without an error is unique: same tokens for the same text. *)
Theorem C84_tokens_unique utf8 pw s a b : tokenizes utf8 pw s a -> tokenizes utf8 pw s b -> a = b.
Proof.
  unfold tokenizes. generalize (tokenizer_new s) as it. revert b.
  induction a as [|x a IH]; intros [|y b] it Ha Hb; cbn [length next_n] in *;
    destruct (tokenizer_next utf8 pw it) as [o it'].
  - reflexivity.
  - cbn in Ha. injection Ha as ->. destruct (tokenizer_next utf8 pw it') as [o2 it2]. destruct (next_n utf8 pw (length b) it2). discriminate.
  - cbn in Hb. injection Hb as ->. destruct (tokenizer_next utf8 pw it') as [o2 it2]. destruct (next_n utf8 pw (length a) it2). discriminate.
  - specialize (IH b it'). cbn [next_n] in IH.
    destruct (tokenizer_next utf8 pw it') as [o2 it2]. destruct (next_n utf8 pw (length a) it2) as [ra ia].
    destruct (next_n utf8 pw (length b) it2) as [rb ib]. cbn [fst map app] in *.
    injection Ha as -> Ha. injection Hb as -> Hb. f_equal. apply IH; assumption.
Qed.

Definition parse_value (utf8 : bool) (pw : pwidth) (s : list N) (cfg : parse_config) : res (error infallible) value :=
  if utf8 then value_from_json_with_config pw s cfg else value_from_json_bytes_with_config pw s cfg.

Lemma parse_value_iff utf8 pw s cfg v : input_ok utf8 pw s ->
  (parse_value utf8 pw s cfg = Ok v <-> exists t, accepted cfg t s /\ value_repr pw t v).
Proof. destruct utf8; [apply value_str_iff|apply value_bytes_iff]. Qed.

(** ** C84 The parser accepts a text with a value exactly when the tokenizer reads that value's tokens from it *)
Theorem C84_parser_reads_the_tokens utf8 pw s cfg v : input_ok utf8 pw s ->
  (parse_value utf8 pw s cfg = Ok v <->
   (exists tks, tokenizes utf8 pw s tks /\ value_tokens (allow_trailing_commas cfg) v tks) /\
   match recursion_limit cfg with Some n => tree_depth (tree_of v) <= n | None => True end /\
   (allow_all_types_at_root cfg = true \/ is_container (tree_of v) = true)).
Proof.
  intro Hi. rewrite parse_value_iff by exact Hi. split.
  - intros (t & (Hj & Hd & Hr) & Hv). pose proof (value_repr_tree pw t v Hv) as <-. split; [|split; assumption].
    destruct (json_text_to_lex _ _ _ Hj) as (ls & Hl & Hs). destruct (C84_lexemes_tokenize utf8 pw s ls Hi Hs) as (tks & Hk & Ht).
    exists tks. split; [exact Hk|]. eapply (proj1 (lex_tokens pw _)); eassumption.
  - intros ((tks & Hk & Hv) & Hd & Hr). destruct (spc_of_lexemes utf8 pw s tks Hi Hk) as (ls & b & w & Ht & Hs & Hw & ->).
    destruct (tokens_lex pw _ v tks ls Hv Ht) as (t & Hl & Hrep). pose proof (value_repr_tree pw t v Hrep) as E. rewrite E in *.
    exists t. split; [|exact Hrep]. split; [|split; assumption]. eapply lex_to_json_text; [exact Hl|].
    apply spc_spaced; [exact Hs|eapply (proj1 (value_no_adj _)); exact Hl|exact Hw].
Qed.

(** Without trailing commas a value has one token sequence. *)
Theorem C84_without_trailing_commas v tks : value_tokens false v tks <-> tks = tokens_of v.
Proof.
  revert tks. induction v as [n|s|b|o IH|l IH|] using value_ind'; intro tks.
  1-3,6: split; [intro H; inversion H; reflexivity|intros ->; constructor].
  - split.
    + intro H. inversion H as [| | | | |o' parts tr Hp Htr]; subst. cbn [tokens_of].
      assert (tr = []) as -> by (destruct Htr as [E|(E & _)]; [exact E|discriminate]). cbn [app]. do 3 f_equal.
      clear H Htr. revert parts Hp. induction IH as [|[k v] o Hv IH IHo]; intros parts Hp; inversion Hp as [|? p ? parts' (q & -> & Hq) Hp']; subst; [reflexivity|].
      cbn [map fst snd] in *. f_equal; [|apply IHo; exact Hp']. do 2 f_equal. apply Hv. exact Hq.
    + intros ->. cbn [tokens_of]. rewrite <- (app_nil_l [TkObjectEnd]). constructor; [|left; reflexivity].
      induction IH as [|[k v] o Hv IH IHo]; cbn [map]; constructor; [|exact IHo].
      eexists. split; [reflexivity|]. apply Hv. reflexivity.
  - split.
    + intro H. inversion H as [| | | |l' parts tr Hp Htr|]; subst. cbn [tokens_of].
      assert (tr = []) as -> by (destruct Htr as [E|(E & _)]; [exact E|discriminate]). cbn [app]. do 3 f_equal.
      clear H Htr. revert parts Hp. induction IH as [|v o Hv IH IHo]; intros parts Hp; inversion Hp as [|? p ? parts' Hq Hp']; subst; [reflexivity|].
      cbn [map] in *. f_equal; [|apply IHo; exact Hp']. apply Hv. exact Hq.
    + intros ->. cbn [tokens_of]. rewrite <- (app_nil_l [TkArrayEnd]). constructor; [|left; reflexivity].
      induction IH as [|v o Hv IH IHo]; cbn [map]; constructor; [|exact IHo]. apply Hv. reflexivity.
Qed.

Corollary C84_default_config utf8 pw s v : input_ok utf8 pw s ->
  (parse_value utf8 pw s config_new = Ok v <-> tokenizes utf8 pw s (tokens_of v) /\ tree_depth (tree_of v) <= 128).
Proof.
  intro Hi. rewrite C84_parser_reads_the_tokens by exact Hi. cbn [config_new allow_trailing_commas recursion_limit allow_all_types_at_root]. split.
  - intros ((tks & Hk & Hv) & Hd & _). apply C84_without_trailing_commas in Hv as ->. auto.
  - intros (Hk & Hd). split; [|auto]. eexists. split; [exact Hk|]. apply C84_without_trailing_commas. reflexivity.
Qed.

(** * Concrete cases: both directions, a trailing comma, and texts that tokenize but are no value. *)
Definition tokens_sample : list N := bs " {""a"" :[1, -2.5,null] , ""b"":{},""a"":true}".
Example tokens_sample_ok : input_ok false W64 tokens_sample /\ input_ok true W64 tokens_sample.
Proof.
  split.
  - split; [repeat constructor|vm_compute; discriminate].
  - split; [apply utf8_valid_iff; vm_compute; reflexivity|vm_compute; discriminate].
Qed.
Example tokens_sample_reads : exists v, parse_value true W64 tokens_sample config_new = Ok v /\
  parse_value false W64 tokens_sample config_new = Ok v /\
  tokenizes true W64 tokens_sample (tokens_of v) /\ tokenizes false W64 tokens_sample (tokens_of v) /\ length (tokens_of v) = 20%nat.
Proof. eexists. split; [vm_compute; reflexivity|]. split; [vm_compute; reflexivity|]. split; [vm_compute; reflexivity|]. split; vm_compute; reflexivity. Qed.
Definition num1 : json_number := JNum (Borrowed [49]).
Definition num2 : json_number := JNum (Borrowed (bs "-2")).
Example tokens_trailing : tokenizes true W64 (bs "[1,]") [TkArray; TkNumber num1; TkComma; TkArrayEnd] /\
  value_tokens true (VArray [VNumber num1]) [TkArray; TkNumber num1; TkComma; TkArrayEnd] /\
  ~ value_tokens false (VArray [VNumber num1]) [TkArray; TkNumber num1; TkComma; TkArrayEnd] /\
  parse_value true W64 (bs "[1,]") (allowing_trailing_commas config_new) = Ok (VArray [VNumber num1]) /\
  parse_value true W64 (bs "[1,]") config_new = Err (Error 3 KIllegalTrailingComma).
Proof.
  split; [vm_compute; reflexivity|]. split.
  { apply (vt_array true [VNumber num1] [[TkNumber num1]] [TkComma]); [constructor; [constructor|constructor]|]. right. split; [reflexivity|]. split; [discriminate|reflexivity]. }
  split; [intro H; apply C84_without_trailing_commas in H; discriminate|].
  split; vm_compute; reflexivity.
Qed.
(** Tokens without a value: two numbers, not even separated; an unclosed array; brackets that do not match; no token at all. *)
Example tokens_no_value : tokenizes true W64 (bs "1-2") [TkNumber num1; TkNumber num2] /\
  tokenizes true W64 (bs "[1") [TkArray; TkNumber num1] /\ tokenizes true W64 (bs "[1}") [TkArray; TkNumber num1; TkObjectEnd] /\
  tokenizes true W64 [32] [] /\
  forall cfg v, parse_value true W64 (bs "1-2") cfg <> Ok v /\ parse_value true W64 (bs "[1") cfg <> Ok v.
Proof.
  split; [vm_compute; reflexivity|]. split; [vm_compute; reflexivity|]. split; [vm_compute; reflexivity|]. split; [vm_compute; reflexivity|].
  intros cfg v. split; intro E.
  - apply C84_parser_reads_the_tokens in E as ((tks & Hk & Hv) & _).
    2: split; [apply utf8_valid_iff; vm_compute; reflexivity|vm_compute; discriminate].
    assert (tks = [TkNumber num1; TkNumber num2]) as -> by (eapply C84_tokens_unique; [exact Hk|vm_compute; reflexivity]).
    inversion Hv.
  - apply C84_parser_reads_the_tokens in E as ((tks & Hk & Hv) & _).
    2: split; [apply utf8_valid_iff; vm_compute; reflexivity|vm_compute; discriminate].
    assert (tks = [TkArray; TkNumber num1]) as -> by (eapply C84_tokens_unique; [exact Hk|vm_compute; reflexivity]).
    inversion Hv as [| | | |l parts tr Hp Htr E1 E2|]. apply (f_equal (@rev token)) in E2. rewrite app_assoc, rev_app_distr in E2. discriminate.
Qed.
