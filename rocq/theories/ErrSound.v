(** Errors of the parser: the error reported is one that SpecError describes. *)
From Verif Require Import Base Utf8 Utf8Facts StrModel ErrorModel Tokenizer Parser ValueModel Spec SpecError TokBase TokStr
  TokNum TokFacts ErrTok Trace ParserSound.

Lemma pbind_err {D A B} (m : pm D A) (k : A -> pm D B) s e s' :
  pbind D m k s = (Err e, s') -> m s = (Err e, s') \/ exists a s1, m s = (Ok a, s1) /\ k a s1 = (Err e, s').
Proof. unfold pbind. destruct (m s) as [[a|e0|f] s1]; intro H; [right; eauto|left; congruence|discriminate]. Qed.

Lemma kind_fallable_id (k : kind) : @kind_into_fallable infallible k = k.
Proof. destruct k as [| | | | | | | | | | | | | | | | | | | | | | | |[]]; reflexivity. Qed.

Lemma into_fallable_id o (k : kind) : @into_fallable infallible (Error o k) = Error o k.
Proof. unfold into_fallable. cbn. rewrite kind_fallable_id. reflexivity. Qed.

Section ErrSound.
  Variables (g : bool) (pw : pwidth) (cfg : parse_config).
  Notation T := trace_delegate.
  Notation tc := (allow_trailing_commas cfg).
  Notation limit := (recursion_limit cfg).
  Notation St := (@PS T).

  (** [b] containers may still be opened inside [d] of them. *)
  Definition budget (d b : N) : Prop := match limit with Some n => (d + b = n)%N | None => True end.

  Lemma budget_fits d b k : budget d b -> fits cfg b k -> forall n, limit = Some n -> (d + k <= n)%N.
  Proof. unfold budget, fits. intros Hb Hf n E. rewrite E in *. lia. Qed.

  Lemma budget_inner d b : budget d b -> (limit <> None -> (0 < b)%N) -> budget (d + 1) (inner cfg b).
  Proof.
    unfold budget, inner. destruct limit as [n|]; [|auto]. intros H Hb. specialize (Hb ltac:(discriminate)). lia.
  Qed.

  (** The error [e], raised from position [pre], is described by [R]. *)
  Definition located (pre : list N) (R : nat -> kind -> Prop) (e : error infallible) : Prop :=
    exists n k, R n k /\ e = Error (length pre + n) k.

  Lemma located_app pre x (R R' : nat -> kind -> Prop) e :
    (forall n k, R n k -> R' (length x + n)%nat k) -> located (pre ++ x) R e -> located pre R' e.
  Proof.
    intros H (n & k & Hn & ->). exists (length x + n)%nat, k. split; [apply H; exact Hn|].
    f_equal. rewrite app_length. lia.
  Qed.

  Lemma located_here pre (R : nat -> kind -> Prop) k : R 0%nat k -> located pre R (Error (length pre) k).
  Proof. intro H. exists 0%nat, k. split; [exact H|]. f_equal. lia. Qed.

  Lemma tok_err pre r tr b e s' : good g pw (pre ++ r) ->
    p_tok T (next_or_eof g pw) (St (mk pre r) tr b) = (Err e, s') -> located pre (next_error r) e.
  Proof.
    intros Hg H. unfold p_tok, p_tok_err in H. cbn [ps_iter ps_del ps_depth] in H.
    destruct (next_or_eof g pw (mk pre r)) as [[tk|e0|f] it'] eqn:E; [discriminate| |discriminate].
    cbn [map_err] in H. injection H as <- _.
    destruct (next_raises g pw pre r Hg _ _ E) as (n & k & Hn & ->). exists n, k. split; [exact Hn|]. apply into_fallable_id.
  Qed.

  Lemma colon_err pre r tr b e s' : good g pw (pre ++ r) ->
    p_tok_err T (to_expected_colon T) (next_or_eof g pw) (St (mk pre r) tr b) = (Err e, s') ->
    located pre (fun n k => k = KExpectedColon /\ exists k', next_error r n k') e.
  Proof.
    intros Hg H. unfold p_tok_err in H. cbn [ps_iter ps_del ps_depth] in H.
    destruct (next_or_eof g pw (mk pre r)) as [[tk|e0|f] it'] eqn:E; [discriminate| |discriminate].
    cbn [map_err] in H. injection H as <- _.
    destruct (next_raises g pw pre r Hg _ _ E) as (n & k & Hn & ->). exists n, KExpectedColon.
    split; [|reflexivity]. eauto.
  Qed.

  Definition rv_err (rv : pm T value) : Prop := forall pre r tr b d e s',
    good g pw (pre ++ r) -> budget d b -> rv (St (mk pre r) tr b) = (Err e, s') ->
    located pre (value_error tc limit d r) e.


  Lemma value_then_intro d b t v x r : value_text tc t x -> value_repr pw t v -> budget d b -> fits cfg b (tree_depth t) ->
    (forall n, t = TNum n -> num_token x r) -> value_then tc limit d t x r.
  Proof.
    intros Ht _ Hb Hf Hn. split; [exact Ht|]. split; [|apply (budget_fits d b); assumption].
    intros n E. apply number_then_iff. exact (Hn n E).
  Qed.

  Lemma then_intro tk x r : token_text pw tk x -> token_stop tk x r -> token_then x r.
  Proof. intros H1 H2. apply (token_then_text pw). eauto. Qed.

  Lemma err_object_loop rv : rv_sound g pw cfg rv -> rv_err rv -> forall n o pre r tr b d e s',
    good g pw (pre ++ r) -> budget d b ->
    object_loop g pw cfg T rv n o (St (mk pre r) tr b) = (Err e, s') ->
    located pre (object_error tc limit d (is_nil o) r) e.
  Proof.
    intros Hrv Hre. induction n as [|n IH]; intros o pre r tr b d e s' Hg Hb H; [discriminate|].
    cbn [object_loop] in H.
    apply pbind_err in H as [H|(off & s1 & E1 & H)]; [discriminate|]. injection E1 as <- <-.
    apply pbind_err in H as [H|(tk & s2 & E2 & H)].
    { apply tok_err in H; [|exact Hg]. destruct H as (m & k & Hn & ->). exists m, k. split; [|reflexivity].
      destruct Hn; constructor; assumption. }
    apply tok_ok in E2 as (w1 & x1 & r1 & -> & Hw1 & Ht1 & -> & Hst1); [|exact Hg].
    apply good_app in Hg.
    assert (Hns : ~ starts (fun c => In c [34; 93; 125; 58; 44]%N) x1 -> 
      perr T (length pre) KObjectKeysMustBeStrings (St (mk (pre ++ w1 ++ x1) r1) tr b) = ((Err e : res _ object), s') ->
      located pre (object_error tc limit d (is_nil o) (w1 ++ x1 ++ r1)) e).
    { intros Hx E. injection E as <- _. apply located_here. apply oe_not_string; [exact Hw1|eapply then_intro; eassumption|exact Hx]. }
    assert (Hpn : forall c, x1 = [c] -> In c [93; 58; 44]%N ->
      perr T (length pre) KExpectedObjectKey (St (mk (pre ++ w1 ++ x1) r1) tr b) = ((Err e : res _ object), s') ->
      located pre (object_error tc limit d (is_nil o) (w1 ++ x1 ++ r1)) e).
    { intros c -> Hc E. injection E as <- _. apply located_here. cbn [app]. apply oe_punct; assumption. }
    inversion Ht1 as [| | | | | | | | |key cs Hk|nn Hnn]; subst.
    - apply Hns; [cbn; lia|exact H].
    - apply Hns; [cbn; lia|exact H].
    - apply Hns; [cbn; lia|exact H].
    - apply Hns; [cbn; lia|exact H].
    - (* end of object *)
      clear Hns Hpn. apply pbind_err in H as [H|(ok & s3 & E3 & H)].
      { destruct tc; [discriminate|]. unfold p_query in H. cbn in H. discriminate. }
      assert (Hok : ok = false -> tc = false /\ is_nil o = false /\ bi_offset (mk pre (w1 ++ [125%N] ++ r1)) = length pre).
      { intros ->. destruct tc; [discriminate|]. apply query_ok in E3 as [E3 _]. cbn in E3. injection E3 as E3. auto. }
      destruct ok; [discriminate|]. destruct (Hok eq_refl) as (Htc & -> & _). injection H as <- _.
      apply located_here. cbn [app]. apply oe_comma; assumption.
    - apply Hns; [cbn; lia|exact H].
    - apply (Hpn 93%N); [reflexivity|cbn; auto|exact H].
    - apply (Hpn 58%N); [reflexivity|cbn; auto|exact H].
    - apply (Hpn 44%N); [reflexivity|cbn; auto|exact H].
    - (* a key *)
      clear Hns Hpn.
      apply pbind_err in H as [H|(ok & s3 & E3 & H)]; [discriminate|]. injection E3 as <- <-.
      cbn [ps_iter ps_del ps_depth] in H.
      apply pbind_err in H as [H|(off2 & s4 & E4 & H)]; [discriminate|]. injection E4 as <- <-.
      enough (Hc : located (pre ++ w1 ++ 34%N :: key ++ [34%N]) (colon_error tc limit d r1) e).
      { eapply located_app; [|exact Hc]. intros m k Hm. cbv beta.
        replace (length (w1 ++ 34%N :: key ++ [34%N]) + m)%nat with (length w1 + (length key + 2) + m)%nat
          by (rewrite app_length; cbn [length]; rewrite app_length; cbn; lia).
        eapply oe_key; eassumption. }
      set (pre1 := pre ++ w1 ++ 34%N :: key ++ [34%N]) in *. clearbody pre1. clear pre w1 Hw1 Ht1 Hst1.
      apply pbind_err in H as [H|(tk2 & s5 & E5 & H)].
      { apply colon_err in H; [|exact Hg]. destruct H as (m & k & (-> & k' & Hn) & ->). exists m, KExpectedColon.
        split; [|reflexivity]. destruct Hn; [apply ce_end; assumption|eapply ce_token; eassumption]. }
      apply tok_ok in E5 as (w2 & x2 & r2 & -> & Hw2 & Ht2 & -> & Hst2); [|exact Hg].
      apply good_app in Hg.
      assert (Hx : x2 <> [58%N] -> perr T (length pre1) KExpectedColon (St (mk (pre1 ++ w2 ++ x2) r2) (tr ++ [EObjectKey (string_for pw key cs)]) b) = ((Err e : res _ object), s') ->
        located pre1 (colon_error tc limit d (w2 ++ x2 ++ r2)) e).
      { intros Hx E. injection E as <- _. apply located_here. apply ce_other; [exact Hw2|eapply then_intro; eassumption|exact Hx]. }
      inversion Ht2 as [| | | | | | | | |key2 cs2 Hk2|nn2 Hnn2]; subst; try (apply Hx; [discriminate|exact H]).
      2:{ apply Hx; [|exact H]. intros ->. apply number_head_cases in Hnn2. lia. }
      clear Hx.
      apply pbind_err in H as [H|(off3 & s6 & E6 & H)]; [discriminate|]. injection E6 as <- <-.
      apply pbind_err in H as [H|(v & s7 & E7 & H)].
      { eapply Hre in H; [|exact Hg|exact Hb]. eapply located_app; [|exact H]. intros m k Hm. cbv beta.
        replace (length (w2 ++ [58%N]) + m)%nat with (length w2 + 1 + m)%nat by (rewrite app_length; cbn; lia).
        cbn [app]. apply ce_value; assumption. }
      destruct (Hrv _ _ _ _ _ _ Hg E7) as (w3 & x3 & r3 & t & -> & Hw3 & Htxt & Hrep & -> & Hfit & Hns3).
      apply good_app in Hg. clear E7.
      apply pbind_err in H as [H|(o2 & s8 & E8 & H)]; [discriminate|]. injection E8 as <- <-. cbn [ps_iter ps_del ps_depth] in H.
      apply pbind_err in H as [H|(off4 & s9 & E9 & H)]; [discriminate|]. injection E9 as <- <-.
      enough (Hc : located ((pre1 ++ w2 ++ [58%N]) ++ w3 ++ x3) (member_next_error tc limit d r3) e).
      { rewrite <- app_assoc in Hc. eapply located_app; [|exact Hc]. intros m k Hm. cbv beta.
        replace (length ((w2 ++ [58%N]) ++ w3 ++ x3) + m)%nat with (length w2 + 1 + length (w3 ++ x3) + m)%nat
          by (rewrite !app_length; cbn; lia).
        cbn [app]. eapply ce_after; try eassumption. eapply value_then_intro; eassumption. }
      set (pre2 := (pre1 ++ w2 ++ [58%N]) ++ w3 ++ x3) in *. clearbody pre2.
      assert (Hvt : value_then tc limit d t x3 r3) by (eapply value_then_intro; eassumption).
      clear pre1 w2 Hw2 Ht2 Hst2 w3 x3 Hw3 Htxt Hns3 Hvt.
      apply pbind_err in H as [H|(tk3 & s10 & E10 & H)].
      { apply tok_err in H; [|exact Hg]. destruct H as (m & k & Hn & ->). exists m, k. split; [|reflexivity].
        destruct Hn; constructor; assumption. }
      apply tok_ok in E10 as (w4 & x4 & r4 & -> & Hw4 & Ht4 & -> & Hst4); [|exact Hg].
      apply good_app in Hg.
      match type of H with _ (St _ ?tr2 _) = _ => set (trx := tr2) in * end.
      assert (Hx : x4 <> [44%N] -> x4 <> [125%N] ->
        perr T (length pre2) KExpectedCommaOrEndOfObject (St (mk (pre2 ++ w4 ++ x4) r4) trx b) = ((Err e : res _ object), s') ->
        located pre2 (member_next_error tc limit d (w4 ++ x4 ++ r4)) e).
      { intros H1 H2 E. injection E as <- _. apply located_here. apply mn_other; try assumption. eapply then_intro; eassumption. }
      inversion Ht4 as [| | | | | | | | |key4 cs4 Hk4|nn4 Hnn4]; subst; try (apply Hx; [discriminate..|exact H]).
      + discriminate.
      + eapply IH in H; [|exact Hg|exact Hb]. eapply located_app; [|exact H]. intros m k Hm. cbv beta.
        replace (length (w4 ++ [44%N]) + m)%nat with (length w4 + 1 + m)%nat by (rewrite app_length; cbn; lia).
        cbn [app]. apply mn_comma; [assumption|]. destruct o; exact Hm.
      + apply Hx; [intros ->|intros ->|exact H]; apply number_head_cases in Hnn4; lia.
    - apply Hns; [|exact H]. intro Hs. destruct x1 as [|c x1]; [destruct Hs|]. apply number_head_cases in Hnn.
      cbn [starts In] in Hs. lia.
  Qed.

  Lemma peek_false pre r tr b s' : peek_array_end T (St (mk pre r) tr b) = (Ok false, s') ->
    exists w r', r = w ++ r' /\ ws w /\ s' = St (mk (pre ++ w) r') tr b /\ ~ starts (fun c => ws_byte c \/ c = 93%N) r'.
  Proof.
    unfold peek_array_end, tokenizer_peek. cbn [ps_iter ps_del ps_depth]. rewrite skip_ws_mk. cbn zeta.
    pose proof (take_drop is_ws r) as E. pose proof (ws_take r) as Hw. pose proof (drop_while_head is_ws r) as Hd.
    set (w := take_while is_ws r) in *. set (r1 := drop_while is_ws r) in *. clearbody w r1. subst r.
    rewrite bi_peek_mk. intro H. exists w, r1. split; [reflexivity|]. split; [exact Hw|].
    destruct r1 as [|c r1].
    - injection H as <-. split; [reflexivity|cbn; tauto].
    - destruct (N.eqb_spec c 93) as [->|Hc].
      { cbn in H. discriminate. }
      split.
      + destruct (peek_kind_of c); try discriminate; injection H as <-; reflexivity.
      + cbn. intros [Hws|E]; [|congruence]. apply is_ws_spec in Hws. congruence.
  Qed.

  Lemma err_array_loop rv : rv_sound g pw cfg rv -> rv_err rv -> forall n o pre r tr b d e s',
    good g pw (pre ++ r) -> budget d b ->
    array_loop g pw cfg T rv n o (St (mk pre r) tr b) = (Err e, s') ->
    located pre (array_error tc limit d (is_nil o) r) e.
  Proof.
    intros Hrv Hre. induction n as [|n IH]; intros o pre r tr b d e s' Hg Hb H; [discriminate|].
    cbn [array_loop] in H.
    apply pbind_err in H as [H|(off & s1 & E1 & H)]; [discriminate|]. injection E1 as <- <-.
    apply pbind_err in H as [H|(isend & s2 & E2 & H)].
    { unfold peek_array_end in H. destruct (tokenizer_peek _) as [[[]|] it]; discriminate. }
    destruct isend.
    - apply peek_ok in E2 as [Hpt _]. destruct (Hpt eq_refl) as (w1 & r1 & -> & Hw1 & ->). clear Hpt.
      apply pbind_err in H as [H|(ok & s3 & E3 & H)].
      { destruct tc; [discriminate|]. unfold p_query in H. cbn in H. discriminate. }
      assert (Hok : ok = false -> tc = false /\ is_nil o = false).
      { intros ->. destruct tc; [discriminate|]. apply query_ok in E3 as [E3 _]. cbn in E3. injection E3 as E3. auto. }
      destruct ok; [discriminate|]. destruct (Hok eq_refl) as (Htc & ->). injection H as <- _.
      apply located_here. apply ae_comma; assumption.
    - apply peek_false in E2 as (w0 & r1 & -> & Hw0 & -> & Hr1). rewrite app_assoc in Hg.
      apply pbind_err in H as [H|(v & s7 & E7 & H)].
      { eapply Hre in H; [|exact Hg|exact Hb]. eapply located_app; [|exact H]. intros m k Hm. cbv beta.
        apply ae_value; assumption. }
      destruct (Hrv _ _ _ _ _ _ Hg E7) as (w3 & x3 & r3 & t & -> & Hw3 & Htxt & Hrep & -> & Hfit & Hns3).
      apply good_app in Hg. clear E7.
      apply pbind_err in H as [H|(off3 & s8 & E8 & H)]; [discriminate|]. injection E8 as <- <-.
      apply pbind_err in H as [H|(o2 & s9 & E9 & H)]; [discriminate|]. injection E9 as <- <-. cbn [ps_iter ps_del ps_depth] in H.
      apply pbind_err in H as [H|(off4 & s10 & E10 & H)]; [discriminate|]. injection E10 as <- <-.
      enough (Hc : located ((pre ++ w0) ++ w3 ++ x3) (array_next_error tc limit d r3) e).
      { rewrite <- app_assoc in Hc. eapply located_app; [|exact Hc]. intros m k Hm. cbv beta.
        replace (length (w0 ++ w3 ++ x3) + m)%nat with (length ((w0 ++ w3) ++ x3) + m)%nat by (rewrite !app_length; lia).
        rewrite (app_assoc w0 w3). eapply ae_after; try eassumption.
        - apply Forall_app. auto.
        - eapply value_then_intro; eassumption. }
      set (pre2 := (pre ++ w0) ++ w3 ++ x3) in *. clearbody pre2.
      clear pre w0 Hw0 Hr1 w3 x3 Hw3 Htxt Hns3.
      apply pbind_err in H as [H|(tk3 & s11 & E11 & H)].
      { apply tok_err in H; [|exact Hg]. destruct H as (m & k & Hn & ->). exists m, k. split; [|reflexivity].
        destruct Hn; constructor; assumption. }
      apply tok_ok in E11 as (w4 & x4 & r4 & -> & Hw4 & Ht4 & -> & Hst4); [|exact Hg].
      apply good_app in Hg.
      match type of H with _ (St _ ?tr2 _) = _ => set (trx := tr2) in * end.
      assert (Hx : x4 <> [44%N] -> x4 <> [93%N] ->
        perr T (length pre2) KExpectedCommaOrEndOfArray (St (mk (pre2 ++ w4 ++ x4) r4) trx b) = ((Err e : res _ (list value)), s') ->
        located pre2 (array_next_error tc limit d (w4 ++ x4 ++ r4)) e).
      { intros H1 H2 E. injection E as <- _. apply located_here. apply an_other; try assumption. eapply then_intro; eassumption. }
      inversion Ht4 as [| | | | | | | | |key4 cs4 Hk4|nn4 Hnn4]; subst; try (apply Hx; [discriminate..|exact H]).
      + discriminate.
      + eapply IH in H; [|exact Hg|exact Hb]. eapply located_app; [|exact H]. intros m k Hm. cbv beta.
        replace (length (w4 ++ [44%N]) + m)%nat with (length w4 + 1 + m)%nat by (rewrite app_length; cbn; lia).
        cbn [app]. apply an_comma; [assumption|]. destruct o; exact Hm.
      + apply Hx; [intros ->|intros ->|exact H]; apply number_head_cases in Hnn4; lia.
  Qed.

  Lemma map_err_err {A} f (m : pm T A) s e s' : p_map_err T f m s = (Err e, s') ->
    exists e0, m s = (Err e0, s') /\ e = f e0.
  Proof. unfold p_map_err. destruct (m s) as [[x|e0|ft] s1]; cbn; intro H; try discriminate. injection H as <- <-. eauto. Qed.

  Lemma eof_to_inside (pre : list N) n k u : eof_to T u (Error (length pre + n) k) = Error (length pre + n) (inside u k).
  Proof. destruct k; reflexivity. Qed.

  Lemma begin_nest_err o it tr b e s' : begin_nest cfg T o (St it tr b) = (Err e, s') ->
    e = Error o KRecursionLimitReached /\ forall d, budget d b -> limit = Some d.
  Proof.
    unfold begin_nest, budget. cbn [ps_depth ps_iter ps_del]. destruct limit as [n|]; [|discriminate].
    destruct (N.ltb_spec 0 b); [discriminate|]. intro E. injection E as <- _. split; [reflexivity|]. intros d Hd. f_equal. lia.
  Qed.

  Lemma budget_open d b : budget d b -> (limit <> None -> (0 < b)%N) -> limit <> Some d.
  Proof. unfold budget. intros H Hb E. rewrite E in H. specialize (Hb ltac:(congruence)). lia. Qed.

  Lemma err_read_tokens loops fuel : rv_err (read_tokens g pw cfg T loops fuel).
  Proof.
    induction fuel as [|fuel IH]; intros pre r tr b d e s' Hg Hb H; [discriminate|]. cbn [read_tokens] in H.
    pose proof (sound_read_tokens g pw cfg loops fuel) as Hrv.
    apply pbind_err in H as [H|(off & s1 & E1 & H)]; [discriminate|]. injection E1 as <- <-.
    apply pbind_err in H as [H|(tk & s2 & E2 & H)].
    { apply tok_err in H; [|exact Hg]. destruct H as (m & k & Hn & ->). exists m, k. split; [|reflexivity].
      destruct Hn; constructor; assumption. }
    apply tok_ok in E2 as (w1 & x1 & r1 & -> & Hw1 & Ht1 & -> & Hstop); [|exact Hg].
    apply good_app in Hg.
    assert (Hp : forall c, In c [125; 93; 58; 44]%N -> x1 = [c] -> 
      perr T (length pre) (KUnexpected c) (St (mk (pre ++ w1 ++ x1) r1) tr b) = ((Err e : res _ value), s') ->
      located pre (value_error tc limit d (w1 ++ x1 ++ r1)) e).
    { intros c Hc -> E. injection E as <- _. apply located_here. cbn [app]. apply ve_punct; assumption. }
    inversion Ht1 as [| | | | | | | | |k cs Hk|]; subst; try discriminate.
    - (* object *)
      clear Hp. apply pbind_err in H as [H|([] & s3 & E3 & H)].
      { apply begin_nest_err in H as [-> Hl]. apply located_here. cbn [app]. apply ve_limit; [exact Hw1|cbn; auto|auto]. }
      apply begin_nest_ok in E3 as [-> Hd]. pose proof (budget_inner _ _ Hb Hd) as Hb'.
      apply map_err_err in H as (e0 & H & ->). unfold read_object in H.
      apply pbind_err in H as [H|(off2 & s4 & E4 & H)]; [discriminate|]. injection E4 as <- <-.
      apply pbind_err in H as [H|(o & s5 & E5 & H)]; [discriminate|]. injection E5 as <- <-. cbn [ps_iter ps_del ps_depth] in H.
      apply pbind_err in H as [H|(o' & s6 & E6 & H)].
      { apply (err_object_loop _ Hrv IH) with (d := (d + 1)%N) in H; [|exact Hg|exact Hb'].
        destruct H as (n & k & Hn & ->). rewrite eof_to_inside. exists (length w1 + 1 + n)%nat, (inside KUnclosedObject k).
        split; [|f_equal; rewrite !app_length; cbn; lia]. cbn [app].
        apply ve_object; [exact Hw1|apply (budget_open d b); assumption|exact Hn]. }
      apply pbind_err in H as [H|(off3 & s7 & E7 & H)]; [discriminate|].
      apply pbind_err in H as [H|(v0 & s8 & E8 & H)]; [discriminate|].
      apply pbind_err in H as [H|(u & s9 & E9 & H)]; [|discriminate].
      unfold end_nest in H. destruct limit; discriminate.
    - apply (Hp 125%N); [cbn; auto|reflexivity|exact H].
    - (* array *)
      clear Hp. apply pbind_err in H as [H|([] & s3 & E3 & H)].
      { apply begin_nest_err in H as [-> Hl]. apply located_here. cbn [app]. apply ve_limit; [exact Hw1|cbn; auto|auto]. }
      apply begin_nest_ok in E3 as [-> Hd]. pose proof (budget_inner _ _ Hb Hd) as Hb'.
      apply map_err_err in H as (e0 & H & ->). unfold read_array in H.
      apply pbind_err in H as [H|(off2 & s4 & E4 & H)]; [discriminate|]. injection E4 as <- <-.
      apply pbind_err in H as [H|(o & s5 & E5 & H)]; [discriminate|]. injection E5 as <- <-. cbn [ps_iter ps_del ps_depth] in H.
      apply pbind_err in H as [H|(o' & s6 & E6 & H)].
      { apply (err_array_loop _ Hrv IH) with (d := (d + 1)%N) in H; [|exact Hg|exact Hb'].
        destruct H as (n & k & Hn & ->). rewrite eof_to_inside. exists (length w1 + 1 + n)%nat, (inside KUnclosedArray k).
        split; [|f_equal; rewrite !app_length; cbn; lia]. cbn [app].
        apply ve_array; [exact Hw1|apply (budget_open d b); assumption|exact Hn]. }
      apply pbind_err in H as [H|(v0 & s8 & E8 & H)]; [discriminate|].
      apply pbind_err in H as [H|(u & s9 & E9 & H)]; [|discriminate].
      unfold end_nest in H. destruct limit; discriminate.
    - apply (Hp 93%N); [cbn; auto|reflexivity|exact H].
    - apply (Hp 58%N); [cbn; auto|reflexivity|exact H].
    - apply (Hp 44%N); [cbn; auto 6|reflexivity|exact H].
  Qed.

  Theorem trace_error_sound source e tr : good g pw source ->
    parse_bytes g pw cfg T source [] = (Err e, tr) ->
    text_error tc limit (allow_all_types_at_root cfg) source (err_offset e) (err_kind e).
  Proof.
    intros Hg H. unfold parse_bytes in H.
    destruct (parse_body g pw cfg T (S (length source)) (S (length source)) (parse_state pw cfg T source [])) as [r s] eqn:E.
    injection H as -> <-. unfold parse_body in E.
    assert (Hb : budget 0 (match limit with Some n => n | None => usize_max pw end)).
    { unfold budget. destruct limit; [apply N.add_0_l|exact I]. }
    unfold parse_state in E. rewrite bi_new_mk in E.
    apply (@pbind_err T) in E as [E|(v0 & s1 & E1 & E)].
    { eapply err_read_tokens in E; [|exact Hg|exact Hb]. destruct E as (n & k & Hn & ->). apply xe_value. exact Hn. }
    apply sound_read_tokens in E1; [|exact Hg].
    destruct E1 as (w & x & r' & t & -> & Hw & Htxt & Hrep & -> & Hfit & Hns).
    assert (Hvt : value_then tc limit 0 t x r') by (eapply value_then_intro; eassumption).
    pose proof (repr_kind pw _ _ Hrep) as Hk.
    apply (@pbind_err T) in E as [E|([] & s2 & E2 & E)].
    { unfold check_root in E. destruct (allow_all_types_at_root cfg) eqn:Ha; cbn [negb] in E; [discriminate|].
      unfold pbind, p_query in E. cbn in E.
      destruct (value_kind v0); try discriminate; injection E as <- _; eapply xe_root; eauto. }
    assert (Hroot : (allow_all_types_at_root cfg = true \/ is_container t = true) /\ s2 = St (mk ([] ++ w ++ x) r') ([] ++ events v0)
        (match recursion_limit cfg with Some n => n | None => usize_max pw end)).
    { unfold check_root in E2. rewrite Hk. destruct (allow_all_types_at_root cfg); cbn [negb] in E2.
      - injection E2 as <-. auto.
      - cbn in E2. unfold pbind, p_query in E2. cbn in E2.
        destruct (value_kind v0); try discriminate; injection E2 as <-; auto. }
    destruct Hroot as [Hroot ->]. clear E2.
    apply (@pbind_err T) in E as [E|([] & s3 & E3 & E)]; [|discriminate].
    unfold check_trailing, next_non_ws in E. cbn [ps_iter] in E. rewrite skip_ws_mk, bi_next_mk in E.
    pose proof (take_drop is_ws r') as Er. pose proof (ws_take r') as Hw2. pose proof (drop_while_head is_ws r') as Hd.
    set (w2 := take_while is_ws r') in *. set (r2 := drop_while is_ws r') in *. clearbody w2 r2. subst r'.
    destruct r2 as [|c r2]; [discriminate|]. injection E as <- _. cbn [err_offset err_kind app].
    replace (length ((w ++ x) ++ w2)) with (length (w ++ x ++ w2)) by (rewrite !app_length; lia).
    apply xe_trailing with (t := t); auto. intro Hc. apply is_ws_spec in Hc. congruence.
  Qed.
End ErrSound.
