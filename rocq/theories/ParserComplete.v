(** Completeness: every JSON text within the configured limits is accepted, with its value. *)
From Verif Require Import Base Utf8 Utf8Facts StrModel ErrorModel Tokenizer Parser ValueModel Spec TokBase TokStr
  TokNum TokFacts Trace ParserSound.

Ltac ascs := cbn [app]; rewrite ?app_nil_r; repeat (rewrite <- ?app_assoc; cbn [app]).

Lemma pbind_eq {D A B} (m : pm D A) (k : A -> pm D B) s a s1 :
  m s = (Ok a, s1) -> pbind D m k s = k a s1.
Proof. unfold pbind. intros ->. reflexivity. Qed.

Lemma value_text_head tc t s : value_text tc t s ->
  exists b y, s = b :: y /\ ~ ws_byte b /\ b <> 93%N /\ b <> 44%N.
Proof.
  unfold ws_byte.
  intros [ | | |n Hn| | | | | ]; try (eexists _, _; split; [reflexivity|lia]).
  pose proof (number_nonnil _ Hn) as Hne. destruct n as [|c n]; [congruence|].
  pose proof (number_head_cases c n Hn). exists c, n. split; [reflexivity|lia].
Qed.

Lemma ws_num_stop w c r : ws w -> (c = 44 \/ c = 93 \/ c = 125)%N -> num_stop (w ++ c :: r).
Proof.
  intros Hw Hc. destruct Hw as [|b w Hb Hw]; cbn; unfold digit, ws_byte in *; lia.
Qed.

Lemma ws_num_stop_end w : ws w -> num_stop w.
Proof. intros [|b w' Hb Hw]; cbn; [exact I|]. unfold digit, ws_byte in *. lia. Qed.

Section Complete.
  Variables (g : bool) (pw : pwidth) (cfg : parse_config).
  Notation T := trace_delegate.
  Notation tc := (allow_trailing_commas cfg).
  Notation St := (@PS T).

  Lemma tok_complete conv pre w x r tk tr d : good g pw (pre ++ w ++ x ++ r) ->
    ws w -> token_text pw tk x -> token_stop tk x r ->
    p_tok_err T conv (next_or_eof g pw) (St (mk pre (w ++ x ++ r)) tr d) = (Ok tk, St (mk (pre ++ w ++ x) r) tr d).
  Proof.
    intros Hg Hw Ht Hst. unfold p_tok_err. cbn [ps_iter]. rewrite (next_or_eof_complete g pw pre w x tk r); auto.
  Qed.

  Lemma offset_eq it tr d : p_offset T (St it tr d) = (Ok (bi_offset it), St it tr d).
  Proof. reflexivity. Qed.

  Definition stop_ok (t : tree) (r : list N) : Prop := match t with TNum _ => num_stop r | _ => True end.

  Lemma stop_ok_any t r : num_stop r -> stop_ok t r.
  Proof. destruct t; cbn; auto. Qed.

  Definition complete_value (t : tree) (s : list N) : Prop :=
    forall loops fuel pre w r tr d, ws w -> good g pw (pre ++ w ++ s ++ r) ->
    (length s < fuel)%nat -> (length s < loops)%nat -> fits cfg d (tree_depth t) -> stop_ok t r ->
    exists v, value_repr pw t v /\
      read_tokens g pw cfg T loops fuel (St (mk pre (w ++ s ++ r)) tr d) =
      (Ok v, St (mk (pre ++ w ++ s) r) (tr ++ events v) d).

  Definition complete_elements (ts : list tree) (s : list N) : Prop :=
    forall loops fuel n o pre r tr d, good g pw (pre ++ s ++ 93%N :: r) ->
    (length s < fuel)%nat -> (length s < loops)%nat -> (length s < n)%nat -> fits_elements cfg d ts ->
    exists vs, Forall2 (value_repr pw) ts vs /\
      array_loop g pw cfg T (read_tokens g pw cfg T loops fuel) n o (St (mk pre (s ++ 93%N :: r)) tr d) =
      (Ok (o ++ vs), St (mk (pre ++ s ++ [93%N]) r) (tr ++ element_events vs) d).

  Definition complete_members (ms : list (list N * tree)) (s : list N) : Prop :=
    forall loops fuel n o pre r tr d, good g pw (pre ++ s ++ 125%N :: r) ->
    (length s < fuel)%nat -> (length s < loops)%nat -> (length s < n)%nat -> fits_members cfg d ms ->
    exists vs, Forall2 (member_repr pw) ms vs /\
      object_loop g pw cfg T (read_tokens g pw cfg T loops fuel) n o (St (mk pre (s ++ 125%N :: r)) tr d) =
      (Ok (o ++ vs), St (mk (pre ++ s ++ [125%N]) r) (tr ++ member_events vs) d).

  Lemma peek_end w pre r tr d : ws w ->
    peek_array_end T (St (mk pre (w ++ 93%N :: r)) tr d) = (Ok true, St (mk (pre ++ w ++ [93%N]) r) tr d).
  Proof.
    intro Hw. unfold peek_array_end, tokenizer_peek. cbn [ps_iter].
    rewrite skip_ws_mk_app; [|exact Hw|unfold ws_byte; lia]. cbn zeta. rewrite bi_peek_mk. cbn [peek_kind_of N.eqb Pos.eqb].
    unfold mk. cbn [bi_bytes bi_offset ps_del ps_depth]. ascs. do 2 f_equal. f_equal. rewrite !app_length. cbn. lia.
  Qed.

  Lemma peek_not_end w pre b r tr d : ws w -> ~ ws_byte b -> b <> 93%N ->
    peek_array_end T (St (mk pre (w ++ b :: r)) tr d) = (Ok false, St (mk (pre ++ w) (b :: r)) tr d).
  Proof.
    intros Hw Hb H93. unfold peek_array_end, tokenizer_peek. cbn [ps_iter].
    rewrite skip_ws_mk_app; [|exact Hw|exact Hb]. cbn zeta. rewrite bi_peek_mk.
    destruct (peek_kind_of b) eqn:K; try reflexivity. exfalso. revert K. unfold peek_kind_of.
    repeat match goal with |- context [if ?x then _ else _] => destruct x eqn:?; [try discriminate|] end;
      try discriminate. lia.
  Qed.

  Lemma good_asc s1 s2 : good g pw s1 -> s1 = s2 -> good g pw s2.
  Proof. intros H <-. exact H. Qed.

  (** Rewrite the position of the current state. *)
  Lemma St_eq it1 it2 tr1 tr2 d : it1 = it2 -> tr1 = tr2 -> St it1 tr1 d = St it2 tr2 d.
  Proof. congruence. Qed.

  Lemma mk_asc pre1 r1 pre2 r2 : pre1 = pre2 -> r1 = r2 -> mk pre1 r1 = mk pre2 r2.
  Proof. congruence. Qed.

  Lemma closing_query_obj (o : object) it tr d : closing cfg o ->
    (if tc then pret T true else p_query T (fun st => d_object_is_empty T st o)) (St it tr d) = (Ok true, St it tr d).
  Proof. unfold closing. intros H. destruct tc; [reflexivity|]. destruct H as [->|H]; [reflexivity|discriminate]. Qed.

  Lemma closing_query_arr (o : list value) it tr d : closing cfg o ->
    (if tc then pret T true else p_query T (fun st => d_array_is_empty T st o)) (St it tr d) = (Ok true, St it tr d).
  Proof. unfold closing. intros H. destruct tc; [reflexivity|]. destruct H as [->|H]; [reflexivity|discriminate]. Qed.

  (** A loop that meets the closing bracket at once. *)
  Lemma object_close rv n (o : object) pre w r tr d : good g pw (pre ++ w ++ 125%N :: r) -> (0 < n)%nat ->
    ws w -> closing cfg o ->
    object_loop g pw cfg T rv n o (St (mk pre (w ++ 125%N :: r)) tr d) = (Ok o, St (mk (pre ++ w ++ [125%N]) r) tr d).
  Proof.
    intros Hg Hn Hw Hc. destruct n as [|n]; [lia|]. cbn [object_loop].
    rewrite (pbind_eq _ _ _ _ _ (offset_eq _ _ _)).
    erewrite pbind_eq; [|apply (tok_complete into_fallable pre w [125%N] r TkObjectEnd); [exact Hg|exact Hw|constructor|exact I]].
    cbn match. erewrite pbind_eq; [|apply closing_query_obj; exact Hc]. reflexivity.
  Qed.

  Lemma array_close rv n (o : list value) pre w r tr d : (0 < n)%nat ->
    ws w -> closing cfg o ->
    array_loop g pw cfg T rv n o (St (mk pre (w ++ 93%N :: r)) tr d) = (Ok o, St (mk (pre ++ w ++ [93%N]) r) tr d).
  Proof.
    intros Hn Hw Hc. destruct n as [|n]; [lia|]. cbn [array_loop].
    rewrite (pbind_eq _ _ _ _ _ (offset_eq _ _ _)).
    rewrite (pbind_eq _ _ _ _ _ (peek_end w pre r tr d Hw)). cbn match.
    erewrite pbind_eq; [|apply closing_query_arr; exact Hc]. reflexivity.
  Qed.

  Lemma arr_elements_fits d ts : fits cfg d (tree_depth (TArr ts)) ->
    (recursion_limit cfg <> None -> (0 < d)%N) /\ fits_elements cfg (inner cfg d) ts.
  Proof.
    unfold fits, fits_elements, fits, inner. destruct (recursion_limit cfg); [|split; [congruence|auto]].
    cbn [tree_depth]. intro H. split; [lia|]. intros t Ht.
    assert (tree_depth t <= fold_right (fun t m => N.max (tree_depth t) m) 0 ts)%N; [|lia].
    clear H. induction ts as [|t' ts IH]; [destruct Ht|]. cbn. destruct Ht as [->|Ht]; [lia|]. specialize (IH Ht). lia.
  Qed.

  Lemma obj_members_fits d ms : fits cfg d (tree_depth (TObj ms)) ->
    (recursion_limit cfg <> None -> (0 < d)%N) /\ fits_members cfg (inner cfg d) ms.
  Proof.
    unfold fits, fits_members, fits, inner. destruct (recursion_limit cfg); [|split; [congruence|auto]].
    cbn [tree_depth]. intro H. split; [lia|]. intros t Ht.
    assert (tree_depth (snd t) <= fold_right (fun e m => N.max (tree_depth (snd e)) m) 0 ms)%N; [|lia].
    clear H. induction ms as [|t' ts IH]; [destruct Ht|]. cbn. destruct Ht as [->|Ht]; [lia|]. specialize (IH Ht). lia.
  Qed.

  Lemma begin_nest_eq o it tr d : (recursion_limit cfg <> None -> (0 < d)%N) ->
    begin_nest cfg T o (St it tr d) = (Ok tt, St it tr (inner cfg d)).
  Proof.
    unfold begin_nest, inner. cbn [ps_depth]. intro H. destruct (recursion_limit cfg); [|reflexivity].
    specialize (H ltac:(discriminate)). destruct (N.ltb_spec 0 d); [reflexivity|lia].
  Qed.

  Lemma end_nest_eq it tr d : (recursion_limit cfg <> None -> (0 < d)%N) ->
    end_nest cfg T (St it tr (inner cfg d)) = (Ok tt, St it tr d).
  Proof.
    unfold end_nest, inner. cbn [ps_depth ps_iter ps_del]. intro H. destruct (recursion_limit cfg); [|reflexivity].
    specialize (H ltac:(discriminate)). do 2 f_equal. lia.
  Qed.

  Lemma map_err_eq {A} f (m : pm T A) s a s' : m s = (Ok a, s') -> p_map_err T f m s = (Ok a, s').
  Proof. unfold p_map_err. intros ->. reflexivity. Qed.

  Lemma array_wrap loops fuel pre w s r tr d ts vs :
    ws w -> good g pw (pre ++ w ++ (91%N :: s ++ [93%N]) ++ r) -> (length s < fuel)%nat ->
    (recursion_limit cfg <> None -> (0 < d)%N) ->
    Forall2 (value_repr pw) ts vs ->
    array_loop g pw cfg T (read_tokens g pw cfg T loops fuel) loops []
      (St (mk (pre ++ w ++ [91%N]) (s ++ 93%N :: r)) (tr ++ [EBeginArray]) (inner cfg d)) =
    (Ok vs, St (mk ((pre ++ w ++ [91%N]) ++ s ++ [93%N]) r) ((tr ++ [EBeginArray]) ++ element_events vs) (inner cfg d)) ->
    exists v, value_repr pw (TArr ts) v /\
      read_tokens g pw cfg T loops (S fuel) (St (mk pre (w ++ (91%N :: s ++ [93%N]) ++ r)) tr d) =
      (Ok v, St (mk (pre ++ w ++ (91%N :: s ++ [93%N])) r) (tr ++ events v) d).
  Proof.
    intros Hw Hg Hf Hd Hall Hloop. exists (VArray vs). split; [constructor; exact Hall|].
    cbn [read_tokens]. rewrite (pbind_eq _ _ _ _ _ (offset_eq _ _ _)).
    replace (w ++ (91%N :: s ++ [93%N]) ++ r) with (w ++ [91%N] ++ (s ++ 93%N :: r)) by (ascs; reflexivity).
    erewrite pbind_eq; [|apply (tok_complete into_fallable pre w [91%N] (s ++ 93%N :: r) TkArray);
                          [eapply good_asc; [exact Hg|ascs; reflexivity]|exact Hw|constructor|exact I]].
    cbn match. erewrite pbind_eq; [|apply begin_nest_eq; exact Hd].
    apply map_err_eq. unfold read_array. rewrite (pbind_eq _ _ _ _ _ (offset_eq _ _ _)).
    erewrite pbind_eq; [|reflexivity]. cbn [ps_iter ps_del ps_depth].
    rewrite (pbind_eq _ _ _ _ _ Hloop).
    erewrite pbind_eq; [|reflexivity]. cbn [ps_iter ps_del ps_depth].
    rewrite (pbind_eq _ _ _ _ _ (end_nest_eq _ _ _ Hd)). unfold pret. f_equal.
    apply St_eq; [apply mk_asc; ascs; reflexivity|]. rewrite events_array. ascs. reflexivity.
  Qed.

  Lemma object_wrap loops fuel pre w s r tr d ms vs :
    ws w -> good g pw (pre ++ w ++ (123%N :: s ++ [125%N]) ++ r) -> (length s < fuel)%nat ->
    (recursion_limit cfg <> None -> (0 < d)%N) ->
    Forall2 (member_repr pw) ms vs ->
    object_loop g pw cfg T (read_tokens g pw cfg T loops fuel) loops []
      (St (mk (pre ++ w ++ [123%N]) (s ++ 125%N :: r)) (tr ++ [EBeginObject]) (inner cfg d)) =
    (Ok vs, St (mk ((pre ++ w ++ [123%N]) ++ s ++ [125%N]) r) ((tr ++ [EBeginObject]) ++ member_events vs) (inner cfg d)) ->
    exists v, value_repr pw (TObj ms) v /\
      read_tokens g pw cfg T loops (S fuel) (St (mk pre (w ++ (123%N :: s ++ [125%N]) ++ r)) tr d) =
      (Ok v, St (mk (pre ++ w ++ (123%N :: s ++ [125%N])) r) (tr ++ events v) d).
  Proof.
    intros Hw Hg Hf Hd Hall Hloop. exists (VObject vs). split; [constructor; exact Hall|].
    cbn [read_tokens]. rewrite (pbind_eq _ _ _ _ _ (offset_eq _ _ _)).
    replace (w ++ (123%N :: s ++ [125%N]) ++ r) with (w ++ [123%N] ++ (s ++ 125%N :: r)) by (ascs; reflexivity).
    erewrite pbind_eq; [|apply (tok_complete into_fallable pre w [123%N] (s ++ 125%N :: r) TkObject);
                          [eapply good_asc; [exact Hg|ascs; reflexivity]|exact Hw|constructor|exact I]].
    cbn match. erewrite pbind_eq; [|apply begin_nest_eq; exact Hd].
    apply map_err_eq. unfold read_object. rewrite (pbind_eq _ _ _ _ _ (offset_eq _ _ _)).
    erewrite pbind_eq; [|reflexivity]. cbn [ps_iter ps_del ps_depth].
    rewrite (pbind_eq _ _ _ _ _ Hloop). rewrite (pbind_eq _ _ _ _ _ (offset_eq _ _ _)).
    erewrite pbind_eq; [|reflexivity]. cbn [ps_iter ps_del ps_depth].
    rewrite (pbind_eq _ _ _ _ _ (end_nest_eq _ _ _ Hd)). unfold pret. f_equal.
    apply St_eq; [apply mk_asc; ascs; reflexivity|]. rewrite events_object. ascs. reflexivity.
  Qed.

  (** One array iteration up to the token after the element. *)
  Lemma array_step loops fuel n (o : list value) pre w1 t s w2 tk c rest tr d :
    complete_value t s -> ws w1 -> value_text tc t s -> ws w2 -> token_text pw tk [c] -> token_is_number tk = false ->
    (c = 44 \/ c = 93 \/ c = 125)%N ->
    good g pw (pre ++ w1 ++ s ++ w2 ++ c :: rest) ->
    (length s < fuel)%nat -> (length s < loops)%nat -> fits cfg d (tree_depth t) ->
    exists v, value_repr pw t v /\
      array_loop g pw cfg T (read_tokens g pw cfg T loops fuel) (S n) o (St (mk pre (w1 ++ s ++ w2 ++ c :: rest)) tr d) =
      (match tk with
       | TkArrayEnd => pret T (o ++ [v])
       | TkComma => array_loop g pw cfg T (read_tokens g pw cfg T loops fuel) n (o ++ [v])
       | _ => perr T (length (pre ++ w1 ++ s)) KExpectedCommaOrEndOfArray
       end) (St (mk (pre ++ w1 ++ s ++ w2 ++ [c]) rest) (tr ++ events v ++ [EArrayValue]) d).
  Proof.
    intros IH Hw1 Hv Hw2 Htk Hnn Hc Hg Hf Hl Hfit.
    destruct (value_text_head _ _ _ Hv) as (b & y & E & Hb & H93 & _).
    destruct (IH loops fuel (pre ++ w1) [] (w2 ++ c :: rest) tr d) as (v & Hrep & Hrun); auto; [constructor| |apply stop_ok_any, ws_num_stop; auto|].
    { eapply good_asc; [exact Hg|ascs; reflexivity]. }
    exists v. split; [exact Hrep|]. cbn [array_loop]. rewrite (pbind_eq _ _ _ _ _ (offset_eq _ _ _)).
    assert (Ep : peek_array_end T (St (mk pre (w1 ++ s ++ w2 ++ c :: rest)) tr d) = (Ok false, St (mk (pre ++ w1) (s ++ w2 ++ c :: rest)) tr d)).
    { rewrite E. cbn [app]. apply peek_not_end; auto. }
    rewrite (pbind_eq _ _ _ _ _ Ep). cbn match. cbn [app] in Hrun. rewrite (pbind_eq _ _ _ _ _ Hrun).
    rewrite (pbind_eq _ _ _ _ _ (offset_eq _ _ _)).
    erewrite pbind_eq; [|reflexivity]. cbn [ps_iter ps_del ps_depth].
    rewrite (pbind_eq _ _ _ _ _ (offset_eq _ _ _)).
    erewrite pbind_eq; [|apply (tok_complete into_fallable _ w2 [c] rest tk); [|exact Hw2|exact Htk|]].
    - rewrite mk_offset. replace ((pre ++ w1) ++ s) with (pre ++ w1 ++ s) by (ascs; reflexivity).
      match goal with |- _ ?s1 = _ ?s2 => replace s1 with s2 end; [destruct tk; reflexivity|].
      apply St_eq; [apply mk_asc; ascs; reflexivity|ascs; reflexivity].
    - eapply good_asc; [exact Hg|ascs; reflexivity].
    - unfold token_stop. rewrite Hnn. exact I.
  Qed.

  (** One object iteration up to the token after the member. *)
  Lemma object_step loops fuel n (o : object) pre w1 k cs w2 w3 t s w4 tk c rest tr d :
    complete_value t s -> ws w1 -> str_body k cs -> ws w2 -> ws w3 -> value_text tc t s -> ws w4 ->
    token_text pw tk [c] -> token_is_number tk = false -> (c = 44 \/ c = 93 \/ c = 125)%N ->
    good g pw (pre ++ w1 ++ (34%N :: k ++ [34%N]) ++ w2 ++ 58%N :: w3 ++ s ++ w4 ++ c :: rest) ->
    (length s < fuel)%nat -> (length s < loops)%nat -> fits cfg d (tree_depth t) ->
    exists v, value_repr pw t v /\
      object_loop g pw cfg T (read_tokens g pw cfg T loops fuel) (S n) o
        (St (mk pre (w1 ++ (34%N :: k ++ [34%N]) ++ w2 ++ 58%N :: w3 ++ s ++ w4 ++ c :: rest)) tr d) =
      (match tk with
       | TkObjectEnd => pret T (o ++ [(string_for pw k cs, v)])
       | TkComma => object_loop g pw cfg T (read_tokens g pw cfg T loops fuel) n (o ++ [(string_for pw k cs, v)])
       | _ => perr T (length (pre ++ w1 ++ (34%N :: k ++ [34%N]) ++ w2 ++ 58%N :: w3 ++ s)) KExpectedCommaOrEndOfObject
       end) (St (mk (pre ++ w1 ++ (34%N :: k ++ [34%N]) ++ w2 ++ 58%N :: w3 ++ s ++ w4 ++ [c]) rest)
              (tr ++ EObjectKey (string_for pw k cs) :: events v ++ [EObjectValue]) d).
  Proof.
    intros IH Hw1 Hk Hw2 Hw3 Hv Hw4 Htk Hnn Hc Hg Hf Hl Hfit.
    destruct (IH loops fuel (pre ++ w1 ++ (34%N :: k ++ [34%N]) ++ w2 ++ [58%N]) w3 (w4 ++ c :: rest) (tr ++ [EObjectKey (string_for pw k cs)]) d)
      as (v & Hrep & Hrun); auto; [|apply stop_ok_any, ws_num_stop; auto|].
    { eapply good_asc; [exact Hg|ascs; reflexivity]. }
    exists v. split; [exact Hrep|]. cbn [object_loop]. rewrite (pbind_eq _ _ _ _ _ (offset_eq _ _ _)).
    erewrite pbind_eq; [|apply (tok_complete into_fallable pre w1 (34%N :: k ++ [34%N]) _ (TkString (string_for pw k cs)));
       [exact Hg|exact Hw1|constructor; exact Hk|exact I]].
    cbn match. erewrite pbind_eq; [|reflexivity]. cbn [ps_iter ps_del ps_depth].
    rewrite (pbind_eq _ _ _ _ _ (offset_eq _ _ _)).
    erewrite pbind_eq; [|apply (tok_complete (to_expected_colon T) _ w2 [58%N] _ TkColon);
       [eapply good_asc; [exact Hg|ascs; reflexivity]|exact Hw2|constructor|exact I]].
    cbn match. rewrite (pbind_eq _ _ _ _ _ (offset_eq _ _ _)).
    replace ((pre ++ w1 ++ 34%N :: k ++ [34%N]) ++ w2 ++ [58%N]) with (pre ++ w1 ++ (34%N :: k ++ [34%N]) ++ w2 ++ [58%N]) by (ascs; reflexivity).
    rewrite (pbind_eq _ _ _ _ _ Hrun).
    erewrite pbind_eq; [|reflexivity]. cbn [ps_iter ps_del ps_depth].
    rewrite (pbind_eq _ _ _ _ _ (offset_eq _ _ _)).
    erewrite pbind_eq; [|apply (tok_complete into_fallable _ w4 [c] rest tk); [|exact Hw4|exact Htk|]].
    - rewrite mk_offset.
      replace ((pre ++ w1 ++ (34%N :: k ++ [34%N]) ++ w2 ++ [58%N]) ++ w3 ++ s) with
        (pre ++ w1 ++ (34%N :: k ++ [34%N]) ++ w2 ++ 58%N :: w3 ++ s) by (ascs; reflexivity).
      match goal with |- _ ?s1 = _ ?s2 => replace s1 with s2 end; [destruct tk; reflexivity|].
      apply St_eq; [apply mk_asc; ascs; reflexivity|ascs; reflexivity].
    - eapply good_asc; [exact Hg|ascs; reflexivity].
    - unfold token_stop. rewrite Hnn. exact I.
  Qed.

  Ltac scalar tk v0 :=
    intros loops fuel pre w r tr d Hw Hg Hf Hl Hfit Hstop;
    destruct fuel as [|fuel]; [lia|]; cbn [read_tokens];
    exists v0; split; [econstructor; eassumption || idtac|];
    rewrite (pbind_eq _ _ _ _ _ (offset_eq _ _ _));
    erewrite pbind_eq; [|apply (tok_complete into_fallable pre w _ r tk); [exact Hg|exact Hw|econstructor; eassumption|]];
    [reflexivity|].

  Theorem complete_text :
    (forall t s, value_text tc t s -> complete_value t s) /\
    (forall ts s, elements tc ts s -> complete_elements ts s) /\
    (forall ms s, members tc ms s -> complete_members ms s).
  Proof.
    apply (text_mutind tc (fun t s _ => complete_value t s) (fun ts s _ => complete_elements ts s)
      (fun ms s _ => complete_members ms s)).
    - scalar TkNull VNull. exact I.
    - scalar (TkBool true) (VBoolean true). exact I.
    - scalar (TkBool false) (VBoolean false). exact I.
    - intros n Hn. scalar (TkNumber (JNum (Borrowed n))) (VNumber (JNum (Borrowed n))).
      cbn. apply number_num_token; assumption.
    - intros raw cs Hb. scalar (TkString (string_for pw raw cs)) (VString (string_for pw raw cs)). exact I.
    - intros w0 Hw0 loops fuel pre w r tr d Hw Hg Hf Hl Hfit Hstop. cbn [length] in *. rewrite app_length in *. cbn [length] in *.
      destruct fuel as [|fuel]; [lia|].
      apply (array_wrap loops fuel pre w w0 r tr d [] []); auto; [lia|apply (arr_elements_fits _ _ Hfit)|].
      rewrite (array_close _ loops [] (pre ++ w ++ [91%N]) w0 r (tr ++ [EBeginArray]) (inner cfg d)); [|lia|exact Hw0|left; reflexivity].
      cbn [element_events flat_map]. rewrite app_nil_r. reflexivity.
    - intros l s Hel IH loops fuel pre w r tr d Hw Hg Hf Hl Hfit Hstop. cbn [length] in *. rewrite app_length in *. cbn [length] in *.
      destruct fuel as [|fuel]; [lia|]. destruct (arr_elements_fits _ _ Hfit) as [Hd Hfe].
      destruct (IH loops fuel loops [] (pre ++ w ++ [91%N]) r (tr ++ [EBeginArray]) (inner cfg d)) as (vs & Hall & Hrun); try lia; auto.
      { eapply good_asc; [exact Hg|ascs; reflexivity]. }
      apply (array_wrap loops fuel pre w s r tr d l vs); auto. lia.
    - intros w0 Hw0 loops fuel pre w r tr d Hw Hg Hf Hl Hfit Hstop. cbn [length] in *. rewrite app_length in *. cbn [length] in *.
      destruct fuel as [|fuel]; [lia|].
      apply (object_wrap loops fuel pre w w0 r tr d [] []); auto; [lia|apply (obj_members_fits _ _ Hfit)|].
      rewrite (object_close _ loops [] (pre ++ w ++ [123%N]) w0 r (tr ++ [EBeginObject]) (inner cfg d)); [|eapply good_asc; [exact Hg|ascs; reflexivity]|lia|exact Hw0|left; reflexivity].
      cbn [member_events flat_map]. rewrite app_nil_r. reflexivity.
    - intros l s Hel IH loops fuel pre w r tr d Hw Hg Hf Hl Hfit Hstop. cbn [length] in *. rewrite app_length in *. cbn [length] in *.
      destruct fuel as [|fuel]; [lia|]. destruct (obj_members_fits _ _ Hfit) as [Hd Hfe].
      destruct (IH loops fuel loops [] (pre ++ w ++ [123%N]) r (tr ++ [EBeginObject]) (inner cfg d)) as (vs & Hall & Hrun); try lia; auto.
      { eapply good_asc; [exact Hg|ascs; reflexivity]. }
      apply (object_wrap loops fuel pre w s r tr d l vs); auto. lia.
    - (* last element *)
      intros t w1 s w2 tra Hw1 Hv IH Hw2 Htra loops fuel n o pre r tr d Hg Hf Hl Hn Hfit.
      specialize (Hfit t (or_introl eq_refl)). rewrite !app_length in *.
      destruct (value_text_head _ _ _ Hv) as (b & y & E & _).
      assert (0 < length s)%nat by (rewrite E; cbn; lia).
      destruct n as [|n]; [lia|].
      destruct Htra as [|w5 Htc Hw5].
      + destruct (array_step loops fuel n o pre w1 t s w2 TkArrayEnd 93%N r tr d) as (v & Hrep & Hrun); auto; try lia; [constructor|..].
        { eapply good_asc; [exact Hg|ascs; reflexivity]. }
        exists [v]. split; [constructor; auto|].
        replace ((w1 ++ s ++ w2 ++ []) ++ 93%N :: r) with (w1 ++ s ++ w2 ++ 93%N :: r) by (ascs; reflexivity).
        etransitivity; [exact Hrun|]. cbn match. unfold pret. f_equal.
        apply St_eq; [apply mk_asc; ascs; reflexivity|]. cbn. ascs. reflexivity.
      + cbn [length] in *.
        destruct (array_step loops fuel n o pre w1 t s w2 TkComma 44%N (w5 ++ 93%N :: r) tr d) as (v & Hrep & Hrun); auto; try lia; [constructor|..].
        { eapply good_asc; [exact Hg|ascs; reflexivity]. }
        exists [v]. split; [constructor; auto|].
        replace ((w1 ++ s ++ w2 ++ 44%N :: w5) ++ 93%N :: r) with (w1 ++ s ++ w2 ++ 44%N :: w5 ++ 93%N :: r) by (ascs; reflexivity).
        etransitivity; [exact Hrun|]. cbn match. rewrite array_close; [|lia|exact Hw5|right; exact Htc]. f_equal.
        apply St_eq; [apply mk_asc; ascs; reflexivity|]. cbn. ascs. reflexivity.
    - (* more elements *)
      intros t l w1 s w2 r0 Hw1 Hv IH Hw2 Hel IHl loops fuel n o pre r tr d Hg Hf Hl Hn Hfit.
      pose proof (Hfit t (or_introl eq_refl)) as Hfit1.
      assert (Hfit2 : fits_elements cfg d l) by (intros t' Ht'; apply Hfit; right; exact Ht').
      rewrite !app_length in *. cbn [length] in *.
      destruct n as [|n]; [lia|].
      destruct (array_step loops fuel n o pre w1 t s w2 TkComma 44%N (r0 ++ 93%N :: r) tr d) as (v & Hrep & Hrun); auto; try lia; [constructor|..].
      { eapply good_asc; [exact Hg|ascs; reflexivity]. }
      destruct (IHl loops fuel n (o ++ [v]) (pre ++ w1 ++ s ++ w2 ++ [44%N]) r (tr ++ events v ++ [EArrayValue]) d) as (vs & Hall & Hrun2); try lia; auto.
      { eapply good_asc; [exact Hg|ascs; reflexivity]. }
      exists (v :: vs). split; [constructor; auto|].
      replace ((w1 ++ s ++ w2 ++ 44%N :: r0) ++ 93%N :: r) with (w1 ++ s ++ w2 ++ 44%N :: r0 ++ 93%N :: r) by (ascs; reflexivity).
      etransitivity; [exact Hrun|]. cbn match. etransitivity; [exact Hrun2|]. f_equal; [ascs; reflexivity|].
      apply St_eq; [apply mk_asc; ascs; reflexivity|]. cbn [element_events flat_map]. ascs. reflexivity.
    - (* last member *)
      intros k cs t w1 w2 w3 s w4 tra Hw1 Hk Hw2 Hw3 Hv IH Hw4 Htra loops fuel n o pre r tr d Hg Hf Hl Hn Hfit.
      specialize (Hfit (k, t) (or_introl eq_refl)). cbn [snd] in Hfit.
      rewrite !app_length in *. cbn [length] in *. rewrite !app_length in *. cbn [length] in *.
      destruct n as [|n]; [lia|].
      destruct Htra as [|w5 Htc Hw5].
      + destruct (object_step loops fuel n o pre w1 k cs w2 w3 t s w4 TkObjectEnd 125%N r tr d) as (v & Hrep & Hrun); auto; try lia; [constructor|..].
        { eapply good_asc; [exact Hg|ascs; reflexivity]. }
        exists [(string_for pw k cs, v)]. split; [constructor; [split; [exists cs; auto|exact Hrep]|constructor]|].
        replace ((w1 ++ (34%N :: k ++ [34%N]) ++ w2 ++ 58%N :: w3 ++ s ++ w4 ++ []) ++ 125%N :: r) with
          (w1 ++ (34%N :: k ++ [34%N]) ++ w2 ++ 58%N :: w3 ++ s ++ w4 ++ 125%N :: r) by (ascs; reflexivity).
        etransitivity; [exact Hrun|]. cbn match. unfold pret. f_equal.
        apply St_eq; [apply mk_asc; ascs; reflexivity|]. cbn. ascs. reflexivity.
      + cbn [length] in *.
        destruct (object_step loops fuel n o pre w1 k cs w2 w3 t s w4 TkComma 44%N (w5 ++ 125%N :: r) tr d) as (v & Hrep & Hrun); auto; try lia; [constructor|..].
        { eapply good_asc; [exact Hg|ascs; reflexivity]. }
        exists [(string_for pw k cs, v)]. split; [constructor; [split; [exists cs; auto|exact Hrep]|constructor]|].
        replace ((w1 ++ (34%N :: k ++ [34%N]) ++ w2 ++ 58%N :: w3 ++ s ++ w4 ++ 44%N :: w5) ++ 125%N :: r) with
          (w1 ++ (34%N :: k ++ [34%N]) ++ w2 ++ 58%N :: w3 ++ s ++ w4 ++ 44%N :: w5 ++ 125%N :: r) by (ascs; reflexivity).
        etransitivity; [exact Hrun|]. cbn match.
        rewrite object_close; [|eapply good_asc; [exact Hg|ascs; reflexivity]|lia|exact Hw5|right; exact Htc]. f_equal.
        apply St_eq; [apply mk_asc; ascs; reflexivity|]. cbn. ascs. reflexivity.
    - (* more members *)
      intros k cs t l w1 w2 w3 s w4 r0 Hw1 Hk Hw2 Hw3 Hv IH Hw4 Hel IHl loops fuel n o pre r tr d Hg Hf Hl Hn Hfit.
      pose proof (Hfit (k, t) (or_introl eq_refl)) as Hfit1. cbn [snd] in Hfit1.
      assert (Hfit2 : fits_members cfg d l) by (intros t' Ht'; apply Hfit; right; exact Ht').
      rewrite !app_length in *. cbn [length] in *. rewrite !app_length in *. cbn [length] in *.
      destruct n as [|n]; [lia|].
      destruct (object_step loops fuel n o pre w1 k cs w2 w3 t s w4 TkComma 44%N (r0 ++ 125%N :: r) tr d) as (v & Hrep & Hrun); auto; try lia; [constructor|..].
      { eapply good_asc; [exact Hg|ascs; reflexivity]. }
      destruct (IHl loops fuel n (o ++ [(string_for pw k cs, v)]) (pre ++ w1 ++ (34%N :: k ++ [34%N]) ++ w2 ++ 58%N :: w3 ++ s ++ w4 ++ [44%N]) r
        (tr ++ EObjectKey (string_for pw k cs) :: events v ++ [EObjectValue]) d) as (vs & Hall & Hrun2); try lia; auto.
      { eapply good_asc; [exact Hg|ascs; reflexivity]. }
      exists ((string_for pw k cs, v) :: vs). split; [constructor; [split; [exists cs; auto|exact Hrep]|exact Hall]|].
      replace ((w1 ++ (34%N :: k ++ [34%N]) ++ w2 ++ 58%N :: w3 ++ s ++ w4 ++ 44%N :: r0) ++ 125%N :: r) with
        (w1 ++ (34%N :: k ++ [34%N]) ++ w2 ++ 58%N :: w3 ++ s ++ w4 ++ 44%N :: r0 ++ 125%N :: r) by (ascs; reflexivity).
      etransitivity; [exact Hrun|]. cbn match. etransitivity; [exact Hrun2|]. f_equal; [ascs; reflexivity|].
      apply St_eq; [apply mk_asc; ascs; reflexivity|]. cbn [member_events flat_map fst snd]. ascs. reflexivity.
  Qed.

  Theorem trace_complete t source : good g pw source ->
    json_text tc t source -> depth_ok cfg t -> root_ok cfg t ->
    exists v, value_repr pw t v /\ parse_bytes g pw cfg T source [] = (Ok v, events v).
  Proof.
    intros Hg (w1 & b & w2 & Hw1 & Hv & Hw2 & ->) Hd Hr.
    destruct complete_text as [Hc _]. specialize (Hc t b Hv).
    destruct (Hc (S (length (w1 ++ b ++ w2))) (S (length (w1 ++ b ++ w2))) [] w1 w2 []
      (match recursion_limit cfg with Some n => n | None => usize_max pw end)) as (v & Hrep & Hrun); auto.
    - rewrite !app_length. lia.
    - rewrite !app_length. lia.
    - unfold fits, depth_ok in *. destruct (recursion_limit cfg); exact Hd.
    - apply stop_ok_any, ws_num_stop_end. exact Hw2.
    - exists v. split; [exact Hrep|]. unfold parse_bytes, parse_body, parse_state. rewrite bi_new_mk.
      rewrite (pbind_eq _ _ _ _ _ Hrun).
      assert (Hcr : forall it, check_root cfg T v (St it ([] ++ events v) (match recursion_limit cfg with Some n => n | None => usize_max pw end)) =
         (Ok tt, St it ([] ++ events v) (match recursion_limit cfg with Some n => n | None => usize_max pw end))).
      { intro it. unfold check_root. unfold root_ok in Hr. rewrite (repr_kind _ _ _ Hrep) in Hr.
        destruct (allow_all_types_at_root cfg); [reflexivity|]. cbn. unfold pbind, p_query. cbn.
        destruct Hr as [Hr|Hr]; [discriminate|]. destruct (value_kind v); try discriminate; reflexivity. }
      rewrite (pbind_eq _ _ _ _ _ (Hcr _)). unfold pbind, check_trailing. cbn [ps_iter].
      unfold next_non_ws. rewrite <- (app_nil_r w2) at 1. rewrite skip_ws_mk_app; [|exact Hw2|exact I]. rewrite bi_next_mk.
      reflexivity.
  Qed.
  (** A well-formed text with a scalar root under the root restriction. *)
  Theorem trace_root_refused t source : good g pw source ->
    json_text tc t source -> depth_ok cfg t -> ~ root_ok cfg t ->
    fst (parse_bytes g pw cfg T source []) = Err (Error 0 KPayloadsShouldBeObjectOrArray).
  Proof.
    intros Hg (w1 & b & w2 & Hw1 & Hv & Hw2 & ->) Hd Hr.
    destruct complete_text as [Hc _]. specialize (Hc t b Hv).
    destruct (Hc (S (length (w1 ++ b ++ w2))) (S (length (w1 ++ b ++ w2))) [] w1 w2 []
      (match recursion_limit cfg with Some n => n | None => usize_max pw end)) as (v & Hrep & Hrun); auto.
    - rewrite !app_length. lia.
    - rewrite !app_length. lia.
    - unfold fits, depth_ok in *. destruct (recursion_limit cfg); exact Hd.
    - apply stop_ok_any, ws_num_stop_end. exact Hw2.
    - unfold parse_bytes, parse_body, parse_state. rewrite bi_new_mk.
      rewrite (pbind_eq _ _ _ _ _ Hrun).
      assert (Hcr : forall it, check_root cfg T v (St it ([] ++ events v) (match recursion_limit cfg with Some n => n | None => usize_max pw end)) =
         (Err (Error 0 KPayloadsShouldBeObjectOrArray), St it ([] ++ events v) (match recursion_limit cfg with Some n => n | None => usize_max pw end))).
      { intro it. unfold check_root. unfold root_ok in Hr. rewrite (repr_kind _ _ _ Hrep) in Hr.
        destruct (allow_all_types_at_root cfg); [destruct Hr; auto|]. cbn. unfold pbind, p_query. cbn.
        destruct (value_kind v); try reflexivity; destruct Hr; auto. }
      unfold pbind. rewrite Hcr. reflexivity.
  Qed.
End Complete.
