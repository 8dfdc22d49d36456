(** The offsets of SpecCall are determined by the input: shown by running a delegate that fails at a given callback. *)
From Verif Require Import Base Utf8 Utf8Facts StrModel ErrorModel Tokenizer Parser ValueModel Spec SpecError SpecCall TokBase
  TokStr TokNum TokFacts ErrTok Trace ParserSound ParserComplete ErrSound View PropDelegate CallSound.

(** Fails at callback number [st] (counted from 0), with the callback as the error. *)
Definition tick {A} (ev : event) (a : A) (st : nat) : res event A * nat := match st with O => (Err ev, O) | S n => (Ok a, n) end.
Definition countdown : delegate := {|
  d_st := nat; d_value := unit; d_object := unit; d_array := unit; d_key := unit; d_error := event;
  d_null := fun st => tick ENull tt st; d_boolean := fun st b => tick (EBoolean b) tt st; d_number := fun st n => tick (ENumber n) tt st;
  d_string := fun st s => tick (EString s) tt st; d_begin_object := fun st => tick EBeginObject tt st;
  d_object_key := fun st _ k => tick (EObjectKey k) (tt, tt) st; d_object_value := fun st _ _ _ => tick EObjectValue tt st;
  d_object_is_empty := fun _ _ => Ok true; d_end_object := fun st _ => tick EEndObject tt st;
  d_begin_array := fun st => tick EBeginArray tt st; d_array_value := fun st _ _ => tick EArrayValue tt st;
  d_array_is_empty := fun _ _ => Ok true; d_end_array := fun st _ => tick EEndArray tt st;
  d_kind_of := fun _ _ => Ok JkNull |}.
Definition lenient : parse_config := Config true None true.

Section Exact.
  Variables (g : bool) (pw : pwidth).
  Notation C := countdown.
  Notation St := (@PS C).
  Notation dflt := (0%nat, CNull).

  Definition fails {A} (m : pm C A) (it : byte_iter) (cs : list (nat * call)) : Prop := forall n b, (n < length cs)%nat ->
    exists s' ev, m (St it n b) = (Err (Error (fst (nth n cs dflt)) (KErrorFromDelegate ev)), s') /\ call_event (snd (nth n cs dflt)) ev.
  Definition plays {A} (m : pm C A) (it : byte_iter) (cs : list (nat * call)) (a : A) (it' : byte_iter) : Prop :=
    fails m it cs /\ forall n b, (length cs <= n)%nat -> m (St it n b) = (Ok a, St it' (n - length cs)%nat b).

  Lemma fails_first {A B} (m : pm C A) (k : A -> pm C B) it cs : fails m it cs -> fails (pbind C m k) it cs.
  Proof. intros H n b Hn. destruct (H n b Hn) as (s' & ev & E & Hev). exists s', ev. unfold pbind. rewrite E. auto. Qed.
  Lemma fails_then {A B} (m : pm C A) (k : A -> pm C B) it cs a it1 ds : plays m it cs a it1 -> fails (k a) it1 ds ->
    fails (pbind C m k) it (cs ++ ds).
  Proof.
    intros [H1 H2] Hk n b Hn. rewrite app_length in Hn. destruct (Nat.lt_ge_cases n (length cs)) as [Hlt|Hge].
    - rewrite app_nth1 by exact Hlt. apply fails_first; assumption.
    - unfold pbind. rewrite (H2 n b Hge). rewrite app_nth2 by lia. apply Hk. lia.
  Qed.
  Lemma plays_then {A B} (m : pm C A) (k : A -> pm C B) it cs a it1 ds c it2 : plays m it cs a it1 -> plays (k a) it1 ds c it2 ->
    plays (pbind C m k) it (cs ++ ds) c it2.
  Proof.
    intros Hm [Hk1 Hk2]. split; [eapply fails_then; eassumption|]. intros n b Hn. rewrite app_length in *. unfold pbind.
    destruct Hm as [_ Hm]. rewrite (Hm n b) by lia. rewrite Hk2 by lia. do 2 f_equal. lia.
  Qed.
  (** Steps without callbacks. *)
  Definition silent {A} (m : pm C A) it (a : A) it' : Prop := forall n b, m (St it n b) = (Ok a, St it' n b).
  Lemma silent_plays {A} (m : pm C A) it a it' : silent m it a it' -> plays m it [] a it'.
  Proof. intros H. split; [intros n b Hn; cbn in Hn; lia|]. intros n b _. rewrite H. do 2 f_equal. cbn. lia. Qed.
  Lemma plays_silent {A B} (m : pm C A) (k : A -> pm C B) it a it1 ds c it2 : silent m it a it1 -> plays (k a) it1 ds c it2 ->
    plays (pbind C m k) it ds c it2.
  Proof. intros H. apply (plays_then _ _ _ []). apply silent_plays, H. Qed.
  Lemma fails_silent {A B} (m : pm C A) (k : A -> pm C B) it a it1 ds : silent m it a it1 -> fails (k a) it1 ds ->
    fails (pbind C m k) it ds.
  Proof. intros H. apply (fails_then _ _ _ []) with (1 := silent_plays _ _ _ _ H). Qed.
  Lemma plays_tick {A} o (m : nat -> res event A * nat) (a : A) c ev it : (forall st, m st = tick ev a st) -> call_event c ev ->
    plays (p_del C o m) it [(o, c)] a it.
  Proof.
    intros Hm Hc. split.
    - intros n b Hn. cbn in Hn. replace n with O by lia. unfold p_del. cbn. rewrite Hm. cbn. eauto.
    - intros n b Hn. cbn in Hn. destruct n as [|n]; [lia|]. unfold p_del. cbn [ps_del]. rewrite Hm. cbn. rewrite Nat.sub_0_r. reflexivity.
  Qed.
  Lemma plays_map_err {A} u (m : pm C A) it cs a it' : plays m it cs a it' -> plays (p_map_err C (eof_to C u) m) it cs a it'.
  Proof.
    intros [H1 H2]. split.
    - intros n b Hn. destruct (H1 n b Hn) as (s' & ev & E & Hev). exists s', ev. unfold p_map_err. rewrite E. auto.
    - intros n b Hn. unfold p_map_err. rewrite (H2 n b Hn). reflexivity.
  Qed.
  Lemma fails_map_err {A} u (m : pm C A) it cs : fails m it cs -> fails (p_map_err C (eof_to C u) m) it cs.
  Proof. intros H n b Hn. destruct (H n b Hn) as (s' & ev & E & Hev). exists s', ev. unfold p_map_err. rewrite E. auto. Qed.
  Lemma silent_offset pre r : silent (p_offset C) (mk pre r) (length pre) (mk pre r).
  Proof. intros n b. reflexivity. Qed.
  Lemma silent_tok conv pre w x r tk : good g pw (pre ++ w ++ x ++ r) -> ws w -> token_text pw tk x -> token_stop tk x r ->
    silent (p_tok_err C conv (next_or_eof g pw)) (mk pre (w ++ x ++ r)) tk (mk (pre ++ w ++ x) r).
  Proof. intros Hg Hw Ht Hst n b. unfold p_tok_err. cbn [ps_iter]. rewrite (next_or_eof_complete g pw pre w x tk r); auto. Qed.
  Lemma silent_begin o it : silent (begin_nest lenient C o) it tt it. Proof. intros n b. reflexivity. Qed.
  Lemma silent_end it : silent (end_nest lenient C) it tt it. Proof. intros n b. reflexivity. Qed.
  Lemma silent_ret {A} (a : A) it : silent (pret C a) it a it. Proof. intros n b. reflexivity. Qed.
  Lemma silent_peek_end w pre r : ws w -> silent (peek_array_end C) (mk pre (w ++ 93%N :: r)) true (mk (pre ++ w ++ [93%N]) r).
  Proof.
    intros Hw n b. unfold peek_array_end, tokenizer_peek. cbn [ps_iter].
    rewrite skip_ws_mk_app; [|exact Hw|unfold ws_byte; lia]. cbn zeta. rewrite bi_peek_mk. cbn [peek_kind_of N.eqb Pos.eqb].
    unfold mk. cbn [bi_bytes bi_offset ps_del ps_depth]. ascs. do 2 f_equal. f_equal. rewrite !app_length. cbn. lia.
  Qed.
  Lemma silent_peek_not w pre c r : ws w -> ~ ws_byte c -> c <> 93%N ->
    silent (peek_array_end C) (mk pre (w ++ c :: r)) false (mk (pre ++ w) (c :: r)).
  Proof.
    intros Hw Hb H93 n b. unfold peek_array_end, tokenizer_peek. cbn [ps_iter].
    rewrite skip_ws_mk_app; [|exact Hw|exact Hb]. cbn zeta. rewrite bi_peek_mk.
    destruct (peek_kind_of c) eqn:K; try reflexivity. exfalso. revert K. unfold peek_kind_of.
    repeat match goal with |- context [if ?x then _ else _] => destruct x eqn:?; [try discriminate|] end;
      try discriminate. lia.
  Qed.

  Definition rd loops fuel := read_tokens g pw lenient C loops fuel.
  Definition plays_value x cs := forall loops fuel pre r, good g pw (pre ++ x ++ r) -> (length x < fuel)%nat -> (length x < loops)%nat ->
    ends x r -> plays (rd loops fuel) (mk pre (x ++ r)) (at_offset (length pre) cs) tt (mk (pre ++ x) r).
  Definition plays_array x cs := forall loops fuel n pre r, good g pw (pre ++ x ++ r) -> (length x < fuel)%nat -> (length x < loops)%nat ->
    (length x < n)%nat ->
    plays (array_loop g pw lenient C (rd loops fuel) n tt) (mk pre (x ++ r)) (at_offset (length pre) cs) tt (mk (pre ++ x) r).
  Definition plays_object x cs := forall loops fuel n pre r, good g pw (pre ++ x ++ r) -> (length x < fuel)%nat -> (length x < loops)%nat ->
    (length x < n)%nat ->
    plays (object_loop g pw lenient C (rd loops fuel) n tt) (mk pre (x ++ r)) (at_offset (length pre) cs) tt (mk (pre ++ x) r).

  Lemma plays_eq {A} (m : pm C A) it cs a it' it2 cs2 it2' : plays m it cs a it' -> it = it2 -> cs = cs2 -> it' = it2' -> plays m it2 cs2 a it2'.
  Proof. intros H <- <- <-. exact H. Qed.
  Lemma fails_eq {A} (m : pm C A) it cs it2 cs2 : fails m it cs -> it = it2 -> cs = cs2 -> fails m it2 cs2.
  Proof. intros H <- <-. exact H. Qed.

  Lemma ends_sep v w c r : ws w -> c = 44%N \/ c = 93%N \/ c = 125%N -> ends v (w ++ c :: r).
  Proof. intros Hw Hc w' n _ Hn _. apply number_then_iff, number_num_token; [exact Hn|apply ws_num_stop; assumption]. Qed.

  Lemma scalar_token x c : scalar_call x c -> exists tk, token_text pw tk x /\
    (forall w r, ws w -> ends (w ++ x) r -> token_stop tk x r) /\
    match tk with TkNull => call_event c ENull | TkBool b => call_event c (EBoolean b) | TkNumber n => call_event c (ENumber n) | TkString s => call_event c (EString s) | _ => False end.
  Proof.
    intros [ | | |n Hn|raw cs Hs].
    - exists TkNull. split; [constructor|]. split; [intros; exact I|cbn; auto].
    - exists (TkBool true). split; [constructor|]. split; [intros; exact I|cbn; auto].
    - exists (TkBool false). split; [constructor|]. split; [intros; exact I|cbn; auto].
    - exists (TkNumber (JNum (Borrowed n))). split; [constructor; exact Hn|]. split; [|cbn; auto].
      intros w r Hw He. cbn. apply number_then_iff, (He w); auto.
    - exists (TkString (string_for pw raw cs)). split; [constructor; exact Hs|]. split; [intros; exact I|split; cbn; auto].
  Qed.

  Lemma head_value v cs : value_calls v cs -> ~ starts ws_byte v -> exists c y, v = c :: y /\ ~ ws_byte c /\ c <> 93%N.
  Proof.
    intros H Hs. assert (Hc : forall c y, v = c :: y -> ~ ws_byte c) by (intros c y ->; exact Hs).
    destruct H as [w x c Hw Hx|w x cs Hw Hx|w x cs Hw Hx]; (destruct w as [|d w]; [|exfalso; apply Hs; cbn; apply Forall_inv in Hw; exact Hw]); cbn [app] in *.
    - destruct Hx as [ | | |n Hn|raw cs Hs']; try (eexists _, _; split; [reflexivity|]; split; [eapply Hc; reflexivity|discriminate]).
      pose proof (number_nonnil _ Hn) as Hne. destruct n as [|c n]; [congruence|]. pose proof (number_head_cases c n Hn) as Hh. exists c, n.
      split; [reflexivity|]. split; [eapply Hc; reflexivity|lia].
    - eexists _, _; split; [reflexivity|]; split; [eapply Hc; reflexivity|discriminate].
    - eexists _, _; split; [reflexivity|]; split; [eapply Hc; reflexivity|discriminate].
  Qed.

  Ltac lens := rewrite ?app_length in *; cbn [length] in *; rewrite ?app_length in *; cbn [length] in *; lia.
  Ltac gd H := eapply good_asc; [exact H|ascs; reflexivity].


  (** One round of the object loop up to the value. *)
  Definition object_round loops fuel n' : pm C unit :=
    pbind C (p_offset C) (fun offset =>
    pbind C (rd loops fuel) (fun value =>
    pbind C (p_del C offset (fun st => d_object_value C st tt tt value)) (fun object =>
    pbind C (p_offset C) (fun offset =>
    pbind C (p_tok C (next_or_eof g pw)) (fun token =>
    match token with
    | TkObjectEnd => pret C object
    | TkComma => object_loop g pw lenient C (rd loops fuel) n' object
    | _ => perr C offset KExpectedCommaOrEndOfObject
    end))))).

  Lemma object_key_plays loops fuel n p raw pre r ds it2 : key_colon p raw -> good g pw (pre ++ p ++ r) ->
    plays (object_round loops fuel n) (mk (pre ++ p) r) ds tt it2 ->
    plays (object_loop g pw lenient C (rd loops fuel) (S n) tt) (mk pre (p ++ r)) ((length pre, CKey raw) :: ds) tt it2.
  Proof.
    intros [w raw' cs w' Hw Hb Hw'] Hg H. cbn [object_loop].
    apply (plays_silent _ _ _ _ _ _ _ _ (silent_offset pre _)).
    replace ((w ++ (34%N :: raw' ++ [34%N]) ++ w' ++ [58%N]) ++ r) with (w ++ (34%N :: raw' ++ [34%N]) ++ w' ++ [58%N] ++ r) by (ascs; reflexivity).
    eapply plays_silent; [apply (silent_tok into_fallable pre w _ _ (TkString (string_for pw raw' cs))); [gd Hg|exact Hw|constructor; exact Hb|exact I]|].
    cbn match. eapply (plays_then _ _ _ [(length pre, CKey raw')]); [eapply plays_tick; [reflexivity|cbn; auto]|]. cbn beta match.
    eapply plays_silent; [apply silent_offset|].
    eapply plays_silent; [apply (silent_tok _ _ w' [58%N] r TkColon); [gd Hg|exact Hw'|constructor|exact I]|].
    cbn match. unfold object_round in H. eapply plays_eq; [exact H| |reflexivity|reflexivity]. apply mk_asc; [ascs; reflexivity|reflexivity].
  Qed.
  Lemma object_key_fails loops fuel n p raw pre r ds : key_colon p raw -> good g pw (pre ++ p ++ r) ->
    fails (object_round loops fuel n) (mk (pre ++ p) r) ds ->
    fails (object_loop g pw lenient C (rd loops fuel) (S n) tt) (mk pre (p ++ r)) ((length pre, CKey raw) :: ds).
  Proof.
    intros [w raw' cs w' Hw Hb Hw'] Hg H. cbn [object_loop].
    apply (fails_silent _ _ _ _ _ _ (silent_offset pre _)).
    replace ((w ++ (34%N :: raw' ++ [34%N]) ++ w' ++ [58%N]) ++ r) with (w ++ (34%N :: raw' ++ [34%N]) ++ w' ++ [58%N] ++ r) by (ascs; reflexivity).
    eapply fails_silent; [apply (silent_tok into_fallable pre w _ _ (TkString (string_for pw raw' cs))); [gd Hg|exact Hw|constructor; exact Hb|exact I]|].
    cbn match. eapply (fails_then _ _ _ [(length pre, CKey raw')]); [eapply plays_tick; [reflexivity|cbn; auto]|]. cbn beta match.
    eapply fails_silent; [apply silent_offset|].
    eapply fails_silent; [apply (silent_tok _ _ w' [58%N] r TkColon); [gd Hg|exact Hw'|constructor|exact I]|].
    cbn match. unfold object_round in H. eapply fails_eq; [exact H| |reflexivity]. apply mk_asc; [ascs; reflexivity|reflexivity].
  Qed.

  Lemma calls_play : (forall x cs, value_calls x cs -> plays_value x cs) /\ (forall x cs, array_calls x cs -> plays_array x cs) /\
    (forall x cs, object_calls x cs -> plays_object x cs).
  Proof.
    apply calls_mutind.
    - (* scalar *)
      intros w x c Hw Hs loops fuel pre r Hg Hf Hl He. destruct fuel as [|fuel]; [lia|]. unfold rd. cbn [read_tokens].
      apply (plays_silent _ _ _ _ _ _ _ _ (silent_offset pre _)). rewrite <- app_assoc in *.
      destruct (scalar_token x c Hs) as (tk & Ht & Hst & Htk).
      eapply plays_silent; [apply (silent_tok into_fallable pre w x r tk); [exact Hg|exact Hw|exact Ht|apply (Hst w); assumption]|].
      rewrite at_offset_one, Nat.add_0_r. destruct tk; try destruct Htk as []; (eapply plays_tick; [reflexivity|exact Htk]).
    - (* array *)
      intros w x cs Hw Hx IH loops fuel pre r Hg Hf Hl He. destruct fuel as [|fuel]; [lia|]. unfold rd. cbn [read_tokens].
      apply (plays_silent _ _ _ _ _ _ _ _ (silent_offset pre _)).
      replace ((w ++ 91%N :: x) ++ r) with (w ++ [91%N] ++ (x ++ r)) by (ascs; reflexivity).
      eapply plays_silent; [apply (silent_tok into_fallable pre w _ _ TkArray); [gd Hg|exact Hw|constructor|exact I]|].
      cbn match. eapply plays_silent; [apply silent_begin|]. apply plays_map_err. unfold read_array.
      eapply plays_silent; [apply silent_offset|].
      assert (Eo : length (pre ++ w ++ [91%N]) = (length pre + (length w + 1))%nat) by lens.
      rewrite !at_offset_app, at_offset_add, !at_offset_one. rewrite <- Eo.
      apply (plays_then _ _ _ [_] tt (mk (pre ++ w ++ [91%N]) (x ++ r))); [eapply plays_tick; [reflexivity|cbn; auto]|].
      eapply plays_then; [apply (IH loops fuel loops); [gd Hg|lens..]|]. cbn beta.
      apply (plays_then _ _ _ [(length (pre ++ w ++ [91%N]), CEndArr)] tt (mk ((pre ++ w ++ [91%N]) ++ x) r) []); [eapply plays_tick; [reflexivity|cbn; auto]|].
      eapply plays_silent; [apply silent_end|]. eapply plays_eq; [apply silent_plays, silent_ret|reflexivity|reflexivity|].
      apply mk_asc; [ascs; reflexivity|reflexivity].
    - (* object *)
      intros w x cs Hw Hx IH loops fuel pre r Hg Hf Hl He. destruct fuel as [|fuel]; [lia|]. unfold rd. cbn [read_tokens].
      apply (plays_silent _ _ _ _ _ _ _ _ (silent_offset pre _)).
      replace ((w ++ 123%N :: x) ++ r) with (w ++ [123%N] ++ (x ++ r)) by (ascs; reflexivity).
      eapply plays_silent; [apply (silent_tok into_fallable pre w _ _ TkObject); [gd Hg|exact Hw|constructor|exact I]|].
      cbn match. eapply plays_silent; [apply silent_begin|]. apply plays_map_err. unfold read_object.
      eapply plays_silent; [apply silent_offset|].
      assert (Eo : length (pre ++ w ++ [123%N]) = (length pre + (length w + 1))%nat) by lens.
      assert (Eo2 : length ((pre ++ w ++ [123%N]) ++ x) = (length pre + (length w + 1 + length x))%nat) by lens.
      rewrite !at_offset_app, at_offset_add, !at_offset_one. rewrite <- Eo, <- Eo2.
      apply (plays_then _ _ _ [_] tt (mk (pre ++ w ++ [123%N]) (x ++ r))); [eapply plays_tick; [reflexivity|cbn; auto]|].
      eapply plays_then; [apply (IH loops fuel loops); [gd Hg|lens..]|]. cbn beta.
      eapply plays_silent; [apply silent_offset|].
      apply (plays_then _ _ _ [(length ((pre ++ w ++ [123%N]) ++ x), CEndObj)] tt (mk ((pre ++ w ++ [123%N]) ++ x) r) []); [eapply plays_tick; [reflexivity|cbn; auto]|].
      eapply plays_silent; [apply silent_end|]. eapply plays_eq; [apply silent_plays, silent_ret|reflexivity|reflexivity|].
      apply mk_asc; [ascs; reflexivity|reflexivity].
    - (* ] *)
      intros w Hw loops fuel n pre r Hg Hf Hl Hn. destruct n as [|n]; [lia|]. cbn [array_loop].
      apply (plays_silent _ _ _ _ _ _ _ _ (silent_offset pre _)).
      replace ((w ++ [93%N]) ++ r) with (w ++ 93%N :: r) by (ascs; reflexivity).
      eapply plays_silent; [apply silent_peek_end; exact Hw|]. cbn match. cbn [lenient allow_trailing_commas].
      eapply plays_silent; [apply silent_ret|]. apply silent_plays, silent_ret.
    - (* v ] *)
      intros w v cs w' Hw Hns Hv IH Hw' loops fuel n pre r Hg Hf Hl Hn. destruct n as [|n]; [lia|]. cbn [array_loop].
      apply (plays_silent _ _ _ _ _ _ _ _ (silent_offset pre _)).
      destruct (head_value _ _ Hv Hns) as (c & y & Ev & Hc & Hc93).
      replace ((w ++ v ++ w' ++ [93%N]) ++ r) with (w ++ c :: y ++ w' ++ 93%N :: r) by (subst v; ascs; reflexivity).
      eapply plays_silent; [apply silent_peek_not; assumption|]. cbn match.
      replace (c :: y ++ w' ++ 93%N :: r) with (v ++ w' ++ 93%N :: r) by (subst v; ascs; reflexivity).
      rewrite at_offset_app, at_offset_app, !at_offset_add, !at_offset_one, <- app_length. clear c y Ev Hc Hc93.
      eapply plays_then; [apply IH; [gd Hg|lens|lens|apply ends_sep; auto]|]. cbn beta.
      eapply plays_silent; [apply silent_offset|].
      rewrite <- app_length.
      apply (plays_then _ _ _ [_] tt (mk ((pre ++ w) ++ v) (w' ++ [93%N] ++ r)) []); [eapply plays_tick; [reflexivity|cbn; auto]|].
      eapply plays_silent; [apply silent_offset|].
      eapply plays_silent; [apply (silent_tok into_fallable _ w' [93%N] r TkArrayEnd); [gd Hg|exact Hw'|constructor|exact I]|].
      cbn match. eapply plays_eq; [apply silent_plays, silent_ret|reflexivity|reflexivity|]. apply mk_asc; [ascs; reflexivity|reflexivity].
    - (* v , *)
      intros w v cs w' x ds Hw Hns Hv IHv Hw' Hx IHx loops fuel n pre r Hg Hf Hl Hn. destruct n as [|n]; [lia|]. cbn [array_loop].
      apply (plays_silent _ _ _ _ _ _ _ _ (silent_offset pre _)).
      destruct (head_value _ _ Hv Hns) as (c & y & Ev & Hc & Hc93).
      replace ((w ++ v ++ w' ++ 44%N :: x) ++ r) with (w ++ c :: y ++ w' ++ 44%N :: x ++ r) by (subst v; ascs; reflexivity).
      eapply plays_silent; [apply silent_peek_not; assumption|]. cbn match.
      replace (c :: y ++ w' ++ 44%N :: x ++ r) with (v ++ w' ++ 44%N :: x ++ r) by (subst v; ascs; reflexivity).
      rewrite !at_offset_app, !at_offset_add, !at_offset_one, <- app_assoc, <- app_length. clear c y Ev Hc Hc93.
      eapply plays_then; [apply IHv; [gd Hg|lens|lens|apply ends_sep; auto]|]. cbn beta.
      eapply plays_silent; [apply silent_offset|].
      rewrite <- app_length.
      apply (plays_then _ _ _ [_] tt (mk ((pre ++ w) ++ v) (w' ++ [44%N] ++ x ++ r))); [eapply plays_tick; [reflexivity|cbn; auto]|].
      eapply plays_silent; [apply silent_offset|].
      eapply plays_silent; [apply (silent_tok into_fallable _ w' [44%N] _ TkComma); [gd Hg|exact Hw'|constructor|exact I]|].
      cbn match. eapply plays_eq; [apply (IHx loops fuel n (((pre ++ w) ++ v) ++ w' ++ [44%N]) r); [gd Hg|lens..]|reflexivity| |]; [f_equal; lens|]. apply mk_asc; [ascs; reflexivity|reflexivity].
    - (* } *)
      intros w Hw loops fuel n pre r Hg Hf Hl Hn. destruct n as [|n]; [lia|]. cbn [object_loop].
      apply (plays_silent _ _ _ _ _ _ _ _ (silent_offset pre _)).
      replace ((w ++ [125%N]) ++ r) with (w ++ [125%N] ++ r) by (ascs; reflexivity).
      eapply plays_silent; [apply (silent_tok into_fallable pre w _ _ TkObjectEnd); [gd Hg|exact Hw|constructor|exact I]|].
      cbn match. cbn [lenient allow_trailing_commas].
      eapply plays_silent; [apply silent_ret|]. apply silent_plays, silent_ret.
    - (* k : v } *)
      intros p raw v cs w Hp Hv IH Hw loops fuel n pre r Hg Hf Hl Hn. destruct n as [|n]; [lia|].
      rewrite <- (app_assoc p).
      rewrite !at_offset_app, !at_offset_add, !at_offset_one, Nat.add_0_r. apply object_key_plays; [exact Hp|gd Hg|]. unfold object_round.
      eapply plays_silent; [apply silent_offset|]. rewrite <- app_length.
      replace ((v ++ w ++ [125%N]) ++ r) with (v ++ w ++ 125%N :: r) by (ascs; reflexivity).
      eapply plays_then; [apply IH; [gd Hg|lens|lens|apply ends_sep; auto]|]. cbn beta.
      apply (plays_then _ _ _ [_] tt (mk ((pre ++ p) ++ v) (w ++ [125%N] ++ r)) []); [eapply plays_tick; [reflexivity|cbn; auto]|].
      eapply plays_silent; [apply silent_offset|].
      eapply plays_silent; [apply (silent_tok into_fallable _ w [125%N] r TkObjectEnd); [gd Hg|exact Hw|constructor|exact I]|].
      cbn match. eapply plays_eq; [apply silent_plays, silent_ret|reflexivity|reflexivity|]. apply mk_asc; [ascs; reflexivity|reflexivity].
    - (* k : v , *)
      intros p raw v cs w x ds Hp Hv IHv Hw Hx IHx loops fuel n pre r Hg Hf Hl Hn. destruct n as [|n]; [lia|].
      rewrite <- (app_assoc p).
      rewrite !at_offset_app, !at_offset_add, !at_offset_one, Nat.add_0_r. apply object_key_plays; [exact Hp|gd Hg|]. unfold object_round.
      eapply plays_silent; [apply silent_offset|]. rewrite <- app_length.
      replace ((v ++ w ++ 44%N :: x) ++ r) with (v ++ w ++ 44%N :: x ++ r) by (ascs; reflexivity).
      eapply plays_then; [apply IHv; [gd Hg|lens|lens|apply ends_sep; auto]|]. cbn beta.
      apply (plays_then _ _ _ [_] tt (mk ((pre ++ p) ++ v) (w ++ [44%N] ++ x ++ r))); [eapply plays_tick; [reflexivity|cbn; auto]|].
      eapply plays_silent; [apply silent_offset|].
      eapply plays_silent; [apply (silent_tok into_fallable _ w [44%N] _ TkComma); [gd Hg|exact Hw|constructor|exact I]|].
      cbn match. eapply plays_eq; [apply (IHx loops fuel n (((pre ++ p) ++ v) ++ w ++ [44%N]) r); [gd Hg|lens..]|reflexivity| |]; [f_equal; lens|]. apply mk_asc; [ascs; reflexivity|reflexivity].
  Qed.

  Definition fails_value x cs := forall loops fuel pre, good g pw (pre ++ x) -> (length x < fuel)%nat -> (length x < loops)%nat ->
    fails (rd loops fuel) (mk pre x) (at_offset (length pre) cs).
  Definition fails_array x cs := forall loops fuel n pre, good g pw (pre ++ x) -> (length x < fuel)%nat -> (length x < loops)%nat ->
    (length x < n)%nat -> fails (array_loop g pw lenient C (rd loops fuel) n tt) (mk pre x) (at_offset (length pre) cs).
  Definition fails_object x cs := forall loops fuel n pre, good g pw (pre ++ x) -> (length x < fuel)%nat -> (length x < loops)%nat ->
    (length x < n)%nat -> fails (object_loop g pw lenient C (rd loops fuel) n tt) (mk pre x) (at_offset (length pre) cs).

  Lemma fails_nil {A} (m : pm C A) it : fails m it [].
  Proof. intros n b Hn. cbn in Hn. lia. Qed.

  Lemma head_upto x cs : value_upto x cs -> ~ starts ws_byte x -> exists c y, x = c :: y /\ ~ ws_byte c /\ c <> 93%N.
  Proof.
    intros H Hs. assert (Hc : forall c y, x = c :: y -> ~ ws_byte c) by (intros c y ->; exact Hs).
    destruct H as [v r cs Hv He|w x cs Hw Hx|w x cs Hw Hx].
    - rewrite starts_app in Hs by (eapply value_start; exact Hv).
      destruct (head_value _ _ Hv Hs) as (c & y & -> & Hc1 & Hc2). exists c, (y ++ r). auto.
    - destruct w as [|d w]; [|exfalso; apply Hs; cbn; apply Forall_inv in Hw; exact Hw]. cbn [app] in *.
      eexists _, _; split; [reflexivity|]; split; [eapply Hc; reflexivity|discriminate].
    - destruct w as [|d w]; [|exfalso; apply Hs; cbn; apply Forall_inv in Hw; exact Hw]. cbn [app] in *.
      eexists _, _; split; [reflexivity|]; split; [eapply Hc; reflexivity|discriminate].
  Qed.

  Lemma upto_fail : (forall x cs, value_upto x cs -> fails_value x cs) /\ (forall x cs, array_upto x cs -> fails_array x cs) /\
    (forall x cs, object_upto x cs -> fails_object x cs).
  Proof.
    destruct calls_play as (PV & PA & PO). apply upto_mutind.
    - intros v r cs Hv He loops fuel pre Hg Hf Hl. apply (PV v cs Hv); [exact Hg|lens|lens|exact He].
    - (* array *)
      intros w x cs Hw Hx IH loops fuel pre Hg Hf Hl. destruct fuel as [|fuel]; [lia|]. unfold rd. cbn [read_tokens].
      apply (fails_silent _ _ _ _ _ _ (silent_offset pre _)).
      eapply fails_silent; [apply (silent_tok into_fallable pre w [91%N] x TkArray); [gd Hg|exact Hw|constructor|exact I]|].
      cbn match. eapply fails_silent; [apply silent_begin|]. apply fails_map_err. unfold read_array.
      eapply fails_silent; [apply silent_offset|].
      assert (Eo : length (pre ++ w ++ [91%N]) = (length pre + (length w + 1))%nat) by lens.
      rewrite !at_offset_app, at_offset_add, !at_offset_one. rewrite <- Eo.
      apply (fails_then _ _ _ [_] tt (mk (pre ++ w ++ [91%N]) x)); [eapply plays_tick; [reflexivity|cbn; auto]|].
      apply fails_first. apply (IH loops fuel loops); [gd Hg|lens..].
    - (* object *)
      intros w x cs Hw Hx IH loops fuel pre Hg Hf Hl. destruct fuel as [|fuel]; [lia|]. unfold rd. cbn [read_tokens].
      apply (fails_silent _ _ _ _ _ _ (silent_offset pre _)).
      eapply fails_silent; [apply (silent_tok into_fallable pre w [123%N] x TkObject); [gd Hg|exact Hw|constructor|exact I]|].
      cbn match. eapply fails_silent; [apply silent_begin|]. apply fails_map_err. unfold read_object.
      eapply fails_silent; [apply silent_offset|].
      assert (Eo : length (pre ++ w ++ [123%N]) = (length pre + (length w + 1))%nat) by lens.
      rewrite !at_offset_app, at_offset_add, !at_offset_one. rewrite <- Eo.
      apply (fails_then _ _ _ [_] tt (mk (pre ++ w ++ [123%N]) x)); [eapply plays_tick; [reflexivity|cbn; auto]|].
      apply fails_first. apply (IH loops fuel loops); [gd Hg|lens..].
    - intros x loops fuel n pre Hg Hf Hl Hn. apply fails_nil.
    - (* inside an element *)
      intros w x cs Hw Hns Hx IH loops fuel n pre Hg Hf Hl Hn. destruct n as [|n]; [lia|]. cbn [array_loop].
      apply (fails_silent _ _ _ _ _ _ (silent_offset pre _)).
      destruct (head_upto _ _ Hx Hns) as (c & y & Ev & Hc & Hc93). rewrite Ev at 1.
      eapply fails_silent; [apply silent_peek_not; assumption|]. cbn match. rewrite <- Ev.
      rewrite at_offset_add, <- app_length. apply fails_first. apply IH; [gd Hg|lens|lens].
    - (* the element *)
      intros w v cs r Hw Hns Hv He loops fuel n pre Hg Hf Hl Hn. destruct n as [|n]; [lia|]. cbn [array_loop].
      apply (fails_silent _ _ _ _ _ _ (silent_offset pre _)).
      destruct (head_value _ _ Hv Hns) as (c & y & Ev & Hc & Hc93).
      replace (w ++ v ++ r) with (w ++ c :: y ++ r) by (subst v; ascs; reflexivity).
      eapply fails_silent; [apply silent_peek_not; assumption|]. cbn match.
      replace (c :: y ++ r) with (v ++ r) by (subst v; ascs; reflexivity).
      rewrite at_offset_app, at_offset_app, !at_offset_add, !at_offset_one, <- app_length. clear c y Ev Hc Hc93.
      eapply fails_then; [apply (PV v cs Hv); [gd Hg|lens|lens|exact He]|]. cbn beta.
      eapply fails_silent; [apply silent_offset|]. rewrite <- app_length.
      apply (fails_then _ _ _ [_] tt (mk ((pre ++ w) ++ v) r) []); [eapply plays_tick; [reflexivity|cbn; auto]|apply fails_nil].
    - (* v , *)
      intros w v cs w' x ds Hw Hns Hv Hw' Hx IHx loops fuel n pre Hg Hf Hl Hn. destruct n as [|n]; [lia|]. cbn [array_loop].
      apply (fails_silent _ _ _ _ _ _ (silent_offset pre _)).
      destruct (head_value _ _ Hv Hns) as (c & y & Ev & Hc & Hc93).
      replace (w ++ v ++ w' ++ 44%N :: x) with (w ++ c :: y ++ w' ++ 44%N :: x) by (subst v; ascs; reflexivity).
      eapply fails_silent; [apply silent_peek_not; assumption|]. cbn match.
      replace (c :: y ++ w' ++ 44%N :: x) with (v ++ w' ++ 44%N :: x) by (subst v; ascs; reflexivity).
      rewrite !at_offset_app, !at_offset_add, !at_offset_one, <- app_assoc, <- app_length. clear c y Ev Hc Hc93.
      eapply fails_then; [apply (PV v cs Hv); [gd Hg|lens|lens|apply ends_sep; auto]|]. cbn beta.
      eapply fails_silent; [apply silent_offset|]. rewrite <- app_length.
      apply (fails_then _ _ _ [_] tt (mk ((pre ++ w) ++ v) (w' ++ [44%N] ++ x))); [eapply plays_tick; [reflexivity|cbn; auto]|].
      eapply fails_silent; [apply silent_offset|].
      eapply fails_silent; [apply (silent_tok into_fallable _ w' [44%N] _ TkComma); [gd Hg|exact Hw'|constructor|exact I]|].
      cbn match. eapply fails_eq; [apply (IHx loops fuel n (((pre ++ w) ++ v) ++ w' ++ [44%N])); [gd Hg|lens..]|reflexivity|]. f_equal. lens.
    - intros x loops fuel n pre Hg Hf Hl Hn. apply fails_nil.
    - (* the key *)
      intros w raw cs r Hw Hb loops fuel n pre Hg Hf Hl Hn. destruct n as [|n]; [lia|]. cbn [object_loop].
      apply (fails_silent _ _ _ _ _ _ (silent_offset pre _)).
      eapply fails_silent; [apply (silent_tok into_fallable pre w _ _ (TkString (string_for pw raw cs))); [gd Hg|exact Hw|constructor; exact Hb|exact I]|].
      cbn match. rewrite at_offset_one, Nat.add_0_r. apply fails_first. refine (proj1 (plays_tick _ _ (tt, tt) _ _ _ _ _)); [reflexivity|cbn; auto].
    - (* inside a member's value *)
      intros p raw x cs Hp Hx IH loops fuel n pre Hg Hf Hl Hn. destruct n as [|n]; [lia|].
      rewrite !at_offset_app, !at_offset_add, !at_offset_one, Nat.add_0_r. apply object_key_fails; [exact Hp|gd Hg|]. unfold object_round.
      eapply fails_silent; [apply silent_offset|]. rewrite <- app_length. apply fails_first. apply IH; [gd Hg|lens|lens].
    - (* the member *)
      intros p raw v cs r Hp Hv He loops fuel n pre Hg Hf Hl Hn. destruct n as [|n]; [lia|].
      rewrite !at_offset_app, !at_offset_add, !at_offset_one, Nat.add_0_r. apply object_key_fails; [exact Hp|gd Hg|]. unfold object_round.
      eapply fails_silent; [apply silent_offset|]. rewrite <- app_length.
      eapply fails_then; [apply (PV v cs Hv); [gd Hg|lens|lens|exact He]|]. cbn beta.
      apply (fails_then _ _ _ [_] tt (mk ((pre ++ p) ++ v) r) []); [eapply plays_tick; [reflexivity|cbn; auto]|apply fails_nil].
    - (* k : v , *)
      intros p raw v cs w x ds Hp Hv Hw Hx IHx loops fuel n pre Hg Hf Hl Hn. destruct n as [|n]; [lia|].
      rewrite !at_offset_app, !at_offset_add, !at_offset_one, Nat.add_0_r. apply object_key_fails; [exact Hp|gd Hg|]. unfold object_round.
      eapply fails_silent; [apply silent_offset|]. rewrite <- app_length.
      eapply fails_then; [apply (PV v cs Hv); [gd Hg|lens|lens|apply ends_sep; auto]|]. cbn beta.
      apply (fails_then _ _ _ [_] tt (mk ((pre ++ p) ++ v) (w ++ [44%N] ++ x))); [eapply plays_tick; [reflexivity|cbn; auto]|].
      eapply fails_silent; [apply silent_offset|].
      eapply fails_silent; [apply (silent_tok into_fallable _ w [44%N] _ TkComma); [gd Hg|exact Hw|constructor|exact I]|].
      cbn match. eapply fails_eq; [apply (IHx loops fuel n (((pre ++ p) ++ v) ++ w ++ [44%N])); [gd Hg|lens..]|reflexivity|]. f_equal. lens.
  Qed.

  Lemma call_event_fun c d ev : call_event c ev -> call_event d ev -> c = d.
  Proof. destruct c, d, ev; cbn; intros H1 H2; try tauto; try congruence; destruct H1, H2; congruence. Qed.

  (** Callback number [n] and its offset do not depend on how the input was read. *)
  Lemma upto_unique s cs ds n : good g pw s -> value_upto s cs -> value_upto s ds -> (n < length cs)%nat -> (n < length ds)%nat ->
    nth n cs dflt = nth n ds dflt.
  Proof.
    intros Hg Hc Hd Hn Hm. destruct upto_fail as (UV & _ & _).
    destruct (UV s cs Hc (S (length s)) (S (length s)) [] Hg ltac:(lia) ltac:(lia) n 0%N) as (s1 & ev1 & E1 & H1).
    { cbn [length]. rewrite at_offset_0. exact Hn. }
    destruct (UV s ds Hd (S (length s)) (S (length s)) [] Hg ltac:(lia) ltac:(lia) n 0%N) as (s2 & ev2 & E2 & H2).
    { cbn [length]. rewrite at_offset_0. exact Hm. }
    cbn [length] in *. rewrite at_offset_0 in *. rewrite E1 in E2. injection E2 as E2 <- _.
    pose proof (call_event_fun _ _ _ H1 H2) as E3. destruct (nth n cs dflt), (nth n ds dflt). cbn in *. congruence.
  Qed.
  Lemma upto_prefix s cs ds : good g pw s -> value_upto s cs -> value_upto s ds -> (length cs <= length ds)%nat -> prefix_of cs ds.
  Proof.
    intros Hg Hc Hd Hl. exists (skipn (length cs) ds). rewrite <- (firstn_skipn (length cs) ds) at 1. f_equal.
    apply (nth_ext _ _ dflt dflt); [rewrite firstn_length; lia|]. intros n Hn. rewrite firstn_length in Hn.
    rewrite (upto_unique s cs ds n Hg Hc Hd) by lia.
    symmetry. transitivity (nth n (firstn (length cs) ds ++ skipn (length cs) ds) dflt); [rewrite firstn_skipn; reflexivity|].
    apply app_nth1. rewrite firstn_length. lia.
  Qed.
End Exact.
