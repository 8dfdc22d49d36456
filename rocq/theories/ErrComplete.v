(** Errors of the parser: every error that SpecError describes is the one reported. *)
From Verif Require Import Base Utf8 Utf8Facts StrModel ErrorModel Tokenizer Parser ValueModel Spec SpecError TokBase TokStr
  TokNum TokFacts ErrTok Trace ParserSound ParserComplete ErrSound.

Section ErrComplete.
  Variables (g : bool) (pw : pwidth) (cfg : parse_config).
  Notation T := trace_delegate.
  Notation tc := (allow_trailing_commas cfg).
  Notation limit := (recursion_limit cfg).
  Notation St := (@PS T).
  Notation RT loops fuel := (read_tokens g pw cfg T loops fuel).

  (** The run ends with the error [k] at [o]. *)
  Definition fails {A} (x : res (error infallible) A * @pstate T) (o : nat) (k : kind) : Prop :=
    fst x = Err (Error o k).

  Lemma fails_bind {A B} (m : pm T A) (f : A -> pm T B) s o k : fails (m s) o k -> fails (pbind T m f s) o k.
  Proof. unfold fails, pbind. destruct (m s) as [[a|e|x] s1]; cbn; congruence. Qed.

  Lemma fails_eq {A B} (m : pm T A) (f : A -> pm T B) s a s1 o k :
    m s = (Ok a, s1) -> fails (f a s1) o k -> fails (pbind T m f s) o k.
  Proof. intros E H. rewrite (pbind_eq _ _ _ _ _ E). exact H. Qed.

  Lemma fails_offset {A} (x : res (error infallible) A * @pstate T) o o' k : o = o' -> fails x o k -> fails x o' k.
  Proof. intros <-. auto. Qed.

  Lemma tok_fails pre r tr b n k : good g pw (pre ++ r) -> next_error r n k ->
    fails (p_tok T (next_or_eof g pw) (St (mk pre r) tr b)) (length pre + n) k.
  Proof.
    intros Hg He. destruct (next_raised g pw pre r n k Hg He) as (it & E).
    unfold fails, p_tok, p_tok_err. cbn [ps_iter]. rewrite E. cbn [map_err fst]. rewrite into_fallable_id. reflexivity.
  Qed.

  Lemma colon_fails pre r tr b n k : good g pw (pre ++ r) -> next_error r n k ->
    fails (p_tok_err T (to_expected_colon T) (next_or_eof g pw) (St (mk pre r) tr b)) (length pre + n) KExpectedColon.
  Proof.
    intros Hg He. destruct (next_raised g pw pre r n k Hg He) as (it & E).
    unfold fails, p_tok_err. cbn [ps_iter]. rewrite E. reflexivity.
  Qed.

  Lemma tok_runs conv pre w x r tr b : good g pw (pre ++ w ++ x ++ r) -> ws w -> token_then x r ->
    exists tk, token_text pw tk x /\
      p_tok_err T conv (next_or_eof g pw) (St (mk pre (w ++ x ++ r)) tr b) = (Ok tk, St (mk (pre ++ w ++ x) r) tr b).
  Proof.
    intros Hg Hw Ht. apply (token_then_text pw) in Ht as (tk & H1 & H2). exists tk. split; [exact H1|].
    apply tok_complete; assumption.
  Qed.

  Lemma budget_fits_of d b k : budget cfg d b -> (forall n, limit = Some n -> (d + k <= n)%N) -> fits cfg b k.
  Proof. unfold budget, fits. destruct limit as [n|]; [|auto]. intros Hb H. specialize (H n eq_refl). lia. Qed.

  Lemma value_then_runs d t v r : value_then tc limit d t v r -> forall loops fuel pre w tr b,
    ws w -> good g pw (pre ++ w ++ v ++ r) -> (length v < fuel)%nat -> (length v < loops)%nat -> budget cfg d b ->
    exists a tr', value_repr pw t a /\ RT loops fuel (St (mk pre (w ++ v ++ r)) tr b) = (Ok a, St (mk (pre ++ w ++ v) r) tr' b).
  Proof.
    intros (Hv & Hn & Hl) loops fuel pre w tr b Hw Hg Hf Hlo Hb.
    pose proof (budget_fits_of _ _ _ Hb Hl) as Hfit.
    destruct (match t with TNum _ => true | _ => false end) eqn:Et.
    - destruct t as [| |nn| | |]; try discriminate. inversion Hv; subst. specialize (Hn _ eq_refl). apply number_then_iff in Hn.
      destruct fuel as [|fuel]; [lia|]. cbn [read_tokens]. exists (VNumber (JNum (Borrowed v))). eexists. split; [constructor|].
      rewrite (pbind_eq _ _ _ _ _ (offset_eq _ _ _)).
      erewrite pbind_eq; [|apply (tok_complete g pw into_fallable pre w v r (TkNumber (JNum (Borrowed v))));
        [exact Hg|exact Hw|constructor; assumption|exact Hn]].
      reflexivity.
    - destruct (complete_text g pw cfg) as [Hc _]. specialize (Hc t v Hv).
      destruct (Hc loops fuel pre w r tr b) as (a & Hrep & E); auto.
      { destruct t; try discriminate; exact I. }
      eauto.
  Qed.

  (** After an element of an array. *)
  Definition arr_next (rv : pm T value) (m : nat) (o : list value) : pm T (list value) :=
    pbind T (p_offset T) (fun offset =>
    pbind T (p_tok T (next_or_eof g pw)) (fun token =>
    match token with
    | TkArrayEnd => pret T o
    | TkComma => array_loop g pw cfg T rv m o
    | _ => perr T offset KExpectedCommaOrEndOfArray
    end)).

  (** After a member of an object. *)
  Definition obj_next (rv : pm T value) (m : nat) (o : object) : pm T object :=
    pbind T (p_offset T) (fun offset =>
    pbind T (p_tok T (next_or_eof g pw)) (fun token =>
    match token with
    | TkObjectEnd => pret T o
    | TkComma => object_loop g pw cfg T rv m o
    | _ => perr T offset KExpectedCommaOrEndOfObject
    end)).

  (** After a key. *)
  Definition obj_colon (rv : pm T value) (m : nat) (o : object) (key : json_string) : pm T object :=
    pbind T (p_offset T) (fun offset =>
    pbind T (p_tok_err T (to_expected_colon T) (next_or_eof g pw)) (fun token =>
    match token with
    | TkColon =>
      pbind T (p_offset T) (fun offset =>
      pbind T rv (fun v =>
      pbind T (p_del T offset (fun st => d_object_value T st o key v)) (fun o => obj_next rv m o)))
    | _ => perr T offset KExpectedColon
    end)).

  Definition E_value (d : N) (r : list N) (n : nat) (k : kind) : Prop := forall loops fuel pre tr b,
    good g pw (pre ++ r) -> (length r < fuel)%nat -> (length r < loops)%nat -> budget cfg d b ->
    fails (RT loops fuel (St (mk pre r) tr b)) (length pre + n) k.
  Definition E_array (d : N) (first : bool) (r : list N) (n : nat) (k : kind) : Prop := forall loops fuel m o pre tr b,
    good g pw (pre ++ r) -> (length r < fuel)%nat -> (length r < loops)%nat -> (length r < m)%nat -> budget cfg d b ->
    is_nil o = first ->
    fails (array_loop g pw cfg T (RT loops fuel) m o (St (mk pre r) tr b)) (length pre + n) k.
  Definition E_array_next (d : N) (r : list N) (n : nat) (k : kind) : Prop := forall loops fuel m o pre tr b,
    good g pw (pre ++ r) -> (length r < fuel)%nat -> (length r < loops)%nat -> (length r < m)%nat -> budget cfg d b ->
    is_nil o = false ->
    fails (arr_next (RT loops fuel) m o (St (mk pre r) tr b)) (length pre + n) k.
  Definition E_object (d : N) (first : bool) (r : list N) (n : nat) (k : kind) : Prop := forall loops fuel m o pre tr b,
    good g pw (pre ++ r) -> (length r < fuel)%nat -> (length r < loops)%nat -> (length r < m)%nat -> budget cfg d b ->
    is_nil o = first ->
    fails (object_loop g pw cfg T (RT loops fuel) m o (St (mk pre r) tr b)) (length pre + n) k.
  Definition E_colon (d : N) (r : list N) (n : nat) (k : kind) : Prop := forall loops fuel m o key pre tr b,
    good g pw (pre ++ r) -> (length r < fuel)%nat -> (length r < loops)%nat -> (length r < m)%nat -> budget cfg d b ->
    fails (obj_colon (RT loops fuel) m o key (St (mk pre r) tr b)) (length pre + n) k.
  Definition E_member_next (d : N) (r : list N) (n : nat) (k : kind) : Prop := forall loops fuel m o pre tr b,
    good g pw (pre ++ r) -> (length r < fuel)%nat -> (length r < loops)%nat -> (length r < m)%nat -> budget cfg d b ->
    is_nil o = false ->
    fails (obj_next (RT loops fuel) m o (St (mk pre r) tr b)) (length pre + n) k.

  Ltac off := eapply fails_eq; [apply offset_eq|].
  Ltac lens := rewrite ?app_length in *; cbn [length] in *; rewrite ?app_length in *; cbn [length] in *; try lia.
  Ltac toks tk pre w x r := eapply fails_eq; [apply (tok_complete g pw _ pre w x r tk)|].

  Lemma array_loop_eq rv m (o : list value) s : array_loop g pw cfg T rv (S m) o s =
    pbind T (p_offset T) (fun offset =>
    pbind T (peek_array_end T) (fun is_end =>
    if is_end : bool then
      pbind T (if tc then pret T true else p_query T (fun st => d_array_is_empty T st o)) (fun ok =>
      if ok then pret T o else perr T offset KIllegalTrailingComma)
    else
      pbind T rv (fun v =>
      pbind T (p_offset T) (fun offset =>
      pbind T (p_del T offset (fun st => d_array_value T st o v)) (fun o => arr_next rv m o))))) s.
  Proof. reflexivity. Qed.

  Lemma object_loop_eq rv m (o : object) s : object_loop g pw cfg T rv (S m) o s =
    pbind T (p_offset T) (fun offset =>
    pbind T (p_tok T (next_or_eof g pw)) (fun token =>
    match token with
    | TkObjectEnd =>
      pbind T (if tc then pret T true else p_query T (fun st => d_object_is_empty T st o)) (fun ok =>
      if ok then pret T o else perr T offset KIllegalTrailingComma)
    | TkString v =>
      pbind T (p_del T offset (fun st => d_object_key T st o v)) (fun ok =>
      let '(o, key) := ok in obj_colon rv m o key)
    | TkArray | TkBool _ | TkNull | TkNumber _ | TkObject => perr T offset KObjectKeysMustBeStrings
    | _ => perr T offset KExpectedObjectKey
    end)) s.
  Proof. reflexivity. Qed.

  Lemma peek_skips w x pre tr b : ws w -> ~ starts (fun c => ws_byte c \/ c = 93%N) x ->
    peek_array_end T (St (mk pre (w ++ x)) tr b) = (Ok false, St (mk (pre ++ w) x) tr b).
  Proof.
    intros Hw Hx. destruct x as [|c x].
    - unfold peek_array_end, tokenizer_peek. cbn [ps_iter]. rewrite skip_ws_mk_app; [|exact Hw|exact I]. cbn zeta. rewrite bi_peek_mk. reflexivity.
    - cbn [starts] in Hx. apply peek_not_end; [exact Hw|tauto|tauto].
  Qed.

  Lemma is_nil_snoc {A} (o : list A) x : is_nil (o ++ [x]) = false.
  Proof. destruct o; reflexivity. Qed.

  Lemma value_then_head d t v r : value_then tc limit d t v r -> ~ starts (fun c => ws_byte c \/ c = 93%N) (v ++ r) /\ v <> [].
  Proof.
    intros (Hv & _). destruct (value_text_head _ _ _ Hv) as (b & y & -> & H1 & H2 & _). cbn. split; [tauto|discriminate].
  Qed.

  Lemma errors_complete : forall d,
    (forall r n k, value_error tc limit d r n k -> E_value d r n k) /\
    (forall first r n k, array_error tc limit d first r n k -> E_array d first r n k) /\
    (forall r n k, array_next_error tc limit d r n k -> E_array_next d r n k) /\
    (forall first r n k, object_error tc limit d first r n k -> E_object d first r n k) /\
    (forall r n k, colon_error tc limit d r n k -> E_colon d r n k) /\
    (forall r n k, member_next_error tc limit d r n k -> E_member_next d r n k).
  Proof.
    intro d0. apply (error_mutind tc limit (fun d r n k _ => E_value d r n k) (fun d f r n k _ => E_array d f r n k)
      (fun d r n k _ => E_array_next d r n k) (fun d f r n k _ => E_object d f r n k) (fun d r n k _ => E_colon d r n k)
      (fun d r n k _ => E_member_next d r n k)).
    (* values *)
    - intros d w Hw loops fuel pre tr b Hg Hf Hl Hb. destruct fuel as [|fuel]; [lia|]. cbn [read_tokens]. off.
      apply fails_bind, tok_fails; [exact Hg|constructor; exact Hw].
    - intros d w x n k Hw Hx loops fuel pre tr b Hg Hf Hl Hb. destruct fuel as [|fuel]; [lia|]. cbn [read_tokens]. off.
      apply fails_bind, tok_fails; [exact Hg|constructor; assumption].
    - intros d w c x Hw Hc loops fuel pre tr b Hg Hf Hl Hb. destruct fuel as [|fuel]; [lia|]. cbn [read_tokens]. off.
      destruct (tok_runs into_fallable pre w [c] x tr b) as (tk & Ht & E); [exact Hg|exact Hw|constructor; cbn in *; tauto|].
      eapply fails_eq; [exact E|]. cbn [In] in Hc. unfold fails. rewrite mk_offset.
      destruct Hc as [<-|[<-|[<-|[<-|[]]]]]; inversion Ht; subst; cbn [perr fst];
        try (f_equal; f_equal; lia); match goal with Hx : number [_] |- _ => apply number_head_cases in Hx; lia end.
    - intros d w c x Hw Hc Hlim loops fuel pre tr b Hg Hf Hl Hb. destruct fuel as [|fuel]; [lia|]. cbn [read_tokens]. off.
      destruct (tok_runs into_fallable pre w [c] x tr b) as (tk & Ht & E); [exact Hg|exact Hw|constructor; cbn in *; tauto|].
      eapply fails_eq; [exact E|].
      assert (Hn : begin_nest cfg T (bi_offset (mk pre (w ++ [c] ++ x))) (St (mk (pre ++ w ++ [c]) x) tr b) =
        (Err (Error (length pre) KRecursionLimitReached), St (mk (pre ++ w ++ [c]) x) tr b)).
      { unfold begin_nest, budget in *. rewrite Hlim in *. cbn [ps_depth]. destruct (N.ltb_spec 0 b); [lia|reflexivity]. }
      cbn [In] in Hc. rewrite Nat.add_0_r.
      destruct Hc as [<-|[<-|[]]]; inversion Ht; subst; try (match goal with Hx : number [_] |- _ => apply number_head_cases in Hx; lia end);
        unfold fails, pbind; cbn [app] in *; rewrite Hn; reflexivity.
    - (* array *)
      intros d w x n k Hw Hlim He IH loops fuel pre tr b Hg Hf Hl Hb. destruct fuel as [|fuel]; [lia|]. cbn [read_tokens]. off.
      change (w ++ 91%N :: x) with (w ++ [91%N] ++ x) in *.
      toks TkArray pre w [91%N] x; [exact Hg|exact Hw|constructor|exact I|].
      assert (Hd : limit <> None -> (0 < b)%N).
      { unfold budget in Hb. destruct limit as [n0|]; [|congruence]. intros _.
        destruct (N.eq_dec b 0) as [->|]; [|lia]. exfalso. apply Hlim. f_equal. lia. }
      eapply fails_eq; [apply begin_nest_eq; exact Hd|].
      assert (Hi : fails (read_array g pw cfg T (RT loops fuel) loops (St (mk (pre ++ w ++ [91%N]) x) tr (inner cfg b)))
        (length pre + (length w + 1 + n)) k).
      { unfold read_array. off. eapply fails_eq; [reflexivity|]. cbn [ps_iter ps_del ps_depth]. apply fails_bind.
        eapply fails_offset; [|apply IH]; lens; [|apply budget_inner; assumption|reflexivity].
        eapply good_asc; [exact Hg|ascs; reflexivity]. }
      unfold fails, p_map_err in *. destruct (read_array _ _ _ _ _ _ _) as [r0 s0]. cbn [fst] in Hi. subst r0. cbn [map_err fst].
      rewrite eof_to_inside. reflexivity.
    - (* object *)
      intros d w x n k Hw Hlim He IH loops fuel pre tr b Hg Hf Hl Hb. destruct fuel as [|fuel]; [lia|]. cbn [read_tokens]. off.
      change (w ++ 123%N :: x) with (w ++ [123%N] ++ x) in *.
      toks TkObject pre w [123%N] x; [exact Hg|exact Hw|constructor|exact I|].
      assert (Hd : limit <> None -> (0 < b)%N).
      { unfold budget in Hb. destruct limit as [n0|]; [|congruence]. intros _.
        destruct (N.eq_dec b 0) as [->|]; [|lia]. exfalso. apply Hlim. f_equal. lia. }
      eapply fails_eq; [apply begin_nest_eq; exact Hd|].
      assert (Hi : fails (read_object g pw cfg T (RT loops fuel) loops (St (mk (pre ++ w ++ [123%N]) x) tr (inner cfg b)))
        (length pre + (length w + 1 + n)) k).
      { unfold read_object. off. eapply fails_eq; [reflexivity|]. cbn [ps_iter ps_del ps_depth]. apply fails_bind.
        eapply fails_offset; [|apply IH]; lens; [|apply budget_inner; assumption|reflexivity].
        eapply good_asc; [exact Hg|ascs; reflexivity]. }
      unfold fails, p_map_err in *. destruct (read_object _ _ _ _ _ _ _) as [r0 s0]. cbn [fst] in Hi. subst r0. cbn [map_err fst].
      rewrite eof_to_inside. reflexivity.
    (* arrays *)
    - intros d w x Hw Htc loops fuel m o pre tr b Hg Hf Hl Hm Hb Ho. destruct m as [|m]; [lia|]. rewrite array_loop_eq. off.
      eapply fails_eq; [apply peek_end; exact Hw|]. cbn match. rewrite Htc. unfold pbind, p_query, fails. cbn.
      rewrite Ho. cbn. f_equal. f_equal. lia.
    - intros d first w x n k Hw Hx He IH loops fuel m o pre tr b Hg Hf Hl Hm Hb Ho. destruct m as [|m]; [lia|]. rewrite array_loop_eq. off.
      eapply fails_eq; [apply peek_skips; assumption|]. cbn match. apply fails_bind.
      eapply fails_offset; [|apply IH; [eapply good_asc; [exact Hg|ascs; reflexivity]|lens..|exact Hb]]; lens.
    - intros d first w t v r n k Hw Hv He IH loops fuel m o pre tr b Hg Hf Hl Hm Hb Ho. destruct m as [|m]; [lia|]. rewrite array_loop_eq. off.
      destruct (value_then_head _ _ _ _ Hv) as [Hh Hne].
      assert (0 < length v)%nat by (destruct v; [congruence|cbn; lia]).
      eapply fails_eq; [apply peek_skips; assumption|]. cbn match.
      destruct (value_then_runs d t v r Hv loops fuel (pre ++ w) [] tr b) as (a & tr' & Hrep & E); auto; [constructor|..]; [|lens..|].
      { eapply good_asc; [exact Hg|ascs; reflexivity]. }
      eapply fails_eq; [exact E|]. off. eapply fails_eq; [reflexivity|]. cbn [ps_iter ps_del ps_depth app].
      eapply fails_offset; [|apply IH; [eapply good_asc; [exact Hg|ascs; reflexivity]|lens..|exact Hb|apply is_nil_snoc]]; lens.
    (* after an element *)
    - intros d w Hw loops fuel m o pre tr b Hg Hf Hl Hm Hb Ho. unfold arr_next. off.
      apply fails_bind, tok_fails; [exact Hg|constructor; exact Hw].
    - intros d w x n k Hw Hx loops fuel m o pre tr b Hg Hf Hl Hm Hb Ho. unfold arr_next. off.
      apply fails_bind, tok_fails; [exact Hg|constructor; assumption].
    - intros d w x r Hw Hx H1 H2 loops fuel m o pre tr b Hg Hf Hl Hm Hb Ho. unfold arr_next. off.
      destruct (tok_runs into_fallable pre w x r tr b) as (tk & Ht & E); [exact Hg|exact Hw|exact Hx|].
      eapply fails_eq; [exact E|]. unfold fails. rewrite mk_offset, Nat.add_0_r.
      destruct Ht; try reflexivity; congruence.
    - intros d w x n k Hw He IH loops fuel m o pre tr b Hg Hf Hl Hm Hb Ho. unfold arr_next. off.
      change (w ++ 44%N :: x) with (w ++ [44%N] ++ x) in *.
      toks TkComma pre w [44%N] x; [exact Hg|exact Hw|constructor|exact I|]. cbn match.
      eapply fails_offset; [|apply IH; [eapply good_asc; [exact Hg|ascs; reflexivity]|lens..|exact Hb|exact Ho]]; lens.
    (* objects *)
    - intros d first w Hw loops fuel m o pre tr b Hg Hf Hl Hm Hb Ho. destruct m as [|m]; [lia|]. rewrite object_loop_eq. off.
      apply fails_bind, tok_fails; [exact Hg|constructor; exact Hw].
    - intros d first w x n k Hw Hx loops fuel m o pre tr b Hg Hf Hl Hm Hb Ho. destruct m as [|m]; [lia|]. rewrite object_loop_eq. off.
      apply fails_bind, tok_fails; [exact Hg|constructor; assumption].
    - intros d w x Hw Htc loops fuel m o pre tr b Hg Hf Hl Hm Hb Ho. destruct m as [|m]; [lia|]. rewrite object_loop_eq. off.
      change (w ++ 125%N :: x) with (w ++ [125%N] ++ x) in *.
      toks TkObjectEnd pre w [125%N] x; [exact Hg|exact Hw|constructor|exact I|]. cbn match.
      rewrite Htc. unfold pbind, p_query, fails. cbn. rewrite Ho. cbn. f_equal. f_equal. lia.
    - intros d first w c x Hw Hc loops fuel m o pre tr b Hg Hf Hl Hm Hb Ho. destruct m as [|m]; [lia|]. rewrite object_loop_eq. off.
      destruct (tok_runs into_fallable pre w [c] x tr b) as (tk & Ht & E); [exact Hg|exact Hw|constructor; cbn in *; tauto|].
      eapply fails_eq; [exact E|]. unfold fails. rewrite mk_offset, Nat.add_0_r.
      cbn [In] in Hc. destruct Hc as [<-|[<-|[<-|[]]]]; inversion Ht; subst; try reflexivity;
        match goal with Hx : number [_] |- _ => apply number_head_cases in Hx; lia end.
    - intros d first w x r Hw Hx Hs loops fuel m o pre tr b Hg Hf Hl Hm Hb Ho. destruct m as [|m]; [lia|]. rewrite object_loop_eq. off.
      destruct (tok_runs into_fallable pre w x r tr b) as (tk & Ht & E); [exact Hg|exact Hw|exact Hx|].
      eapply fails_eq; [exact E|]. unfold fails. rewrite mk_offset, Nat.add_0_r.
      destruct Ht; try reflexivity; exfalso; apply Hs; cbn; auto 7.
    - intros d first w key cs r n k Hw Hk He IH loops fuel m o pre tr b Hg Hf Hl Hm Hb Ho. destruct m as [|m]; [lia|]. rewrite object_loop_eq. off.
      toks (TkString (string_for pw key cs)) pre w (34%N :: key ++ [34%N]) r; [exact Hg|exact Hw|constructor; exact Hk|exact I|].
      cbn match. eapply fails_eq; [reflexivity|]. cbn [ps_iter ps_del ps_depth].
      eapply fails_offset; [|apply IH; [eapply good_asc; [exact Hg|ascs; reflexivity]|lens..|exact Hb]]; lens.
    (* after a key *)
    - intros d w Hw loops fuel m o key pre tr b Hg Hf Hl Hm Hb. unfold obj_colon. off.
      apply fails_bind. eapply colon_fails; [exact Hg|constructor; exact Hw].
    - intros d w x n k Hw Hx loops fuel m o key pre tr b Hg Hf Hl Hm Hb. unfold obj_colon. off.
      apply fails_bind. eapply colon_fails; [exact Hg|constructor; eassumption].
    - intros d w x r Hw Hx H1 loops fuel m o key pre tr b Hg Hf Hl Hm Hb. unfold obj_colon. off.
      destruct (tok_runs (to_expected_colon T) pre w x r tr b) as (tk & Ht & E); [exact Hg|exact Hw|exact Hx|].
      eapply fails_eq; [exact E|]. unfold fails. rewrite mk_offset, Nat.add_0_r.
      destruct Ht; try reflexivity; congruence.
    - intros d w x n k Hw He IH loops fuel m o key pre tr b Hg Hf Hl Hm Hb. unfold obj_colon. off.
      change (w ++ 58%N :: x) with (w ++ [58%N] ++ x) in *.
      toks TkColon pre w [58%N] x; [exact Hg|exact Hw|constructor|exact I|]. cbn match. off. apply fails_bind.
      eapply fails_offset; [|apply IH; [eapply good_asc; [exact Hg|ascs; reflexivity]|lens..|exact Hb]]; lens.
    - intros d w w' t v r n k Hw Hw' Hv He IH loops fuel m o key pre tr b Hg Hf Hl Hm Hb. unfold obj_colon. off.
      change (w ++ 58%N :: w' ++ v ++ r) with (w ++ [58%N] ++ w' ++ v ++ r) in *.
      toks TkColon pre w [58%N] (w' ++ v ++ r); [exact Hg|exact Hw|constructor|exact I|]. cbn match. off.
      destruct (value_then_runs d t v r Hv loops fuel (pre ++ w ++ [58%N]) w' tr b) as (a & tr' & Hrep & E); auto; [|lens..|].
      { eapply good_asc; [exact Hg|ascs; reflexivity]. }
      eapply fails_eq; [exact E|]. eapply fails_eq; [reflexivity|]. cbn [ps_iter ps_del ps_depth].
      eapply fails_offset; [|apply IH; [eapply good_asc; [exact Hg|ascs; reflexivity]|lens..|exact Hb|apply is_nil_snoc]]; lens.
    (* after a member *)
    - intros d w Hw loops fuel m o pre tr b Hg Hf Hl Hm Hb Ho. unfold obj_next. off.
      apply fails_bind, tok_fails; [exact Hg|constructor; exact Hw].
    - intros d w x n k Hw Hx loops fuel m o pre tr b Hg Hf Hl Hm Hb Ho. unfold obj_next. off.
      apply fails_bind, tok_fails; [exact Hg|constructor; assumption].
    - intros d w x r Hw Hx H1 H2 loops fuel m o pre tr b Hg Hf Hl Hm Hb Ho. unfold obj_next. off.
      destruct (tok_runs into_fallable pre w x r tr b) as (tk & Ht & E); [exact Hg|exact Hw|exact Hx|].
      eapply fails_eq; [exact E|]. unfold fails. rewrite mk_offset, Nat.add_0_r.
      destruct Ht; try reflexivity; congruence.
    - intros d w x n k Hw He IH loops fuel m o pre tr b Hg Hf Hl Hm Hb Ho. unfold obj_next. off.
      change (w ++ 44%N :: x) with (w ++ [44%N] ++ x) in *.
      toks TkComma pre w [44%N] x; [exact Hg|exact Hw|constructor|exact I|]. cbn match.
      eapply fails_offset; [|apply IH; [eapply good_asc; [exact Hg|ascs; reflexivity]|lens..|exact Hb|exact Ho]]; lens.
  Qed.

  Theorem trace_error_complete source n k : good g pw source ->
    text_error tc limit (allow_all_types_at_root cfg) source n k ->
    fst (parse_bytes g pw cfg T source []) = Err (Error n k).
  Proof.
    intros Hg He. unfold parse_bytes.
    enough (fails (parse_body g pw cfg T (S (length source)) (S (length source)) (parse_state pw cfg T source [])) n k) as Hf.
    { unfold fails in Hf. destruct (parse_body _ _ _ _ _ _ _). exact Hf. }
    assert (Hb : budget cfg 0 (match limit with Some n => n | None => usize_max pw end)).
    { unfold budget. destruct limit; [apply N.add_0_l|exact I]. }
    unfold parse_body, parse_state. rewrite bi_new_mk. set (b := match limit with Some n => n | None => usize_max pw end) in *.
    destruct (errors_complete 0) as [Hv _].
    destruct He as [s m k' He|w t v r Hw Ht Hr Hc|w t v w' c r Hw Ht Hr Hw' Hc].
    - apply fails_bind. apply (Hv _ _ _ He _ _ []); auto.
    - destruct (value_then_runs _ _ _ _ Ht (S (length (w ++ v ++ r))) (S (length (w ++ v ++ r))) [] w [] b) as (a & tr' & Hrep & E); lens; auto.
      eapply fails_eq; [exact E|]. apply fails_bind. unfold check_root. rewrite Hr. cbn [negb]. unfold fails, pbind, p_query. cbn.
      pose proof (repr_kind pw _ _ Hrep) as Hk. rewrite Hc in Hk. destruct (value_kind a); try discriminate; reflexivity.
    - destruct (value_then_runs _ _ _ _ Ht (S (length (w ++ v ++ w' ++ c :: r))) (S (length (w ++ v ++ w' ++ c :: r))) [] w [] b)
        as (a & tr' & Hrep & E); lens; auto.
      eapply fails_eq; [exact E|].
      eapply fails_eq with (a := tt).
      { pose proof (repr_kind pw _ _ Hrep) as Hk. unfold check_root. destruct Hr as [->|Hr]; [reflexivity|]. rewrite Hr in Hk.
        destruct (allow_all_types_at_root cfg); [reflexivity|]. cbn [negb]. unfold pbind, p_query. cbn.
        destruct (value_kind a); try discriminate; reflexivity. }
      apply fails_bind. unfold fails, check_trailing, next_non_ws. cbn [ps_iter]. rewrite skip_ws_mk_app; [|exact Hw'|exact Hc].
      rewrite bi_next_mk. cbn [fst]. f_equal. f_equal. rewrite ?mk_offset. ascs. lens.
  Qed.
End ErrComplete.
