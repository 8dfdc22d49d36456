(** Property theorems: errors of the tokenizer surface unchanged from the parser (C55). *)
From Verif Require Import Base Utf8 Utf8Facts StrModel ErrorModel Tokenizer Parser ValueModel DocModel NumModel Spec
  TokBase TokStr TokNum TokFacts ParserGen Trace Sim SimInst StrSpec View ParseMain DocFacts PropParse PropTok PropEntry.
Local Open Scope N_scope.

(** Kinds that only the tokenizer raises ([Unexpected] of a closing bracket, colon or comma is also raised by the parser for a
    well-formed but misplaced token). *)
Definition lexical_kind {D} (k : error_kind D) : Prop :=
  match k with
  | KUtf8 | KExpectedExponent | KExpectedDecimalDigit | KExpectedDigit | KInvalidHexadecimal | KInvalidEscape
  | KUnclosedString => True
  | KUnexpected b => b <> 125 /\ b <> 93 /\ b <> 58 /\ b <> 44
  | _ => False
  end.

Lemma skipn_add {A} n k (l : list A) : skipn (n + k) l = skipn k (skipn n l).
Proof. revert l. induction n as [|n IH]; intros [|x l]; cbn; [reflexivity..|destruct k; reflexivity|apply IH]. Qed.

Section Lex.
  Variables (g : bool) (pw : pwidth) (cfg : parse_config) (D : delegate) (source : list N).

  (** States of the parser's tokenizer: only [Ok] tokens so far, possibly peeked. *)
  Inductive lexed : byte_iter -> Prop :=
  | lx_start : lexed (tokenizer_new source)
  | lx_next it tk it' : lexed it -> tokenizer_next g pw it = (Some (Ok tk), it') -> lexed it'
  | lx_peek it : lexed it -> lexed (snd (tokenizer_peek it)).

  Definition surfaced (e : error (d_error D)) : Prop :=
    lexical_kind (err_kind e) ->
    exists it e0, lexed it /\ fst (tokenizer_next g pw it) = Some (Err e0) /\ e = into_fallable e0.

  Definition L {A} (Q : A -> pstate D -> Prop) (m : pm D A) : Prop :=
    forall s, lexed (ps_iter s) ->
    match m s with
    | (Ok a, s') => lexed (ps_iter s') /\ Q a s'
    | (Err e, _) => surfaced e
    | (Fault _, _) => True
    end.
  Definition L0 {A} : pm D A -> Prop := L (fun _ _ => True).

  Lemma L_bind {A B} (m : pm D A) (k : A -> pm D B) Q : L0 m -> (forall a, L Q (k a)) -> L Q (pbind D m k).
  Proof.
    intros Hm Hk s Hs. unfold pbind. specialize (Hm s Hs). destruct (m s) as [[a|e|f] s']; auto.
    destruct Hm as [Hm _]. apply Hk. exact Hm.
  Qed.
  Lemma L_offset : L0 (p_offset D). Proof. intros s Hs. split; [exact Hs|exact I]. Qed.
  Lemma L_ret {A} (a : A) : L0 (pret D a). Proof. intros s Hs. split; [exact Hs|exact I]. Qed.
  Lemma L_err {A} o k : (lexical_kind k -> False) -> L0 (@perr D A o k).
  Proof. intros H s Hs K. destruct (H K). Qed.
  Lemma L_fault {A} f : L0 (fun s => (@Fault (error (d_error D)) A f, s)). Proof. intros s Hs. exact I. Qed.
  Lemma L_del {A} o (m : d_st D -> res (d_error D) A * d_st D) : L0 (p_del D o m).
  Proof.
    intros s Hs. unfold p_del. destruct (m (ps_del s)) as [[a|e|f] st]; cbn; [split; [exact Hs|exact I]|intros []|exact I].
  Qed.
  Lemma L_query {A} (m : d_st D -> res infallible A) : L0 (p_query D m).
  Proof. intros s Hs. unfold p_query. destruct (m (ps_del s)) as [a|[]|f]; [split; [exact Hs|exact I]|exact I]. Qed.
  Lemma L_begin o : L0 (begin_nest cfg D o).
  Proof.
    intros s Hs. unfold begin_nest. destruct (recursion_limit cfg); [|split; [exact Hs|exact I]].
    destruct (0 <? ps_depth s)%N; [split; [exact Hs|exact I]|intros []].
  Qed.
  Lemma L_end : L0 (end_nest cfg D).
  Proof. intros s Hs. unfold end_nest. destruct (recursion_limit cfg); (split; [exact Hs|exact I]). Qed.

  Hypothesis Hi : input_ok g pw source.
  Lemma lexed_reachable it : lexed it -> reachable g pw source it.
  Proof.
    induction 1 as [|it tk it' H IH E|it H IH].
    - exists []. reflexivity.
    - apply reachable_next in IH. rewrite E in IH. exact IH.
    - apply reachable_peek, IH.
  Qed.
  Lemma next_or_eof_next it : lexed it ->
    match tokenizer_next g pw it with
    | (Some r, it') => next_or_eof g pw it = (r, it')
    | (None, it') => exists o, next_or_eof g pw it = (Err (Error o KUnexpectedEof), it')
    end.
  Proof.
    intro H. pose proof (C19_next_or_eof_agrees g pw source it Hi (lexed_reachable it H)) as E.
    destruct (tokenizer_next g pw it) as [[r|] it']; eauto.
  Qed.

  Lemma L_tok : L0 (p_tok D (next_or_eof g pw)).
  Proof.
    intros s Hs. unfold p_tok, p_tok_err. pose proof (next_or_eof_next (ps_iter s) Hs) as H.
    destruct (tokenizer_next g pw (ps_iter s)) as [[[tk|e|f]|] it'] eqn:E.
    - rewrite H. cbn. split; [eapply lx_next; eassumption|exact I].
    - rewrite H. cbn. intro K. exists (ps_iter s), e. rewrite E. auto.
    - rewrite H. exact I.
    - destruct H as [o ->]. cbn. intros [].
  Qed.
  Lemma L_tok_colon : L0 (p_tok_err D (to_expected_colon D) (next_or_eof g pw)).
  Proof.
    intros s Hs. unfold p_tok_err. pose proof (next_or_eof_next (ps_iter s) Hs) as H.
    destruct (tokenizer_next g pw (ps_iter s)) as [[[tk|e|f]|] it'] eqn:E.
    - rewrite H. cbn. split; [eapply lx_next; eassumption|exact I].
    - rewrite H. cbn. intros [].
    - rewrite H. exact I.
    - destruct H as [o ->]. cbn. intros [].
  Qed.
  Lemma L_map_err {A} k (m : pm D A) : (lexical_kind k -> False) -> L0 m -> L0 (p_map_err D (eof_to D k) m).
  Proof.
    intros Hk Hm s Hs. unfold p_map_err. specialize (Hm s Hs). destruct (m s) as [[a|e|f] s']; [exact Hm| |exact I].
    unfold eof_to, surfaced in *. cbn. destruct e as [o ek]. cbn in *. destruct ek; try exact Hm. cbn. intro K. destruct (Hk K).
  Qed.
  Lemma L_peek : L0 (peek_array_end D).
  Proof.
    intros s Hs. unfold peek_array_end. pose proof (lx_peek _ Hs) as Hp.
    destruct (tokenizer_peek (ps_iter s)) as [o it] eqn:E. cbn [snd] in Hp.
    destruct o as [k|]; [|split; [exact Hp|exact I]].
    destruct k; try (split; [exact Hp|exact I]). split; [|exact I]. cbn [ps_iter].
    eapply lx_next; [exact Hp|]. instantiate (1 := TkArrayEnd).
    unfold tokenizer_peek in E. cbv zeta in E. destruct (bi_peek (skip_ws (ps_iter s))) as [b|] eqn:Eb; [|discriminate].
    injection E as E1 E2. subst it.
    assert (W : forall it, skip_ws (skip_ws it) = skip_ws it).
    { clear. intros [b n]. unfold skip_ws, bi_rest. cbn [bi_bytes bi_offset].
      rewrite !skip_ws_loop_spec. f_equal.
      pose proof (take_drop is_ws (skipn n b)) as E.
      replace (skipn (n + length (take_while is_ws (skipn n b))) b) with (drop_while is_ws (skipn n b)).
      - rewrite take_drop_nil. cbn. lia.
      - rewrite skipn_add. set (t := skipn n b) in *. rewrite <- E at 3. rewrite skipn_app, skipn_all, Nat.sub_diag. reflexivity. }
    unfold tokenizer_next, next_non_ws, bi_next. rewrite W. unfold bi_peek in Eb. rewrite Eb.
    unfold peek_kind_of in E1.
    assert (b = 93) as ->.
    { repeat match type of E1 with context [if ?c =? ?d then _ else _] => destruct (N.eqb_spec c d); [try discriminate; try congruence|] end.
      all: try (destruct ((b =? 45) || ((48 <=? b) && (b <=? 57))); discriminate). }
    reflexivity.
  Qed.

  Ltac lx := repeat match goal with
      | H : L0 ?m |- L _ ?m => exact H
      | H : L0 ?m |- L0 ?m => exact H
      | |- L0 (pbind D _ _) => unfold L0
      | |- L _ (pbind D _ _) => apply L_bind; [|intros ?]
      | |- _ (p_offset D) => apply L_offset
      | |- _ (p_tok D _) => apply L_tok
      | |- _ (p_tok_err D _ _) => apply L_tok_colon
      | |- _ (p_del D _ _) => apply L_del
      | |- _ (p_query D _) => apply L_query
      | |- _ (begin_nest cfg D _) => apply L_begin
      | |- _ (end_nest cfg D) => apply L_end
      | |- _ (pret D _) => apply L_ret
      | |- _ (perr D _ _) => apply L_err; cbn; lia || tauto
      | |- _ (peek_array_end D) => apply L_peek
      | |- _ (p_map_err D _ _) => apply L_map_err; [exact (fun x => x)|]
      | |- _ (fun s => (Fault _, s)) => apply L_fault
      | |- _ (match ?t with TkNull => _ | _ => _ end) => destruct t
      | |- _ (match ?t with JkNull => _ | _ => _ end) => destruct t
      | |- _ (if ?b then _ else _) => destruct b
      | |- _ (let '(_, _) := ?p in _) => destruct p
      end.
  Lemma L_object_loop rv : L0 rv -> forall k o, L0 (object_loop g pw cfg D rv k o).
  Proof. intros Hp. induction k as [|k IH]; intro o; cbn [object_loop]; lx; apply IH. Qed.
  Lemma L_array_loop rv : L0 rv -> forall k o, L0 (array_loop g pw cfg D rv k o).
  Proof. intros Hp. induction k as [|k IH]; intro o; cbn [array_loop]; lx; apply IH. Qed.
  Lemma L_read_tokens loops fuel : L0 (read_tokens g pw cfg D loops fuel).
  Proof.
    induction fuel as [|fuel IH]; cbn [read_tokens]; lx; unfold read_object, read_array; lx;
      [apply L_object_loop|apply L_array_loop]; exact IH.
  Qed.

  (** After a successful parse the tokenizer is at the end. *)
  Lemma L_trailing : L (fun _ _ => exists it, lexed it /\ fst (tokenizer_next g pw it) = None) (check_trailing D).
  Proof.
    intros s Hs. unfold check_trailing. destruct (next_non_ws (ps_iter s)) as [[[o b]|] it] eqn:E.
    - intros [].
    - cbn. split.
      + assert (E2 : it = snd (tokenizer_peek (ps_iter s))); [|subst it; apply lx_peek; exact Hs].
        unfold next_non_ws, bi_next in E. unfold tokenizer_peek, bi_peek. cbv zeta.
        destruct (nth_error _ _); [discriminate|]. injection E as <-. reflexivity.
      + exists (ps_iter s). split; [exact Hs|]. unfold tokenizer_next. rewrite E. reflexivity.
  Qed.
  Lemma L_last {A B} (m : pm D A) (k : pm D B) (Q : Prop) : L (fun _ _ => Q) m -> L0 k ->
    L (fun _ _ => Q) (pbind D m (fun _ => k)).
  Proof.
    intros Hm Hk s Hs. unfold pbind. specialize (Hm s Hs). destruct (m s) as [[a|e|f] s']; auto.
    destruct Hm as [H1 H2]. specialize (Hk s' H1). destruct (k s') as [[b|e|f] s2]; auto. destruct Hk. auto.
  Qed.
  Lemma L_parse : L (fun _ _ => exists it, lexed it /\ fst (tokenizer_next g pw it) = None)
    (parse_body g pw cfg D (S (length source)) (S (length source))).
  Proof.
    unfold parse_body. apply L_bind; [apply L_read_tokens|intro v]. apply L_bind; [unfold check_root; lx|intros _].
    apply L_last; [apply L_trailing|apply L_ret].
  Qed.
End Lex.

(** The results of the first [k] calls of [next()] on a fresh tokenizer, and the state after them. *)
Definition all_ok (l : list (option (res (error infallible) token))) : Prop :=
  Forall (fun r => exists tk, r = Some (Ok tk)) l.

Lemma next_n_snoc g pw k it rs it1 : next_n g pw k it = (rs, it1) ->
  next_n g pw (S k) it = (rs ++ [fst (tokenizer_next g pw it1)], snd (tokenizer_next g pw it1)).
Proof.
  revert it rs it1. induction k as [|k IH]; intros it rs it1 E.
  - cbn in E. injection E as <- <-. cbn. destruct (tokenizer_next g pw it). reflexivity.
  - cbn [next_n] in E. change (next_n g pw (S (S k)) it) with
      (let '(r, it1) := tokenizer_next g pw it in let '(rs, it2) := next_n g pw (S k) it1 in (r :: rs, it2)).
    destruct (tokenizer_next g pw it) as [r it2]. destruct (next_n g pw k it2) as [rs' it3] eqn:E2. injection E as <- <-.
    rewrite (IH _ _ _ E2). reflexivity.
Qed.

Lemma lexed_next_n g pw s it : input_ok g pw s -> lexed g pw s it ->
  reachable g pw s it /\
  exists k, all_ok (fst (next_n g pw k (tokenizer_new s))) /\
    tokenizer_next g pw (snd (next_n g pw k (tokenizer_new s))) = tokenizer_next g pw it.
Proof.
  intros Hi H. induction H as [|it tk it' H [Hr (k & Hk & E)] Ht|it H [Hr (k & Hk & E)]].
  - split; [exists []; reflexivity|]. exists 0%nat. split; [constructor|reflexivity].
  - split; [pose proof (reachable_next _ _ _ _ Hr) as R; rewrite Ht in R; exact R|].
    exists (S k). destruct (next_n g pw k (tokenizer_new s)) as [rs it1] eqn:En. cbn [fst snd] in *.
    rewrite (next_n_snoc _ _ _ _ _ _ En). cbn [fst snd]. rewrite E, Ht. cbn. split; [|reflexivity].
    apply Forall_app. split; [exact Hk|]. repeat constructor. eauto.
  - split; [apply reachable_peek; exact Hr|]. exists k. split; [exact Hk|].
    rewrite E. symmetry. apply (C18_peek_is_transparent g pw s it Hi Hr).
Qed.

(** A lexical error of the parser is the tokenizer's first error: same kind, same offset; whatever the delegate. *)
Theorem C55_lexical_errors_surface utf8 pw cfg D s st e : input_ok utf8 pw s ->
  fst (parse_bytes utf8 pw cfg D s st) = Err e -> lexical_kind (err_kind e) ->
  exists k e0, all_ok (fst (next_n utf8 pw k (tokenizer_new s))) /\
    fst (tokenizer_next utf8 pw (snd (next_n utf8 pw k (tokenizer_new s)))) = Some (Err e0) /\
    err_offset e = err_offset e0 /\ err_kind e = kind_into_fallable (err_kind e0).
Proof.
  intros Hi E K. pose proof (L_parse utf8 pw cfg D s Hi (parse_state pw cfg D s st) (lx_start utf8 pw s)) as H.
  unfold parse_bytes in E. destruct (parse_body utf8 pw cfg D _ _ _) as [r s']. cbn [fst] in E. subst r.
  destruct (H K) as (it & e0 & Hl & Ht & ->). destruct (lexed_next_n utf8 pw s it Hi Hl) as (_ & k & Hk & En).
  exists k, e0. rewrite En. auto.
Qed.

(** A successful parse means that the tokenizer yields tokens only, up to the end of the input. *)
Theorem C55_accepted_input_tokenizes utf8 pw cfg D s st v : input_ok utf8 pw s ->
  fst (parse_bytes utf8 pw cfg D s st) = Ok v ->
  exists k, all_ok (fst (next_n utf8 pw k (tokenizer_new s))) /\
    fst (tokenizer_next utf8 pw (snd (next_n utf8 pw k (tokenizer_new s)))) = None.
Proof.
  intros Hi E. pose proof (L_parse utf8 pw cfg D s Hi (parse_state pw cfg D s st) (lx_start utf8 pw s)) as H.
  unfold parse_bytes in E. destruct (parse_body utf8 pw cfg D _ _ _) as [r s']. cbn [fst] in E. subst r.
  destruct H as [_ (it & Hl & Ht)]. destruct (lexed_next_n utf8 pw s it Hi Hl) as (_ & k & Hk & En).
  exists k. rewrite En. auto.
Qed.

(** The built-in entry points. *)
Corollary C55_lexical_errors_of_values pw cfg s e : rust_slice pw s ->
  value_from_json_bytes_with_config pw s cfg = Err e -> lexical_kind (err_kind e) ->
  exists k, all_ok (fst (next_n false pw k (tokenizer_new s))) /\
    fst (tokenizer_next false pw (snd (next_n false pw k (tokenizer_new s)))) = Some (Err e).
Proof.
  intros H E K. destruct (C55_lexical_errors_surface false pw cfg value_delegate s tt e H E K) as (k & e0 & H1 & H2 & H3 & H4).
  exists k. split; [exact H1|]. rewrite H2. do 2 f_equal. destruct e as [o ek], e0 as [o0 ek0]. cbn in *. subst.
  f_equal. destruct ek0 as [| | | | | | | | | | | | | | | | | | | | | | | |[]]; reflexivity.
Qed.

(** Errors of the built-in bounded collection surface as their own kind, never as [ErrorFromDelegate]:
    the result type of every entry point has no delegate error, and the only kind a bounded document adds
    is [PaylodTooLarge] ([C14_bounded_errors]); [JsonString]/[JsonNumber::from_json] add
    [ExpectedString]/[ExpectedNumber] only. *)
Theorem C55_only_own_kinds_are_added pw cfg n s e : rust_slice pw s ->
  document_from_json_bytes_with_config pw (Some n) s cfg = Err e ->
  value_from_json_bytes_with_config pw s cfg = Err e \/ err_kind e = KPaylodTooLarge.
Proof.
  intros H E. pose proof (C14_bounded_errors pw cfg n s H) as G.
  pose proof (C14_bounded_capacity pw cfg n s) as C.
  destruct (document_from_json_bytes_with_config pw None s cfg) as [nodes|e'|f] eqn:Ed; [right| |contradiction].
  - destruct (Nat.le_gt_cases (length nodes) n) as [L|L].
    + destruct (C nodes H) as [_ K]. rewrite E in K. discriminate K. auto.
    + destruct (G L) as [o G']. rewrite E in G'. injection G' as ->. reflexivity.
  - rewrite C09_C12_document_bytes in Ed by exact H.
    destruct (value_from_json_bytes_with_config pw s cfg) as [v|e2|f]; try discriminate. injection Ed as ->.
    destruct G as [G|[o G]]; rewrite E in G; injection G as ->; auto.
Qed.

Theorem C55_scalar_parsers_add_only_their_kind pw s e : rust_str pw s ->
  (string_from_json pw s = Err e -> value_from_json pw s = Err e \/ err_kind e = KExpectedString) /\
  (number_from_json pw s = Err e -> value_from_json pw s = Err e \/ err_kind e = KExpectedNumber).
Proof.
  intro H. pose proof (str_scalar pw s H) as G1. pose proof (num_scalar pw s H) as G2. cbn zeta in *.
  destruct (value_from_json pw s) as [v|e'|f]; [| |contradiction]; split; intro E.
  - destruct G1 as [(a & _ & G)|[(o & G) _]]; rewrite G in E; [discriminate|]. injection E as <-. right. reflexivity.
  - destruct G2 as [(a & _ & G)|[(o & G) _]]; rewrite G in E; [discriminate|]. injection E as <-. right. reflexivity.
  - destruct G1 as [G|(o & G)]; rewrite G in E; injection E as <-; auto.
  - destruct G2 as [G|(o & G)]; rewrite G in E; injection E as <-; auto.
Qed.

(** * Concrete cases *)
Example error_sample : value_from_json_bytes W64 (bs "[1, ""\q""]") = Err (Error 6 KInvalidEscape) /\
  fst (next_n false W64 4 (tokenizer_new (bs "[1, ""\q""]"))) =
  [Some (Ok TkArray); Some (Ok (TkNumber (JNum (Borrowed (bs "1"))))); Some (Ok TkComma); Some (Err (Error 6 KInvalidEscape))].
Proof. split; vm_compute; reflexivity. Qed.
