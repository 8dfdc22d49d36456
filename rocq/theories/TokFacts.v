(** Tokens: soundness, completeness, agreement of the str and bytes tokenizers. *)
From Verif Require Import Base Utf8 Utf8Facts StrModel ErrorModel Tokenizer Spec TokBase TokStr TokNum.
Local Open Scope N_scope.

(** The string value the tokenizer builds for the body [raw]: the body verbatim, borrowed, with the
    length of the denoted text. *)
Definition string_for (pw : pwidth) (raw cs : list N) : json_string :=
  JStr (CJson (Borrowed raw)) (info_new pw (has_bs raw) (N.of_nat (length (utf8_string cs)))).

(** [token_text pw tk x]: [x] is a spelling of the token [tk]. *)
Inductive token_text (pw : pwidth) : token -> list N -> Prop :=
| tt_null : token_text pw TkNull lit_null
| tt_true : token_text pw (TkBool true) lit_true
| tt_false : token_text pw (TkBool false) lit_false
| tt_object : token_text pw TkObject [123]
| tt_object_end : token_text pw TkObjectEnd [125]
| tt_array : token_text pw TkArray [91]
| tt_array_end : token_text pw TkArrayEnd [93]
| tt_colon : token_text pw TkColon [58]
| tt_comma : token_text pw TkComma [44]
| tt_string raw cs : str_body raw cs -> token_text pw (TkString (string_for pw raw cs)) (34 :: raw ++ [34])
| tt_number n : number n -> token_text pw (TkNumber (JNum (Borrowed n))) n.

Definition token_is_number (tk : token) : bool := match tk with TkNumber _ => true | _ => false end.

(** What may follow the text [x] of token [tk]. *)
Definition token_stop (tk : token) (x r : list N) : Prop :=
  if token_is_number tk then num_token x r else True.

Definition small (pw : pwidth) (n : nat) : Prop := N.of_nat n <= isize_max pw.

Lemma small_le pw n m : (m <= n)%nat -> small pw n -> small pw m.
Proof. unfold small. lia. Qed.

(** * Literals *)
Lemma read_literal_spec ls : forall pre r,
  match read_literal ls (mk pre r) with
  | (Ok _, it') => exists r', r = ls ++ r' /\ it' = mk (pre ++ ls) r'
  | (Err e, it') => err_ok pre r e it'
  | (Fault _, _) => False
  end.
Proof.
  induction ls as [|l ls IH]; intros pre r; cbn [read_literal].
  - unfold tret. exists r. rewrite app_nil_r. auto.
  - rewrite bi_next_mk. destruct r as [|b r]; [apply err_ok_eof0|].
    destruct (N.eqb_spec b l) as [->|Hb]; cbn [negb].
    + specialize (IH (pre ++ [l]) r). destruct (read_literal ls (mk (pre ++ [l]) r)) as [[u|e|f] it'].
      * destruct IH as (r' & -> & ->). exists r'. split; [reflexivity|rewrite <- app_assoc; reflexivity].
      * apply err_ok_cons. exact IH.
      * exact IH.
    + apply (err_ok_back pre [b] r); [cbn; lia|reflexivity].
Qed.

Lemma read_literal_complete ls : forall pre r,
  read_literal ls (mk pre (ls ++ r)) = (Ok tt, mk (pre ++ ls) r).
Proof.
  induction ls as [|l ls IH]; intros pre r; cbn [read_literal app].
  - rewrite app_nil_r. reflexivity.
  - rewrite bi_next_mk, N.eqb_refl. cbn [negb]. rewrite IH, <- app_assoc. reflexivity.
Qed.

(** * read_string *)
Lemma read_string_spec pw pre r : small pw (length (pre ++ 34 :: r)) ->
  match read_string_from_source false pw (length pre) (mk (pre ++ [34]) r) with
  | (Ok s, it') => exists raw cs r', r = raw ++ 34 :: r' /\ str_body raw cs /\
                     it' = mk (pre ++ 34 :: raw ++ [34]) r' /\ s = string_for pw raw cs
  | (Err e, it') => err_ok (pre ++ [34]) r e it'
  | (Fault _, _) => False
  end.
Proof.
  intro Hs. unfold read_string_from_source. rewrite info_none_new. unfold small in Hs. rewrite app_length in Hs. cbn [length] in Hs.
  pose proof (string_loop_spec pw pre (S (length (bi_bytes (mk (pre ++ [34]) r)))) [] r false 0) as H.
  assert (H1 : (length r < S (length (bi_bytes (mk (pre ++ [34%N]) r))))%nat).
  { cbn. rewrite !app_length. lia. }
  specialize (H H1 ltac:(lia) eq_refl).
  destruct (read_string_loop false pw _ _ _ _) as [[s|e|f] it'].
  - destruct H as (t & cs & r' & -> & Hb & -> & ->). exists t, cs, r'.
    split; [reflexivity|]. split; [exact Hb|]. split; [reflexivity|]. cbn [app orb]. reflexivity.
  - exact H.
  - exact H.
Qed.

Lemma str_body_len t cs : str_body t cs -> (length (utf8_string cs) <= length t)%nat.
Proof.
  induction 1 as [|a c r cs Ha Hr IH]; [reflexivity|]. rewrite utf8_string_cons, !app_length, utf8_encode_length.
  assert (len_utf8 c <= length a)%nat; [|lia].
  assert (Hesc : forall x, a = 92 :: x -> (len_utf8 c <= length a)%nat).
  { intros x ->. apply esc_item in Ha as (_ & H & _). cbn. lia. }
  destruct Ha; try (eapply Hesc; reflexivity). rewrite utf8_encode_length. lia.
Qed.

Lemma read_string_complete pw pre raw cs r : small pw (length raw) -> str_body raw cs ->
  read_string_from_source false pw (length pre) (mk (pre ++ [34]) (raw ++ 34 :: r)) =
  (Ok (string_for pw raw cs), mk (pre ++ 34 :: raw ++ [34]) r).
Proof.
  intros Hs Hb. unfold read_string_from_source. rewrite info_none_new. unfold small in Hs.
  rewrite (string_loop_complete pw pre (length raw) _ [] raw cs r false 0); auto; try lia.
  cbn. rewrite !app_length. cbn. lia.
Qed.

Lemma read_string_agree pw pre r : small pw (length (pre ++ 34 :: r)) -> utf8_valid (pre ++ 34 :: r) = true ->
  read_string_from_source true pw (length pre) (mk (pre ++ [34]) r) =
  read_string_from_source false pw (length pre) (mk (pre ++ [34]) r).
Proof.
  intros Hs Hv. unfold read_string_from_source. rewrite info_none_new. unfold small in Hs.
  rewrite app_length in Hs. cbn [length] in Hs.
  apply (string_loop_agree pw (length pre) (length r)).
  - lia.
  - cbn. rewrite !app_length. cbn. lia.
  - cbn. rewrite !app_length. cbn. lia.
  - lia.
  - eapply utf8_valid_after_ascii; [exact Hv|lia].
Qed.

(** * read_peek *)
Lemma read_peek_agree pw pre b r : small pw (length (pre ++ b :: r)) -> utf8_valid (pre ++ b :: r) = true ->
  read_peek true pw (length pre) b (mk (pre ++ [b]) r) = read_peek false pw (length pre) b (mk (pre ++ [b]) r).
Proof.
  intros Hs Hv. unfold read_peek.
  repeat match goal with |- context [if ?c then _ else _] => destruct c eqn:?; [try reflexivity|] end;
    try reflexivity.
  unfold tbind. apply N.eqb_eq in Heqb6 as ->. rewrite read_string_agree by assumption. reflexivity.
Qed.

Lemma read_peek_spec pw pre b r : small pw (length (pre ++ b :: r)) ->
  match read_peek false pw (length pre) b (mk (pre ++ [b]) r) with
  | (Ok tk, it') => exists y r', r = y ++ r' /\ token_text pw tk (b :: y) /\ it' = mk (pre ++ b :: y) r' /\
                      token_stop tk (b :: y) r'
  | (Err e, it') => err_ok pre (b :: r) e it' /\ (length pre < bi_offset it')%nat
  | (Fault _, _) => False
  end.
Proof.
  intro Hs. unfold read_peek.
  assert (Herr : forall e it', err_ok (pre ++ [b]) r e it' ->
            err_ok pre (b :: r) e it' /\ (length pre < bi_offset it')%nat).
  { intros e it' H. split; [apply err_ok_cons; exact H|].
    destruct H as (x & r' & _ & -> & _). rewrite mk_offset, !app_length. cbn. lia. }
  assert (Hpunct : forall tk, token_text pw tk [b] -> token_is_number tk = false ->
    exists y r', r = y ++ r' /\ token_text pw tk (b :: y) /\ mk (pre ++ [b]) r = mk (pre ++ b :: y) r' /\
                      token_stop tk (b :: y) r').
  { intros tk Ht Hn. exists [], r. unfold token_stop. rewrite Hn. auto. }
  destruct (N.eqb_spec b 123) as [->|]; [apply Hpunct; [constructor|reflexivity]|].
  destruct (N.eqb_spec b 125) as [->|]; [apply Hpunct; [constructor|reflexivity]|].
  destruct (N.eqb_spec b 91) as [->|]; [apply Hpunct; [constructor|reflexivity]|].
  destruct (N.eqb_spec b 93) as [->|]; [apply Hpunct; [constructor|reflexivity]|].
  destruct (N.eqb_spec b 44) as [->|]; [apply Hpunct; [constructor|reflexivity]|].
  destruct (N.eqb_spec b 58) as [->|]; [apply Hpunct; [constructor|reflexivity]|].
  destruct (N.eqb_spec b 34) as [->|].
  { unfold tbind. pose proof (read_string_spec pw pre r Hs) as H.
    destruct (read_string_from_source false pw (length pre) (mk (pre ++ [34]) r)) as [[s|e|f] it'].
    - destruct H as (raw & cs & r' & -> & Hb & -> & ->). exists (raw ++ [34]), r'.
      split; [rewrite <- app_assoc; reflexivity|]. split; [constructor; exact Hb|]. split; [reflexivity|exact I].
    - apply Herr. exact H.
    - exact H. }
  assert (Hnum : forall st, init_ok st b ->
    match (let! n := read_number_from_source st (length pre) in tret (TkNumber n)) (mk (pre ++ [b]) r) with
    | (Ok tk, it') => exists y r', r = y ++ r' /\ token_text pw tk (b :: y) /\ it' = mk (pre ++ b :: y) r' /\
                      token_stop tk (b :: y) r'
    | (Err e, it') => err_ok pre (b :: r) e it' /\ (length pre < bi_offset it')%nat
    | (Fault _, _) => False
    end).
  { intros st Hst. unfold tbind. pose proof (read_number_spec st pre b r Hst) as H.
    destruct (read_number_from_source st (length pre) (mk (pre ++ [b]) r)) as [[s|e|f] it'].
    - destruct H as (x & r' & -> & -> & -> & Ht). exists x, r'. split; [reflexivity|].
      split; [constructor; eapply num_token_number; exact Ht|]. split; [reflexivity|exact Ht].
    - apply Herr. exact H.
    - exact H. }
  destruct (N.eqb_spec b 45) as [->|]; [apply Hnum; reflexivity|].
  destruct (N.eqb_spec b 48) as [->|]; [apply Hnum; reflexivity|].
  destruct ((49 <=? b) && (b <=? 57)) eqn:Ed; [apply Hnum; cbn; lia|]. clear Hnum.
  assert (Hlit : forall ls tk, token_text pw tk (b :: ls) -> token_is_number tk = false ->
    match (let! _ := read_literal ls in tret tk) (mk (pre ++ [b]) r) with
    | (Ok tk, it') => exists y r', r = y ++ r' /\ token_text pw tk (b :: y) /\ it' = mk (pre ++ b :: y) r' /\
                      token_stop tk (b :: y) r'
    | (Err e, it') => err_ok pre (b :: r) e it' /\ (length pre < bi_offset it')%nat
    | (Fault _, _) => False
    end).
  { intros ls tk Ht Hn. unfold tbind. pose proof (read_literal_spec ls (pre ++ [b]) r) as H.
    destruct (read_literal ls (mk (pre ++ [b]) r)) as [[s|e|f] it'].
    - destruct H as (r' & -> & ->). exists ls, r'. unfold tret, token_stop. rewrite Hn, <- app_assoc. auto.
    - apply Herr. exact H.
    - exact H. }
  destruct (N.eqb_spec b 116) as [->|]; [apply Hlit; [constructor|reflexivity]|].
  destruct (N.eqb_spec b 102) as [->|]; [apply Hlit; [constructor|reflexivity]|].
  destruct (N.eqb_spec b 110) as [->|]; [apply Hlit; [constructor|reflexivity]|].
  unfold terr. split; [apply (err_ok_back pre [b] r); [cbn; lia|reflexivity]|].
  rewrite mk_offset, app_length. cbn. lia.
Qed.

Lemma token_text_head pw tk x : token_text pw tk x -> exists b y, x = b :: y /\ ~ ws_byte b /\ b < 128.
Proof.
  unfold ws_byte.
  intros [ | | | | | | | | |raw cs Hb|n Hn]; try (eexists _, _; split; [reflexivity|split; lia]).
  destruct Hn as (m & i & f & e & Hm & Hi & _ & _ & ->).
  destruct Hm as [-> | ->]; [|eexists _, _; split; [reflexivity|split; lia]].
  destruct Hi as [->|(d & ds & Hd & _ & ->)]; (eexists _, _; split; [reflexivity|split; lia]).
Qed.

Lemma number_head_cases c x : number (c :: x) -> c = 45 \/ c = 48 \/ 49 <= c <= 57.
Proof.
  intros (m & i & f & e & Hm & Hi & _ & _ & E).
  destruct Hm as [-> | ->]; [|injection E as -> _; auto].
  destruct Hi as [->|(d & ds & Hd & _ & ->)]; injection E as -> _; auto.
Qed.

Lemma read_peek_complete pw pre b y tk r : small pw (length (b :: y)) ->
  token_text pw tk (b :: y) -> token_stop tk (b :: y) r ->
  read_peek false pw (length pre) b (mk (pre ++ [b]) (y ++ r)) = (Ok tk, mk (pre ++ b :: y) r).
Proof.
  intros Hs Ht Hstop. inversion Ht as [ | | | | | | | | |raw cs Hb|n Hn]; subst;
    try reflexivity;
    try (cbn [read_peek N.eqb Pos.eqb]; unfold read_peek; cbn [N.eqb Pos.eqb N.leb N.compare Pos.compare Pos.compare_cont andb];
         unfold tbind; rewrite read_literal_complete, <- app_assoc; reflexivity).
  - unfold read_peek; cbn [N.eqb Pos.eqb]. unfold tbind. rewrite <- app_assoc. cbn [app].
    rewrite (read_string_complete pw pre raw cs r); [reflexivity| |exact Hb].
    eapply small_le; [|exact Hs]. cbn. rewrite app_length. lia.
  - cbn in Hstop.
    assert (Hnum : forall st, init_ok st b ->
       (let! n := read_number_from_source st (length pre) in tret (TkNumber n)) (mk (pre ++ [b]) (y ++ r)) =
       (Ok (TkNumber (JNum (Borrowed (b :: y)))), mk (pre ++ b :: y) r)).
    { intros st Hst. unfold tbind. rewrite (read_number_complete st pre b y r Hst Hstop). reflexivity. }
    unfold read_peek. destruct (number_head_cases _ _ Hn) as [->|[->|Hd]]; [apply (Hnum INSign eq_refl)|apply (Hnum INZero eq_refl)|].
    repeat match goal with |- context [if b =? ?c then _ else _] => destruct (N.eqb_spec b c); [lia|] end.
    destruct ((49 <=? b) && (b <=? 57)) eqn:E; [|lia]. apply (Hnum INDigit). exact Hd.
Qed.

(** * next_or_eof *)
Lemma next_or_eof_mk g pw pre r :
  next_or_eof g pw (mk pre r) =
  let w := take_while is_ws r in
  match drop_while is_ws r with
  | [] => (Err (Error (length (pre ++ w)) KUnexpectedEof), mk (pre ++ w) [])
  | b :: r' => read_peek g pw (length (pre ++ w)) b (mk ((pre ++ w) ++ [b]) r')
  end.
Proof.
  unfold next_or_eof, read_non_ws. rewrite skip_ws_mk, bi_read_mk. cbn zeta.
  destruct (drop_while is_ws r); reflexivity.
Qed.

Lemma next_or_eof_agree pw pre r : small pw (length (pre ++ r)) -> utf8_valid (pre ++ r) = true ->
  next_or_eof true pw (mk pre r) = next_or_eof false pw (mk pre r).
Proof.
  intros Hs Hv. rewrite !next_or_eof_mk. cbn zeta. rewrite <- (take_drop is_ws r), app_assoc in Hs, Hv.
  destruct (drop_while is_ws r) as [|b r']; [reflexivity|]. apply read_peek_agree; assumption.
Qed.

(** The hypothesis under which the tokenizer is called: a slice Rust can represent, and valid UTF-8
    when GUARANTEED_UTF8. *)
Definition good (g : bool) (pw : pwidth) (s : list N) : Prop :=
  small pw (length s) /\ (g = true -> utf8_valid s = true).

Lemma next_or_eof_false g pw pre r : good g pw (pre ++ r) ->
  next_or_eof g pw (mk pre r) = next_or_eof false pw (mk pre r).
Proof. intros [Hs Hg]. destruct g; [apply next_or_eof_agree; auto|reflexivity]. Qed.

Lemma next_or_eof_spec g pw pre r : good g pw (pre ++ r) ->
  match next_or_eof g pw (mk pre r) with
  | (Ok tk, it') => exists w x r', r = w ++ x ++ r' /\ ws w /\ token_text pw tk x /\
                      it' = mk (pre ++ w ++ x) r' /\ token_stop tk x r'
  | (Err e, it') => err_ok pre r e it'
  | (Fault _, _) => False
  end.
Proof.
  intro Hg. rewrite (next_or_eof_false g) by exact Hg. destruct Hg as [Hs _]. rewrite next_or_eof_mk. cbn zeta.
  pose proof (take_drop is_ws r) as E. pose proof (ws_take r) as Hw.
  set (w := take_while is_ws r) in *. set (d := drop_while is_ws r) in *. clearbody w d. subst r.
  destruct d as [|b r'].
  - rewrite app_length. rewrite app_nil_r. apply err_ok_eof.
  - rewrite app_assoc in Hs. pose proof (read_peek_spec pw (pre ++ w) b r' Hs) as H.
    destruct (read_peek false pw (length (pre ++ w)) b (mk ((pre ++ w) ++ [b]) r')) as [[tk|e|f] it'].
    + destruct H as (y & r2 & -> & Ht & -> & Hst). exists w, (b :: y), r2.
      split; [reflexivity|]. split; [exact Hw|]. split; [exact Ht|]. split; [rewrite <- app_assoc; reflexivity|exact Hst].
    + apply err_ok_app. apply H.
    + exact H.
Qed.

Lemma next_or_eof_complete g pw pre w x tk r : good g pw (pre ++ w ++ x ++ r) ->
  ws w -> token_text pw tk x -> token_stop tk x r ->
  next_or_eof g pw (mk pre (w ++ x ++ r)) = (Ok tk, mk (pre ++ w ++ x) r).
Proof.
  intros Hg Hw Ht Hst. rewrite (next_or_eof_false g) by exact Hg. destruct Hg as [Hs _].
  destruct (token_text_head _ _ _ Ht) as (b & y & -> & Hb & _).
  unfold next_or_eof, read_non_ws. cbn [app]. rewrite skip_ws_mk_app by assumption.
  rewrite bi_read_mk. rewrite (read_peek_complete pw (pre ++ w) b y tk r); [|..]; auto.
  - rewrite <- app_assoc. reflexivity.
  - eapply small_le; [|exact Hs]. rewrite !app_length. lia.
Qed.
