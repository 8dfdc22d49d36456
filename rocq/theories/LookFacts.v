(** Proof infrastructure for LookModel.v: without the list of looks it is the same program. *)
From Verif Require Import Base Utf8 StrModel ErrorModel Tokenizer Parser LookModel.

(** * Erasure *)
Definition erases {A} (c : ctok A) (m : tok A) : Prop := forall it, fst (c it) = m it.

Lemma er_bind {A B} (c : ctok A) m (k : A -> ctok B) k' : erases c m -> (forall a, erases (k a) (k' a)) -> erases (cbind c k) (tbind m k').
Proof.
  intros H Hk it. unfold cbind, tbind. rewrite <- H. destruct (c it) as [[[a|e|f] it1] n]; cbn [fst]; try reflexivity.
  rewrite <- Hk. destruct (k a it1). reflexivity.
Qed.
Lemma er_ret {A} (a : A) : erases (cret a) (tret a).
Proof. intro. reflexivity. Qed.
Lemma er_err {A} e : erases (cerr e) (terr (A := A) e).
Proof. intro. reflexivity. Qed.
Lemma er_fault {A} e : erases (cfault e) (tfault (A := A) e).
Proof. intro. reflexivity. Qed.
Lemma er_lift {A} (r : res (error infallible) A) : erases (clift r) (tlift r).
Proof. intro. reflexivity. Qed.
Lemma er_read : erases c_read bi_read.
Proof. intro it. unfold c_read, bi_read, c_next. destruct (bi_next it) as [[x|] it1]; reflexivity. Qed.
Lemma er_get : erases c_get_iter get_iter.
Proof. intro. reflexivity. Qed.
Lemma er_bump : erases c_bump bump.
Proof. intro. reflexivity. Qed.
Lemma er_peeked {A} (k : option N -> ctok A) (k' : byte_iter -> tok A) : (forall it, erases (k (bi_peek it)) (k' it)) ->
  erases (cbind c_peeked k) (tbind get_iter k').
Proof.
  intros H it. unfold cbind, tbind, c_peeked, c_peek, get_iter. rewrite <- (H it it). destruct (k (bi_peek it) it). reflexivity.
Qed.
Ltac er := first [apply er_ret|apply er_err|apply er_fault|apply er_lift|apply er_read|apply er_get|apply er_bump].

Lemma er_hex n : forall acc, erases (c_read_hex n acc) (read_hex n acc).
Proof.
  induction n as [|n IH]; intro acc; cbn [c_read_hex read_hex]; [er|]. apply er_bind; [er|]. intros [o d]. cbv zeta.
  destruct (_ =? 255)%N; [er|apply IH].
Qed.
Lemma er_second d : erases (c_read_second_half d) (read_second_half d).
Proof.
  unfold c_read_second_half, read_second_half. destruct (_ && _)%bool; [|er]. apply er_bind; [er|]. intros [o b1].
  destruct (b1 =? 92)%N; [|er]. apply er_bind; [er|]. intros [o2 b2]. destruct (b2 =? 117)%N; [|er].
  apply er_bind; [apply er_hex|]. intro x. destruct (_ && _)%bool; [|er]. apply er_bind; [er|]. intro. er.
Qed.
Lemma er_escape pw i : erases (c_read_string_escape pw i) (read_string_escape pw i).
Proof.
  unfold c_read_string_escape, read_string_escape. apply er_bind; [er|]. intros [o b]. destruct (_ || _)%bool; [er|].
  destruct (b =? 117)%N; [|er]. apply er_bind; [apply er_hex|]. intro d. apply er_bind; [|intro; er].
  destruct (char_from_u32 d); [er|]. apply er_bind; [apply er_second|]. intros [m|]; er.
Qed.
Lemma skip_high_loop_eq rest : forall o, fst (c_skip_high_loop rest o) = skip_high_loop rest o.
Proof.
  induction rest as [|b r IH]; intro o; cbn [c_skip_high_loop skip_high_loop]; [reflexivity|]. destruct (b <? 128)%N; [reflexivity|].
  rewrite <- IH. destruct (c_skip_high_loop r (o + 1)). reflexivity.
Qed.
Lemma skip_high_eq it : fst (c_skip_high it) = skip_high it.
Proof. unfold c_skip_high, skip_high. rewrite <- skip_high_loop_eq. destruct (c_skip_high_loop _ _). reflexivity. Qed.
Lemma er_string g pw fuel : forall start i, erases (c_read_string_loop g pw fuel start i) (read_string_loop g pw fuel start i).
Proof.
  induction fuel as [|fuel IH]; intros start i; cbn [c_read_string_loop read_string_loop]; [er|]. intro it. unfold c_next.
  destruct (bi_next it) as [[[o b]|] it1]; [|reflexivity]. cbv zeta.
  match goal with |- fst (let '(r, n') := ?X in _) = _ => transitivity (fst X); [destruct X; reflexivity|] end.
  destruct (table_get _ _ _). { apply er_bind; [er|]. intro. apply IH. }
  destruct (b =? 34)%N. { apply er_bind; [er|]. intro. er. }
  destruct (b =? 92)%N. { apply er_bind; [apply er_escape|]. intro. apply IH. }
  destruct (128 <=? b)%N.
  { rewrite <- skip_high_eq. destruct (c_skip_high it1) as [it2 n2]. cbn [fst].
    match goal with |- fst (let '(r, n') := ?X in _) = _ => transitivity (fst X); [destruct X; reflexivity|] end.
    apply er_bind; [er|]. intro i'. destruct (slice _ _ _) as [run|]; [|er].
    intro it3. unfold cbind, looks. cbn [fst]. 
    match goal with |- fst (let '(r, n') := ?X in _) = _ => transitivity (fst X); [destruct X; reflexivity|] end.
    destruct (utf8_valid run); [apply IH|reflexivity]. }
  destruct (b <=? 31)%N; reflexivity.
Qed.
Lemma int_loop_eq rest : forall o f, fst (c_int_loop rest o f) = int_loop rest o f.
Proof.
  induction rest as [|b r IH]; intros o f; cbn [c_int_loop int_loop]; [reflexivity|]. destruct (_ && _)%bool; [reflexivity|].
  destruct (is_digit b); [|reflexivity]. rewrite <- IH. destruct (c_int_loop r (o + 1) true). reflexivity.
Qed.
Lemma digits_loop_eq rest : forall o f, fst (c_digits_loop rest o f) = digits_loop rest o f.
Proof.
  induction rest as [|b r IH]; intros o f; cbn [c_digits_loop digits_loop]; [reflexivity|].
  destruct (is_digit b); [|reflexivity]. rewrite <- IH. destruct (c_digits_loop r (o + 1) true). reflexivity.
Qed.
Lemma er_int f : erases (c_read_int f) (read_int f).
Proof. intro it. unfold c_read_int, read_int. rewrite <- int_loop_eq. destruct (c_int_loop _ _ _) as [[o b] n]. reflexivity. Qed.
Lemma er_digits : erases c_read_digits read_digits.
Proof. intro it. unfold c_read_digits, read_digits. rewrite <- digits_loop_eq. destruct (c_digits_loop _ _ _) as [[o b] n]. reflexivity. Qed.
Lemma er_number st start : erases (c_read_number_from_source st start) (read_number_from_source st start).
Proof.
  unfold c_read_number_from_source, read_number_from_source. apply er_bind.
  { assert (H : forall f, erases (cbind (c_read_int f) (fun f => cbind c_get_iter (fun it => if f : bool then cret tt else cerr (Error (bi_offset it) KExpectedDigit))))
      (tbind (read_int f) (fun f => tbind get_iter (fun it => if f : bool then tret tt else terr (Error (bi_offset it) KExpectedDigit))))).
    { intro f. apply er_bind; [apply er_int|]. intro x. apply er_bind; [er|]. intro it. destruct x; er. }
    destruct st; [er|apply H|apply H]. }
  intros _. apply er_bind.
  { unfold c_read_number_frac, read_number_frac. apply er_peeked. intro it. destruct (bi_peek it) as [b|]; [|er]. destruct (b =? 46)%N; [|er].
    apply er_bind; [er|]. intros _. apply er_bind; [apply er_digits|]. intro f. apply er_bind; [er|]. intro. destruct f; er. }
  intros _. apply er_bind.
  { unfold c_read_number_exp, read_number_exp. apply er_peeked. intro it. destruct (bi_peek it) as [b|]; [|er]. destruct (_ || _)%bool; [|er].
    apply er_bind; [er|]. intros _. apply er_peeked. intro it2. apply er_bind.
    - destruct (bi_peek it2) as [s|]; [|er]. destruct (_ || _)%bool; er.
    - intros _. apply er_bind; [apply er_digits|]. intro f. apply er_bind; [er|]. intro. destruct f; er. }
  intros _. apply er_bind; [er|]. intro it. apply er_bind; [er|]. intro. er.
Qed.
Lemma er_literal l : erases (c_read_literal l) (read_literal l).
Proof.
  induction l as [|e l IH]; cbn [c_read_literal read_literal]; [er|]. intro it. unfold c_next. destruct (bi_next it) as [[[o b]|] it1]; [|reflexivity].
  destruct (negb _); [reflexivity|]. rewrite <- IH. destruct (c_read_literal l it1). reflexivity.
Qed.
Lemma er_read_peek g pw o b : erases (c_read_peek g pw o b) (read_peek g pw o b).
Proof.
  unfold c_read_peek, read_peek. repeat match goal with |- erases (if ?x then _ else _) _ => destruct x end; try er;
    (apply er_bind; [|intro; er]); try apply er_number; try apply er_literal.
  intro it. unfold c_read_string_from_source, read_string_from_source. apply er_string.
Qed.
Lemma skip_ws_loop_eq rest : forall o, fst (c_skip_ws_loop rest o) = skip_ws_loop rest o.
Proof.
  induction rest as [|b r IH]; intro o; cbn [c_skip_ws_loop skip_ws_loop]; [reflexivity|]. destruct (is_ws b); [|reflexivity].
  rewrite <- IH. destruct (c_skip_ws_loop r (o + 1)). reflexivity.
Qed.
Lemma skip_ws_eq it : fst (c_skip_ws it) = skip_ws it.
Proof. unfold c_skip_ws, skip_ws. rewrite <- skip_ws_loop_eq. destruct (c_skip_ws_loop _ _). reflexivity. Qed.
Lemma next_non_ws_eq it : fst (c_next_non_ws it) = next_non_ws it.
Proof. unfold c_next_non_ws, next_non_ws. rewrite <- skip_ws_eq. destruct (c_skip_ws it). reflexivity. Qed.
Lemma er_next_or_eof g pw : erases (c_next_or_eof g pw) (next_or_eof g pw).
Proof.
  intro it. unfold c_next_or_eof, next_or_eof, c_read_non_ws, read_non_ws. rewrite <- skip_ws_eq. destruct (c_skip_ws it) as [it1 n1]. cbn [fst].
  rewrite <- (er_read it1). destruct (c_read it1) as [[[[o b]|e|f] it2] n2]; cbn [fst]; try reflexivity.
  rewrite <- (er_read_peek g pw o b it2). destruct (c_read_peek g pw o b it2). reflexivity.
Qed.
Lemma tokenizer_next_eq g pw it : fst (c_tokenizer_next g pw it) = tokenizer_next g pw it.
Proof.
  unfold c_tokenizer_next, tokenizer_next. rewrite <- next_non_ws_eq. destruct (c_next_non_ws it) as [[[[o b]|] it1] n]; [|reflexivity]. cbn [fst].
  rewrite <- (er_read_peek g pw o b it1). destruct (c_read_peek g pw o b it1) as [[r it2] n2]. reflexivity.
Qed.
Lemma tokenizer_peek_eq it : fst (c_tokenizer_peek it) = tokenizer_peek it.
Proof.
  unfold c_tokenizer_peek, tokenizer_peek. rewrite <- skip_ws_eq. destruct (c_skip_ws it) as [it1 n]. cbn [fst c_peek]. destruct (bi_peek it1); reflexivity.
Qed.

Section ParserErase.
  Variables (g : bool) (pw : pwidth) (cfg : parse_config) (D : delegate).
  Definition perases {A} (c : cpm D A) (m : pm D A) : Prop := forall s, fst (c s) = m s.
  Lemma pe_blind {A} (m : pm D A) : perases (blind D m) m.
  Proof. intro. reflexivity. Qed.
  Lemma pe_bind {A B} (c : cpm D A) m (k : A -> cpm D B) k' : perases c m -> (forall a, perases (k a) (k' a)) -> perases (cpbind D c k) (pbind D m k').
  Proof.
    intros H Hk s. unfold cpbind, pbind. rewrite <- H. destruct (c s) as [[[a|e|f] s1] n]; cbn [fst]; try reflexivity.
    rewrite <- Hk. destruct (k a s1). reflexivity.
  Qed.
  Lemma pe_tok conv : perases (cp_tok_err D conv (c_next_or_eof g pw)) (p_tok_err D conv (next_or_eof g pw)).
  Proof. intro s. unfold cp_tok_err, p_tok_err. rewrite <- er_next_or_eof. destruct (c_next_or_eof g pw (ps_iter s)) as [[r it] n]. reflexivity. Qed.
  Lemma pe_map {A} f (c : cpm D A) m : perases c m -> perases (cp_map_err D f c) (p_map_err D f m).
  Proof. intros H s. unfold cp_map_err, p_map_err. rewrite <- H. destruct (c s) as [[r s1] n]. reflexivity. Qed.
  Lemma pe_peek : perases (c_peek_array_end D) (peek_array_end D).
  Proof.
    intro s. unfold c_peek_array_end, peek_array_end. rewrite <- tokenizer_peek_eq. destruct (c_tokenizer_peek (ps_iter s)) as [[o it] n]. reflexivity.
  Qed.
  Ltac pe := repeat first [apply pe_blind | apply pe_tok | apply pe_peek | apply pe_bind; [|intro]
    | match goal with |- perases (match ?t with TkNull => _ | _ => _ end) _ => destruct t end
    | match goal with |- perases (if ?t then _ else _) _ => destruct t end ].
  Lemma pe_object rv rv' : perases rv rv' -> forall n o, perases (c_object_loop g pw cfg D rv n o) (object_loop g pw cfg D rv' n o).
  Proof.
    intro H. induction n as [|n IH]; intro o; cbn [c_object_loop object_loop]; [intro; reflexivity|]. unfold cp_tok, p_tok. pe.
    match goal with x : (d_object D * d_key D)%type |- _ => destruct x end. pe; [exact H|apply IH].
  Qed.
  Lemma pe_array rv rv' : perases rv rv' -> forall n o, perases (c_array_loop g pw cfg D rv n o) (array_loop g pw cfg D rv' n o).
  Proof.
    intro H. induction n as [|n IH]; intro o; cbn [c_array_loop array_loop]; [intro; reflexivity|]. unfold cp_tok, p_tok. pe; [exact H|apply IH].
  Qed.
  Lemma pe_tokens loops fuel : perases (c_read_tokens g pw cfg D loops fuel) (read_tokens g pw cfg D loops fuel).
  Proof.
    induction fuel as [|fuel IH]; cbn [c_read_tokens read_tokens]; [intro; reflexivity|]. unfold cp_tok, p_tok. pe; apply pe_map.
    - unfold c_read_object, read_object. pe. apply pe_object, IH.
    - unfold c_read_array, read_array. pe. apply pe_array, IH.
  Qed.
  Lemma pe_trailing : perases (c_check_trailing D) (check_trailing D).
  Proof.
    intro s. unfold c_check_trailing, check_trailing. rewrite <- next_non_ws_eq. destruct (c_next_non_ws (ps_iter s)) as [[[[o b]|] it] n]; reflexivity.
  Qed.
  Lemma parse_eq source st : fst (c_parse_bytes g pw cfg D source st) = parse_bytes g pw cfg D source st.
  Proof.
    unfold c_parse_bytes, parse_bytes.
    assert (H : forall l f, perases (c_parse_body g pw cfg D l f) (parse_body g pw cfg D l f)).
    { intros l f. unfold c_parse_body, parse_body. pe; [apply pe_tokens|apply pe_trailing]. }
    cbv zeta. rewrite <- H. destruct (c_parse_body _ _ _ _ _ _ _) as [[r s] n]. reflexivity.
  Qed.
End ParserErase.
