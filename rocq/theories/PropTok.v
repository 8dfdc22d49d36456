(** Property theorems about the Tokenizer (C16-C21, C50, C03 and C04 for tokens). *)
From Verif Require Import Base Utf8 Utf8Facts StrModel ErrorModel Tokenizer Parser ValueModel DocModel Spec
  TokBase TokStr TokNum TokFacts ParserGen StrSpec View ParseMain.
Local Open Scope N_scope.

(** * Histories of calls on one tokenizer *)
Inductive tok_call : Type := CallNext | CallNextOrEof | CallPeek.
Inductive tok_obs : Type :=
| ObsNext (r : option (res (error infallible) token)) (offset : nat)
| ObsNextOrEof (r : res (error infallible) token) (offset : nat)
| ObsPeek (r : option peek_kind) (offset : nat).

(** One call: what it returns together with [offset()] afterwards. *)
Definition tok_step (g : bool) (pw : pwidth) (it : byte_iter) (c : tok_call) : tok_obs * byte_iter :=
  match c with
  | CallNext => let '(r, it') := tokenizer_next g pw it in (ObsNext r (tokenizer_offset it'), it')
  | CallNextOrEof => let '(r, it') := next_or_eof g pw it in (ObsNextOrEof r (tokenizer_offset it'), it')
  | CallPeek => let '(r, it') := tokenizer_peek it in (ObsPeek r (tokenizer_offset it'), it')
  end.
Fixpoint tok_run (g : bool) (pw : pwidth) (it : byte_iter) (cs : list tok_call) : list tok_obs * byte_iter :=
  match cs with
  | [] => ([], it)
  | c :: cs' =>
    let '(o, it1) := tok_step g pw it c in let '(os, it2) := tok_run g pw it1 cs' in (o :: os, it2)
  end.

(** [it] is a state of a tokenizer over [s] after some sequence of calls. [utf8] tells whether it was made
    with [Tokenizer::for_json(str)] or [for_json_bytes]. *)
Definition input_ok (utf8 : bool) (pw : pwidth) (s : list N) : Prop :=
  if utf8 then rust_str pw s else rust_slice pw s.
Definition reachable (utf8 : bool) (pw : pwidth) (s : list N) (it : byte_iter) : Prop :=
  exists calls, it = snd (tok_run utf8 pw (tokenizer_new s) calls).

(** Number of calls in a row that return [Some]. *)
Fixpoint next_n (g : bool) (pw : pwidth) (k : nat) (it : byte_iter) : list (option (res (error infallible) token)) * byte_iter :=
  match k with
  | O => ([], it)
  | S k' => let '(r, it1) := tokenizer_next g pw it in let '(rs, it2) := next_n g pw k' it1 in (r :: rs, it2)
  end.

(** How a token is spelled. *)
Inductive spelled : token -> list N -> Prop :=
| sp_null : spelled TkNull (bs "null")
| sp_true : spelled (TkBool true) (bs "true")
| sp_false : spelled (TkBool false) (bs "false")
| sp_object : spelled TkObject (bs "{")
| sp_object_end : spelled TkObjectEnd (bs "}")
| sp_array : spelled TkArray (bs "[")
| sp_array_end : spelled TkArrayEnd (bs "]")
| sp_colon : spelled TkColon (bs ":")
| sp_comma : spelled TkComma (bs ",")
| sp_string str cs : is_json_form str -> str_body (stored str) cs -> spelled (TkString str) ([34] ++ stored str ++ [34])
| sp_number n : number (any_str (jn_source n)) -> spelled (TkNumber n) (any_str (jn_source n)).

Definition kind_of_token (tk : token) : peek_kind :=
  match tk with
  | TkNull => PkNull | TkBool true => PkTrue | TkBool false => PkFalse | TkString _ => PkString
  | TkNumber _ => PkNumber | TkObject => PkObject | TkObjectEnd => PkObjectEnd | TkArray => PkArray
  | TkArrayEnd => PkArrayEnd | TkColon => PkColon | TkComma => PkComma
  end.

(** * Proofs *)
Lemma input_good g pw s : input_ok g pw s -> good g pw s.
Proof. destruct g; [apply rust_str_good|apply rust_slice_good]. Qed.

Lemma tokenizer_next_mk g pw pre r :
  tokenizer_next g pw (mk pre r) =
  let w := take_while is_ws r in
  match drop_while is_ws r with
  | [] => (None, mk (pre ++ w) [])
  | b :: r' => let '(x, it) := read_peek g pw (length (pre ++ w)) b (mk ((pre ++ w) ++ [b]) r') in (Some x, it)
  end.
Proof.
  unfold tokenizer_next, next_non_ws. rewrite skip_ws_mk. cbn zeta. rewrite bi_next_mk.
  destruct (drop_while is_ws r); reflexivity.
Qed.

Lemma tokenizer_peek_mk pre r :
  tokenizer_peek (mk pre r) =
  let w := take_while is_ws r in
  (match drop_while is_ws r with [] => None | b :: _ => Some (peek_kind_of b) end, mk (pre ++ w) (drop_while is_ws r)).
Proof.
  unfold tokenizer_peek. rewrite skip_ws_mk. cbn zeta. rewrite bi_peek_mk. destruct (drop_while is_ws r); reflexivity.
Qed.

(** What one [next] does, from position [pre | r]. *)
Lemma tokenizer_next_spec g pw pre r : good g pw (pre ++ r) ->
  match tokenizer_next g pw (mk pre r) with
  | (None, it') => ws r /\ it' = mk (pre ++ r) []
  | (Some (Ok tk), it') => exists w x r', r = w ++ x ++ r' /\ ws w /\ token_text pw tk x /\
                             it' = mk (pre ++ w ++ x) r' /\ token_stop tk x r'
  | (Some (Err e), it') => err_ok pre r e it' /\ (length pre < bi_offset it')%nat
  | (Some (Fault _), _) => False
  end.
Proof.
  intro Hg. rewrite tokenizer_next_mk. cbn zeta.
  pose proof (take_drop is_ws r) as E. pose proof (ws_take r) as Hw.
  set (w := take_while is_ws r) in *. set (d := drop_while is_ws r) in *. clearbody w d. subst r.
  destruct d as [|b r'].
  - rewrite app_nil_r. auto.
  - rewrite app_assoc in Hg. destruct Hg as [Hs Hu].
    assert (Ea : read_peek g pw (length (pre ++ w)) b (mk ((pre ++ w) ++ [b]) r') = read_peek false pw (length (pre ++ w)) b (mk ((pre ++ w) ++ [b]) r')).
    { destruct g; [apply read_peek_agree; auto|reflexivity]. }
    rewrite Ea. pose proof (read_peek_spec pw (pre ++ w) b r' Hs) as H.
    destruct (read_peek false pw (length (pre ++ w)) b (mk ((pre ++ w) ++ [b]) r')) as [[tk|e|f] it'].
    + destruct H as (y & r2 & -> & Ht & -> & Hst). exists w, (b :: y), r2.
      split; [reflexivity|]. split; [exact Hw|]. split; [exact Ht|]. split; [rewrite <- app_assoc; reflexivity|exact Hst].
    + destruct H as [H1 H2]. split; [apply err_ok_app; exact H1|]. rewrite app_length in H2. lia.
    + exact H.
Qed.

(** Reachable states are positions in the input. *)
Lemma step_pos g pw pre r c : good g pw (pre ++ r) ->
  exists x r', r = x ++ r' /\ snd (tok_step g pw (mk pre r) c) = mk (pre ++ x) r'.
Proof.
  intro Hg. destruct c; unfold tok_step.
  - pose proof (tokenizer_next_spec g pw pre r Hg) as H.
    destruct (tokenizer_next g pw (mk pre r)) as [[[tk|e|f]|] it']; cbn [snd].
    + destruct H as (w & x & r' & -> & _ & _ & -> & _). exists (w ++ x), r'. rewrite app_assoc. auto.
    + destruct H as [(x & r' & -> & -> & _) _]. eauto.
    + destruct H.
    + destruct H as [_ ->]. exists r, []. rewrite app_nil_r. auto.
  - pose proof (next_or_eof_spec g pw pre r Hg) as H.
    destruct (next_or_eof g pw (mk pre r)) as [[tk|e|f] it']; cbn [snd].
    + destruct H as (w & x & r' & -> & _ & _ & -> & _). exists (w ++ x), r'. rewrite app_assoc. auto.
    + destruct H as (x & r' & -> & -> & _). eauto.
    + destruct H.
  - rewrite tokenizer_peek_mk. cbn [snd]. exists (take_while is_ws r), (drop_while is_ws r). rewrite take_drop. auto.
Qed.

Lemma run_pos g pw cs : forall pre r, good g pw (pre ++ r) ->
  exists x r', r = x ++ r' /\ snd (tok_run g pw (mk pre r) cs) = mk (pre ++ x) r'.
Proof.
  induction cs as [|c cs IH]; intros pre r Hg.
  - exists [], r. rewrite app_nil_r. auto.
  - destruct (step_pos g pw pre r c Hg) as (x & r' & -> & E). cbn [tok_run].
    destruct (tok_step g pw (mk pre (x ++ r')) c) as [o it1]. cbn [snd] in E. subst it1.
    rewrite app_assoc in Hg. destruct (IH (pre ++ x) r' Hg) as (x' & r2 & -> & E).
    destruct (tok_run g pw (mk (pre ++ x) (x' ++ r2)) cs) as [os it2]. cbn [snd] in *. subst it2.
    exists (x ++ x'), r2. rewrite !app_assoc. auto.
Qed.

Lemma reachable_pos g pw s it : input_ok g pw s -> reachable g pw s it ->
  exists pre r, s = pre ++ r /\ it = mk pre r /\ good g pw (pre ++ r).
Proof.
  intros Hi [cs ->]. apply input_good in Hi. destruct (run_pos g pw cs [] s Hi) as (x & r & -> & E).
  exists x, r. auto.
Qed.

Lemma tok_run_app g pw cs1 cs2 it : snd (tok_run g pw it (cs1 ++ cs2)) = snd (tok_run g pw (snd (tok_run g pw it cs1)) cs2).
Proof.
  revert it. induction cs1 as [|c cs1 IH]; intro it; [reflexivity|]. cbn [app tok_run].
  destruct (tok_step g pw it c) as [o it1]. specialize (IH it1).
  destruct (tok_run g pw it1 (cs1 ++ cs2)) as [a b], (tok_run g pw it1 cs1) as [a' b']. cbn [snd] in *. exact IH.
Qed.

Lemma reachable_next g pw s it : reachable g pw s it -> reachable g pw s (snd (tokenizer_next g pw it)).
Proof.
  intros [cs ->]. exists (cs ++ [CallNext]). rewrite tok_run_app. cbn.
  destruct (tokenizer_next g pw _) as [r it']. reflexivity.
Qed.
Lemma reachable_peek g pw s it : reachable g pw s it -> reachable g pw s (snd (tokenizer_peek it)).
Proof.
  intros [cs ->]. exists (cs ++ [CallPeek]). rewrite tok_run_app. cbn.
  destruct (tokenizer_peek _) as [r it']. reflexivity.
Qed.

Lemma token_text_spelled pw tk x : token_text pw tk x -> spelled tk x.
Proof.
  intros [ | | | | | | | | |raw cs Hb|n Hn]; try constructor; auto.
  exact (sp_string (string_for pw raw cs) cs I Hb).
Qed.

(** ** C03: str and bytes tokenizers agree, call by call *)
Theorem C03_tokenizers_agree pw s calls : rust_str pw s ->
  tok_run true pw (tokenizer_new s) calls = tok_run false pw (tokenizer_new s) calls.
Proof.
  intro H. apply rust_str_good in H. change (tokenizer_new s) with (mk [] s).
  change s with ([] ++ s) in H. generalize dependent s. generalize (@nil N) as pre.
  induction calls as [|c cs IH]; intros pre s Hg; [reflexivity|]. cbn [tok_run].
  assert (E : tok_step true pw (mk pre s) c = tok_step false pw (mk pre s) c).
  { destruct c; unfold tok_step; [| |reflexivity].
    - rewrite !tokenizer_next_mk. cbn zeta. destruct Hg as [Hs Hv]. specialize (Hv eq_refl).
      rewrite <- (take_drop is_ws s), app_assoc in Hs, Hv. destruct (drop_while is_ws s) as [|b r]; [reflexivity|].
      rewrite read_peek_agree by assumption. reflexivity.
    - rewrite (next_or_eof_false true pw pre s Hg). reflexivity. }
  destruct (step_pos true pw pre s c Hg) as (x & r & Es & E2). rewrite <- E. 
  destruct (tok_step true pw (mk pre s) c) as [o it]. cbn [snd] in E2. subst it s.
  rewrite app_assoc in Hg. rewrite (IH (pre ++ x) r Hg). reflexivity.
Qed.

(** ** C16, C50 *)
Theorem C16_C50_token_error_offsets utf8 pw s it e it' : input_ok utf8 pw s -> reachable utf8 pw s it ->
  (tokenizer_next utf8 pw it = (Some (Err e), it') \/ next_or_eof utf8 pw it = (Err e, it')) ->
  (err_offset e <= length s)%nat /\
  (match err_kind e with
   | KUnexpectedEof | KUnclosedObject | KUnclosedArray | KUnclosedString => True | _ => False end ->
   err_offset e = length s).
Proof.
  intros Hi Hr H. destruct (reachable_pos _ _ _ _ Hi Hr) as (pre & r & -> & -> & Hg).
  assert (He : err_ok pre r e it').
  { destruct H as [H|H].
    - pose proof (tokenizer_next_spec utf8 pw pre r Hg) as G. rewrite H in G. apply G.
    - pose proof (next_or_eof_spec utf8 pw pre r Hg) as G. rewrite H in G. exact G. }
  destruct He as (x & r' & -> & _ & Ho & Hk). rewrite !app_length. split; [lia|].
  intro K. destruct Hk as [-> ->]; [destruct (err_kind e); try destruct K; reflexivity|cbn; lia].
Qed.

(** ** C04, C05: no panic, whatever was called before; only valid text is handed out *)
Theorem C05_tokenizer_never_panics utf8 pw s it f : input_ok utf8 pw s -> reachable utf8 pw s it ->
  fst (tokenizer_next utf8 pw it) <> Some (Fault f) /\ fst (next_or_eof utf8 pw it) <> Fault f.
Proof.
  intros Hi Hr. destruct (reachable_pos _ _ _ _ Hi Hr) as (pre & r & -> & -> & Hg). split.
  - pose proof (tokenizer_next_spec utf8 pw pre r Hg) as G. intro E.
    destruct (tokenizer_next utf8 pw (mk pre r)) as [o it']. cbn in E. subst o. exact G.
  - pose proof (next_or_eof_spec utf8 pw pre r Hg) as G. intro E.
    destruct (next_or_eof utf8 pw (mk pre r)) as [o it']. cbn in E. subst o. exact G.
Qed.

(** Every token is spelled in the input, after whitespace only, between the offsets before and after. *)
Theorem C04_C20_C21_tokens_are_spelled_in_input utf8 pw s it tk it' : input_ok utf8 pw s -> reachable utf8 pw s it ->
  tokenizer_next utf8 pw it = (Some (Ok tk), it') ->
  exists pre w x r, s = pre ++ w ++ x ++ r /\ tokenizer_offset it = length pre /\
    tokenizer_offset it' = length (pre ++ w ++ x) /\ ws w /\ spelled tk x /\ is_utf8 x.
Proof.
  intros Hi Hr H. destruct (reachable_pos _ _ _ _ Hi Hr) as (pre & r & -> & -> & Hg).
  pose proof (tokenizer_next_spec utf8 pw pre r Hg) as G. rewrite H in G.
  destruct G as (w & x & r' & -> & Hw & Ht & -> & _). exists pre, w, x, r'.
  split; [reflexivity|]. split; [reflexivity|]. split; [reflexivity|]. split; [exact Hw|].
  split; [exact (token_text_spelled _ _ _ Ht)|]. apply utf8_valid_iff.
  destruct Ht as [ | | | | | | | | |raw cs Hb|n Hn]; try reflexivity.
  - apply valid_cons; [lia|]. apply valid_app; [eapply str_body_valid; exact Hb|reflexivity].
  - apply utf8_valid_ascii, number_ascii. exact Hn.
Qed.

(** ** C17 *)
Theorem C17_progress utf8 pw s it : input_ok utf8 pw s -> reachable utf8 pw s it ->
  (tokenizer_offset it <= length s)%nat /\
  match tokenizer_next utf8 pw it with
  | (Some _, it') => (tokenizer_offset it + 1 <= tokenizer_offset it' <= length s)%nat
  | (None, it') => tokenizer_offset it' = length s /\ forall calls,
      tok_run utf8 pw it' calls =
      (List.map (fun c => match c with
         | CallNext => ObsNext None (length s)
         | CallNextOrEof => ObsNextOrEof (Err (Error (length s) KUnexpectedEof)) (length s)
         | CallPeek => ObsPeek None (length s) end) calls, it')
  end.
Proof.
  intros Hi Hr. destruct (reachable_pos _ _ _ _ Hi Hr) as (pre & r & -> & -> & Hg).
  split; [unfold tokenizer_offset; rewrite mk_offset, app_length; lia|].
  pose proof (tokenizer_next_spec utf8 pw pre r Hg) as G.
  destruct (tokenizer_next utf8 pw (mk pre r)) as [[[tk|e|f]|] it'].
  - destruct G as (w & x & r' & -> & _ & Ht & -> & _). unfold tokenizer_offset. rewrite !mk_offset, !app_length.
    destruct (token_text_head _ _ _ Ht) as (b & y & -> & _). cbn [length]. lia.
  - destruct G as [(x & r' & -> & -> & _) H]. unfold tokenizer_offset. rewrite !mk_offset, !app_length in *. lia.
  - destruct G.
  - destruct G as [_ ->]. split; [apply mk_offset|]. 
    intro calls. induction calls as [|c cs IH]; [reflexivity|]. cbn [tok_run List.map].
    assert (E : tok_step utf8 pw (mk (pre ++ r) []) c = (match c with
         | CallNext => ObsNext None (length (pre ++ r))
         | CallNextOrEof => ObsNextOrEof (Err (Error (length (pre ++ r)) KUnexpectedEof)) (length (pre ++ r))
         | CallPeek => ObsPeek None (length (pre ++ r)) end, mk (pre ++ r) [])).
    { destruct c; unfold tok_step; [rewrite tokenizer_next_mk|rewrite next_or_eof_mk|rewrite tokenizer_peek_mk]; cbn;
        rewrite app_nil_r; reflexivity. }
    rewrite E, IH. reflexivity.
Qed.

(** No call moves the position back. *)
Theorem C17_never_back utf8 pw s it c : input_ok utf8 pw s -> reachable utf8 pw s it ->
  (tokenizer_offset it <= tokenizer_offset (snd (tok_step utf8 pw it c)) <= length s)%nat.
Proof.
  intros Hi Hr. destruct (reachable_pos _ _ _ _ Hi Hr) as (pre & r & -> & -> & Hg).
  destruct (step_pos utf8 pw pre r c Hg) as (x & r' & -> & ->). unfold tokenizer_offset. rewrite !mk_offset, !app_length. lia.
Qed.

(** Ignoring all errors, [None] is reached after at most as many calls as there are bytes left. *)
Theorem C17_iteration_ends utf8 pw s it : input_ok utf8 pw s -> reachable utf8 pw s it ->
  exists k, (k <= length s - tokenizer_offset it)%nat /\
    Forall (fun r => r <> None) (fst (next_n utf8 pw k it)) /\
    fst (tokenizer_next utf8 pw (snd (next_n utf8 pw k it))) = None.
Proof.
  intros Hi Hr. remember (length s - tokenizer_offset it)%nat as n eqn:En. assert (Hn : (length s - tokenizer_offset it <= n)%nat) by lia.
  clear En. revert it Hr Hn. induction n as [|n IH]; intros it Hr Hn.
  - exists 0%nat. split; [lia|]. split; [constructor|]. cbn [next_n snd].
    destruct (C17_progress utf8 pw s it Hi Hr) as [_ H]. destruct (tokenizer_next utf8 pw it) as [[r|] it']; [lia|reflexivity].
  - destruct (C17_progress utf8 pw s it Hi Hr) as [_ H]. pose proof (reachable_next _ _ _ _ Hr) as Hr'.
    destruct (tokenizer_next utf8 pw it) as [[r|] it'] eqn:E.
    + cbn [snd] in Hr'. destruct (IH it' Hr' ltac:(lia)) as (k & Hk & Hf & Hl). exists (S k). cbn [next_n]. rewrite E.
      destruct (next_n utf8 pw k it') as [rs it2] eqn:E2. cbn [fst snd] in *.
      split; [lia|]. split; [constructor; [discriminate|exact Hf]|exact Hl].
    + exists 0%nat. split; [lia|]. split; [constructor|]. cbn. rewrite E. reflexivity.
Qed.

(** ** C18 *)
Lemma drop_drop r : drop_while is_ws (drop_while is_ws r) = drop_while is_ws r.
Proof.
  induction r as [|b r IH]; [reflexivity|]. cbn. destruct (is_ws b) eqn:E; [exact IH|]. cbn. rewrite E. reflexivity.
Qed.
Lemma take_drop_nil r : take_while is_ws (drop_while is_ws r) = [].
Proof.
  induction r as [|b r IH]; [reflexivity|]. cbn. destruct (is_ws b) eqn:E; [exact IH|]. cbn. rewrite E. reflexivity.
Qed.

Lemma peek_kind_text pw tk b y : token_text pw tk (b :: y) -> peek_kind_of b = kind_of_token tk.
Proof.
  intro H. inversion H as [ | | | | | | | | |raw cs Hb|n Hn]; subst; try reflexivity.
  cbn. unfold peek_kind_of.
  pose proof (number_head_cases _ _ Hn) as Hc.
  repeat match goal with |- context [if b =? ?c then _ else _] => destruct (N.eqb_spec b c); [lia|] end.
  destruct ((b =? 45) || ((48 <=? b) && (b <=? 57))) eqn:E; [reflexivity|lia].
Qed.

Theorem C18_peek_is_transparent utf8 pw s it : input_ok utf8 pw s -> reachable utf8 pw s it ->
  let it' := snd (tokenizer_peek it) in
  (fst (tokenizer_peek it) = None <-> fst (tokenizer_next utf8 pw it) = None) /\
  tokenizer_next utf8 pw it' = tokenizer_next utf8 pw it /\
  next_or_eof utf8 pw it' = next_or_eof utf8 pw it /\
  tokenizer_peek it' = tokenizer_peek it.
Proof.
  intros Hi Hr. destruct (reachable_pos _ _ _ _ Hi Hr) as (pre & r & -> & -> & Hg).
  cbv zeta. rewrite tokenizer_peek_mk. cbn [snd fst].
  rewrite !tokenizer_next_mk, !next_or_eof_mk, tokenizer_peek_mk. cbn zeta. rewrite !drop_drop, !take_drop_nil, !app_nil_r.
  repeat split; destruct (drop_while is_ws r) as [|b r'] eqn:E; try reflexivity; try discriminate.
  destruct (read_peek utf8 pw (length (pre ++ take_while is_ws r)) b (mk ((pre ++ take_while is_ws r) ++ [b]) r')). discriminate.
Qed.

Theorem C18_peek_predicts utf8 pw s it : input_ok utf8 pw s -> reachable utf8 pw s it ->
  match fst (tokenizer_peek it), fst (tokenizer_next utf8 pw it) with
  | Some k, Some (Ok tk) => k = kind_of_token tk
  | Some PkUnrecognized, Some (Err e) => exists b, err_kind e = KUnexpected b
  | Some k, Some (Err _) => k <> PkUnrecognized
  | None, None => True
  | _, _ => False
  end.
Proof.
  intros Hi Hr. destruct (reachable_pos _ _ _ _ Hi Hr) as (pre & r & -> & -> & Hg).
  pose proof (tokenizer_next_spec utf8 pw pre r Hg) as G.
  rewrite tokenizer_peek_mk in *. rewrite tokenizer_next_mk in *. cbn zeta in *.
  pose proof (take_drop is_ws r) as E. pose proof (ws_take r) as Hw.
  set (w := take_while is_ws r) in *. 
  assert (Hd : match drop_while is_ws r with [] => True | b :: _ => ~ ws_byte b end).
  { clear. induction r as [|b r IH]; cbn; [exact I|]. destruct (is_ws b) eqn:E; [exact IH|]. unfold is_ws, ws_byte in *. lia. }
  set (d := drop_while is_ws r) in *. clearbody w d. subst r. cbn [fst].
  destruct d as [|b r']; [exact I|].
  destruct (read_peek utf8 pw (length (pre ++ w)) b (mk ((pre ++ w) ++ [b]) r')) as [[tk|e|f] it'] eqn:Er; cbn [fst].
  - assert (K : peek_kind_of b = kind_of_token tk).
    { destruct G as (w' & x & r2 & E & Hw' & Ht & _). destruct (token_text_head _ _ _ Ht) as (c & y & -> & Hc & _).
      assert (b = c).
      { clear - E Hw Hw' Hd Hc. revert w' Hw' E. induction Hw as [|z w Hz Hw IH]; intros [|z' w'] Hw' E; cbn in E; injection E as; subst; auto.
        - inversion Hw'. contradiction.
        - contradiction.
        - inversion Hw'. subst. eapply IH; eassumption. }
      subst c. eapply peek_kind_text. exact Ht. }
    destruct (peek_kind_of b); exact K.
  - unfold read_peek in Er. unfold peek_kind_of.
    repeat match goal with |- context [if b =? ?c then _ else _] => destruct (N.eqb_spec b c); [discriminate|] end.
    repeat match type of Er with context [if b =? ?c then _ else _] => destruct (N.eqb_spec b c); [try discriminate; try lia|] end.
    all: repeat match goal with |- context [if ?c then _ else _] => destruct c eqn:?; [try discriminate|] end; try discriminate; try lia.
    destruct ((49 <=? b) && (b <=? 57)) eqn:E2; [lia|]. injection Er as <- _. cbn. eauto.
  - destruct G.
Qed.

(** ** C19 *)
Theorem C19_next_or_eof_agrees utf8 pw s it : input_ok utf8 pw s -> reachable utf8 pw s it ->
  match tokenizer_next utf8 pw it with
  | (Some r, it') => next_or_eof utf8 pw it = (r, it')
  | (None, it') => next_or_eof utf8 pw it = (Err (Error (length s) KUnexpectedEof), it')
  end.
Proof.
  intros Hi Hr. destruct (reachable_pos _ _ _ _ Hi Hr) as (pre & r & -> & -> & Hg).
  rewrite tokenizer_next_mk, next_or_eof_mk. cbn zeta.
  destruct (drop_while is_ws r) as [|b r'] eqn:E.
  - do 3 f_equal. pose proof (take_drop is_ws r) as T. rewrite E, app_nil_r in T. rewrite T. reflexivity.
  - destruct (read_peek utf8 pw (length (pre ++ take_while is_ws r)) b (mk ((pre ++ take_while is_ws r) ++ [b]) r')); reflexivity.
Qed.

(** ** C20 *)
Theorem C20_number_tokens_longest_match utf8 pw s it n it' : input_ok utf8 pw s -> reachable utf8 pw s it ->
  tokenizer_next utf8 pw it = (Some (Ok (TkNumber n)), it') ->
  exists pre w r, s = pre ++ w ++ jn_str n ++ r /\ tokenizer_offset it = length pre /\
    tokenizer_offset it' = length (pre ++ w ++ jn_str n) /\ ws w /\ number (jn_str n) /\
    forall n' z, number n' -> jn_str n ++ r = n' ++ z -> (length n' <= length (jn_str n))%nat.
Proof.
  intros Hi Hr H. destruct (reachable_pos _ _ _ _ Hi Hr) as (pre & r & -> & -> & Hg).
  pose proof (tokenizer_next_spec utf8 pw pre r Hg) as G. rewrite H in G.
  destruct G as (w & x & r' & -> & Hw & Ht & -> & Hst). inversion Ht; subst. cbn in Hst |- *.
  exists pre, w, r'. split; [reflexivity|]. split; [reflexivity|]. split; [reflexivity|]. split; [exact Hw|]. split; [assumption|].
  intros n' z Hn' E. eapply num_token_longest; eassumption.
Qed.

Theorem C20_numbers_are_tokenized utf8 pw pre w x r : input_ok utf8 pw (pre ++ w ++ x ++ r) ->
  reachable utf8 pw (pre ++ w ++ x ++ r) (BI (pre ++ w ++ x ++ r) (length pre)) ->
  ws w -> number x -> match r with [] => True | b :: _ => ~ digit b /\ b <> 46 /\ b <> 101 /\ b <> 69 end ->
  exists n it', tokenizer_next utf8 pw (BI (pre ++ w ++ x ++ r) (length pre)) = (Some (Ok (TkNumber n)), it') /\
    jn_str n = x /\ tokenizer_offset it' = length (pre ++ w ++ x).
Proof.
  intros Hi Hr Hw Hx Hst. exists (JNum (Borrowed x)), (mk (pre ++ w ++ x) r).
  split; [|split; reflexivity].
  pose proof (C19_next_or_eof_agrees utf8 pw _ _ Hi Hr) as H.
  change (BI (pre ++ w ++ x ++ r) (length pre)) with (mk pre (w ++ x ++ r)) in *.
  rewrite (next_or_eof_complete utf8 pw pre w x (TkNumber (JNum (Borrowed x))) r) in H;
    [|apply input_good; exact Hi|exact Hw|constructor; exact Hx|apply number_num_token; assumption].
  destruct (tokenizer_next utf8 pw (mk pre (w ++ x ++ r))) as [[o|] it']; [|discriminate]. injection H as <- <-. reflexivity.
Qed.

(** ** C21 *)
Theorem C21_string_tokens utf8 pw s it str it' : input_ok utf8 pw s -> reachable utf8 pw s it ->
  tokenizer_next utf8 pw it = (Some (Ok (TkString str)), it') ->
  exists pre w raw r cs, s = pre ++ w ++ [34] ++ raw ++ [34] ++ r /\ tokenizer_offset it = length pre /\
    tokenizer_offset it' = length (pre ++ w ++ [34] ++ raw ++ [34]) /\ ws w /\
    js_source str = CJson (Borrowed raw) /\ str_body raw cs.
Proof.
  intros Hi Hr H. destruct (reachable_pos _ _ _ _ Hi Hr) as (pre & r & -> & -> & Hg).
  pose proof (tokenizer_next_spec utf8 pw pre r Hg) as G. rewrite H in G.
  destruct G as (w & x & r' & -> & Hw & Ht & -> & Hst). inversion Ht as [ | | | | | | | | |raw cs Hb|]; subst.
  exists pre, w, raw, r', cs. split; [cbn; rewrite <- app_assoc; reflexivity|]. repeat split; auto.
Qed.

Theorem C21_strings_are_tokenized utf8 pw pre w raw cs r : let s := pre ++ w ++ ([34] ++ raw ++ [34]) ++ r in
  input_ok utf8 pw s -> reachable utf8 pw s (BI s (length pre)) -> ws w -> str_body raw cs ->
  exists str it', tokenizer_next utf8 pw (BI s (length pre)) = (Some (Ok (TkString str)), it') /\
    js_source str = CJson (Borrowed raw) /\ tokenizer_offset it' = length (pre ++ w ++ [34] ++ raw ++ [34]).
Proof.
  intros s Hi Hr Hw Hx. exists (string_for pw raw cs), (mk (pre ++ w ++ [34] ++ raw ++ [34]) r).
  split; [|split; reflexivity].
  pose proof (C19_next_or_eof_agrees utf8 pw _ _ Hi Hr) as H. unfold s in *.
  change (BI (pre ++ w ++ ([34] ++ raw ++ [34]) ++ r) (length pre)) with (mk pre (w ++ ([34] ++ raw ++ [34]) ++ r)) in *.
  rewrite (next_or_eof_complete utf8 pw pre w ([34] ++ raw ++ [34]) (TkString (string_for pw raw cs)) r) in H;
    [|apply input_good; exact Hi|exact Hw|constructor; exact Hx|exact I].
  destruct (tokenizer_next utf8 pw (mk pre (w ++ ([34] ++ raw ++ [34]) ++ r))) as [[o|] it']; [|discriminate]. injection H as <- <-. reflexivity.
Qed.

(** * Concrete cases *)
Definition tok_sample : list N := bs " {""a\n"": -1.5e3,true 01 x".
Example tok_sample_ok : input_ok false W64 tok_sample /\ input_ok true W64 tok_sample.
Proof.
  split.
  - split; [repeat constructor|vm_compute; discriminate].
  - split; [apply utf8_valid_iff; vm_compute; reflexivity|vm_compute; discriminate].
Qed.
Example tok_sample_run : exists str num,
  fst (next_n false W64 9 (tokenizer_new tok_sample)) =
  [Some (Ok TkObject); Some (Ok (TkString str)); Some (Ok TkColon); Some (Ok (TkNumber num)); Some (Ok TkComma);
   Some (Ok (TkBool true)); Some (Ok (TkNumber (JNum (Borrowed [48])))); Some (Ok (TkNumber (JNum (Borrowed [49]))));
   Some (Err (Error 24 (KUnexpected 120)))] /\ stored str = bs "a\n" /\ jn_str num = bs "-1.5e3".
Proof. eexists _, _. split; [vm_compute; reflexivity|split; vm_compute; reflexivity]. Qed.
Example tok_sample_reachable : reachable false W64 tok_sample (BI tok_sample 8) /\
  fst (tokenizer_peek (BI tok_sample 8)) = Some PkNumber.
Proof. split; [exists [CallNext; CallPeek; CallNext; CallNextOrEof]; vm_compute; reflexivity|vm_compute; reflexivity]. Qed.
