(** C100: what a delegate is told, whatever it does itself, are the tokens of the input, in order. *)
From Verif Require Import Base Utf8 Utf8Facts StrModel ErrorModel Tokenizer Parser ValueModel DocModel NumModel ObjectModel Spec SpecTok SpecWrite
  TokBase ParserGen Trace View ParseMain StrObt PropTok PropTokens PropDelegate PropProtocol PropNumber PropClient.
Local Open Scope N_scope.

(** * Specification *)

(** The token a callback is made for.  [object_value] and [array_value] are made for values, whose tokens were told before. *)
Definition told (ev : event) : list token :=
  match ev with
  | ENull => [TkNull]
  | EBoolean b => [TkBool b]
  | ENumber n => [TkNumber n]
  | EString x | EObjectKey x => [TkString x]
  | EBeginObject => [TkObject]
  | EEndObject => [TkObjectEnd]
  | EBeginArray => [TkArray]
  | EEndArray => [TkArrayEnd]
  | EObjectValue | EArrayValue => []
  end.
Definition not_separator (t : token) : bool := match t with TkColon | TkComma => false | _ => true end.

(** [first_tokens utf8 pw s tks]: the first calls of [next] on [Tokenizer::for_json(s)] ([utf8]) or [for_json_bytes(s)] return [tks]. *)
Definition first_tokens (utf8 : bool) (pw : pwidth) (s : list N) (tks : list token) : Prop :=
  fst (next_n utf8 pw (length tks) (tokenizer_new s)) = map (fun t => Some (Ok t)) tks.

(** * Following the tokenizer *)
Section Told.
  Variables (g : bool) (pw : pwidth) (cfg : parse_config) (D : delegate) (s : list N).
  Hypothesis Hi : PropTok.input_ok g pw s.
  Notation R := (recording D).

  (** The iterator after the tokens [tks], whitespace perhaps skipped. *)
  Definition after (tks : list token) (it : byte_iter) : Prop :=
    exists it0, next_n g pw (length tks) (tokenizer_new s) = (map (fun t => Some (Ok t)) tks, it0) /\ reachable g pw s it0 /\
      (it = it0 \/ it = snd (tokenizer_peek it0)).
  Lemma next_n_snoc k : forall it rs it1, next_n g pw k it = (rs, it1) ->
    next_n g pw (k + 1) it = (rs ++ [fst (tokenizer_next g pw it1)], snd (tokenizer_next g pw it1)).
  Proof.
    induction k as [|k IH]; intros it rs it1 E; cbn [next_n Nat.add] in *.
    - injection E as <- <-. destruct (tokenizer_next g pw it) as [r it2]. reflexivity.
    - destruct (tokenizer_next g pw it) as [r it2]. destruct (next_n g pw k it2) as [rs2 it3] eqn:E2. injection E as <- <-.
      rewrite (IH _ _ _ E2). reflexivity.
  Qed.
  Lemma after_peek tks it : after tks it -> after tks (snd (tokenizer_peek it)).
  Proof.
    intros (it0 & E & Hr & H). exists it0. split; [exact E|]. split; [exact Hr|]. right. destruct H as [->| ->]; [reflexivity|].
    f_equal. apply (C18_peek_is_transparent g pw s it0 Hi Hr).
  Qed.
  Lemma after_same tks it : after tks it -> exists it0,
    next_n g pw (length tks) (tokenizer_new s) = (map (fun t => Some (Ok t)) tks, it0) /\ reachable g pw s it0 /\ tokenizer_next g pw it = tokenizer_next g pw it0 /\ reachable g pw s it.
  Proof.
    intros (it0 & E & Hr & H). exists it0. split; [exact E|]. split; [exact Hr|]. destruct H as [->| ->]; [auto|].
    split; [apply (C18_peek_is_transparent g pw s it0 Hi Hr)|apply reach_peek, Hr].
  Qed.
  Lemma after_next tks it tk it' : after tks it -> tokenizer_next g pw it = (Some (Ok tk), it') -> after (tks ++ [tk]) it'.
  Proof.
    intros H E. apply after_same in H as (it0 & En & Hr & Et & _). exists it'. apply next_n_snoc in En. rewrite <- Et, E in En. cbn [fst snd] in En.
    split; [rewrite app_length, map_app; exact En|]. split; [|left; reflexivity].
    pose proof (reach_next g pw s it0 Hr) as K. rewrite <- Et, E in K. exact K.
  Qed.
  Lemma after_eof tks it tk it' : after tks it -> next_or_eof g pw it = (Ok tk, it') -> after (tks ++ [tk]) it'.
  Proof. intros H E. eapply after_next; [exact H|]. destruct (after_same _ _ H) as (_ & _ & _ & _ & Hr). eapply eof_token; eassumption. Qed.
  Lemma after_first tks it : after tks it -> first_tokens g pw s tks.
  Proof. intros (it0 & E & _). unfold first_tokens. rewrite E. reflexivity. Qed.
  Lemma first_app a b : first_tokens g pw s (a ++ b) -> first_tokens g pw s a.
  Proof.
    unfold first_tokens. generalize (tokenizer_new s). induction a as [|x a IH]; intros it H; [reflexivity|]. cbn [app length next_n map] in *.
    destruct (tokenizer_next g pw it) as [r it1]. specialize (IH it1). destruct (next_n g pw (length (a ++ b)) it1). destruct (next_n g pw (length a) it1).
    cbn [fst] in *. injection H as -> H. f_equal. apply IH, H.
  Qed.
  Lemma after_ends tks it it' : after tks it -> next_non_ws it = (None, it') -> tokenizes g pw s tks.
  Proof.
    intros H E. apply after_same in H as (it0 & En & _ & Et & _). unfold tokenizes. rewrite <- Nat.add_1_r, (next_n_snoc _ _ _ _ En). cbn [fst].
    rewrite <- Et. unfold tokenizer_next. rewrite E. reflexivity.
  Qed.
  Lemma after_array_end tks it it' : after tks it -> tokenizer_peek it = (Some PkArrayEnd, it') -> after (tks ++ [TkArrayEnd]) (BI (bi_bytes it') (bi_offset it' + 1)).
  Proof.
    intros H E. apply (after_next tks it); [exact H|]. unfold tokenizer_peek, bi_peek in E. unfold tokenizer_next, next_non_ws, bi_next.
    destruct (nth_error (bi_bytes (skip_ws it)) (bi_offset (skip_ws it))) as [b|]; [|discriminate]. injection E as Eb <-.
    assert (b = 93) as ->; [|reflexivity]. revert Eb. unfold peek_kind_of.
    repeat match goal with |- context [if ?c then _ else _] => destruct c eqn:?; [try discriminate|] end; try discriminate. intros _. apply N.eqb_eq. assumption.
  Qed.

  (** * The parser *)
  Definition level (st : d_st R) (tks : list token) : Prop := flat_map told (snd st) = filter not_separator tks.
  (** Everything read was told. *)
  Definition even (x : pstate R) : Prop := exists tks, after tks (ps_iter x) /\ level (ps_del x) tks.
  (** Everything but the last token [tk]. *)
  Definition due (tk : token) (x : pstate R) : Prop := exists tks, after (tks ++ [tk]) (ps_iter x) /\ level (ps_del x) tks.
  Definition rests (x : pstate R) : Prop := exists tks, first_tokens g pw s tks /\ level (ps_del x) tks.
  Definition tri {A} (P : pstate R -> Prop) (m : pm R A) (Q : A -> pstate R -> Prop) : Prop :=
    forall x, P x -> match m x with (Ok a, x') => Q a x' | (_, x') => rests x' end.

  Lemma even_rests x : even x -> rests x.
  Proof. intros (tks & H & L). exists tks. split; [eapply after_first, H|exact L]. Qed.
  Lemma due_rests tk x : due tk x -> rests x.
  Proof. intros (tks & H & L). exists tks. split; [eapply first_app, after_first, H|exact L]. Qed.
  Lemma due_separator tk x : not_separator tk = false -> due tk x -> even x.
  Proof. intros E (tks & H & L). exists (tks ++ [tk]). split; [exact H|]. unfold level in *. rewrite filter_app. cbn [filter]. rewrite E, app_nil_r. exact L. Qed.

  Definition stays (P : pstate R -> Prop) : Prop := (forall x, P x -> rests x) /\ (forall x y : pstate R, ps_iter x = ps_iter y -> ps_del x = ps_del y -> P x -> P y).
  Lemma stays_even : stays even.
  Proof. split; [apply even_rests|]. unfold even. intros x y -> ->. auto. Qed.
  Lemma stays_due tk : stays (due tk).
  Proof. split; [apply due_rests|]. unfold due. intros x y -> ->. auto. Qed.

  Lemma tri_bind {A B} P (m : pm R A) (k : A -> pm R B) M Q : tri P m M -> (forall a, tri (M a) (k a) Q) -> tri P (pbind R m k) Q.
  Proof. intros Hm Hk x Hx. specialize (Hm x Hx). unfold pbind. destruct (m x) as [[a|e|f] x1]; [exact (Hk a x1 Hm)|exact Hm|exact Hm]. Qed.
  Lemma tri_ret {A} (P : pstate R -> Prop) (a : A) (Q : A -> pstate R -> Prop) : (forall x, P x -> Q a x) -> tri P (pret R a) Q.
  Proof. intros H x Hx. apply H, Hx. Qed.
  Lemma tri_pre {A} (P P' : pstate R -> Prop) (m : pm R A) Q : (forall x, P x -> P' x) -> tri P' m Q -> tri P m Q.
  Proof. intros H Hm x Hx. apply Hm, H, Hx. Qed.
  Lemma tri_err {A} (P : pstate R -> Prop) o k (Q : A -> pstate R -> Prop) : stays P -> tri P (@perr R A o k) Q.
  Proof. intros [H _] x Hx. apply H, Hx. Qed.
  Lemma tri_fault {A} (P : pstate R -> Prop) f (Q : A -> pstate R -> Prop) : stays P -> tri P (fun x => (Fault f, x)) Q.
  Proof. intros [H _] x Hx. apply H, Hx. Qed.
  Lemma tri_offset P : tri P (p_offset R) (fun _ => P).
  Proof. intros x Hx. exact Hx. Qed.
  Lemma tri_query {A} P (m : d_st R -> res infallible A) : stays P -> tri P (p_query R m) (fun _ => P).
  Proof. intros [H _] x Hx. unfold p_query. destruct (m (ps_del x)) as [a|[]|f]; [exact Hx|apply H, Hx]. Qed.
  Lemma tri_map_err {A} P f (m : pm R A) Q : tri P m Q -> tri P (p_map_err R f m) Q.
  Proof. intros H x Hx. specialize (H x Hx). unfold p_map_err. destruct (m x) as [[a|e|y] x']; exact H. Qed.
  Lemma tri_begin P o : stays P -> tri P (begin_nest cfg R o) (fun _ => P).
  Proof.
    intros [H K] x Hx. unfold begin_nest. destruct (recursion_limit cfg); [|exact Hx]. destruct (0 <? ps_depth x); [|apply H, Hx].
    eapply K; [| |exact Hx]; reflexivity.
  Qed.
  Lemma tri_end P : stays P -> tri P (end_nest cfg R) (fun _ => P).
  Proof. intros [H K] x Hx. unfold end_nest. destruct (recursion_limit cfg); [eapply K; [| |exact Hx]; reflexivity|exact Hx]. Qed.

  Lemma tri_token conv : tri even (p_tok_err R conv (next_or_eof g pw)) due.
  Proof.
    intros x (tks & H & L). unfold p_tok_err. destruct (next_or_eof g pw (ps_iter x)) as [[tk|e|f] it] eqn:E; cbn [map_err].
    - exists tks. split; [eapply after_eof; [exact H|exact E]|exact L].
    - exists tks. split; [eapply after_first, H|exact L].
    - exists tks. split; [eapply after_first, H|exact L].
  Qed.
  Lemma tri_peek : tri even (peek_array_end R) (fun b => if b then due TkArrayEnd else even).
  Proof.
    intros x (tks & H & L). unfold peek_array_end. destruct (tokenizer_peek (ps_iter x)) as [o it] eqn:E.
    pose proof (after_peek _ _ H) as H'. rewrite E in H'. cbn [snd] in H'.
    destruct o as [[]|]; try (exists tks; split; [exact H'|exact L]). exists tks. split; [|exact L]. cbn [ps_iter]. eapply after_array_end; [exact H|exact E].
  Qed.
  Lemma told_noted tk ev : told ev = [tk] -> not_separator tk = true -> forall x, due tk x -> forall (st : d_st D) d, even (@PS R (ps_iter x) (st, snd (ps_del x) ++ [ev]) d).
  Proof.
    intros E En x (tks & H & L) st d. exists (tks ++ [tk]). split; [exact H|]. unfold level in *. cbn [ps_del snd]. rewrite flat_map_app, filter_app, L. cbn [flat_map filter].
    rewrite E, En, app_nil_r. reflexivity.
  Qed.
  Lemma tri_del {A} o tk ev (call : d_st D -> res (d_error D) A * d_st D) : told ev = [tk] -> not_separator tk = true ->
    tri (due tk) (p_del R o (fun st => note ev (snd st) (call (fst st)))) (fun _ => even).
  Proof.
    intros E En x Hx. unfold p_del, note. pose proof (told_noted tk ev E En x Hx (snd (call (fst (ps_del x)))) (ps_depth x)) as K.
    destruct (call (fst (ps_del x))) as [r st']. cbn [fst snd] in *. destruct r; cbn [map_err]; [exact K|apply even_rests; exact K|apply even_rests; exact K].
  Qed.
  Lemma tri_use {A} o ev (call : d_st D -> res (d_error D) A * d_st D) : told ev = [] ->
    tri even (p_del R o (fun st => note ev (snd st) (call (fst st)))) (fun _ => even).
  Proof.
    intros E x (tks & H & L). unfold p_del, note. destruct (call (fst (ps_del x))) as [r st']. cbn [fst snd].
    assert (K : level ((st', snd (ps_del x) ++ [ev]) : d_st R) tks) by (unfold level in *; cbn [snd]; rewrite flat_map_app, L; cbn [flat_map]; rewrite E, !app_nil_r; reflexivity).
    destruct r; cbn [map_err]; [|apply even_rests|apply even_rests]; exists tks; (split; [exact H|exact K]).
  Qed.

  Definition reads (rv : pm R (d_value D)) : Prop := tri even rv (fun _ => even).
  Ltac offset := eapply tri_bind; [apply tri_offset|]; intros ?.
  Ltac stop := apply tri_err, stays_due.

  Lemma tri_object_loop (rv : pm R (d_value D)) : reads rv -> forall n o, tri (A := d_object D) even (object_loop g pw cfg R rv n o) (fun _ => due TkObjectEnd).
  Proof.
    intros Hrv. induction n as [|n IH]; intros o; cbn [object_loop]; [apply tri_fault, stays_even|].
    offset. eapply tri_bind; [apply tri_token|]. intros token. destruct token; try stop.
    - eapply tri_bind; [apply (tri_del _ (TkString s0) (EObjectKey s0) (fun st => d_object_key D st o s0)); reflexivity|]. intros [o1 key].
      offset. eapply tri_bind; [apply tri_token|]. intros token. destruct token; try stop.
      eapply tri_pre; [intros ?; apply (due_separator TkColon _ eq_refl)|]. offset. eapply tri_bind; [apply Hrv|]. intros v.
      eapply tri_bind; [apply (tri_use _ EObjectValue (fun st => d_object_value D st o1 key v)); reflexivity|]. intros o2.
      offset. eapply tri_bind; [apply tri_token|]. intros token. destruct token; try stop.
      + apply tri_ret. auto.
      + eapply tri_pre; [intros ?; apply (due_separator TkComma _ eq_refl)|]. apply IH.
    - apply tri_bind with (M := fun _ => due TkObjectEnd).
      + destruct (allow_trailing_commas cfg); [apply tri_ret; auto|apply tri_query, stays_due].
      + intros [|]; [apply tri_ret; auto|stop].
  Qed.
  Lemma tri_array_loop (rv : pm R (d_value D)) : reads rv -> forall n a, tri (A := d_array D) even (array_loop g pw cfg R rv n a) (fun _ => due TkArrayEnd).
  Proof.
    intros Hrv. induction n as [|n IH]; intros a; cbn [array_loop]; [apply tri_fault, stays_even|].
    offset. eapply tri_bind; [apply tri_peek|]. intros [|]; cbn [app].
    - apply tri_bind with (M := fun _ => due TkArrayEnd).
      + destruct (allow_trailing_commas cfg); [apply tri_ret; auto|apply tri_query, stays_due].
      + intros [|]; [apply tri_ret; auto|stop].
    - eapply tri_bind; [apply Hrv|]. intros v. offset.
      eapply tri_bind; [apply (tri_use _ EArrayValue (fun st => d_array_value D st a v)); reflexivity|]. intros a2.
      offset. eapply tri_bind; [apply tri_token|]. intros token. destruct token; try stop.
      + apply tri_ret. auto.
      + eapply tri_pre; [intros ?; apply (due_separator TkComma _ eq_refl)|]. apply IH.
  Qed.
  Lemma reads_tokens loops fuel : reads (read_tokens g pw cfg R loops fuel).
  Proof.
    induction fuel as [|fuel IH]; cbn [read_tokens]; [apply tri_fault, stays_even|].
    offset. eapply tri_bind; [apply tri_token|]. intros token. destruct token; try stop.
    - apply (tri_del _ TkNull ENull (fun st => d_null D st)); reflexivity.
    - apply (tri_del _ (TkBool b) (EBoolean b) (fun st => d_boolean D st b)); reflexivity.
    - apply (tri_del _ (TkString s0) (EString s0) (fun st => d_string D st s0)); reflexivity.
    - apply (tri_del _ (TkNumber n) (ENumber n) (fun st => d_number D st n)); reflexivity.
    - eapply tri_bind; [apply tri_begin, stays_due|]. intros ?. apply tri_map_err. unfold read_object. offset.
      eapply tri_bind; [apply (tri_del _ TkObject EBeginObject (fun st => d_begin_object D st)); reflexivity|]. intros o.
      eapply tri_bind; [apply tri_object_loop, IH|]. intros o2. offset.
      eapply tri_bind; [apply (tri_del _ TkObjectEnd EEndObject (fun st => d_end_object D st o2)); reflexivity|]. intros v.
      eapply tri_bind; [apply tri_end, stays_even|]. intros ?. apply tri_ret. auto.
    - eapply tri_bind; [apply tri_begin, stays_due|]. intros ?. apply tri_map_err. unfold read_array. offset.
      eapply tri_bind; [apply (tri_del _ TkArray EBeginArray (fun st => d_begin_array D st)); reflexivity|]. intros o.
      eapply tri_bind; [apply tri_array_loop, IH|]. intros o2.
      eapply tri_bind; [apply (tri_del _ TkArrayEnd EEndArray (fun st => d_end_array D st o2)); reflexivity|]. intros v.
      eapply tri_bind; [apply tri_end, stays_even|]. intros ?. apply tri_ret. auto.
  Qed.

  Definition all_told (x : pstate R) : Prop := exists tks, tokenizes g pw s tks /\ level (ps_del x) tks.
  Lemma tri_trailing : tri even (check_trailing R) (fun _ => all_told).
  Proof.
    intros x (tks & H & L). unfold check_trailing. destruct (next_non_ws (ps_iter x)) as [[[o b]|] it] eqn:E.
    - exists tks. split; [eapply after_first, H|exact L].
    - exists tks. split; [eapply after_ends; [exact H|exact E]|exact L].
  Qed.
  Lemma tri_parse loops fuel : tri even (parse_body g pw cfg R loops fuel) (fun _ => all_told).
  Proof.
    unfold parse_body. eapply tri_bind; [apply reads_tokens|]. intros v. apply tri_bind with (M := fun _ => even).
    - unfold check_root. destruct (negb _); [|apply tri_ret; auto]. eapply tri_bind; [apply tri_query, stays_even|]. intros k.
      destruct k; try apply tri_err, stays_even; apply tri_ret; auto.
    - intros ?. eapply tri_bind; [apply tri_trailing|]. intros ?. apply tri_ret. auto.
  Qed.
End Told.

(** * C100 *)

(** For every delegate - truthful or not, failing, panicking, or changing its mind - and every input: what it was told, callback by
    callback, are the first tokens of the input without colons and commas; when parsing succeeds, all of them. *)
Theorem C100_delegates_are_told_the_tokens utf8 pw cfg D s st0 : PropTok.input_ok utf8 pw s ->
  let '(r, (st, log)) := parse_with utf8 pw (recording D) s cfg (st0, []) in
  exists tks, first_tokens utf8 pw s tks /\ flat_map told log = filter not_separator tks /\
    ((exists v, r = Ok v) -> tokenizes utf8 pw s tks).
Proof.
  intro Hi. rewrite parse_with_eq. unfold parse_bytes.
  pose proof (tri_parse utf8 pw cfg D s Hi (S (length s)) (S (length s)) (parse_state pw cfg (recording D) s (st0, []))) as H.
  destruct (parse_body utf8 pw cfg (recording D) (S (length s)) (S (length s)) (parse_state pw cfg (recording D) s (st0, []))) as [r x].
  assert (H0 : even utf8 pw D s (parse_state pw cfg (recording D) s (st0, []))).
  { exists []. split; [|reflexivity]. exists (tokenizer_new s). split; [reflexivity|]. split; [exists []; reflexivity|left; reflexivity]. }
  specialize (H H0). destruct (ps_del x) as [st log] eqn:Ex. unfold all_told, rests, level in H. rewrite Ex in H. cbn [snd] in H.
  destruct r as [v|e|f].
  - destruct H as (tks & Ht & L). exists tks. split; [|split; [exact L|auto]]. unfold tokenizes in Ht. unfold first_tokens.
    destruct (next_n utf8 pw (length tks) (tokenizer_new s)) as [rs it] eqn:En. rewrite <- Nat.add_1_r, (next_n_snoc utf8 pw _ _ _ _ En) in Ht. cbn [fst] in *.
    apply app_inj_tail in Ht. apply Ht.
  - destruct H as (tks & Ht & L). exists tks. split; [exact Ht|]. split; [exact L|]. intros [v E]. discriminate.
  - destruct H as (tks & Ht & L). exists tks. split; [exact Ht|]. split; [exact L|]. intros [v E]. discriminate.
Qed.

(** So two delegates, whatever they do, are told the same as long as both are told something. *)
Theorem C100_told_the_same utf8 pw cfg1 D1 st1 cfg2 D2 st2 s : PropTok.input_ok utf8 pw s ->
  let told1 := flat_map told (snd (snd (parse_with utf8 pw (recording D1) s cfg1 (st1, [])))) in
  let told2 := flat_map told (snd (snd (parse_with utf8 pw (recording D2) s cfg2 (st2, [])))) in
  prefix_of told1 told2 \/ prefix_of told2 told1.
Proof.
  intro Hi. pose proof (C100_delegates_are_told_the_tokens utf8 pw cfg1 D1 s st1 Hi) as H1. pose proof (C100_delegates_are_told_the_tokens utf8 pw cfg2 D2 s st2 Hi) as H2.
  destruct (parse_with utf8 pw (recording D1) s cfg1 (st1, [])) as [r1 [s1 log1]]. destruct (parse_with utf8 pw (recording D2) s cfg2 (st2, [])) as [r2 [s2 log2]].
  destruct H1 as (a & Ha & L1 & _), H2 as (b & Hb & L2 & _). cbn [snd]. rewrite L1, L2. clear L1 L2.
  assert (K : (exists c, a = b ++ c) \/ (exists c, b = a ++ c)).
  { unfold first_tokens in *. revert b Ha Hb. generalize (tokenizer_new s). induction a as [|x a IH]; intros it [|y b] Ha Hb; [left; exists []; reflexivity|right; eexists; reflexivity|left; eexists; reflexivity|].
    cbn [length next_n map] in *. destruct (tokenizer_next utf8 pw it) as [r it1]. specialize (IH it1 b).
    destruct (next_n utf8 pw (length a) it1) as [ra ia], (next_n utf8 pw (length b) it1) as [rb ib]. cbn [fst] in *.
    injection Ha as -> Ha. injection Hb as -> Hb. destruct (IH Ha Hb) as [(c & ->)|(c & ->)]; [left|right]; exists c; reflexivity. }
  destruct K as [(c & ->)|(c & ->)]; rewrite filter_app; [right|left]; eexists; reflexivity.
Qed.

(** A delegate is given no string and no number that a program could not have without it: all that holds of those - they are valid,
    borrow from the input, decode without panicking - holds of what a delegate is given. *)
Lemma first_token_parts utf8 pw s t : PropTok.input_ok utf8 pw s -> forall tks, first_tokens utf8 pw s tks -> In t tks ->
  exists it it', reachable utf8 pw s it /\ tokenizer_next utf8 pw it = (Some (Ok t), it').
Proof.
  intros Hi tks. unfold first_tokens. assert (H0 : reachable utf8 pw s (tokenizer_new s)) by (exists []; reflexivity). revert H0. generalize (tokenizer_new s).
  induction tks as [|x tks IH]; intros it Hr H Hin; [destruct Hin|]. cbn [length next_n map] in H.
  destruct (tokenizer_next utf8 pw it) as [r it1] eqn:E. destruct (next_n utf8 pw (length tks) it1) as [rs it2] eqn:En. cbn [fst] in H. injection H as -> H.
  destruct Hin as [->|Hin]; [exists it, it1; auto|]. apply (IH it1); [|rewrite En; exact H|exact Hin].
  pose proof (reach_next utf8 pw s it Hr) as K. rewrite E in K. exact K.
Qed.
Theorem C100_parts_are_obtainable utf8 pw cfg D s st0 ev : PropTok.input_ok utf8 pw s ->
  In ev (snd (snd (parse_with utf8 pw (recording D) s cfg (st0, [])))) ->
  match ev with
  | EString x | EObjectKey x => parsed pw x
  | ENumber n => number_obtainable pw n
  | _ => True
  end.
Proof.
  intros Hi Hin. pose proof (C100_delegates_are_told_the_tokens utf8 pw cfg D s st0 Hi) as H.
  destruct (parse_with utf8 pw (recording D) s cfg (st0, [])) as [r [st log]]. destruct H as (tks & Ht & L & _). cbn [snd] in Hin.
  assert (K : forall t, In t (told ev) -> exists it it', reachable utf8 pw s it /\ tokenizer_next utf8 pw it = (Some (Ok t), it')).
  { intros t Ht'. apply (first_token_parts utf8 pw s t Hi tks Ht). assert (J : In t (flat_map told log)) by (apply in_flat_map; eauto).
    rewrite L in J. apply filter_In in J. apply J. }
  destruct ev; try exact I; destruct (K _ (or_introl eq_refl)) as (it & it' & Hr & E).
  - eapply number_of_token; eassumption.
  - eapply parsed_token; eassumption.
  - eapply parsed_token; eassumption.
Qed.

(** * A concrete case: a delegate that lies about its containers and gives up at the second number *)
Definition liar : delegate := {|
  d_st := nat; d_value := unit; d_object := unit; d_array := unit; d_key := unit; d_error := bool;
  d_null := fun st => (Ok tt, st); d_boolean := fun st _ => (Ok tt, st);
  d_number := fun st _ => if Nat.eqb st 1 then (Err true, st) else (Ok tt, S st);
  d_string := fun st _ => (Ok tt, st);
  d_begin_object := fun st => (Ok tt, st); d_object_key := fun st _ _ => (Ok (tt, tt), st); d_object_value := fun st _ _ _ => (Ok tt, st);
  d_object_is_empty := fun _ _ => Ok true; d_end_object := fun st _ => (Ok tt, st);
  d_begin_array := fun st => (Ok tt, st); d_array_value := fun st _ _ => (Ok tt, st);
  d_array_is_empty := fun _ _ => Ok true; d_end_array := fun st _ => (Ok tt, st);
  d_kind_of := fun _ _ => Ok JkNull |}.
Definition liar_text : list N := bs "[[""a"",],{""k"":1,},2,3]".
Example liar_told : PropTok.input_ok true W64 liar_text /\
  (exists o, fst (parse_with true W64 (recording liar) liar_text config_new (O, [])) = Err (Error o (KErrorFromDelegate true))) /\
  map (fun t => match t with TkString _ => 1 | TkNumber _ => 2 | TkArray => 3 | TkArrayEnd => 4 | TkObject => 5 | TkObjectEnd => 6 | _ => 0 end)
    (flat_map told (snd (snd (parse_with true W64 (recording liar) liar_text config_new (O, []))))) = [3; 3; 1; 4; 5; 1; 2; 6; 2] /\
  exists o, value_from_json W64 liar_text = Err (Error o KIllegalTrailingComma).
Proof.
  split; [split; [apply utf8_valid_iff; vm_compute; reflexivity|vm_compute; discriminate]|]. split; [eexists; vm_compute; reflexivity|].
  split; [vm_compute; reflexivity|]. eexists. vm_compute. reflexivity.
Qed.
