(** Property theorems C91: the parser is parametric in the delegate. Two delegates whose callbacks cannot be told apart
    through some relation between their states, values, handles and errors have related runs on every input. *)
From Verif Require Import Base Utf8 Utf8Facts StrModel ErrorModel Tokenizer Parser ValueModel DocModel NumModel Spec
  TokBase TokStr TokNum TokFacts ParserGen Trace ParserSound ParserComplete Sim SimInst StrSpec View ParseMain DocFacts
  GrammarFacts PropParse PropDelegate PropEntry PropPortable.

(** * Specification *)
(** Two outcomes correspond: the states left behind are related, and both succeed with related answers, or both fail with
    related errors, or both panic in the same way. *)
Definition corresponds {E1 E2 A1 A2 S1 S2 : Type} (RE : E1 -> E2 -> Prop) (RA : A1 -> A2 -> Prop) (RS : S1 -> S2 -> Prop)
  (r1 : res E1 A1 * S1) (r2 : res E2 A2 * S2) : Prop :=
  RS (snd r1) (snd r2) /\
  match fst r1, fst r2 with
  | Ok a, Ok b => RA a b
  | Err e, Err e' => RE e e'
  | Fault f, Fault f' => f = f'
  | _, _ => False
  end.
(** The same, except that the first may instead fail with an error from [Stop] ([None] stands for a panic). *)
Definition stopped {E A : Type} (Stop : option E -> Prop) (r : res E A) : Prop :=
  match r with Ok _ => False | Err e => Stop (Some e) | Fault _ => Stop None end.
Definition corresponds_or {E1 E2 A1 A2 S1 S2 : Type} (Stop : option E1 -> Prop) (RE : E1 -> E2 -> Prop) (RA : A1 -> A2 -> Prop)
  (RS : S1 -> S2 -> Prop) (r1 : res E1 A1 * S1) (r2 : res E2 A2 * S2) : Prop :=
  corresponds RE RA RS r1 r2 \/ stopped Stop (fst r1).
(** Errors of the parser correspond: same offset, and the same kind or related errors of the delegates. *)
Definition errors_correspond {E1 E2} (RE : E1 -> E2 -> Prop) (e1 : error E1) (e2 : error E2) : Prop :=
  err_offset e1 = err_offset e2 /\
  ((exists a b, err_kind e1 = KErrorFromDelegate a /\ err_kind e2 = KErrorFromDelegate b /\ RE a b) \/
   (exists k, err_kind e1 = kind_into_fallable k /\ err_kind e2 = kind_into_fallable k)).
(** An error of the parser that is an error of the delegate from [Stop]; a panic if [Stop] has panics. *)
Definition option_stop {E} (Stop : option E -> Prop) (e : option (error E)) : Prop :=
  match e with None => Stop None | Some e => exists x, err_kind e = KErrorFromDelegate x /\ Stop (Some x) end.
Definition pair_rel {A A' B B'} (R : A -> A' -> Prop) (R' : B -> B' -> Prop) (p : A * B) (q : A' * B') : Prop :=
  R (fst p) (fst q) /\ R' (snd p) (snd q).

(** Every callback of [D1] corresponds to that of [D2] on related states and handles. The queries need to agree only if the
    configuration uses them: is_empty if trailing commas are not allowed, kind_of if the root is restricted. *)
Record delegates_correspond (cfg : parse_config) (D1 D2 : delegate)
  (RS : d_st D1 -> d_st D2 -> Prop) (RV : d_value D1 -> d_value D2 -> Prop) (RO : d_object D1 -> d_object D2 -> Prop)
  (RA : d_array D1 -> d_array D2 -> Prop) (RK : d_key D1 -> d_key D2 -> Prop) (RE : d_error D1 -> d_error D2 -> Prop)
  (Stop : option (d_error D1) -> Prop) : Prop := {
  dc_null : forall s t, RS s t -> corresponds_or Stop RE RV RS (d_null D1 s) (d_null D2 t);
  dc_boolean : forall s t b, RS s t -> corresponds_or Stop RE RV RS (d_boolean D1 s b) (d_boolean D2 t b);
  dc_number : forall s t n, RS s t -> corresponds_or Stop RE RV RS (d_number D1 s n) (d_number D2 t n);
  dc_string : forall s t x, RS s t -> corresponds_or Stop RE RV RS (d_string D1 s x) (d_string D2 t x);
  dc_begin_object : forall s t, RS s t -> corresponds_or Stop RE RO RS (d_begin_object D1 s) (d_begin_object D2 t);
  dc_object_key : forall s t o p x, RS s t -> RO o p ->
    corresponds_or Stop RE (pair_rel RO RK) RS (d_object_key D1 s o x) (d_object_key D2 t p x);
  dc_object_value : forall s t o p k l v w, RS s t -> RO o p -> RK k l -> RV v w ->
    corresponds_or Stop RE RO RS (d_object_value D1 s o k v) (d_object_value D2 t p l w);
  dc_end_object : forall s t o p, RS s t -> RO o p -> corresponds_or Stop RE RV RS (d_end_object D1 s o) (d_end_object D2 t p);
  dc_begin_array : forall s t, RS s t -> corresponds_or Stop RE RA RS (d_begin_array D1 s) (d_begin_array D2 t);
  dc_array_value : forall s t a b v w, RS s t -> RA a b -> RV v w ->
    corresponds_or Stop RE RA RS (d_array_value D1 s a v) (d_array_value D2 t b w);
  dc_end_array : forall s t a b, RS s t -> RA a b -> corresponds_or Stop RE RV RS (d_end_array D1 s a) (d_end_array D2 t b);
  dc_object_is_empty : allow_trailing_commas cfg = false -> forall s t o p, RS s t -> RO o p ->
    d_object_is_empty D1 s o = d_object_is_empty D2 t p;
  dc_array_is_empty : allow_trailing_commas cfg = false -> forall s t a b, RS s t -> RA a b ->
    d_array_is_empty D1 s a = d_array_is_empty D2 t b;
  dc_kind_of : allow_all_types_at_root cfg = false -> forall s t v w, RS s t -> RV v w ->
    d_kind_of D1 s v = d_kind_of D2 t w }.

(** * Proof *)
Section Param.
  Variables (g : bool) (pw : pwidth) (cfg : parse_config) (D1 D2 : delegate)
    (RS : d_st D1 -> d_st D2 -> Prop) (RV : d_value D1 -> d_value D2 -> Prop) (RO : d_object D1 -> d_object D2 -> Prop)
    (RA : d_array D1 -> d_array D2 -> Prop) (RK : d_key D1 -> d_key D2 -> Prop) (RE : d_error D1 -> d_error D2 -> Prop)
    (Stop : option (d_error D1) -> Prop).
  Hypothesis H : delegates_correspond cfg D1 D2 RS RV RO RA RK RE Stop.

  Definition both_at (s1 : pstate D1) (s2 : pstate D2) : Prop :=
    ps_iter s1 = ps_iter s2 /\ RS (ps_del s1) (ps_del s2) /\ ps_depth s1 = ps_depth s2.
  Notation StopP := (option_stop Stop).
  Definition par {A B} (R : A -> B -> Prop) (m1 : pm D1 A) (m2 : pm D2 B) : Prop := forall s1 s2, both_at s1 s2 ->
    stopped StopP (fst (m1 s1)) \/
    match m1 s1, m2 s2 with
    | (Ok a, t1), (Ok b, t2) => R a b /\ both_at t1 t2
    | (Err e, t1), (Err e', t2) => errors_correspond RE e e' /\ RS (ps_del t1) (ps_del t2)
    | (Fault x, t1), (Fault y, t2) => x = y /\ RS (ps_del t1) (ps_del t2)
    | _, _ => False
    end.

  Lemma pa_bind {A B A2 B2} (R : A -> A2 -> Prop) (R' : B -> B2 -> Prop) (m1 : pm D1 A) (m2 : pm D2 A2) (k1 : A -> pm D1 B) (k2 : A2 -> pm D2 B2) :
    par R m1 m2 -> (forall a b, R a b -> par R' (k1 a) (k2 b)) -> par R' (pbind D1 m1 k1) (pbind D2 m2 k2).
  Proof.
    intros Hm Hk s1 s2 Hs. specialize (Hm s1 s2 Hs). unfold pbind. destruct Hm as [Hst|Hm].
    - left. destruct (m1 s1) as [[a|e|x] t1]; [destruct Hst|exact Hst..].
    - destruct (m1 s1) as [[a|e|x] t1], (m2 s2) as [[b|e'|y] t2]; try contradiction; try (right; exact Hm).
      destruct Hm as [HR Ht]. exact (Hk a b HR t1 t2 Ht).
  Qed.
  Lemma pa_ret {A B} (R : A -> B -> Prop) a b : R a b -> par R (pret D1 a) (pret D2 b).
  Proof. intros HR s1 s2 Hs. right. split; auto. Qed.
  Lemma pa_err {A B} (R : A -> B -> Prop) o (k : error_kind infallible) :
    par R (@perr D1 A o (kind_into_fallable k)) (@perr D2 B o (kind_into_fallable k)).
  Proof. intros s1 s2 (_ & Hd & _). right. split; [|exact Hd]. split; [reflexivity|]. right. exists k. auto. Qed.
  Lemma pa_fault {A B} (R : A -> B -> Prop) x : par R (fun s => (Fault x, s)) (fun s => (Fault x, s)).
  Proof. intros s1 s2 (_ & Hd & _). right. auto. Qed.
  Lemma pa_offset : par eq (p_offset D1) (p_offset D2).
  Proof. intros s1 s2 Hs. pose proof Hs as (Hi & _). right. unfold p_offset. rewrite Hi. auto. Qed.
  Lemma pa_tok {A} (f : error infallible -> error infallible) (m : tok A) :
    par eq (p_tok_err D1 (fun e => into_fallable (f e)) m) (p_tok_err D2 (fun e => into_fallable (f e)) m).
  Proof.
    intros s1 s2 (Hi & Hd & Hp). right. unfold p_tok_err. rewrite Hi. destruct (m (ps_iter s2)) as [[a|e|x] it]; cbn [map_err ps_del].
    - split; [reflexivity|]. repeat split; assumption.
    - split; [|exact Hd]. split; [reflexivity|]. right. exists (err_kind (f e)). auto.
    - auto.
  Qed.
  Lemma pa_tok_id {A} (m : tok A) : par eq (p_tok D1 m) (p_tok D2 m).
  Proof. exact (pa_tok (fun e => e) m). Qed.
  Lemma pa_tok_colon {A} (m : tok A) : par eq (p_tok_err D1 (to_expected_colon D1) m) (p_tok_err D2 (to_expected_colon D2) m).
  Proof. exact (pa_tok (fun e => Error (err_offset e) KExpectedColon) m). Qed.
  Lemma pa_del {A B} (R : A -> B -> Prop) o m1 m2 : (forall s t, RS s t -> corresponds_or Stop RE R RS (m1 s) (m2 t)) ->
    par R (p_del D1 o m1) (p_del D2 o m2).
  Proof.
    intros K s1 s2 (Hi & Hd & Hp). specialize (K _ _ Hd). unfold p_del.
    destruct (m1 (ps_del s1)) as [r1 t1], (m2 (ps_del s2)) as [r2 t2].
    destruct K as [[HS K]|Hst]; cbn [fst snd] in *.
    - right. destruct r1 as [a|e|x], r2 as [b|e'|y]; cbn [map_err ps_del]; try contradiction.
      + split; [exact K|]. repeat split; assumption.
      + split; [|exact HS]. split; [reflexivity|]. left. exists e, e'. auto.
      + auto.
    - left. destruct r1 as [a|e|x]; cbn in *; [exact Hst|exists e; auto|exact Hst].
  Qed.
  Lemma pa_query {A} (m1 : d_st D1 -> res infallible A) m2 : (forall s t, RS s t -> m1 s = m2 t) -> par eq (p_query D1 m1) (p_query D2 m2).
  Proof.
    intros K s1 s2 Hs. pose proof Hs as (Hi & Hd & Hp). right. unfold p_query. rewrite (K _ _ Hd). destruct (m2 (ps_del s2)) as [a|[]|x]; auto.
  Qed.
  Lemma pa_begin o : par eq (begin_nest cfg D1 o) (begin_nest cfg D2 o).
  Proof.
    intros s1 s2 Hs. pose proof Hs as (Hi & Hd & Hp). right. unfold begin_nest. destruct (recursion_limit cfg) as [l|]; [|auto].
    rewrite Hp. destruct (0 <? ps_depth s2)%N.
    - split; [reflexivity|]. repeat split; assumption.
    - split; [|exact Hd]. split; [reflexivity|]. right. exists KRecursionLimitReached. auto.
  Qed.
  Lemma pa_end : par eq (end_nest cfg D1) (end_nest cfg D2).
  Proof.
    intros s1 s2 Hs. pose proof Hs as (Hi & Hd & Hp). right. unfold end_nest. destruct (recursion_limit cfg) as [l|]; [|auto].
    rewrite Hp. split; [reflexivity|]. repeat split; assumption.
  Qed.
  Lemma eof_to_corresponds (k : error_kind infallible) e e' : errors_correspond RE e e' ->
    errors_correspond RE (eof_to D1 (kind_into_fallable k) e) (eof_to D2 (kind_into_fallable k) e').
  Proof.
    intros [Ho [(a & b & E & E' & HR)|(q & E & E')]]; unfold eof_to.
    - rewrite E, E'. split; [exact Ho|]. left. exists a, b. auto.
    - rewrite E, E'. assert (K : errors_correspond RE e e') by (split; [exact Ho|right; exists q; auto]).
      destruct q; cbn [kind_into_fallable] in *; try exact K.
      + split; [exact Ho|]. right. exists k. auto.
      + destruct d.
  Qed.
  Lemma pa_map_err {A B} (R : A -> B -> Prop) (k : error_kind infallible) (m1 : pm D1 A) (m2 : pm D2 B) : par R m1 m2 ->
    par R (p_map_err D1 (eof_to D1 (kind_into_fallable k)) m1) (p_map_err D2 (eof_to D2 (kind_into_fallable k)) m2).
  Proof.
    intros K s1 s2 Hs. specialize (K s1 s2 Hs). unfold p_map_err. destruct K as [Hst|K].
    - left. destruct (m1 s1) as [[a|[o ke]|x] t1]; [destruct Hst| |exact Hst]. destruct Hst as (x & E & Hx). cbn in E. subst ke.
      exists x. auto.
    - right. destruct (m1 s1) as [[a|e|x] t1], (m2 s2) as [[b|e'|y] t2]; cbn [map_err]; try contradiction; try exact K.
      destruct K as [K1 K2]. split; [apply eof_to_corresponds, K1|exact K2].
  Qed.
  Lemma pa_peek : par eq (peek_array_end D1) (peek_array_end D2).
  Proof.
    intros s1 s2 (Hi & Hd & Hp). right. unfold peek_array_end. rewrite Hi. destruct (tokenizer_peek (ps_iter s2)) as [o it].
    destruct o as [[]|]; (split; [reflexivity|]; repeat split; assumption).
  Qed.
  Lemma pa_trailing : par eq (check_trailing D1) (check_trailing D2).
  Proof.
    intros s1 s2 (Hi & Hd & Hp). right. unfold check_trailing. rewrite Hi. destruct (next_non_ws (ps_iter s2)) as [[[o b]|] it].
    - split; [|exact Hd]. split; [reflexivity|]. right. exists KTrailingNonWhitespace. auto.
    - split; [reflexivity|]. repeat split; assumption.
  Qed.

  Lemma pa_perr {A B} (R : A -> B -> Prop) o k1 k2 (k : error_kind infallible) : kind_into_fallable k = k1 -> kind_into_fallable k = k2 ->
    par R (@perr D1 A o k1) (@perr D2 B o k2).
  Proof. intros <- <-. apply pa_err. Qed.
  Ltac pa_kind := match goal with |- par _ (perr _ _ ?k) _ =>
    match k with
    | KIllegalTrailingComma => exact (pa_err _ _ KIllegalTrailingComma)
    | KExpectedCommaOrEndOfObject => exact (pa_err _ _ KExpectedCommaOrEndOfObject)
    | KExpectedCommaOrEndOfArray => exact (pa_err _ _ KExpectedCommaOrEndOfArray)
    | KExpectedColon => exact (pa_err _ _ KExpectedColon)
    | KObjectKeysMustBeStrings => exact (pa_err _ _ KObjectKeysMustBeStrings)
    | KExpectedObjectKey => exact (pa_err _ _ KExpectedObjectKey)
    | KPayloadsShouldBeObjectOrArray => exact (pa_err _ _ KPayloadsShouldBeObjectOrArray)
    | KUnexpected ?b => exact (pa_err _ _ (KUnexpected b))
    end end.

  Lemma pa_object_loop rv1 rv2 : par RV rv1 rv2 -> forall n o p, RO o p ->
    par RO (object_loop g pw cfg D1 rv1 n o) (object_loop g pw cfg D2 rv2 n p).
  Proof.
    intros Hrv. induction n as [|n IH]; intros o p Ho; cbn [object_loop]; [apply pa_fault|].
    eapply pa_bind; [apply pa_offset|intros o1 ? <-]. eapply pa_bind; [apply pa_tok_id|intros tk ? <-].
    destruct tk; try pa_kind.
    - eapply pa_bind; [apply pa_del; intros sa sb Hs; apply (dc_object_key _ _ _ _ _ _ _ _ _ _ H); [exact Hs|exact Ho]|].
      intros [o2 k] [p2 k2] [Ho2 Hk]. cbn [fst snd] in Ho2, Hk.
      eapply pa_bind; [apply pa_offset|intros o3 ? <-]. eapply pa_bind; [apply pa_tok_colon|intros tk ? <-].
      destruct tk; try pa_kind.
      eapply pa_bind; [apply pa_offset|intros o4 ? <-]. eapply pa_bind; [exact Hrv|intros v w Hv].
      eapply pa_bind; [apply pa_del; intros sa sb Hs; apply (dc_object_value _ _ _ _ _ _ _ _ _ _ H); eassumption|].
      intros o5 p5 Ho5. eapply pa_bind; [apply pa_offset|intros o6 ? <-]. eapply pa_bind; [apply pa_tok_id|intros tk ? <-].
      destruct tk; try pa_kind; [apply pa_ret, Ho5|apply IH, Ho5].
    - apply pa_bind with (R := eq).
      + destruct (allow_trailing_commas cfg) eqn:Etc; [apply pa_ret; reflexivity|].
        apply pa_query. intros sa sb Hs. apply (dc_object_is_empty _ _ _ _ _ _ _ _ _ _ H); assumption.
      + intros b ? <-. destruct b; [apply pa_ret, Ho|pa_kind].
  Qed.
  Lemma pa_array_loop rv1 rv2 : par RV rv1 rv2 -> forall n o p, RA o p ->
    par RA (array_loop g pw cfg D1 rv1 n o) (array_loop g pw cfg D2 rv2 n p).
  Proof.
    intros Hrv. induction n as [|n IH]; intros o p Ho; cbn [array_loop]; [apply pa_fault|].
    eapply pa_bind; [apply pa_offset|intros o1 ? <-]. eapply pa_bind; [apply pa_peek|intros b ? <-]. destruct b.
    - apply pa_bind with (R := eq).
      + destruct (allow_trailing_commas cfg) eqn:Etc; [apply pa_ret; reflexivity|].
        apply pa_query. intros sa sb Hs. apply (dc_array_is_empty _ _ _ _ _ _ _ _ _ _ H); assumption.
      + intros b ? <-. destruct b; [apply pa_ret, Ho|pa_kind].
    - eapply pa_bind; [exact Hrv|intros v w Hv]. eapply pa_bind; [apply pa_offset|intros o4 ? <-].
      eapply pa_bind; [apply pa_del; intros sa sb Hs; apply (dc_array_value _ _ _ _ _ _ _ _ _ _ H); eassumption|].
      intros o5 p5 Ho5. eapply pa_bind; [apply pa_offset|intros o6 ? <-]. eapply pa_bind; [apply pa_tok_id|intros tk ? <-].
      destruct tk; try pa_kind; [apply pa_ret, Ho5|apply IH, Ho5].
  Qed.
  Lemma pa_read_tokens loops fuel : par RV (read_tokens g pw cfg D1 loops fuel) (read_tokens g pw cfg D2 loops fuel).
  Proof.
    induction fuel as [|fuel IH]; cbn [read_tokens]; [apply pa_fault|].
    eapply pa_bind; [apply pa_offset|intros o1 ? <-]. eapply pa_bind; [apply pa_tok_id|intros tk ? <-].
    destruct tk; try pa_kind.
    - apply pa_del. intros sa sb. apply (dc_null _ _ _ _ _ _ _ _ _ _ H).
    - apply pa_del. intros sa sb. apply (dc_boolean _ _ _ _ _ _ _ _ _ _ H).
    - apply pa_del. intros sa sb. apply (dc_string _ _ _ _ _ _ _ _ _ _ H).
    - apply pa_del. intros sa sb. apply (dc_number _ _ _ _ _ _ _ _ _ _ H).
    - eapply pa_bind; [apply pa_begin|intros ? ? _]. apply (pa_map_err RV KUnclosedObject). unfold read_object.
      eapply pa_bind; [apply pa_offset|intros o2 ? <-].
      eapply pa_bind; [apply pa_del; intros sa sb; apply (dc_begin_object _ _ _ _ _ _ _ _ _ _ H)|intros o p Ho].
      eapply pa_bind; [apply pa_object_loop; [exact IH|exact Ho]|intros o' p' Ho'].
      eapply pa_bind; [apply pa_offset|intros o3 ? <-].
      eapply pa_bind; [apply pa_del; intros sa sb Hs; apply (dc_end_object _ _ _ _ _ _ _ _ _ _ H); eassumption|intros v w Hv].
      eapply pa_bind; [apply pa_end|intros ? ? _]. apply pa_ret, Hv.
    - eapply pa_bind; [apply pa_begin|intros ? ? _]. apply (pa_map_err RV KUnclosedArray). unfold read_array.
      eapply pa_bind; [apply pa_offset|intros o2 ? <-].
      eapply pa_bind; [apply pa_del; intros sa sb; apply (dc_begin_array _ _ _ _ _ _ _ _ _ _ H)|intros o p Ho].
      eapply pa_bind; [apply pa_array_loop; [exact IH|exact Ho]|intros o' p' Ho'].
      eapply pa_bind; [apply pa_del; intros sa sb Hs; apply (dc_end_array _ _ _ _ _ _ _ _ _ _ H); eassumption|intros v w Hv].
      eapply pa_bind; [apply pa_end|intros ? ? _]. apply pa_ret, Hv.
  Qed.
  Lemma pa_parse_body loops fuel : par RV (parse_body g pw cfg D1 loops fuel) (parse_body g pw cfg D2 loops fuel).
  Proof.
    unfold parse_body. eapply pa_bind; [apply pa_read_tokens|intros v w Hv]. eapply pa_bind with (R := eq).
    - unfold check_root. destruct (allow_all_types_at_root cfg) eqn:Er; cbn [negb]; [apply pa_ret; reflexivity|].
      eapply pa_bind; [apply pa_query; intros sa sb Hs; apply (dc_kind_of _ _ _ _ _ _ _ _ _ _ H); eassumption|].
      intros k ? <-. destruct k; try pa_kind; apply pa_ret; reflexivity.
    - intros ? ? _. eapply pa_bind; [apply pa_trailing|intros ? ? _]. apply pa_ret, Hv.
  Qed.
End Param.

(** * C91 *)
Theorem C91_runs_correspond utf8 pw cfg D1 D2 RS RV RO RA RK RE Stop s st1 st2 :
  delegates_correspond cfg D1 D2 RS RV RO RA RK RE Stop -> RS st1 st2 ->
  corresponds_or (option_stop Stop) (errors_correspond RE) RV RS
    (parse_with utf8 pw D1 s cfg st1) (parse_with utf8 pw D2 s cfg st2).
Proof.
  intros H Hst. rewrite !parse_with_eq. unfold parse_bytes.
  pose proof (pa_parse_body utf8 pw cfg D1 D2 RS RV RO RA RK RE Stop H (S (length s)) (S (length s))
    (parse_state pw cfg D1 s st1) (parse_state pw cfg D2 s st2)) as P.
  assert (K : both_at D1 D2 RS (parse_state pw cfg D1 s st1) (parse_state pw cfg D2 s st2)) by (repeat split; exact Hst).
  specialize (P K). clear K.
  destruct (parse_body utf8 pw cfg D1 (S (length s)) (S (length s)) (parse_state pw cfg D1 s st1)) as [r1 t1].
  destruct (parse_body utf8 pw cfg D2 (S (length s)) (S (length s)) (parse_state pw cfg D2 s st2)) as [r2 t2].
  destruct P as [P|P]; cbn [fst] in *.
  - right. exact P.
  - left. unfold corresponds. cbn [fst snd]. destruct r1 as [a|e|x], r2 as [b|e'|y]; try contradiction.
    + destruct P as [P1 (_ & P2 & _)]. auto.
    + destruct P; auto.
    + destruct P; auto.
Qed.

(** ** Homomorphisms
    If functions from the types of [D1] to those of [D2] commute with every callback, they commute with parsing. *)
Definition map_outcome {E1 E2 A1 A2 S1 S2 : Type} (fe : E1 -> E2) (fa : A1 -> A2) (fs : S1 -> S2) (r : res E1 A1 * S1) : res E2 A2 * S2 :=
  (match fst r with Ok a => Ok (fa a) | Err e => Err (fe e) | Fault f => Fault f end, fs (snd r)).
(** The error of a parse with the delegate's own error mapped. *)
Definition map_delegate_error {E1 E2} (f : E1 -> E2) (e : error E1) : error E2 :=
  Error (err_offset e) (match err_kind e with
    | KErrorFromDelegate x => KErrorFromDelegate (f x)
    | KUtf8 => KUtf8 | KUnexpectedEof => KUnexpectedEof | KExpectedObjectKey => KExpectedObjectKey | KExpectedColon => KExpectedColon
    | KExpectedValue => KExpectedValue | KExpectedCommaOrEndOfObject => KExpectedCommaOrEndOfObject
    | KExpectedCommaOrEndOfArray => KExpectedCommaOrEndOfArray | KIllegalTrailingComma => KIllegalTrailingComma
    | KUnexpected b => KUnexpected b | KTrailingNonWhitespace => KTrailingNonWhitespace
    | KObjectKeysMustBeStrings => KObjectKeysMustBeStrings | KExpectedExponent => KExpectedExponent
    | KExpectedDecimalDigit => KExpectedDecimalDigit | KExpectedDigit => KExpectedDigit | KInvalidHexadecimal => KInvalidHexadecimal
    | KInvalidEscape => KInvalidEscape | KUnclosedObject => KUnclosedObject | KUnclosedArray => KUnclosedArray
    | KUnclosedString => KUnclosedString | KExpectedString => KExpectedString | KExpectedNumber => KExpectedNumber
    | KRecursionLimitReached => KRecursionLimitReached | KPayloadsShouldBeObjectOrArray => KPayloadsShouldBeObjectOrArray
    | KPaylodTooLarge => KPaylodTooLarge end).
Definition both {A A' B B'} (f : A -> A') (g : B -> B') (p : A * B) : A' * B' := (f (fst p), g (snd p)).

Record homomorphism (cfg : parse_config) (D1 D2 : delegate) (fs : d_st D1 -> d_st D2) (fv : d_value D1 -> d_value D2)
  (fo : d_object D1 -> d_object D2) (fa : d_array D1 -> d_array D2) (fk : d_key D1 -> d_key D2) (fe : d_error D1 -> d_error D2) : Prop := {
  hm_null : forall s, d_null D2 (fs s) = map_outcome fe fv fs (d_null D1 s);
  hm_boolean : forall s b, d_boolean D2 (fs s) b = map_outcome fe fv fs (d_boolean D1 s b);
  hm_number : forall s n, d_number D2 (fs s) n = map_outcome fe fv fs (d_number D1 s n);
  hm_string : forall s x, d_string D2 (fs s) x = map_outcome fe fv fs (d_string D1 s x);
  hm_begin_object : forall s, d_begin_object D2 (fs s) = map_outcome fe fo fs (d_begin_object D1 s);
  hm_object_key : forall s o x, d_object_key D2 (fs s) (fo o) x = map_outcome fe (both fo fk) fs (d_object_key D1 s o x);
  hm_object_value : forall s o k v, d_object_value D2 (fs s) (fo o) (fk k) (fv v) = map_outcome fe fo fs (d_object_value D1 s o k v);
  hm_end_object : forall s o, d_end_object D2 (fs s) (fo o) = map_outcome fe fv fs (d_end_object D1 s o);
  hm_begin_array : forall s, d_begin_array D2 (fs s) = map_outcome fe fa fs (d_begin_array D1 s);
  hm_array_value : forall s a v, d_array_value D2 (fs s) (fa a) (fv v) = map_outcome fe fa fs (d_array_value D1 s a v);
  hm_end_array : forall s a, d_end_array D2 (fs s) (fa a) = map_outcome fe fv fs (d_end_array D1 s a);
  hm_object_is_empty : allow_trailing_commas cfg = false -> forall s o, d_object_is_empty D2 (fs s) (fo o) = d_object_is_empty D1 s o;
  hm_array_is_empty : allow_trailing_commas cfg = false -> forall s a, d_array_is_empty D2 (fs s) (fa a) = d_array_is_empty D1 s a;
  hm_kind_of : allow_all_types_at_root cfg = false -> forall s v, d_kind_of D2 (fs s) (fv v) = d_kind_of D1 s v }.

Lemma corresponds_map {E1 E2 A1 A2 S1 S2 : Type} (fe : E1 -> E2) (fa : A1 -> A2) (fs : S1 -> S2) r r2 : r2 = map_outcome fe fa fs r ->
  corresponds_or (fun _ => False) (fun e e' => fe e = e') (fun a b => fa a = b) (fun s t => fs s = t) r r2.
Proof. intros ->. left. split; [reflexivity|]. destruct r as [[a|e|x] s]; reflexivity. Qed.
Lemma map_delegate_error_corresponds {E1 E2} (f : E1 -> E2) e e' : errors_correspond (fun a b => f a = b) e e' -> e' = map_delegate_error f e.
Proof.
  destruct e as [o k], e' as [o' k']. unfold errors_correspond, map_delegate_error. cbn [err_offset err_kind].
  intros [<- [(a & b & -> & -> & <-)|(q & -> & ->)]]; [reflexivity|]. destruct q; try reflexivity. destruct d.
Qed.

Theorem C91_homomorphisms utf8 pw cfg D1 D2 fs fv fo fa fk fe s st : homomorphism cfg D1 D2 fs fv fo fa fk fe ->
  parse_with utf8 pw D2 s cfg (fs st) = map_outcome (map_delegate_error fe) fv fs (parse_with utf8 pw D1 s cfg st).
Proof.
  intro H.
  assert (K : delegates_correspond cfg D1 D2 (fun s t => fs s = t) (fun v w => fv v = w) (fun o p => fo o = p) (fun a b => fa a = b)
    (fun k l => fk k = l) (fun e e' => fe e = e') (fun _ => False)).
  { constructor; intros; subst; try (apply corresponds_map; apply H); try (symmetry; apply H; assumption).
    destruct (corresponds_map fe (both fo fk) fs _ _ (hm_object_key _ _ _ _ _ _ _ _ _ H s0 o x)) as [[K1 K2]|K2]; [|destruct (fst (d_object_key D1 s0 o x)); destruct K2].
    left. split; [exact K1|]. destruct (fst (d_object_key D1 s0 o x)) as [[]| |], (fst (d_object_key D2 (fs s0) (fo o) x)) as [[]| |]; try exact K2.
    inversion K2; subst. split; reflexivity. }
  destruct (C91_runs_correspond utf8 pw cfg D1 D2 _ _ _ _ _ _ _ s st (fs st) K eq_refl) as [[K1 K2]|K2]; [|destruct (fst (parse_with utf8 pw D1 s cfg st)) as [|[]|]; [destruct K2|destruct K2 as (? & _ & [])|destruct K2]].
  destruct (parse_with utf8 pw D1 s cfg st) as [r1 t1], (parse_with utf8 pw D2 s cfg (fs st)) as [r2 t2]. cbn [fst snd] in *. subst t2.
  unfold map_outcome. cbn [fst snd]. f_equal. destruct r1 as [a|e|x], r2 as [b|e'|y]; try contradiction; subst; try reflexivity.
  f_equal. apply map_delegate_error_corresponds, K2.
Qed.

(** ** Two delegates at once
    [tee D1 D2] forwards every callback to both, [D1] first; the queries are answered by [D1]. *)
Definition tee_call {E1 E2 A1 A2 S1 S2 : Type} (s2 : S2) (r1 : res E1 A1 * S1) (r2 : S2 -> res E2 A2 * S2) : res (E1 + E2) (A1 * A2) * (S1 * S2) :=
  match r1 with
  | (Ok a, t1) => match r2 s2 with
    | (Ok b, t2) => (Ok (a, b), (t1, t2))
    | (Err e, t2) => (Err (inr e), (t1, t2))
    | (Fault f, t2) => (Fault f, (t1, t2))
    end
  | (Err e, t1) => (Err (inl e), (t1, s2))
  | (Fault f, t1) => (Fault f, (t1, s2))
  end.
Definition tee (D1 D2 : delegate) : delegate := {|
  d_st := d_st D1 * d_st D2; d_value := d_value D1 * d_value D2; d_object := d_object D1 * d_object D2; d_array := d_array D1 * d_array D2;
  d_key := d_key D1 * d_key D2; d_error := d_error D1 + d_error D2;
  d_null := fun st => tee_call (snd st) (d_null D1 (fst st)) (d_null D2);
  d_boolean := fun st b => tee_call (snd st) (d_boolean D1 (fst st) b) (fun t => d_boolean D2 t b);
  d_number := fun st n => tee_call (snd st) (d_number D1 (fst st) n) (fun t => d_number D2 t n);
  d_string := fun st x => tee_call (snd st) (d_string D1 (fst st) x) (fun t => d_string D2 t x);
  d_begin_object := fun st => tee_call (snd st) (d_begin_object D1 (fst st)) (d_begin_object D2);
  d_object_key := fun st o x =>
    map_outcome (fun e => e) (fun p => ((fst (fst p), fst (snd p)), (snd (fst p), snd (snd p)))) (fun s => s)
      (tee_call (snd st) (d_object_key D1 (fst st) (fst o) x) (fun t => d_object_key D2 t (snd o) x));
  d_object_value := fun st o k v => tee_call (snd st) (d_object_value D1 (fst st) (fst o) (fst k) (fst v)) (fun t => d_object_value D2 t (snd o) (snd k) (snd v));
  d_object_is_empty := fun st o => d_object_is_empty D1 (fst st) (fst o);
  d_end_object := fun st o => tee_call (snd st) (d_end_object D1 (fst st) (fst o)) (fun t => d_end_object D2 t (snd o));
  d_begin_array := fun st => tee_call (snd st) (d_begin_array D1 (fst st)) (d_begin_array D2);
  d_array_value := fun st a v => tee_call (snd st) (d_array_value D1 (fst st) (fst a) (fst v)) (fun t => d_array_value D2 t (snd a) (snd v));
  d_array_is_empty := fun st a => d_array_is_empty D1 (fst st) (fst a);
  d_end_array := fun st a => tee_call (snd st) (d_end_array D1 (fst st) (fst a)) (fun t => d_end_array D2 t (snd a));
  d_kind_of := fun st v => d_kind_of D1 (fst st) (fst v) |}.

Lemma tee_first {E1 E2 A1 A2 S1 S2 : Type} (s2 : S2) (r1 : res E1 A1 * S1) (r2 : S2 -> res E2 A2 * S2) :
  corresponds_or (fun e => e = None \/ exists x, e = Some (inr x)) (fun e x => e = inl x) (fun p a => fst p = a) (fun p s => fst p = s) (tee_call s2 r1 r2) r1.
Proof.
  unfold tee_call. destruct r1 as [[a|e|x] t1]; [|left; split; reflexivity..].
  destruct (r2 s2) as [[b|e|y] t2]; [left; split; reflexivity|right; right; eauto|right; left; reflexivity].
Qed.
Lemma tee_second {E1 E2 A1 A2 S1 S2 : Type} (s2 : S2) (r1 : res E1 A1 * S1) (r2 : S2 -> res E2 A2 * S2) :
  corresponds_or (fun e => e = None \/ exists x, e = Some (inl x)) (fun e x => e = inr x) (fun p b => snd p = b) (fun p s => snd p = s) (tee_call s2 r1 r2) (r2 s2).
Proof.
  unfold tee_call. destruct r1 as [[a|e|x] t1]; [|right; right; eauto|right; left; reflexivity].
  destruct (r2 s2) as [[b|e|y] t2]; left; split; reflexivity.
Qed.
Lemma corresponds_weaken {E1 E2 A1 A1' A2 S1 S2 : Type} (Stop : option E1 -> Prop) (RE : E1 -> E2 -> Prop) (RA : A1 -> A2 -> Prop) (RA' : A1' -> A2 -> Prop)
  (RS : S1 -> S2 -> Prop) (f : A1 -> A1') r1 r2 : (forall a b, RA a b -> RA' (f a) b) ->
  corresponds_or Stop RE RA RS r1 r2 -> corresponds_or Stop RE RA' RS (map_outcome (fun e => e) f (fun s => s) r1) r2.
Proof.
  intros K [[H1 H2]|H]; [left|right]; destruct r1 as [[a|e|x] t], r2 as [[b|e'|y] t']; cbn in *; try contradiction; try exact H; try (split; [exact H1|]; cbn; auto).
Qed.

(** The run of [tee D1 D2]: what it returns for [D1] is what parsing with [D1] alone returns, unless [D2] stopped it. *)
Theorem C91_tee_first utf8 pw cfg D1 D2 s st1 st2 :
  match parse_with utf8 pw (tee D1 D2) s cfg (st1, st2) with
  | (Ok v, (t1, _)) => parse_with utf8 pw D1 s cfg st1 = (Ok (fst v), t1)
  | (Err (Error o (KErrorFromDelegate (inl e))), (t1, _)) => parse_with utf8 pw D1 s cfg st1 = (Err (Error o (KErrorFromDelegate e)), t1)
  | (Err (Error o (KErrorFromDelegate (inr _))), _) => True
  | (Err e, (t1, _)) => exists k, err_kind e = kind_into_fallable k /\ parse_with utf8 pw D1 s cfg st1 = (Err (into_fallable (Error (err_offset e) k)), t1)
  | (Fault _, _) => True
  end.
Proof.
  assert (K : delegates_correspond cfg (tee D1 D2) D1 (fun p s => fst p = s) (fun p s => fst p = s) (fun p s => fst p = s) (fun p s => fst p = s)
    (fun p s => fst p = s) (fun e x => e = inl x) (fun e => e = None \/ exists x, e = Some (inr x))).
  { constructor; cbn -[tee_call]; intros; subst; try apply tee_first; try reflexivity.
    eapply corresponds_weaken; [|apply tee_first]. intros [a b] c <-. split; reflexivity. }
  pose proof (C91_runs_correspond utf8 pw cfg (tee D1 D2) D1 _ _ _ _ _ _ _ s (st1, st2) st1 K eq_refl) as C.
  destruct (parse_with utf8 pw (tee D1 D2) s cfg (st1, st2)) as [r [t1 t2]], (parse_with utf8 pw D1 s cfg st1) as [r' t']. 
  destruct C as [[C1 C2]|C]; cbn in C1, C2 || cbn in C.
  - cbn [fst snd] in *. subst t'. destruct r as [v|[o k]|f], r' as [v'|[o' k']|f']; try contradiction; [subst; reflexivity| |exact I].
    destruct C2 as [Ho [(a & b & E & E' & ->)|(q & E & E')]]; cbn in Ho, E, E'; subst; [reflexivity|].
    destruct q eqn:Eq; cbn [kind_into_fallable]; try (exists q; rewrite Eq; split; reflexivity). destruct d.
  - destruct r as [v|[o k]|f]; cbn in C; [destruct C| |exact I]. destruct C as (x & E & [E2|(y & E2)]); [discriminate|]. injection E2 as ->. subst k. exact I.
Qed.
(** For [D2] likewise, in the configurations that ask no questions (so that the answers of [D1] do not matter). *)
Theorem C91_tee_second utf8 pw cfg D1 D2 s st1 st2 : allow_trailing_commas cfg = true -> allow_all_types_at_root cfg = true ->
  match parse_with utf8 pw (tee D1 D2) s cfg (st1, st2) with
  | (Ok v, (_, t2)) => parse_with utf8 pw D2 s cfg st2 = (Ok (snd v), t2)
  | (Err (Error o (KErrorFromDelegate (inr e))), (_, t2)) => parse_with utf8 pw D2 s cfg st2 = (Err (Error o (KErrorFromDelegate e)), t2)
  | (Err (Error o (KErrorFromDelegate (inl _))), _) => True
  | (Err e, (_, t2)) => exists k, err_kind e = kind_into_fallable k /\ parse_with utf8 pw D2 s cfg st2 = (Err (into_fallable (Error (err_offset e) k)), t2)
  | (Fault _, _) => True
  end.
Proof.
  intros Htc Hr.
  assert (K : delegates_correspond cfg (tee D1 D2) D2 (fun p s => snd p = s) (fun p s => snd p = s) (fun p s => snd p = s) (fun p s => snd p = s)
    (fun p s => snd p = s) (fun e x => e = inr x) (fun e => e = None \/ exists x, e = Some (inl x))).
  { constructor; cbn -[tee_call]; intros; subst; try congruence;
      try match goal with |- corresponds_or _ _ _ _ (tee_call ?a ?b ?f) _ => exact (tee_second a b f) end.
    eapply corresponds_weaken; [|refine (tee_second _ _ (fun t => d_object_key D2 t (snd o) x))]. intros [a b] c <-. split; reflexivity. }
  pose proof (C91_runs_correspond utf8 pw cfg (tee D1 D2) D2 _ _ _ _ _ _ _ s (st1, st2) st2 K eq_refl) as C.
  destruct (parse_with utf8 pw (tee D1 D2) s cfg (st1, st2)) as [r [t1 t2]], (parse_with utf8 pw D2 s cfg st2) as [r' t']. 
  destruct C as [[C1 C2]|C]; cbn in C1, C2 || cbn in C.
  - cbn [fst snd] in *. subst t'. destruct r as [v|[o k]|f], r' as [v'|[o' k']|f']; try contradiction; [subst; reflexivity| |exact I].
    destruct C2 as [Ho [(a & b & E & E' & ->)|(q & E & E')]]; cbn in Ho, E, E'; subst; [reflexivity|].
    destruct q eqn:Eq; cbn [kind_into_fallable]; try (exists q; rewrite Eq; split; reflexivity). destruct d.
  - destruct r as [v|[o k]|f]; cbn in C; [destruct C| |exact I]. destruct C as (x & E & [E2|(y & E2)]); [discriminate|]. injection E2 as ->. subst k. exact I.
Qed.

(** ** Stateless delegates are folds
    A delegate without state that only combines what it is given (its key handle is the key) computes a structural recursion over
    the [Value] that [Value::from_json] returns. *)
Record combinators (V O A : Type) : Type := Combinators {
  on_null : V; on_boolean : bool -> V; on_number : json_number -> V; on_string : json_string -> V;
  on_object : O; on_member : O -> json_string -> V -> O; on_object_end : O -> V;
  on_array : A; on_element : A -> V -> A; on_array_end : A -> V;
  is_empty_object : O -> bool; is_empty_array : A -> bool; kind_told : V -> json_kind }.
Arguments on_null {V O A}. Arguments on_boolean {V O A}. Arguments on_number {V O A}. Arguments on_string {V O A}.
Arguments on_object {V O A}. Arguments on_member {V O A}. Arguments on_object_end {V O A}. Arguments on_array {V O A}.
Arguments on_element {V O A}. Arguments on_array_end {V O A}. Arguments is_empty_object {V O A}. Arguments is_empty_array {V O A}.
Arguments kind_told {V O A}.
Definition stateless {V O A} (c : combinators V O A) : delegate := {|
  d_st := unit; d_value := V; d_object := O; d_array := A; d_key := json_string; d_error := infallible;
  d_null := fun st => (Ok (on_null c), st);
  d_boolean := fun st b => (Ok (on_boolean c b), st);
  d_number := fun st n => (Ok (on_number c n), st);
  d_string := fun st x => (Ok (on_string c x), st);
  d_begin_object := fun st => (Ok (on_object c), st);
  d_object_key := fun st o k => (Ok (o, k), st);
  d_object_value := fun st o k v => (Ok (on_member c o k v), st);
  d_object_is_empty := fun _ o => Ok (is_empty_object c o);
  d_end_object := fun st o => (Ok (on_object_end c o), st);
  d_begin_array := fun st => (Ok (on_array c), st);
  d_array_value := fun st a v => (Ok (on_element c a v), st);
  d_array_is_empty := fun _ a => Ok (is_empty_array c a);
  d_end_array := fun st a => (Ok (on_array_end c a), st);
  d_kind_of := fun _ v => Ok (kind_told c v) |}.
(** The recursion. *)
Fixpoint fold_value {V O A} (c : combinators V O A) (v : value) : V :=
  match v with
  | VNull => on_null c
  | VBoolean b => on_boolean c b
  | VNumber n => on_number c n
  | VString x => on_string c x
  | VObject o => on_object_end c (fold_left (fun acc e => on_member c acc (fst e) (fold_value c (snd e))) o (on_object c))
  | VArray l => on_array_end c (fold_left (fun acc v => on_element c acc (fold_value c v)) l (on_array c))
  end.
(** Its queries tell the truth. *)
Definition honest {V O A} (c : combinators V O A) : Prop :=
  is_empty_object c (on_object c) = true /\ (forall o k v, is_empty_object c (on_member c o k v) = false) /\
  is_empty_array c (on_array c) = true /\ (forall a v, is_empty_array c (on_element c a v) = false) /\
  kind_told c (on_null c) = JkNull /\ (forall b, kind_told c (on_boolean c b) = JkBoolean) /\ (forall n, kind_told c (on_number c n) = JkNumber) /\
  (forall x, kind_told c (on_string c x) = JkString) /\ (forall o, kind_told c (on_object_end c o) = JkObject) /\
  (forall a, kind_told c (on_array_end c a) = JkArray).

Lemma fold_left_snoc {A B} (f : A -> B -> A) l x a : fold_left f (l ++ [x]) a = f (fold_left f l a) x.
Proof. rewrite fold_left_app. reflexivity. Qed.
Theorem C91_stateless_delegates_fold {V O A} (c : combinators V O A) pw cfg s :
  honest c \/ (allow_trailing_commas cfg = true /\ allow_all_types_at_root cfg = true) ->
  fst (parse_json_bytes_with_config pw (stateless c) s cfg tt) = map_ok (fold_value c) (value_from_json_bytes_with_config pw s cfg) /\
  fst (parse_json_with_config pw (stateless c) s cfg tt) = map_ok (fold_value c) (value_from_json_with_config pw s cfg).
Proof.
  intro Hc.
  assert (K : homomorphism cfg value_delegate (stateless c) (fun s => s) (fold_value c)
    (fun o : object => fold_left (fun acc (e : json_string * value) => on_member c acc (fst e) (fold_value c (snd e))) o (on_object c))
    (fun l : list value => fold_left (fun acc v => on_element c acc (fold_value c v)) l (on_array c)) (fun k => k) (fun e => e)).
  { constructor; try reflexivity; cbn; intros; unfold map_outcome; cbn [fst snd]; rewrite ?fold_left_snoc; try reflexivity.
    - destruct Hc as [(E1 & E2 & _)|[Hc _]]; [|congruence]. f_equal. destruct o as [|e o _] using rev_ind; cbn; [exact E1|].
      rewrite fold_left_snoc, E2. destruct o; reflexivity.
    - destruct Hc as [(_ & _ & E1 & E2 & _)|[Hc _]]; [|congruence]. f_equal. destruct a as [|e a _] using rev_ind; cbn; [exact E1|].
      rewrite fold_left_snoc, E2. destruct a; reflexivity.
    - destruct Hc as [(_ & _ & _ & _ & E1 & E2 & E3 & E4 & E5 & E6)|[_ Hc]]; [|congruence]. f_equal.
      destruct v; cbn [fold_value value_kind]; auto. }
  assert (G : forall utf8, fst (parse_with utf8 pw (stateless c) s cfg tt) = map_ok (fold_value c) (fst (parse_with utf8 pw value_delegate s cfg tt))).
  { intro utf8. pose proof (C91_homomorphisms utf8 pw cfg value_delegate (stateless c) _ _ _ _ _ _ s tt K) as G. cbv beta in G. rewrite G. unfold map_outcome. cbn [fst].
    destruct (fst (parse_with utf8 pw value_delegate s cfg tt)) as [v|[o k]|f]; cbn [map_ok]; try reflexivity.
    f_equal. unfold map_delegate_error. cbn [err_offset err_kind]. f_equal. destruct k; reflexivity. }
  exact (conj (G false) (G true)).
Qed.

(** ** Bounded documents on 32 and 64 bits (C81) *)
Lemma widen_replace c i n : List.map widen_node (replace_nth c i n) = replace_nth (List.map widen_node c) i (widen_node n).
Proof. revert i. induction c as [|x c IH]; intros [|i]; cbn; f_equal; auto. Qed.
Lemma widen_push cap c n : push_node cap (List.map widen_node c) (widen_node n) =
  map_outcome (fun e => e) (fun i => i) (List.map widen_node) (push_node cap c n).
Proof.
  unfold push_node, push. rewrite map_length. destruct cap as [k|]; [destruct (length c <? k)%nat|];
    cbn; unfold map_outcome; cbn; rewrite ?map_app; reflexivity.
Qed.
Lemma widen_nth c i : nth_error (List.map widen_node c) i = option_map widen_node (nth_error c i).
Proof. revert i. induction c as [|x c IH]; intros [|i]; cbn; auto. Qed.
Lemma nodes_widen cfg cap : homomorphism cfg (nodes_delegate cap) (through_widen (nodes_delegate cap)) (List.map widen_node)
  (fun v => v) (fun o => o) (fun a => a) (fun k => k) (fun e => e).
Proof.
  constructor; intros; cbn [through_widen nodes_delegate d_null d_boolean d_number d_string d_begin_object d_object_key d_object_value
    d_end_object d_begin_array d_array_value d_end_array d_object_is_empty d_array_is_empty d_kind_of];
    try (match goal with |- push_node _ _ ?n = map_outcome _ _ _ (push_node _ _ ?m) => exact (widen_push cap s m) end); try reflexivity.
  - unfold extend_object. rewrite widen_nth. destruct (nth_error s o) as [[| | | |len|len]|]; try reflexivity. cbn [option_map widen_node].
    change (NObject (S len)) with (widen_node (NObject (S len))) at 1. rewrite <- widen_replace.
    change (NString (widen x)) with (widen_node (NString x)). rewrite widen_push.
    destruct (push_node cap (replace_nth s o (NObject (S len))) (NString x)) as [[]]; reflexivity.
  - unfold extend_array. rewrite widen_nth. destruct (nth_error s a) as [[| | | |len|len]|]; try reflexivity. cbn [option_map widen_node].
    change (NArray (S len)) with (widen_node (NArray (S len))) at 1. rewrite <- widen_replace. reflexivity.
  - rewrite widen_nth. destruct (nth_error s o) as [[]|]; reflexivity.
  - rewrite widen_nth. destruct (nth_error s a) as [[]|]; reflexivity.
  - rewrite widen_nth. destruct (nth_error s v) as [[]|]; reflexivity.
Qed.
Theorem C81_bounded_documents cfg cap s :
  (rust_slice W32 s -> document_from_json_bytes_with_config W64 cap s cfg = map_ok (List.map widen_node) (document_from_json_bytes_with_config W32 cap s cfg)) /\
  (rust_str W32 s -> document_from_json_with_config W64 cap s cfg = map_ok (List.map widen_node) (document_from_json_with_config W32 cap s cfg)).
Proof.
  assert (G : forall utf8, input_ok utf8 W32 s -> document_of (parse_with utf8 W64 (nodes_delegate cap) s cfg []) =
    map_ok (List.map widen_node) (document_of (parse_with utf8 W32 (nodes_delegate cap) s cfg []))).
  { intros utf8 Hi. rewrite (C81_every_delegate utf8 cfg (nodes_delegate cap) s [] Hi).
    pose proof (C91_homomorphisms utf8 W32 cfg (nodes_delegate cap) (through_widen (nodes_delegate cap)) _ _ _ _ _ _ s [] (nodes_widen cfg cap)) as G. cbn [List.map] in G.
    change (parse_with utf8 W32 (through_widen (nodes_delegate cap)) s cfg []) with (parse_with utf8 W32 (through_widen (nodes_delegate cap)) s cfg (List.map widen_node [])).
    cbn [List.map]. rewrite G. destruct (parse_with utf8 W32 (nodes_delegate cap) s cfg []) as [[v|[o k]|f] t]; try reflexivity.
    unfold map_outcome, document_of. cbn [fst snd map_ok]. do 2 f_equal. unfold map_delegate_error. cbn [err_offset err_kind]. f_equal.
    destruct k; reflexivity. }
  split; intro H; [apply (G false); exact H|apply (G true); exact H].
Qed.

(** * Samples *)
(** Counting the scalars of a text with a stateless delegate. *)
Definition count_scalars : combinators (json_kind * nat) (bool * nat) (bool * nat) :=
  Combinators _ _ _ (JkNull, 1) (fun _ => (JkBoolean, 1)) (fun _ => (JkNumber, 1)) (fun _ => (JkString, 1))
    (true, 0) (fun o _ v => (false, snd o + snd v)) (fun o => (JkObject, snd o))
    (true, 0) (fun a v => (false, snd a + snd v)) (fun a => (JkArray, snd a)) fst fst fst.
Example C91_sample_fold : honest count_scalars /\
  fst (parse_json_bytes_with_config W64 (stateless count_scalars) (bs "[1,{""a"":[true,null]},""x""]") config_default tt) = Ok (JkArray, 4).
Proof. split; [|vm_compute; reflexivity]. unfold honest. cbn. repeat split. Qed.
(** A Value and a Document from one pass. *)
Example C91_sample_tee :
  parse_with true W64 (tee value_delegate (nodes_delegate (Some 3))) (bs "[1,null]") config_default (tt, []) =
    (Ok (VArray [VNumber (JNum (Borrowed (bs "1"))); VNull], 0), (tt, [NArray 2; NNumber (JNum (Borrowed (bs "1"))); NNull])) /\
  exists st, parse_with true W64 (tee value_delegate (nodes_delegate (Some 2))) (bs "[1,null]") config_default (tt, []) =
    (Err (Error 3 (KErrorFromDelegate (inr KPaylodTooLarge))), st).
Proof. split; [vm_compute; reflexivity|]. eexists. vm_compute. reflexivity. Qed.
(** Forgetting the log is a homomorphism. *)
Example C91_sample_recording cfg D : homomorphism cfg (recording D) D fst (fun v => v) (fun o => o) (fun a => a) (fun k => k) (fun e => e).
Proof.
  constructor; intros; cbn; unfold note, map_outcome; cbn; try reflexivity;
    match goal with |- ?x = (match fst ?x with _ => _ end, _) => destruct x as [[]] end; try reflexivity.
  destruct a; reflexivity.
Qed.
