(** Property theorem C72: the order of the callbacks, and the handles passed to them, for EVERY delegate. *)
From Verif Require Import Base Utf8 StrModel ErrorModel Tokenizer Parser Trace View PropDelegate ParseMain PropEsc.

(** * The protocol
    [F] lists the containers that are open, innermost first, with the handle the delegate returned for each last; [p] is the
    finished value that was not yet handed over, with its kind. *)
Section Protocol.
  Variables (D : delegate) (limit : option N).

  Definition answer (A : Type) : Type := res (d_error D) A * d_st D.
  Definition mapped {A B} (f : A -> B) (r : answer A) : answer B :=
    (match fst r with Ok a => Ok (f a) | Err e => Err e | Fault x => Fault x end, snd r).

  (** A value may begin: at the start, after a key, in an array. *)
  Definition wants_value (F : list (open_container D)) : Prop := match F with OpenObject _ _ :: _ => False | _ => True end.
  (** One more container may be opened. *)
  Definition room (F : list (open_container D)) : Prop :=
    match limit with Some n => (N.of_nat (length F) < n)%N | None => True end.

  Definition situation : Type := list (open_container D) * option (d_value D * json_kind).

  (** The callbacks allowed in a situation; each yields the next situation. *)
  Inductive callable : situation -> event -> (d_st D -> answer situation) -> Prop :=
  | c_null F : wants_value F -> callable (F, None) ENull (fun st => mapped (fun v => (F, Some (v, JkNull))) (d_null D st))
  | c_boolean F b : wants_value F ->
      callable (F, None) (EBoolean b) (fun st => mapped (fun v => (F, Some (v, JkBoolean))) (d_boolean D st b))
  | c_number F n : wants_value F ->
      callable (F, None) (ENumber n) (fun st => mapped (fun v => (F, Some (v, JkNumber))) (d_number D st n))
  | c_string F s : wants_value F ->
      callable (F, None) (EString s) (fun st => mapped (fun v => (F, Some (v, JkString))) (d_string D st s))
  | c_begin_object F : wants_value F -> room F ->
      callable (F, None) EBeginObject (fun st => mapped (fun o => (OpenObject o 0 :: F, None)) (d_begin_object D st))
  | c_object_key F o n key :
      callable (OpenObject o n :: F, None) (EObjectKey key)
        (fun st => mapped (fun ok => (OpenKey (fst ok) n (snd ok) :: F, None)) (d_object_key D st o key))
  | c_object_value F o n k v kind :
      callable (OpenKey o n k :: F, Some (v, kind)) EObjectValue
        (fun st => mapped (fun o' => (OpenObject o' (S n) :: F, None)) (d_object_value D st o k v))
  | c_end_object F o n :
      callable (OpenObject o n :: F, None) EEndObject (fun st => mapped (fun v => (F, Some (v, JkObject))) (d_end_object D st o))
  | c_begin_array F : wants_value F -> room F ->
      callable (F, None) EBeginArray (fun st => mapped (fun a => (OpenArray a 0 :: F, None)) (d_begin_array D st))
  | c_array_value F a n v kind :
      callable (OpenArray a n :: F, Some (v, kind)) EArrayValue
        (fun st => mapped (fun a' => (OpenArray a' (S n) :: F, None)) (d_array_value D st a v))
  | c_end_array F a n :
      callable (OpenArray a n :: F, None) EEndArray (fun st => mapped (fun v => (F, Some (v, JkArray))) (d_end_array D st a)).

  (** [uses st0 q st log]: the callbacks [log], all allowed and all successful, lead from the state [st0] to [st] and to the
      situation [q]. *)
  Inductive uses (st0 : d_st D) : situation -> d_st D -> list event -> Prop :=
  | uses_nothing : uses st0 ([], None) st0 []
  | uses_call q st log ev m q' st' : uses st0 q st log -> callable q ev m -> m st = (Ok q', st') -> uses st0 q' st' (log ++ [ev]).

  (** ... and then one more allowed callback that failed with [x]. *)
  Definition failed (st0 : d_st D) (x : d_error D + fault) (st' : d_st D) (log : list event) : Prop :=
    exists q st l ev m r, uses st0 q st l /\ callable q ev m /\ m st = (r, st') /\ is_failure x r /\ log = l ++ [ev].
End Protocol.

(** * The parser follows it *)
Section Follows.
  Variables (g : bool) (pw : pwidth) (cfg : parse_config) (D : delegate) (st0 : d_st D).
  Notation R := (recording D).
  Notation lim := (recursion_limit cfg).
  Definition levels (F : list (open_container D)) (d : N) : Prop :=
    match lim with Some n => (d + N.of_nat (length F) = n)%N | None => True end.
  Definition inside (q : situation D) (extra : N) (st : d_st R) (d : N) : Prop :=
    uses D lim st0 q (fst st) (snd st) /\ levels (fst q) (d + extra).
  Definition rests (st : d_st R) : Prop := exists q, uses D lim st0 q (fst st) (snd st).
  Definition tri {A} (P : d_st R -> N -> Prop) (m : pm R A) (Q : A -> d_st R -> N -> Prop) : Prop :=
    forall s, P (ps_del s) (ps_depth s) ->
    match m s with
    | (Ok a, s') => Q a (ps_del s') (ps_depth s')
    | (Err (Error _ (KErrorFromDelegate e)), s') => failed D lim st0 (inl e) (fst (ps_del s')) (snd (ps_del s'))
    | (Err _, s') => rests (ps_del s')
    | (Fault f, s') => rests (ps_del s') \/ failed D lim st0 (inr f) (fst (ps_del s')) (snd (ps_del s'))
    end.

  Lemma tri_bind {A B} P (m : pm R A) (k : A -> pm R B) M Q : tri P m M -> (forall a, tri (M a) (k a) Q) -> tri P (pbind R m k) Q.
  Proof.
    intros Hm Hk s Hs. specialize (Hm s Hs). unfold pbind. destruct (m s) as [[a|[o kd]|f] s1]; [exact (Hk a s1 Hm)| |exact Hm].
    destruct kd; exact Hm.
  Qed.
  Lemma tri_ret {A} (P : d_st R -> N -> Prop) (a : A) (Q : A -> d_st R -> N -> Prop) : (forall st d, P st d -> Q a st d) -> tri P (pret R a) Q.
  Proof. intros H s Hs. apply H, Hs. Qed.
  Lemma tri_pre {A} (P P' : d_st R -> N -> Prop) (m : pm R A) Q : (forall st d, P st d -> P' st d) -> tri P' m Q -> tri P m Q.
  Proof. intros H Hm s Hs. apply Hm, H, Hs. Qed.
  Lemma inside_rests q x st d : inside q x st d -> rests st.
  Proof. intros [H _]. exists q. exact H. Qed.
  Lemma tri_err {A} q x o k Q : (match k with KErrorFromDelegate _ => False | _ => True end) -> tri (inside q x) (@perr R A o k) Q.
  Proof. intros Hk s Hs. cbn. destruct k; try (eapply inside_rests, Hs). destruct Hk. Qed.
  Lemma tri_fault {A} q x f (Q : A -> d_st R -> N -> Prop) : tri (inside q x) (fun s => (Fault f, s)) Q.
  Proof. intros s Hs. left. eapply inside_rests, Hs. Qed.
  Lemma tri_offset q x : tri (inside q x) (p_offset R) (fun _ => inside q x).
  Proof. intros s Hs. exact Hs. Qed.
  Lemma tri_tok {A} q x (m : tok A) : tri (inside q x) (p_tok R m) (fun _ => inside q x).
  Proof.
    intros s Hs. unfold p_tok, p_tok_err. destruct (m (ps_iter s)) as [[a|[o k]|f] it]; cbn; [exact Hs| |left; eapply inside_rests, Hs].
    destruct k as [| | | | | | | | | | | | | | | | | | | | | | | |[]]; eapply inside_rests, Hs.
  Qed.
  Lemma tri_colon {A} q x (m : tok A) : tri (inside q x) (p_tok_err R (to_expected_colon R) m) (fun _ => inside q x).
  Proof. intros s Hs. unfold p_tok_err. destruct (m (ps_iter s)) as [[a|e|f] it]; cbn; [exact Hs|eapply inside_rests, Hs|left; eapply inside_rests, Hs]. Qed.
  Lemma tri_query {A} q x (m : d_st R -> res infallible A) : tri (inside q x) (p_query R m) (fun _ => inside q x).
  Proof. intros s Hs. unfold p_query. destruct (m (ps_del s)) as [a|[]|f]; cbn; [exact Hs|left; eapply inside_rests, Hs]. Qed.
  Lemma tri_peek q x : tri (inside q x) (peek_array_end R) (fun _ => inside q x).
  Proof. intros s Hs. unfold peek_array_end. destruct (tokenizer_peek (ps_iter s)) as [o it]. destruct o as [[]|]; exact Hs. Qed.
  Lemma tri_trailing q x : tri (inside q x) (check_trailing R) (fun _ => inside q x).
  Proof. intros s Hs. unfold check_trailing. destruct (next_non_ws (ps_iter s)) as [[[o b]|] it]; cbn; [eapply inside_rests, Hs|exact Hs]. Qed.
  Lemma tri_map_err {A} P k (m : pm R A) Q : (match k with KErrorFromDelegate _ => False | _ => True end) -> tri P m Q -> tri P (p_map_err R (eof_to R k) m) Q.
  Proof.
    intros Hk H s Hs. specialize (H s Hs). unfold p_map_err. destruct (m s) as [[a|[o kd]|f] s']; try exact H. cbn.
    destruct kd; cbn; try exact H. destruct k; try exact H. destruct Hk.
  Qed.

  (** A recorded call of a delegate method that is allowed. *)
  Lemma tri_del {A} o q x x' ev (call : d_st D -> res (d_error D) A * d_st D) (f : A -> situation D) :
    callable D lim q ev (fun st => mapped D f (call st)) ->
    (forall a d, levels (fst q) (d + x) -> levels (fst (f a)) (d + x')) ->
    tri (inside q x) (p_del R o (fun st => note ev (snd st) (call (fst st)))) (fun a => inside (f a) x').
  Proof.
    intros Hc Hl s [Hu Hd]. unfold p_del, note. destruct (ps_del s) as [st log] eqn:Es. cbn [fst snd] in *.
    destruct (call st) as [r st'] eqn:E. destruct r as [a|e|y]; cbn.
    - split; [|apply Hl, Hd]. cbn. eapply uses_call; [exact Hu|exact Hc|]. cbv beta. rewrite E. reflexivity.
    - exists q, st, log, ev, (fun st => mapped D f (call st)), (Err e). cbv beta. rewrite E. repeat (split; [assumption || reflexivity|]). reflexivity.
    - right. exists q, st, log, ev, (fun st => mapped D f (call st)), (Fault y). cbv beta. rewrite E. repeat (split; [assumption || reflexivity|]). reflexivity.
  Qed.

  Lemma tri_begin F o : tri (inside (F, None) 0) (begin_nest cfg R o) (fun _ st d => inside (F, None) 1 st d /\ room D lim F).
  Proof.
    intros s [Hu Hd]. unfold begin_nest, inside, levels, room in *. destruct lim as [n|] eqn:El; cbn [fst] in *.
    - destruct (N.ltb_spec 0 (ps_depth s)) as [L|L]; cbn [ps_del ps_depth].
      + split; [split; [exact Hu|lia]|lia].
      + unfold rests. rewrite El. eexists; exact Hu.
    - auto.
  Qed.
  Lemma tri_end q : tri (inside q 1) (end_nest cfg R) (fun _ => inside q 0).
  Proof.
    intros s [Hu Hd]. unfold end_nest, inside, levels in *. destruct lim as [n|] eqn:El; cbn [ps_del ps_depth]; split; auto. lia.
  Qed.

  Definition value_in (F : list (open_container D)) (v : d_value D) : d_st R -> N -> Prop :=
    fun st d => exists kind, inside (F, Some (v, kind)) 0 st d.
  Lemma tri_ex {A} (P : json_kind -> d_st R -> N -> Prop) (m : pm R A) Q : (forall k, tri (P k) m Q) -> tri (fun st d => exists k, P k st d) m Q.
  Proof. intros H s [k Hs]. apply (H k s Hs). Qed.

  Definition reads (rv : pm R (d_value D)) : Prop := forall F, wants_value D F -> tri (inside (F, None) 0) rv (value_in F).

  Lemma tri_object_loop (rv : pm R (d_value D)) : reads rv -> forall n F o k,
    tri (A := d_object D) (inside (OpenObject o k :: F, None) 0) (object_loop g pw cfg R rv n o)
      (fun (o' : d_object D) st d => exists k', inside (OpenObject (D := D) o' k' :: F, None) 0 st d).
  Proof.
    intros Hrv. induction n as [|n IH]; intros F o k; cbn [object_loop]; [apply tri_fault|].
    eapply tri_bind; [apply tri_offset|]. intros off. eapply tri_bind; [apply tri_tok|]. intros token.
    destruct token; try (apply tri_err; exact I).
    - (* string *)
      eapply tri_bind; [apply (tri_del off _ 0 0 _ (fun st => d_object_key D st o s)); [apply c_object_key|auto]|]. intros [o1 key]. cbn [fst snd].
      eapply tri_bind; [apply tri_offset|]. intros off1. eapply tri_bind; [apply tri_colon|]. intros token.
      destruct token; try (apply tri_err; exact I).
      eapply tri_bind; [apply tri_offset|]. intros off2. eapply tri_bind; [apply Hrv; exact I|]. intros v. apply tri_ex. intros kind.
      eapply tri_bind; [apply (tri_del off2 _ 0 0 _ (fun st => d_object_value D st o1 key v)); [apply c_object_value|auto]|]. intros o2.
      eapply tri_bind; [apply tri_offset|]. intros off3. eapply tri_bind; [apply tri_tok|]. intros token.
      destruct token; try (apply tri_err; exact I); [apply tri_ret; eauto|apply IH].
    - (* end of object *)
      apply tri_bind with (M := fun _ => inside (OpenObject o k :: F, None) 0).
      + destruct (allow_trailing_commas cfg); [apply tri_ret; auto|apply tri_query].
      + intros [|]; [apply tri_ret; eauto|apply tri_err; exact I].
  Qed.
  Lemma tri_array_loop (rv : pm R (d_value D)) : reads rv -> forall n F a k,
    tri (A := d_array D) (inside (OpenArray a k :: F, None) 0) (array_loop g pw cfg R rv n a)
      (fun (a' : d_array D) st d => exists k', inside (OpenArray (D := D) a' k' :: F, None) 0 st d).
  Proof.
    intros Hrv. induction n as [|n IH]; intros F a k; cbn [array_loop]; [apply tri_fault|].
    eapply tri_bind; [apply tri_offset|]. intros off. eapply tri_bind; [apply tri_peek|]. intros [|].
    - apply tri_bind with (M := fun _ => inside (OpenArray a k :: F, None) 0).
      + destruct (allow_trailing_commas cfg); [apply tri_ret; auto|apply tri_query].
      + intros [|]; [apply tri_ret; eauto|apply tri_err; exact I].
    - eapply tri_bind; [apply Hrv; exact I|]. intros v. apply tri_ex. intros kind. eapply tri_bind; [apply tri_offset|]. intros off1.
      eapply tri_bind; [apply (tri_del off1 _ 0 0 _ (fun st => d_array_value D st a v)); [apply c_array_value|auto]|]. intros a2.
      eapply tri_bind; [apply tri_offset|]. intros off3. eapply tri_bind; [apply tri_tok|]. intros token.
      destruct token; try (apply tri_err; exact I); [apply tri_ret; eauto|apply IH].
  Qed.
  Lemma tri_ex_nat {A} (P : nat -> d_st R -> N -> Prop) (m : pm R A) Q : (forall k, tri (P k) m Q) -> tri (fun st d => exists k, P k st d) m Q.
  Proof. intros H s [k Hs]. apply (H k s Hs). Qed.
  Lemma tri_and {A} (P : d_st R -> N -> Prop) (X : Prop) (m : pm R A) Q : (X -> tri P m Q) -> tri (fun st d => P st d /\ X) m Q.
  Proof. intros H s [Hs Hx]. apply (H Hx s Hs). Qed.

  Lemma reads_tokens loops fuel : reads (read_tokens g pw cfg R loops fuel).
  Proof.
    induction fuel as [|fuel IH]; intros F Hw; cbn [read_tokens]; [apply tri_fault|].
    eapply tri_bind; [apply tri_offset|]. intros off. eapply tri_bind; [apply tri_tok|]. intros token.
    assert (Hs : forall kind ev (call : d_st D -> res (d_error D) (d_value D) * d_st D),
      callable D lim (F, None) ev (fun st => mapped D (fun v => (F, Some (v, kind))) (call st)) ->
      tri (inside (F, None) 0) (p_del R off (fun st => note ev (snd st) (call (fst st)))) (value_in F)).
    { intros kind ev call Hc s Hs. pose proof (tri_del off (F, None) 0 0 ev call _ Hc ltac:(auto) s Hs) as H. unfold value_in.
      destruct (p_del R off (fun st => note ev (snd st) (call (fst st))) s) as [[v|e|f] s']; [exists kind; exact H|exact H|exact H]. }
    destruct token; try (apply tri_err; exact I).
    - apply (Hs JkNull _ (fun st => d_null D st)), c_null, Hw.
    - apply (Hs JkBoolean _ (fun st => d_boolean D st b)), c_boolean, Hw.
    - apply (Hs JkString _ (fun st => d_string D st s)), c_string, Hw.
    - apply (Hs JkNumber _ (fun st => d_number D st n)), c_number, Hw.
    - eapply tri_bind; [apply tri_begin|]. intros u. cbv beta. apply tri_and. intros Hr. apply tri_map_err; [exact I|]. unfold read_object.
      eapply tri_bind; [apply tri_offset|]. intros off1.
      eapply tri_bind; [apply (tri_del off1 (F, None) 1 0 _ (fun st => d_begin_object D st)); [apply c_begin_object; assumption|]|].
      { intros o d. unfold levels. destruct lim; [|auto]. cbn [fst length]. lia. }
      intros o. cbv beta. eapply tri_bind; [apply tri_object_loop, IH|]. intros o2. apply tri_ex_nat. intros k.
      eapply tri_bind; [apply tri_offset|]. intros off2.
      eapply tri_bind; [apply (tri_del off2 _ 0 1 _ (fun st => d_end_object D st o2)); [apply c_end_object|]|].
      { intros v d. unfold levels. destruct lim; [|auto]. cbn [fst length]. lia. }
      intros v. cbv beta. eapply tri_bind; [apply tri_end|]. intros u2. apply tri_ret. unfold value_in. eauto.
    - eapply tri_bind; [apply tri_begin|]. intros u. cbv beta. apply tri_and. intros Hr. apply tri_map_err; [exact I|]. unfold read_array.
      eapply tri_bind; [apply tri_offset|]. intros off1.
      eapply tri_bind; [apply (tri_del off1 (F, None) 1 0 _ (fun st => d_begin_array D st)); [apply c_begin_array; assumption|]|].
      { intros o d. unfold levels. destruct lim; [|auto]. cbn [fst length]. lia. }
      intros o. cbv beta. eapply tri_bind; [apply tri_array_loop, IH|]. intros o2. apply tri_ex_nat. intros k.
      eapply tri_bind; [apply (tri_del off1 _ 0 1 _ (fun st => d_end_array D st o2)); [apply c_end_array|]|].
      { intros v d. unfold levels. destruct lim; [|auto]. cbn [fst length]. lia. }
      intros v. cbv beta. eapply tri_bind; [apply tri_end|]. intros u2. apply tri_ret. unfold value_in. eauto.
  Qed.
End Follows.

(** * C72 *)

(** For every delegate, truthful or not, failing or not, panicking or not, and for every input: the callbacks made, in order, with
    the handles they were given, follow the protocol; after success everything is closed and the value returned is the one the
    last callback produced; the first callback that fails is the last one made. *)
Theorem C72_callbacks_follow_the_protocol utf8 pw cfg D s st0 :
  match parse_with utf8 pw (recording D) s cfg (st0, []) with
  | (Ok v, (st, log)) => exists kind, uses D (recursion_limit cfg) st0 ([], Some (v, kind)) st log
  | (Err (Error _ (KErrorFromDelegate e)), (st, log)) => failed D (recursion_limit cfg) st0 (inl e) st log
  | (Err _, (st, log)) => exists q, uses D (recursion_limit cfg) st0 q st log
  | (Fault f, (st, log)) =>
      (exists q, uses D (recursion_limit cfg) st0 q st log) \/ failed D (recursion_limit cfg) st0 (inr f) st log
  end.
Proof.
  rewrite parse_with_eq.
  assert (H : tri cfg D st0 (inside cfg D st0 ([], None) 0) (parse_body utf8 pw cfg (recording D) (S (length s)) (S (length s))) (value_in cfg D st0 [])).
  { unfold parse_body. eapply tri_bind; [apply (reads_tokens utf8 pw cfg D st0 _ _ []); exact I|]. intros v. apply tri_ex. intros kind.
    apply tri_bind with (M := fun _ => inside cfg D st0 ([], Some (v, kind)) 0).
    - unfold check_root. destruct (negb _); [|apply tri_ret; auto]. eapply tri_bind; [apply tri_query|]. intros k.
      destruct k; try (apply tri_err; exact I); apply tri_ret; auto.
    - intros _. eapply tri_bind; [apply tri_trailing|]. intros u. apply tri_ret. unfold value_in. eauto. }
  unfold parse_bytes, parse_state. set (s0 := PS (bi_new s) _ _). specialize (H s0).
  destruct (parse_body _ _ _ _ _ _ s0) as [r s1]. cbn [fst snd].
  assert (K : inside cfg D st0 ([], None) 0 (ps_del s0) (ps_depth s0)).
  { split; [constructor|]. unfold levels, s0. cbn [ps_depth fst length]. destruct (recursion_limit cfg); [lia|exact I]. }
  specialize (H K). destruct (ps_del s1) as [st log]. cbn [fst snd] in H.
  destruct r as [v|[o k]|f].
  - destruct H as (kind & H & _). exists kind. exact H.
  - destruct k; exact H.
  - exact H.
Qed.

(** What following the protocol means for nesting: never more containers open than the limit allows, at any time. *)
Definition begins (log : list event) : nat := length (filter (fun e => match e with EBeginObject | EBeginArray => true | _ => false end) log).
Definition ends (log : list event) : nat := length (filter (fun e => match e with EEndObject | EEndArray => true | _ => false end) log).

Lemma begins_app a b : begins (a ++ b) = (begins a + begins b)%nat.
Proof. unfold begins. rewrite filter_app, app_length. reflexivity. Qed.
Lemma ends_app a b : ends (a ++ b) = (ends a + ends b)%nat.
Proof. unfold ends. rewrite filter_app, app_length. reflexivity. Qed.

Lemma uses_balance D lim st0 q st log : uses D lim st0 q st log -> begins log = (ends log + length (fst q))%nat.
Proof.
  induction 1 as [|q st log ev m q' st' _ IH Hc E]; [reflexivity|]. rewrite begins_app, ends_app, IH. clear IH.
  destruct Hc; unfold mapped in E; match type of E with (match fst ?r with _ => _ end, _) = _ => destruct r as [[x|x|x] y] end;
    try discriminate; cbn in E; injection E as <- <-; cbn; lia.
Qed.
Lemma uses_within D n st0 q st log : uses D (Some n) st0 q st log -> (N.of_nat (length (fst q)) <= n)%N /\
  (forall l r, log = l ++ r -> (N.of_nat (begins l) <= N.of_nat (ends l) + n)%N).
Proof.
  induction 1 as [|q st log ev m q' st' Hu [IH1 IH2] Hc E].
  - split; [cbn; lia|]. intros l r El. symmetry in El. apply app_eq_nil in El as [-> _]. cbn. lia.
  - assert (L : (N.of_nat (length (fst q')) <= n)%N).
    { destruct Hc; unfold mapped in E; match type of E with (match fst ?r with _ => _ end, _) = _ => destruct r as [[x|x|x] y] end;
        try discriminate; cbn in E; injection E as <- <-; unfold room in *; cbn [fst length] in *; lia. }
    split; [exact L|]. intros l r El. destruct (exists_last (l := log ++ [ev])) as (l' & z & Ez); [destruct log; discriminate|].
    destruct r as [|y r] using rev_ind.
    + rewrite app_nil_r in El. subst l. rewrite (uses_balance D (Some n) st0 q' st' (log ++ [ev])); [lia|]. eapply uses_call; eassumption.
    + rewrite app_assoc in El. apply app_inj_tail in El as [El _]. apply (IH2 _ _ El).
Qed.
Theorem C72_never_deeper_than_the_limit utf8 pw cfg n D s st0 : recursion_limit cfg = Some n ->
  forall l r, snd (snd (parse_with utf8 pw (recording D) s cfg (st0, []))) = l ++ r -> (N.of_nat (begins l) <= N.of_nat (ends l) + n)%N.
Proof.
  intros Hn. pose proof (C72_callbacks_follow_the_protocol utf8 pw cfg D s st0) as H. rewrite Hn in H.
  destruct (parse_with utf8 pw (recording D) s cfg (st0, [])) as [res [st log]]. cbn [snd].
  assert (K : (exists q, uses D (Some n) st0 q st log) \/ (exists x, failed D (Some n) st0 x st log)).
  { destruct res as [v|[o k]|f].
    - destruct H as [k H]. eauto.
    - destruct k; eauto.
    - destruct H; eauto. }
  clear H. destruct K as [(q & K)|(x & q & st1 & lg & ev & m & rs & Hu & Hc & Em & Hf & ->)]; intros l r El.
  - apply (proj2 (uses_within _ _ _ _ _ _ K) l r El).
  - destruct (uses_within _ _ _ _ _ _ Hu) as [L W]. destruct r as [|y r] using rev_ind.
    + rewrite app_nil_r in El. subst l. rewrite begins_app, ends_app, (uses_balance _ _ _ _ _ _ Hu).
      destruct Hc; unfold room in *; cbn [fst length begins ends filter] in *; lia.
    + rewrite app_assoc in El. apply app_inj_tail in El as [El _]. apply (W _ _ El).
Qed.

(** On success every container that was begun was ended. *)
Theorem C72_balanced_on_success utf8 pw cfg D s st0 v st log :
  parse_with utf8 pw (recording D) s cfg (st0, []) = (Ok v, (st, log)) -> begins log = ends log.
Proof.
  intro E. pose proof (C72_callbacks_follow_the_protocol utf8 pw cfg D s st0) as H. rewrite E in H. destruct H as [k H].
  rewrite (uses_balance _ _ _ _ _ _ H). cbn. lia.
Qed.

(** So a property of the delegate's own state that the allowed calls preserve, holds whenever parsing stops. *)
Theorem C72_invariants utf8 pw cfg D s st0 (Inv : situation D -> d_st D -> Prop) :
  Inv ([], None) st0 ->
  (forall q st ev m q' st', Inv q st -> callable D (recursion_limit cfg) q ev m -> m st = (Ok q', st') -> Inv q' st') ->
  match parse_with utf8 pw D s cfg st0 with
  | (Ok v, st) => exists kind, Inv ([], Some (v, kind)) st
  | (Err (Error _ (KErrorFromDelegate e)), st') =>
      exists q st ev m, Inv q st /\ callable D (recursion_limit cfg) q ev m /\ m st = (Err e, st')
  | (Err _, st) => exists q, Inv q st
  | (Fault _, _) => True
  end.
Proof.
  intros H0 Hs. assert (K : forall q st log, uses D (recursion_limit cfg) st0 q st log -> Inv q st).
  { induction 1; [exact H0|]. eapply Hs; eassumption. }
  pose proof (C72_callbacks_follow_the_protocol utf8 pw cfg D s st0) as H.
  pose proof (C15_recording_is_transparent utf8 pw cfg D s st0 []) as T.
  destruct (parse_with utf8 pw (recording D) s cfg (st0, [])) as [r [st log]]. cbn [fst] in T. rewrite T.
  assert (KK : forall q, uses D (recursion_limit cfg) st0 q st log -> exists q, Inv q st) by eauto.
  destruct r as [v|[o k]|f]; [|destruct k|exact I]; try (destruct H as [q H]; eauto).
  destruct H as (st1 & l & ev & m & rs & Hu & Hc & E & Hf & _). destruct rs as [a|e'|x]; cbn in Hf; [destruct Hf| |discriminate].
  injection Hf as ->. exists q, st1, ev, m. eauto.
Qed.

(** A concrete case: an untruthful, counting delegate whose handles are numbers; it claims that every container is empty and that
    every value is a string, and refuses the second boolean. *)
Definition counting : delegate := {|
  d_st := nat; d_value := nat; d_object := nat; d_array := nat; d_key := nat; d_error := nat;
  d_null := fun st => (Ok st, S st);
  d_boolean := fun st b => if b then (Ok st, S st) else (Err st, S st);
  d_number := fun st _ => (Ok st, S st);
  d_string := fun st _ => (Ok st, S st);
  d_begin_object := fun st => (Ok st, S st);
  d_object_key := fun st _ _ => (Ok (st, st), S st);
  d_object_value := fun st _ _ _ => (Ok st, S st);
  d_object_is_empty := fun _ _ => Ok true;
  d_end_object := fun st _ => (Ok st, S st);
  d_begin_array := fun st => (Ok st, S st);
  d_array_value := fun st _ _ => (Ok st, S st);
  d_array_is_empty := fun _ _ => Ok true;
  d_end_array := fun st _ => (Ok st, S st);
  d_kind_of := fun _ _ => Ok JkString |}.
Example C72_sample : exists st log,
  parse_with true W64 (recording counting) (bs "[true,{""k"":false}]") config_default (0%nat, []) =
    (Err (Error 11 (KErrorFromDelegate 5%nat)), (st, log)) /\
  length log = 6%nat /\ begins log = 2%nat /\ ends log = 0%nat /\
  parse_with true W64 counting (bs "[1,]") config_default 0%nat = (Ok 3%nat, 4%nat).
Proof. eexists _, _. split; [vm_compute; reflexivity|]. split; [vm_compute; reflexivity|]. split; [vm_compute; reflexivity|]. split; vm_compute; reflexivity. Qed.
(** The protocol refuses what a delegate must not see: a value where a key is expected, two values in a row. *)
Example C72_protocol_refuses : (forall m, ~ callable counting None ([OpenObject (D := counting) 0%nat 0], None) ENull m) /\
  (forall m, ~ callable counting None ([OpenArray (D := counting) 0%nat 0], Some (1%nat, JkNull)) ENull m) /\
  (forall m, ~ callable counting None ([], Some (1%nat, JkNull)) EBeginArray m) /\
  (forall m, ~ callable counting (Some 1%N) ([OpenArray (D := counting) 0%nat 0], None) EBeginArray m).
Proof.
  repeat (split; [intros m H; inversion H; subst; contradiction|]). intros m H. inversion H; subst.
  match goal with H : room _ _ _ |- _ => unfold room in H; cbn in H; lia end.
Qed.
