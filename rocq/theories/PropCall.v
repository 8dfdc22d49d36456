(** Property theorems C66 and C67: where the errors returned by a delegate are reported. *)
From Verif Require Import Base Utf8 Utf8Facts StrModel ErrorModel Tokenizer Parser ValueModel DocModel NumModel Spec SpecError
  SpecCall TokBase TokStr TokNum TokFacts ErrTok ParserGen Trace ParserSound ParserComplete ErrSound View PropParse PropEntry
  PropDelegate PropSpace ParseMain PropEsc OwnKinds CallSound CallExact.

(** * C66 *)
Lemma Forall2_len {A B} (P : A -> B -> Prop) l m : Forall2 P l m -> length l = length m.
Proof. induction 1; cbn; congruence. Qed.
Lemma pbind_cases {D A B} (m : pm D A) (k : A -> pm D B) s : (exists a s', m s = (Ok a, s') /\ pbind D m k s = k a s') \/
  (exists e s', m s = (Err e, s') /\ pbind D m k s = (Err e, s')) \/ (exists f s', m s = (Fault f, s') /\ pbind D m k s = (Fault f, s')).
Proof. unfold pbind. destruct (m s) as [[a|e|f] s']; eauto 10. Qed.

Lemma root_quiet D cfg v s : match check_root cfg D v s with
  | (Ok _, s') => s' = s | (Err (Error _ (KErrorFromDelegate _)), _) => False | _ => True end.
Proof.
  unfold check_root. destruct (allow_all_types_at_root cfg); cbn; [reflexivity|]. unfold pbind, p_query.
  destruct (d_kind_of D (ps_del s) v) as [k|[]|f]; cbn; [|exact I]. destruct k; cbn; auto.
Qed.

Section Located.
  Variables (utf8 : bool) (pw : pwidth) (cfg : parse_config) (D : delegate) (s : list N) (st : d_st D).
  Hypothesis Hs : input_ok utf8 pw s.
  Notation R := (recording D).
  Lemma body_located : match parse_bytes utf8 pw cfg R s (st, []) with
    | (Ok _, (_, log)) => exists x r cs, s = x ++ r /\ ws r /\ value_calls x cs /\ calls_events cs log
    | (Err (Error o (KErrorFromDelegate _)), (_, log)) =>
        exists cs c, value_upto s (cs ++ [(o, c)]) /\ calls_events (cs ++ [(o, c)]) log
    | _ => True
    end.
  Proof.
    pose proof (input_good _ _ _ Hs) as Hg. unfold parse_bytes, parse_body, parse_state.
    pose proof (call_read_tokens utf8 pw cfg D (S (length s)) (S (length s)) [] s Hg st []
      (match recursion_limit cfg with Some n => n | None => usize_max pw end)) as H.
    change (bi_new s) with (mk [] s).
    set (s0 := PS (mk [] s) _ _) in *.
    destruct (pbind_cases (read_tokens utf8 pw cfg R (S (length s)) (S (length s)))
      (fun value => pbind R (check_root cfg R value) (fun _ => pbind R (check_trailing R) (fun _ => pret R value))) s0)
      as [(v & s1 & E & ->)|[([o k] & s1 & E & ->)|(f & s1 & E & ->)]]; rewrite E in H; [| |exact I].
    - destruct H as (x & r & cs & evs & st' & b & Hx & -> & Hc & cs0 & -> & Hv & He). cbn [length app] in *. rewrite at_offset_0 in Hc.
      set (s1 := PS _ _ _). pose proof (root_quiet R cfg v s1) as Hr.
      destruct (pbind_cases (check_root cfg R v) (fun _ => pbind R (check_trailing R) (fun _ => pret R v)) s1)
        as [([] & s2 & E2 & ->)|[([o k] & s2 & E2 & ->)|(f & s2 & E2 & ->)]]; rewrite E2 in Hr.
      + subst s2. unfold pbind, check_trailing, next_non_ws, s1. cbn [ps_iter ps_del ps_depth]. rewrite skip_ws_mk, bi_next_mk.
        pose proof (take_drop is_ws r) as Er. pose proof (ws_take r) as Hw. destruct (drop_while is_ws r) as [|c y]; cbn; [|exact I].
        exists x, r, cs0. split; [exact Hx|]. split; [rewrite app_nil_r in Er; rewrite Er in Hw; exact Hw|]. auto.
      + destruct k; try exact I. destruct Hr.
      + exact I.
    - destruct k; try exact I. destruct H as (cs & c & evs & Hl & Hc & cs0 & E0 & Hu). cbn [length app] in *. rewrite at_offset_0 in E0. subst cs0.
      destruct s1 as [it [st1 log] b]. cbn in *. subst log. eauto.
  Qed.
End Located.

(** Every callback made corresponds to the text read so far; an error returned by a callback is reported at the offset
    described by [value_upto], and the callback is the last one made. *)
Theorem C66_delegate_errors_are_located utf8 pw cfg D s st : input_ok utf8 pw s ->
  match parse_with utf8 pw (recording D) s cfg (st, []) with
  | (Ok _, (_, log)) => exists x r cs, s = x ++ r /\ ws r /\ value_calls x cs /\ calls_events cs log
  | (Err (Error o (KErrorFromDelegate _)), (_, log)) =>
      exists cs c, value_upto s (cs ++ [(o, c)]) /\ calls_events (cs ++ [(o, c)]) log
  | _ => True
  end.
Proof. intros H. rewrite parse_with_eq. apply body_located, H. Qed.

(** The description is unambiguous: the input and the number of the callback determine callback and offset. *)
Theorem C66_offsets_are_determined utf8 pw s cs ds : input_ok utf8 pw s -> value_upto s cs -> value_upto s ds ->
  prefix_of cs ds \/ prefix_of ds cs.
Proof.
  intros H Hc Hd. pose proof (input_good _ _ _ H) as Hg. destruct (Nat.le_ge_cases (length cs) (length ds)) as [L|L].
  - left. eapply upto_prefix; eassumption.
  - right. eapply upto_prefix; eassumption.
Qed.

(** So: the offset of a delegate error is a function of the input and of how many callbacks succeeded before. *)
Theorem C66_offset_of_delegate_error utf8 pw cfg D s st cs c o p e st' log : input_ok utf8 pw s ->
  parse_with utf8 pw (recording D) s cfg (st, []) = (Err (Error o (KErrorFromDelegate e)), (st', log)) ->
  value_upto s (cs ++ [(p, c)]) -> length log = S (length cs) -> o = p /\ calls_events (cs ++ [(o, c)]) log.
Proof.
  intros H E Hu Hl. pose proof (C66_delegate_errors_are_located utf8 pw cfg D s st H) as G. rewrite E in G.
  destruct G as (ds & d & Hd & Hev). pose proof (Forall2_len _ _ _ Hev) as Hl'. rewrite app_length in Hl'. cbn in Hl'.
  assert (E2 : ds ++ [(o, d)] = cs ++ [(p, c)]).
  { destruct (upto_prefix utf8 pw s _ _ (input_good _ _ _ H) Hd Hu) as [x Ex]; [rewrite !app_length; cbn; lia|].
    rewrite Ex. assert (length x = 0%nat) by (apply (f_equal (@List.length _)) in Ex; rewrite !app_length in Ex; cbn in Ex; lia).
    destruct x; [rewrite app_nil_r; reflexivity|discriminate]. }
  apply app_inj_tail in E2 as [-> E2]. injection E2 as -> ->. auto.
Qed.

(** Every described callback is really made: a delegate that succeeds [length cs] times and then fails, is made to fail there. *)
Theorem C66_described_callbacks_are_made utf8 pw s cs o c : input_ok utf8 pw s -> value_upto s (cs ++ [(o, c)]) ->
  exists ev st', parse_with utf8 pw countdown s lenient (length cs) = (Err (Error o (KErrorFromDelegate ev)), st') /\ call_event c ev.
Proof.
  intros H Hu. rewrite parse_with_eq. destruct (upto_fail utf8 pw) as (UV & _ & _).
  destruct (UV s _ Hu (S (length s)) (S (length s)) [] (input_good _ _ _ H) ltac:(lia) ltac:(lia) (length cs) (usize_max pw)) as (s1 & ev & E & Hev).
  { cbn [length]. rewrite at_offset_0, app_length. cbn. lia. }
  cbn [length] in E, Hev. rewrite at_offset_0, app_nth2, Nat.sub_diag in E, Hev by lia. cbn [nth fst snd] in *.
  exists ev, (ps_del s1). split; [|exact Hev]. unfold parse_bytes, parse_body, parse_state. unfold rd in E.
  change (bi_new s) with (mk [] s). cbn [recursion_limit lenient].
  unfold pbind at 1. rewrite E. reflexivity.
Qed.

(** A concrete case: the callbacks of an unfinished input. *)
Example C66_sample_calls : value_upto (bs " [1, {""k"":[true") [(2, CBeginArr); (2, CNum (bs "1")); (3, CElement); (6, CBeginObj);
  (6, CKey (bs "k")); (11, CBeginArr); (11, CBool true)]%nat.
Proof.
  apply (vu_array (bs " ") (bs "1, {""k"":[true") [(0, CNum (bs "1")); (1, CElement); (4, CBeginObj); (4, CKey (bs "k")); (9, CBeginArr); (9, CBool true)]%nat).
  { repeat constructor; unfold ws_byte; lia. }
  apply (au_comma [] (bs "1") [(0, CNum (bs "1"))]%nat [] (bs " {""k"":[true") [(2, CBeginObj); (2, CKey (bs "k")); (7, CBeginArr); (7, CBool true)]%nat).
  - constructor.
  - cbn. unfold ws_byte. lia.
  - apply (vc_scalar [] (bs "1")); [constructor|]. constructor. exact num_1.
  - constructor.
  - apply (au_value (bs " ") (bs "{""k"":[true") [(1, CBeginObj); (1, CKey (bs "k")); (6, CBeginArr); (6, CBool true)]%nat).
    + repeat constructor; unfold ws_byte; lia.
    + cbn. unfold ws_byte. lia.
    + apply (vu_object [] (bs """k"":[true") [(0, CKey (bs "k")); (5, CBeginArr); (5, CBool true)]%nat); [constructor|].
      apply (ou_value (bs """k"":") (bs "k") (bs "[true") [(1, CBeginArr); (1, CBool true)]%nat).
      * apply (key_colon_intro [] (bs "k") [107%N] []); [constructor| |constructor]. apply (sb_cons (bs "k") 107%N [] []); [|constructor]. apply (si_plain 107%N); [reflexivity|lia..].
      * apply (vu_array [] (bs "true") [(0, CBool true)]%nat); [constructor|].
        apply (au_value [] (bs "true") [(0, CBool true)]%nat); [constructor|cbn; unfold ws_byte; lia|].
        apply (vu_value (bs "true") []). { apply (vc_scalar [] (bs "true")); constructor. }
        apply (ends_other [] (bs "true")); [constructor| |discriminate]. intros c y E. injection E as <- _. unfold ws_byte, digit. lia.
Qed.
Example C66_sample_run : input_ok false W64 (bs " [1, {""k"":[true") /\ exists ev st',
  parse_with false W64 countdown (bs " [1, {""k"":[true") lenient 6 = (Err (Error 11 (KErrorFromDelegate ev)), st') /\ call_event (CBool true) ev.
Proof. split; [apply rust_str_slice, utf8_checked; [vm_compute; reflexivity|vm_compute; discriminate]|].
  eexists _, _. split; [vm_compute; reflexivity|reflexivity]. Qed.
(** The end of an array is reported at its start, the end of an object at its end. *)
Example C66_sample_ends : value_calls (bs "[]") [(1, CBeginArr); (1, CEndArr)]%nat /\ value_calls (bs "{ }") [(1, CBeginObj); (3, CEndObj)]%nat.
Proof.
  split.
  - apply (vc_array [] (bs "]") []); [constructor|]. apply (ac_end []). constructor.
  - apply (vc_object [] (bs " }") []); [constructor|]. apply (oc_end (bs " ")). repeat constructor.
Qed.

(** * C67 *)
(** ** Invariants of the delegate's state *)
Section Keeps.
  Variables (g : bool) (pw : pwidth) (cfg : parse_config) (D : delegate) (I : d_st D -> Prop) (J : d_error D -> d_st D -> Prop).
  Definition step_keeps {A} (r : res (d_error D) A * d_st D) : Prop :=
    match r with (Ok _, st) => I st | (Err e, st) => J e st | _ => True end.
  Definition keeps {A} (m : pm D A) : Prop := forall s, I (ps_del s) ->
    match m s with
    | (Ok _, s') => I (ps_del s')
    | (Err (Error _ k), s') => match k with KErrorFromDelegate e => J e (ps_del s') | _ => own_kind k end
    | _ => True
    end.
  Hypothesis Hd : (forall st, I st -> step_keeps (d_null D st)) /\ (forall st b, I st -> step_keeps (d_boolean D st b)) /\
    (forall st n, I st -> step_keeps (d_number D st n)) /\ (forall st x, I st -> step_keeps (d_string D st x)) /\
    (forall st, I st -> step_keeps (d_begin_object D st)) /\ (forall st o k, I st -> step_keeps (d_object_key D st o k)) /\
    (forall st o k v, I st -> step_keeps (d_object_value D st o k v)) /\ (forall st o, I st -> step_keeps (d_end_object D st o)) /\
    (forall st, I st -> step_keeps (d_begin_array D st)) /\ (forall st a v, I st -> step_keeps (d_array_value D st a v)) /\
    (forall st a, I st -> step_keeps (d_end_array D st a)).

  Lemma keeps_bind {A B} (m : pm D A) (k : A -> pm D B) : keeps m -> (forall a, keeps (k a)) -> keeps (pbind D m k).
  Proof.
    intros Hm Hk s Hs. specialize (Hm s Hs). unfold pbind. destruct (m s) as [[a|[o kd]|f] s']; [|destruct kd; exact Hm|exact Hm].
    apply Hk, Hm.
  Qed.
  Lemma keeps_tok {A} (m : tok A) : tok_own m -> keeps (p_tok D m).
  Proof.
    intros Hm s Hs. unfold p_tok, p_tok_err. specialize (Hm (ps_iter s)). destruct (m (ps_iter s)) as [[a|[o k]|f] it]; cbn; [exact Hs| |exact Logic.I].
    destruct k as [| | | | | | | | | | | | | | | | | | | | | | | |[]]; exact Hm.
  Qed.
  Lemma keeps_colon {A} (m : tok A) : keeps (p_tok_err D (to_expected_colon D) m).
  Proof. intros s Hs. unfold p_tok_err. destruct (m (ps_iter s)) as [[a|e|f] it]; cbn; auto. Qed.
  Lemma keeps_del {A} o (m : d_st D -> res (d_error D) A * d_st D) : (forall st, I st -> step_keeps (m st)) -> keeps (p_del D o m).
  Proof. intros H s Hs. unfold p_del. specialize (H _ Hs). destruct (m (ps_del s)) as [[a|e|f] st]; exact H. Qed.
  Lemma keeps_query {A} (m : d_st D -> res infallible A) : keeps (p_query D m).
  Proof. intros s Hs. unfold p_query. destruct (m (ps_del s)) as [x|[]|f]; cbn; auto. Qed.
  Lemma keeps_map_err {A} u (m : pm D A) : match u with KErrorFromDelegate _ => False | _ => own_kind u end -> keeps m ->
    keeps (p_map_err D (eof_to D u) m).
  Proof.
    intros Hu H s Hs. specialize (H s Hs). unfold p_map_err. destruct (m s) as [[a|[o k]|f] s']; try exact H.
    destruct k; try exact H. cbn. destruct u; auto. destruct Hu.
  Qed.
  Lemma keeps_begin o : keeps (begin_nest cfg D o).
  Proof. intros s Hs. unfold begin_nest. destruct (recursion_limit cfg); [|exact Hs]. destruct (0 <? ps_depth s)%N; cbn; auto. Qed.
  Lemma keeps_end : keeps (end_nest cfg D).
  Proof. intros s Hs. unfold end_nest. destruct (recursion_limit cfg); exact Hs. Qed.
  Lemma keeps_peek : keeps (peek_array_end D).
  Proof. intros s Hs. unfold peek_array_end. destruct (tokenizer_peek (ps_iter s)) as [o it]. destruct o as [[]|]; exact Hs. Qed.
  Lemma keeps_trailing : keeps (check_trailing D).
  Proof. intros s Hs. unfold check_trailing. destruct (next_non_ws (ps_iter s)) as [[[o b]|] it]; cbn; auto. Qed.
  Ltac kp := repeat match goal with
      | H : keeps ?m |- keeps ?m => exact H
      | |- keeps (pbind D _ _) => apply keeps_bind; [|intros ?]
      | |- keeps (p_offset D) => intros ? ?; assumption
      | |- keeps (p_tok D _) => apply keeps_tok, own_next
      | |- keeps (p_tok_err D (to_expected_colon D) _) => apply keeps_colon
      | |- keeps (p_del D _ _) => apply keeps_del; intros; apply Hd; assumption
      | |- keeps (p_query D _) => apply keeps_query
      | |- keeps (begin_nest cfg D _) => apply keeps_begin
      | |- keeps (end_nest cfg D) => apply keeps_end
      | |- keeps (pret D _) => intros ? ?; assumption
      | |- keeps (perr D _ _) => intros ? ?; exact Logic.I
      | |- keeps (fun s => (Fault _, s)) => intros ? ?; exact Logic.I
      | |- keeps (peek_array_end D) => apply keeps_peek
      | |- keeps (check_trailing D) => apply keeps_trailing
      | |- keeps (p_map_err D (eof_to D _) _) => apply keeps_map_err; [exact Logic.I|]
      | |- keeps (match ?t with TkNull => _ | _ => _ end) => destruct t
      | |- keeps (match ?t with JkNull => _ | _ => _ end) => destruct t
      | |- keeps (if ?b then _ else _) => destruct b
      | |- keeps (let '(_, _) := ?p in _) => destruct p
      end.
  Lemma keeps_object_loop rv : keeps rv -> forall k o, keeps (object_loop g pw cfg D rv k o).
  Proof. intros Hp. induction k as [|k IH]; intro o; cbn [object_loop]; kp. apply IH. Qed.
  Lemma keeps_array_loop rv : keeps rv -> forall k o, keeps (array_loop g pw cfg D rv k o).
  Proof. intros Hp. induction k as [|k IH]; intro o; cbn [array_loop]; kp. apply IH. Qed.
  Lemma keeps_read_tokens loops fuel : keeps (read_tokens g pw cfg D loops fuel).
  Proof.
    induction fuel as [|fuel IH]; cbn [read_tokens]; kp; unfold read_object, read_array; kp;
      [apply keeps_object_loop|apply keeps_array_loop]; exact IH.
  Qed.
  Lemma parse_keeps source st : I st -> match parse_bytes g pw cfg D source st with
    | (Ok _, st') => I st'
    | (Err (Error _ k), st') => match k with KErrorFromDelegate e => J e st' | _ => own_kind k end
    | _ => True end.
  Proof.
    intro Hs. assert (H : keeps (parse_body g pw cfg D (S (length source)) (S (length source)))).
    { unfold parse_body, check_root. kp. apply keeps_read_tokens. }
    unfold parse_bytes. specialize (H (parse_state pw cfg D source st) Hs).
    destruct (parse_body g pw cfg D _ _ _) as [[v|[o k]|f] s']; [exact H| |exact Logic.I]. destruct k; exact H.
  Qed.
End Keeps.

(** ** Bounded documents: one node per null, boolean, number, string, key and container *)
Definition makes_node (c : call) : bool :=
  match c with CNull | CBool _ | CNum _ | CStr _ | CBeginObj | CKey _ | CBeginArr => true | CMember | CEndObj | CElement | CEndArr => false end.
Definition nodes_made (cs : list (nat * call)) : nat := length (filter (fun c => makes_node (snd c)) cs).

Definition ev_makes_node (ev : event) : bool :=
  match ev with ENull | EBoolean _ | ENumber _ | EString _ | EBeginObject | EObjectKey _ | EBeginArray => true | _ => false end.
Definition ev_node (ev : event) : nat := if ev_makes_node ev then 1 else 0.
Definition ev_nodes (l : list event) : nat := length (filter ev_makes_node l).
Lemma ev_nodes_app a b : ev_nodes (a ++ b) = (ev_nodes a + ev_nodes b)%nat.
Proof. unfold ev_nodes. rewrite filter_app, app_length. reflexivity. Qed.
Lemma ev_nodes_snoc a ev : ev_nodes (a ++ [ev]) = (ev_nodes a + ev_node ev)%nat.
Proof. rewrite ev_nodes_app. unfold ev_nodes at 2, ev_node. cbn. destruct (ev_makes_node ev); reflexivity. Qed.
Lemma calls_nodes cs l : calls_events cs l -> nodes_made cs = ev_nodes l.
Proof.
  unfold calls_events, nodes_made, ev_nodes. induction 1 as [|[o c] ev cs l H _ IH]; [reflexivity|]. cbn [filter snd].
  assert (E : makes_node c = ev_makes_node ev) by (destruct c, ev; cbn in *; tauto). rewrite E.
  destruct (ev_makes_node ev); cbn [length]; congruence.
Qed.
Lemma replace_nth_length {A} (x : A) : forall l i, length (replace_nth l i x) = length l.
Proof. induction l as [|y l IH]; intros [|i]; cbn; auto. Qed.
Lemma extend_object_length c o c1 : extend_object c o = Ok c1 -> length c1 = length c.
Proof. unfold extend_object. destruct (nth_error c o) as [[]|]; try discriminate. intro E. injection E as <-. apply replace_nth_length. Qed.
Lemma extend_array_length c o c1 : extend_array c o = Ok c1 -> length c1 = length c.
Proof. unfold extend_array. destruct (nth_error c o) as [[]|]; try discriminate. intro E. injection E as <-. apply replace_nth_length. Qed.

Section Bounded.
  Variable cap : nat.
  Notation N_ := (recording (nodes_delegate (Some cap))).
  Definition full_I (st : d_st N_) : Prop := length (fst st) = ev_nodes (snd st) /\ (length (fst st) <= cap)%nat.
  Definition full_J (e : d_error N_) (st : d_st N_) : Prop := e = KPaylodTooLarge /\ exists p ev, snd st = p ++ [ev] /\ ev_nodes p = cap /\
    ev_makes_node ev = true.
  Lemma full_push ev (c : list node) log n : full_I (c, log) -> ev_makes_node ev = true ->
    step_keeps N_ full_I full_J (note ev log (push_node (Some cap) c n)).
  Proof.
    intros [H1 H2] He. cbn [fst snd] in *. unfold note, push_node, push. destruct (Nat.ltb_spec (length c) cap) as [L|L]; cbn.
    - unfold full_I. cbn [fst snd]. rewrite ev_nodes_snoc, app_length. unfold ev_node. rewrite He. cbn. lia.
    - split; [reflexivity|]. exists log, ev. repeat split; [lia|exact He].
  Qed.
  Lemma full_step_nodes g pw cfg source : match parse_bytes g pw cfg N_ source ([], []) with
    | (Ok _, st') => full_I st'
    | (Err (Error _ k), st') => match k with KErrorFromDelegate e => full_J e st' | _ => own_kind k end
    | _ => True end.
  Proof.
    assert (Hno : forall ev (c c1 : list node) log (A : Type) (a : A), ev_makes_node ev = false -> length c1 = length c ->
      full_I (c, log) -> step_keeps N_ full_I full_J (note ev log (Ok a, c1))).
    { intros ev c c1 log A a He Hl [H1 H2]. cbn [fst snd] in *. cbn [step_keeps note fst snd]. unfold full_I. cbn [fst snd]. rewrite ev_nodes_snoc. unfold ev_node. rewrite He. cbn. lia. }
    apply parse_keeps; [|split; [reflexivity|cbn; lia]].
    repeat match goal with |- _ /\ _ => split end; intros [c log]; intros;
      try (apply full_push; [assumption|reflexivity]); try (apply (Hno _ c c); [reflexivity..|assumption]).
    - cbn [d_object_key recording nodes_delegate fst snd]. destruct (extend_object c o) as [c1|e|f] eqn:E.
      + assert (Hi : full_I (c1, log)) by (destruct H; split; cbn in *; rewrite (extend_object_length _ _ _ E); assumption).
        pose proof (full_push (EObjectKey k) c1 log (NString k) Hi eq_refl) as G. unfold note in *.
        destruct (push_node (Some cap) c1 (NString k)) as [[x|e|f] c2]; exact G.
      + unfold extend_object in E. destruct (nth_error c o) as [[]|]; discriminate.
      + exact Logic.I.
    - cbn [d_array_value recording nodes_delegate fst snd]. destruct (extend_array c a) as [c1|e|f] eqn:E.
      + apply (Hno _ c c1); [reflexivity|eapply extend_array_length, E|assumption].
      + unfold extend_array in E. destruct (nth_error c a) as [[]|]; discriminate.
      + exact Logic.I.
  Qed.
End Bounded.

Lemma too_large_from (e : error (error_kind infallible)) o : into_infallable e = Error o KPaylodTooLarge ->
  e = Error o (KErrorFromDelegate KPaylodTooLarge) \/ e = Error o KPaylodTooLarge.
Proof.
  destruct e as [o' k]. unfold into_infallable. cbn. intro E. injection E as -> E. destruct k; cbn in E; try discriminate; auto. subst. auto.
Qed.

(** The general statement behind the next theorems: the document is given the callbacks described, and [KPaylodTooLarge] is the
    failure of the callback that would add node number [cap] (counted from 0). *)
Theorem C67_too_large_is_located pw cfg cap s o : rust_slice pw s ->
  document_from_json_bytes_with_config pw (Some cap) s cfg = Err (Error o KPaylodTooLarge) ->
  exists cs c, value_upto s (cs ++ [(o, c)]) /\ nodes_made cs = cap /\ makes_node c = true.
Proof.
  intros H E. unfold document_from_json_bytes_with_config, parse_json_bytes_with_config in E.
  rewrite (recording_same false pw cfg (nodes_delegate (Some cap)) s [] []) in E.
  pose proof (body_located false pw cfg (nodes_delegate (Some cap)) s [] H) as L. pose proof (full_step_nodes cap false pw cfg s) as F.
  cbn [d_st nodes_delegate d_error d_value recording] in *.
  destruct (parse_bytes false pw cfg (recording (nodes_delegate (Some cap))) s ([], [])) as [[v|e|f] [st log]]; cbn [fst snd document_of] in E; try discriminate.
  pose proof (f_equal (fun r => match r with Err x => x | _ => Error 0 KUtf8 end) E) as Ei. cbn beta iota in Ei. apply too_large_from in Ei as [->| ->].
  - destruct F as [_ (p & ev & El & Hp & Hev)]. cbn [snd] in El. destruct L as (cs & c & Hu & Hc). exists cs, c. split; [exact Hu|].
    subst log. apply Forall2_app_inv_l in Hc as (l1 & l2 & H1 & H2 & E2). inversion H2 as [|? ev' ? l3 H3 H4]; subst. inversion H4; subst.
    apply app_inj_tail in E2 as [-> ->]. split; [apply calls_nodes, H1|]. cbn in H3. destruct c, ev'; cbn in *; tauto.
  - destruct F.
Qed.

(** [KPaylodTooLarge] at exactly that place, whenever the input would otherwise be accepted with more than [cap] nodes. *)
Theorem C67_too_large_is_exact pw cfg cap s nodes cs o c : rust_slice pw s ->
  document_from_json_bytes_with_config pw None s cfg = Ok nodes -> (cap < length nodes)%nat ->
  value_upto s (cs ++ [(o, c)]) -> nodes_made cs = cap -> makes_node c = true ->
  document_from_json_bytes_with_config pw (Some cap) s cfg = Err (Error o KPaylodTooLarge).
Proof.
  intros H Hn L Hu Hc Hm. pose proof (C14_bounded_errors pw cfg cap s H) as G. rewrite Hn in G. destruct (G L) as [o' E].
  destruct (C67_too_large_is_located _ _ _ _ _ H E) as (ds & d & Hd & Hdc & Hdm).
  assert (K : ds ++ [(o', d)] = cs ++ [(o, c)]); [|apply app_inj_tail in K as [_ K]; injection K as -> _; exact E].
  assert (W : forall a b (x y : nat * call), prefix_of (a ++ [x]) (b ++ [y]) -> nodes_made a = nodes_made b -> makes_node (snd x) = true ->
    makes_node (snd y) = true -> a ++ [x] = b ++ [y]).
  { clear. intros a b x y [r E] Hab Hx Hy. destruct r as [|z r _] using rev_ind; [rewrite app_nil_r in E; symmetry; exact E|].
    exfalso. rewrite app_assoc in E. apply app_inj_tail in E as [-> _]. unfold nodes_made in Hab. rewrite !filter_app, !app_length in Hab.
    cbn [filter] in Hab. rewrite Hx in Hab. cbn in Hab. lia. }
  destruct (C66_offsets_are_determined false pw s _ _ H Hd Hu) as [P|P]; [apply W; auto; congruence|].
  symmetry. apply W; auto. congruence.
Qed.

(** ** JsonString::from_json and JsonNumber::from_json
    The first callback fails: at the start of the input for a scalar, after the opening bracket of a container. *)
Definition first_failure (wanted : call -> Prop) (s : list N) (o : nat) : Prop :=
  (exists w x r c, s = w ++ x ++ r /\ ws w /\ scalar_call x c /\ ~ wanted c /\ o = 0%nat) \/
  (exists w b r, s = w ++ b :: r /\ ws w /\ (b = 91 \/ b = 123)%N /\ o = (length w + 1)%nat).
Definition is_num (c : call) : Prop := exists n, c = CNum n.
Definition is_str (c : call) : Prop := exists raw, c = CStr raw.

Lemma first_upto wanted s o c : value_upto s [(o, c)] -> ~ wanted c -> first_failure wanted s o.
Proof.
  intros H Hn. inversion H as [v r cs Hv He E1 E2|w x cs Hw Hx E1 E2|w x cs Hw Hx E1 E2]; subst.
  - inversion Hv as [w x c' Hw Hx|w x cs Hw Hx|w x cs Hw Hx]; subst;
      try (exfalso; match goal with H : at_offset _ _ ++ _ = [] |- _ => apply app_eq_nil in H as [_ H]; discriminate H end).
    left. exists w, x, r, c. rewrite <- app_assoc. auto.
  - right. exists w, 91%N, x. repeat split; auto.
  - right. exists w, 123%N, x. repeat split; auto.
Qed.
Lemma upto_scalar_alone s o c cs : value_upto s ((o, c) :: cs) -> is_num c \/ is_str c -> cs = [].
Proof.
  intros H Hc. inversion H as [v r cs' Hv He E1 E2|w x cs' Hw Hx E1 E2|w x cs' Hw Hx E1 E2]; subst.
  - inversion Hv; subst; [reflexivity|..]; destruct Hc as [[? Hc]|[? Hc]]; discriminate Hc.
  - destruct Hc as [[? Hc]|[? Hc]]; discriminate Hc.
  - destruct Hc as [[? Hc]|[? Hc]]; discriminate Hc.
Qed.

Section Scalars.
  Variables (V : Type) (kd : error_kind infallible) (num : json_number -> res (error_kind infallible) V) (str : json_string -> res (error_kind infallible) V).
  Variable wanted : call -> Prop.
  Hypothesis Hown : ~ own_kind kd.
  Hypothesis Hwn : forall n c, is_num c -> wanted c -> num n <> Err kd.
  Hypothesis Hws : forall x c, is_str c -> wanted c -> str x <> Err kd.
  Hypothesis Hw : forall c, wanted c -> is_num c \/ is_str c.
  Hypothesis Hne : forall n e, num n = Err e -> e = kd.
  Hypothesis Hse : forall x e, str x = Err e -> e = kd.
  Notation S_ := (recording (scalar_delegate V kd num str)).
  Definition ev_scalar (ev : event) : Prop := match ev with ENumber _ | EString _ => True | _ => False end.
  Definition ev_refused (ev : event) : Prop := match ev with ENumber n => num n = Err kd | EString x => str x = Err kd | _ => True end.
  Definition sc_I (st : d_st S_) : Prop := snd st = [] \/ exists ev l, snd st = ev :: l /\ ev_scalar ev.
  Definition sc_J (e : d_error S_) (st : d_st S_) : Prop := e = kd /\ exists ev l, snd st = ev :: l /\ (ev_scalar ev \/ l = []) /\ (l = [] -> ev_refused ev).
  Lemma scalar_located pw s o : rust_str pw s ->
    map_err into_infallable (fst (parse_json pw (scalar_delegate V kd num str) s tt)) = Err (Error o kd) -> first_failure wanted s o.
  Proof.
    intros H E. unfold parse_json, parse_json_with_config in E.
    rewrite (recording_same true pw config_default (scalar_delegate V kd num str) s tt []) in E.
    pose proof (body_located true pw config_default (scalar_delegate V kd num str) s tt H) as L.
    assert (Herr : forall ev st (log : list event) (A : Type), sc_I (st, log) -> ev_refused ev ->
      step_keeps S_ sc_I sc_J (@note (error_kind infallible) A unit ev log (Err kd, st))).
    { intros ev st log A [H1|(ev' & l & H1 & H2)] Hr; cbn in *; subst log; (split; [reflexivity|]).
      - exists ev, []. cbn. auto.
      - exists ev', (l ++ [ev]). cbn. split; [reflexivity|]. split; [auto|]. intro K. destruct l; discriminate K. }
    assert (Hok : forall ev st (log : list event) (A : Type) (a : A), sc_I (st, log) -> ev_scalar ev ->
      step_keeps S_ sc_I sc_J (@note (error_kind infallible) A unit ev log (Ok a, st))).
    { intros ev st log A a [H1|(ev' & l & H1 & H2)] Hr; cbn in *; subst log; right; cbn.
      - exists ev, []. auto.
      - exists ev', (l ++ [ev]). auto. }
    assert (F : match parse_bytes true pw config_default S_ s (tt, []) with
      | (Ok _, st') => sc_I st'
      | (Err (Error _ k), st') => match k with KErrorFromDelegate e => sc_J e st' | _ => own_kind k end
      | _ => True end).
    { apply parse_keeps; [|left; reflexivity].
      repeat match goal with |- _ /\ _ => split end; intros [st log]; intros; try exact Logic.I; try (apply Herr; [assumption|exact Logic.I]).
      - cbn [d_number recording scalar_delegate fst snd]. destruct (num n) as [a|e|f] eqn:En; [apply Hok; [assumption|exact Logic.I]| |exact Logic.I].
        pose proof (Hne _ _ En) as ->. apply Herr; [assumption|exact En].
      - cbn [d_string recording scalar_delegate fst snd]. destruct (str x) as [a|e|f] eqn:En; [apply Hok; [assumption|exact Logic.I]| |exact Logic.I].
        pose proof (Hse _ _ En) as ->. apply Herr; [assumption|exact En]. }
    cbn [d_st d_error d_value recording scalar_delegate] in *.
    destruct (parse_bytes true pw config_default S_ s (tt, [])) as [[v|[o' k]|f] [st log]]; cbn [fst snd map_err] in E; try discriminate.
    injection E as -> E.
    assert (Hk : k = KErrorFromDelegate kd).
    { destruct k; cbn in E, F; try (exfalso; apply Hown; rewrite <- E; exact F). rewrite E. reflexivity. }
    subst k. destruct F as [_ (ev & l & El & Hs & Hr)]. destruct L as (cs & c & Hu & Hc). cbn [snd] in El. subst log.
    assert (Hcs : cs = []).
    { destruct cs as [|[o1 c1] cs]; [reflexivity|]. exfalso. cbn in Hu, Hc. inversion Hc as [|? ? ? ? Hc1 Hc2]; subst. cbn in Hc1.
      destruct Hs as [Hs| ->]; [|inversion Hc2 as [E1|]; destruct cs; discriminate].
      assert (K : is_num c1 \/ is_str c1).
      { destruct ev; try destruct Hs; destruct c1; cbn in Hc1; try contradiction; [left|right]; eexists; reflexivity. }
      pose proof (upto_scalar_alone _ _ _ _ Hu K) as K2. destruct cs; discriminate K2. }
    subst cs. apply (first_upto _ _ _ _ Hu). intro Hwt. inversion Hc as [|? ? ? ? Hc1 Hc2]; subst. cbn in Hc1. inversion Hc2; subst.
    specialize (Hr eq_refl). destruct (Hw _ Hwt) as [[n ->]|[raw ->]]; destruct ev; cbn in Hc1, Hr; try contradiction.
    - apply (Hwn n0 (CNum n)); [eexists; reflexivity|exact Hwt|exact Hr].
    - apply (Hws s0 (CStr raw)); [eexists; reflexivity|exact Hwt|exact Hr].
  Qed.
End Scalars.

Theorem C67_scalar_errors_are_located pw s o : rust_str pw s ->
  (string_from_json pw s = Err (Error o KExpectedString) -> first_failure is_str s o) /\
  (number_from_json pw s = Err (Error o KExpectedNumber) -> first_failure is_num s o).
Proof.
  intro H. split; intro E.
  - apply (scalar_located json_string KExpectedString (fun _ => Err KExpectedString) (fun x => Ok x) is_str) with (pw := pw); auto;
      try discriminate; try congruence.
    intros n c [? ->] [? K]. discriminate K.
  - apply (scalar_located json_number KExpectedNumber (fun n => Ok n) (fun _ => Err KExpectedNumber) is_num) with (pw := pw); auto;
      try discriminate; try congruence.
    intros n c [? ->] [? K]. discriminate K.
Qed.

Lemma ws_split_unique : forall w w' b b' r r', ws w -> ws w' -> ~ ws_byte b -> ~ ws_byte b' -> w ++ b :: r = w' ++ b' :: r' -> w = w' /\ b = b' /\ r = r'.
Proof.
  induction w as [|c w IH]; intros [|c' w'] b b' r r' Hw Hw' Hb Hb' E; cbn in E; injection E as E1 E2.
  - auto.
  - subst b. apply Forall_inv in Hw'. contradiction.
  - subst b'. apply Forall_inv in Hw. contradiction.
  - subst c'. apply Forall_inv_tail in Hw, Hw'. destruct (IH _ _ _ _ _ Hw Hw' Hb Hb' E2) as (-> & -> & ->). auto.
Qed.
Lemma scalar_head x c : scalar_call x c -> exists b y, x = b :: y /\ ~ ws_byte b /\ b <> 91%N /\ b <> 123%N.
Proof.
  intros [ | | |n Hn|raw cs Hs]; try (eexists _, _; split; [reflexivity|]; unfold ws_byte; lia).
  destruct n as [|b n]; [destruct (number_nonnil [] Hn eq_refl)|]. exists b, n. split; [reflexivity|].
  pose proof (number_head_cases _ _ Hn). unfold ws_byte. lia.
Qed.

(** The offset, read off the first byte that is not whitespace. *)
Theorem C67_scalar_error_offset pw s w b r o : rust_str pw s -> s = w ++ b :: r -> ws w -> ~ ws_byte b ->
  string_from_json pw s = Err (Error o KExpectedString) \/ number_from_json pw s = Err (Error o KExpectedNumber) ->
  o = if ((b =? 91) || (b =? 123))%N then (length w + 1)%nat else 0%nat.
Proof.
  intros H -> Hw Hb He. destruct (C67_scalar_errors_are_located pw _ o H) as [H1 H2].
  assert (F : exists P, first_failure P (w ++ b :: r) o) by (destruct He as [He|He]; eauto). clear - F Hw Hb.
  destruct F as (P & [(w' & x & r' & c & E & Hw' & Hx & _ & ->)|(w' & b' & r' & E & Hw' & Hb' & ->)]).
  - destruct (scalar_head _ _ Hx) as (b' & y & -> & H1 & H2 & H3). cbn in E.
    destruct (ws_split_unique _ _ _ _ _ _ Hw Hw' Hb H1 E) as (-> & -> & ->).
    destruct (N.eqb_spec b' 91); [contradiction|]. destruct (N.eqb_spec b' 123); [contradiction|]. reflexivity.
  - assert (H1 : ~ ws_byte b') by (unfold ws_byte; lia). destruct (ws_split_unique _ _ _ _ _ _ Hw Hw' Hb H1 E) as (-> & -> & ->).
    destruct Hb' as [-> | ->]; reflexivity.
Qed.

(** * Concrete cases *)
Example C67_sample_bounded : rust_slice W64 (bs "[1, {""k"":2}]") /\
  document_from_json_bytes W64 (Some 3) (bs "[1, {""k"":2}]") = Err (Error 5 KPaylodTooLarge) /\
  document_from_json_bytes W64 (Some 4) (bs "[1, {""k"":2}]") = Err (Error 9 KPaylodTooLarge) /\
  (exists nodes, document_from_json_bytes W64 (Some 5) (bs "[1, {""k"":2}]") = Ok nodes).
Proof.
  split; [apply rust_str_slice, utf8_checked; [vm_compute; reflexivity|vm_compute; discriminate]|].
  split; [vm_compute; reflexivity|]. split; [vm_compute; reflexivity|]. eexists. vm_compute. reflexivity.
Qed.
Example C67_sample_scalar : rust_str W64 (bs "  1") /\ string_from_json W64 (bs "  1") = Err (Error 0 KExpectedString) /\
  rust_str W64 (bs "  {") /\ number_from_json W64 (bs "  {") = Err (Error 3 KExpectedNumber).
Proof.
  split; [apply utf8_checked; [vm_compute; reflexivity|vm_compute; discriminate]|]. split; [vm_compute; reflexivity|].
  split; [apply utf8_checked; [vm_compute; reflexivity|vm_compute; discriminate]|]. vm_compute; reflexivity.
Qed.
