(** Property theorems about serialization (C35-C39). *)
From Verif Require Import Base Utf8 Utf8Facts StrModel ErrorModel Tokenizer Parser ValueModel DocModel NumModel Spec SpecStr SpecLex SpecWrite
  TokBase TokStr TokNum TokFacts ParserGen Trace ParserSound ParserComplete Sim SimInst StrSpec View ParseMain DocFacts
  GrammarFacts Lexemes WriteFacts WriteGrammar WriteStops StrFacts StrEsc StrWf StringScan PropTok PropEntry StrObt PropStr PropEsc PropValue PropNumber.
Local Open Scope N_scope.

(** * C39: any fmt::Write *)

(** The calls of the destination's two methods in order, all of which return Ok. *)
Inductive calls_ok (W : fmt_write) : w_st W -> list write_call -> w_st W -> Prop :=
| calls_none w : calls_ok W w [] w
| calls_one w c w' cs w'' : do_call W w c = (true, w') -> calls_ok W w' cs w'' -> calls_ok W w (c :: cs) w''.

(** [replays calls text run]: for every destination, [run] makes the given calls one after the other
    until one fails; what the calls write is [text]. *)
Definition replays (calls : list write_call) (text : res infallible (list N))
  (run : forall W : fmt_write, w_st W -> res unit unit * w_st W) : Prop :=
  (forall t, text = Ok t -> t = List.concat (map call_bytes calls)) /\
  forall W w,
    match run W w with
    | (Ok _, w') => calls_ok W w calls w' /\ exists t, text = Ok t
    | (Err _, w') => exists done c rest w1,
        calls = done ++ c :: rest /\ calls_ok W w done w1 /\ do_call W w1 c = (false, w')
    | (Fault f, w') => calls_ok W w calls w' /\ text = Fault f
    end /\
    (forall w', calls_ok W w calls w' -> fst (run W w) <> Err tt).

Lemma do_calls_spec W cs : forall w, match do_calls W w cs with
  | (true, w') => calls_ok W w cs w'
  | (false, w') => exists done c rest w1, cs = done ++ c :: rest /\ calls_ok W w done w1 /\ do_call W w1 c = (false, w')
  end.
Proof.
  induction cs as [|c cs IH]; intro w; cbn [do_calls]; [constructor|].
  destruct (do_call W w c) as [[] w1] eqn:E.
  - specialize (IH w1). destruct (do_calls W w1 cs) as [[] w2].
    + econstructor; eassumption.
    + destruct IH as (done & d & rest & w3 & -> & H1 & H2). exists (c :: done), d, rest, w3. split; [reflexivity|].
      split; [econstructor; eassumption|exact H2].
  - exists [], c, cs, w. split; [reflexivity|]. split; [constructor|exact E].
Qed.
Lemma calls_ok_fun W cs : forall w w', calls_ok W w cs w' -> do_calls W w cs = (true, w').
Proof. intros w w' H. induction H as [|w c w' cs w'' E H IH]; [reflexivity|]. cbn [do_calls]. rewrite E. exact IH. Qed.

Lemma replays_write pw pretty indent eol v :
  exists calls, replays calls (expect_fmt (write_json pw string_write pretty indent eol v []))
    (fun W w => write_json pw W pretty indent eol v w).
Proof.
  destruct (write_calls pw pretty indent eol v) as (cs & r & Hr & H). exists cs.
  pose proof (H string_write []) as Hs. cbn [w_st string_write] in Hs. rewrite string_calls in Hs. cbn [app] in Hs.
  split.
  - intros t E. rewrite Hs in E. destruct r as [[]|[]|f]; cbn in E; congruence.
  - intros W w. rewrite H. pose proof (do_calls_spec W cs w) as G. destruct (do_calls W w cs) as [[] w'] eqn:Ed.
    + destruct r as [[]|[]|f]; cbn [fst]; [|congruence|]; (split; [|discriminate]); (split; [exact G|]); rewrite Hs; cbn; eauto.
    + cbn [fst]. split; [exact G|]. intros w2 K. apply calls_ok_fun in K. congruence.
Qed.

Theorem C39_write_json_to pw v :
  exists calls, replays calls (to_json pw v) (fun W w => write_json_to pw W v w).
Proof. apply (replays_write pw false [] [] v). Qed.

Theorem C39_pretty_write_json_to pw v :
  exists calls, replays calls (to_json_pretty pw v) (fun W w => pretty_write_json_to pw W v w).
Proof. apply (replays_write pw true [32; 32] [10] v). Qed.

Theorem C39_pretty_write_json_to_custom pw indent eol v :
  exists calls, replays calls (to_json_pretty_custom pw indent eol v)
    (fun W w => pretty_write_json_to_custom pw W indent eol v w).
Proof. apply (replays_write pw true indent eol v). Qed.

(** [{}] and [{:#}]. *)
Theorem C39_display pw v :
  (exists calls, replays calls (to_json pw v) (fun W w => value_display pw W false v w)) /\
  (exists calls, replays calls (to_json_pretty pw v) (fun W w => value_display pw W true v w)).
Proof. split; [apply C39_write_json_to|apply C39_pretty_write_json_to]. Qed.

(** * Parsed values *)

(** A value parsed from [s]. *)
Definition parsed_from (pw : pwidth) (cfg : parse_config) (s : list N) (v : value) : Prop :=
  (rust_slice pw s /\ value_from_json_bytes_with_config pw s cfg = Ok v) \/
  (rust_str pw s /\ value_from_json_with_config pw s cfg = Ok v).

Lemma parsed_from_repr pw cfg s v : parsed_from pw cfg s v ->
  N.of_nat (length s) <= isize_max pw /\ exists t, accepted cfg t s /\ value_repr pw t v.
Proof.
  intros [[H E]|[H E]].
  - split; [apply H|]. apply value_bytes_iff; assumption.
  - split; [apply H|]. apply value_str_iff; assumption.
Qed.

Lemma all_strings_in (P : json_string -> Prop) : forall v, (forall x, string_in x v -> P x) -> all_strings P v.
Proof.
  induction v as [n|s|b|o IH|l IH|] using value_ind'; intro H; constructor.
  - apply H. constructor.
  - rewrite Forall_forall in *. intros [k v] Hin. cbn [fst snd]. split; [apply H; eapply string_key; eassumption|].
    apply (IH (k, v) Hin). intros x Hx. apply H. eapply string_member; eassumption.
  - rewrite Forall_forall in *. intros v Hin. apply (IH v Hin). intros x Hx. apply H. eapply string_elem; eassumption.
Qed.

Lemma parsed_from_strings pw cfg s v : parsed_from pw cfg s v -> all_strings (parsed pw) v.
Proof.
  intro H. apply all_strings_in. intros x Hx. destruct H as [[H E]|[H E]]; [eapply parsed_bytes; eassumption|eapply parsed_str; eassumption].
Qed.
Lemma parsed_obtainable pw v : all_strings (parsed pw) v -> all_strings (obtainable pw) v.
Proof. intro H. apply all_strings_in. intros x Hx. left. eapply string_in_all; eassumption. Qed.

Lemma written_parsed pw : forall t v, value_repr pw t v -> written_as pw v t.
Proof.
  assert (K : forall raw cs, str_body raw cs -> js_as_json pw (string_for pw raw cs) = Ok (chars raw) /\ utf8_string (chars raw) = raw).
  { intros raw cs Hb. pose proof (str_body_valid _ _ Hb) as Hv. apply chars_valid in Hv as [H1 H2]. split; [|congruence].
    apply as_json_json; assumption. }
  fix IH 3. intros t v [ |b|n|raw cs H|l vs H|l vs H].
  - constructor.
  - constructor.
  - apply (wa_num pw (JNum (Borrowed n))).
  - destruct (K raw cs H) as [E1 E2]. rewrite <- E2 at 2. constructor. exact E1.
  - constructor. induction H as [|x y l vs Hx H IHl]; constructor; auto.
  - constructor. induction H as [|[k x] [k' y] l vs [(cs & Hk & Ek) Hx] H IHl]; constructor; auto. cbn [fst snd] in *. subst k'.
    split; [|auto]. destruct (K k cs Hk) as [E1 E2]. eauto.
Qed.

Lemma accepted_tree_ok cfg t s : accepted cfg t s -> tree_ok t.
Proof.
  intros (H & _). apply json_text_parts in H. revert H. apply tree_all_impl.
  - intros x [H _]. exact H.
  - intros x [H _]. exact H.
Qed.

(** What serialization writes for a parsed value: its tree, laid out. *)
Theorem C36_C37_layout pw cfg s v : parsed_from pw cfg s v ->
  to_json pw v = Ok (compact (tree_of v)) /\
  (forall indent eol, to_json_pretty_custom pw indent eol v = Ok (pretty_layout indent eol (tree_of v))) /\
  to_json_pretty pw v = Ok (pretty_layout [32; 32] [10] (tree_of v)).
Proof.
  intro H. apply parsed_from_repr in H as (_ & t & Ha & Hr). rewrite (value_repr_tree _ _ _ Hr).
  apply written_parsed in Hr. split; [apply to_json_text; exact Hr|]. split; [intros; apply to_json_pretty_text; exact Hr|].
  apply (to_json_pretty_text pw [32; 32] [10]). exact Hr.
Qed.

(** Reparsing a text that denotes the same tree gives the same value. *)
Lemma reparse pw cfg cfg' s t v u : accepted cfg t s -> value_repr pw t v ->
  json_text (allow_trailing_commas cfg') t u ->
  match recursion_limit cfg' with Some n => tree_depth t <= n | None => True end ->
  allow_all_types_at_root cfg' = true \/ is_container t = true ->
  N.of_nat (length u) <= isize_max pw ->
  rust_str pw u /\ value_from_json_with_config pw u cfg' = Ok v /\ value_from_json_bytes_with_config pw u cfg' = Ok v.
Proof.
  intros Ha Hr Ht Hd Hroot Hl.
  assert (Hs : rust_str pw u) by (split; [eapply json_text_valid; eassumption|exact Hl]).
  split; [exact Hs|]. split; [apply value_str_iff; [exact Hs|]|apply value_bytes_iff; [apply rust_str_slice; exact Hs|]];
    exists t; (split; [split; [exact Ht|auto]|exact Hr]).
Qed.

(** * C35 *)

(** [admits cfg v]: the limits of the configuration allow the value. *)
Definition admits (cfg : parse_config) (v : value) : Prop :=
  match recursion_limit cfg with Some n => tree_depth (tree_of v) <= n | None => True end /\
  (allow_all_types_at_root cfg = true \/ is_container (tree_of v) = true).

Theorem C35_parsed_admits pw cfg s v : parsed_from pw cfg s v -> admits cfg v.
Proof. intro H. apply parsed_from_repr in H as (_ & t & (_ & Hd & Hr) & Hv). unfold admits. rewrite (value_repr_tree _ _ _ Hv). auto. Qed.

(** The compact text parses back, with the same configuration or any other that admits the value, to
    the very same value, which is [==] to itself. *)
Theorem C35_compact_round_trip pw cfg s v : parsed_from pw cfg s v ->
  exists t, to_json pw v = Ok t /\ rust_str pw t /\ value_eq pw v v = Ok true /\
  (forall cfg', admits cfg' v -> value_from_json_with_config pw t cfg' = Ok v /\ value_from_json_bytes_with_config pw t cfg' = Ok v) /\
  value_from_json_with_config pw t cfg = Ok v /\ value_from_json_bytes_with_config pw t cfg = Ok v.
Proof.
  intro H. destruct (C36_C37_layout pw cfg s v H) as (E & _). exists (compact (tree_of v)). split; [exact E|].
  pose proof (C35_parsed_admits _ _ _ _ H) as Hadm. pose proof (C54_reflexive pw v (parsed_obtainable pw v (parsed_from_strings _ _ _ _ H))) as Heq.
  apply parsed_from_repr in H as (Hl & t & Ha & Hv). pose proof (value_repr_tree _ _ _ Hv) as Et. unfold admits in *. rewrite Et in *.
  assert (Hlc : N.of_nat (length (compact t)) <= isize_max pw).
  { destruct Ha as [Ht _]. apply compact_shorter in Ht. lia. }
  assert (K : forall cfg', match recursion_limit cfg' with Some n => tree_depth t <= n | None => True end /\
      (allow_all_types_at_root cfg' = true \/ is_container t = true) ->
      rust_str pw (compact t) /\ value_from_json_with_config pw (compact t) cfg' = Ok v /\ value_from_json_bytes_with_config pw (compact t) cfg' = Ok v).
  { intros cfg' [H1 H2]. eapply (reparse pw cfg cfg' s t v); auto. apply compact_text. eapply accepted_tree_ok. exact Ha. }
  split; [apply (K cfg); exact Hadm|]. split; [exact Heq|]. split; [intros cfg' H'; apply K; exact H'|]. apply K. exact Hadm.
Qed.

(** * C36 *)

(** Trailing commas not allowed: the source without the whitespace outside strings, nothing else changed. *)
Theorem C36_compact_is_minified_source pw cfg s v : parsed_from pw cfg s v -> allow_trailing_commas cfg = false ->
  to_json pw v = Ok (minify Outside s).
Proof.
  intros H Etc. destruct (C36_C37_layout pw cfg s v H) as (-> & _). f_equal.
  apply parsed_from_repr in H as (Hl & t & (Ht & _) & Hv). rewrite (value_repr_tree _ _ _ Hv). rewrite Etc in Ht.
  apply json_text_to_lex in Ht as (ls & Hls & Hs). rewrite (minify_spaced _ _ Hs). apply (compact_lexemes false). exact Hls.
Qed.

(** Trailing commas allowed: also without the commas directly before a closing bracket. *)
Theorem C36_compact_drops_trailing_commas pw cfg s v : parsed_from pw cfg s v ->
  exists ls, spaced ls s /\ minify Outside s = List.concat ls /\
    to_json pw v = Ok (List.concat (if allow_trailing_commas cfg then drop_trailing_commas ls else ls)).
Proof.
  intro H. destruct (C36_C37_layout pw cfg s v H) as (-> & _).
  apply parsed_from_repr in H as (Hl & t & (Ht & _) & Hv). rewrite (value_repr_tree _ _ _ Hv).
  apply json_text_to_lex in Ht as (ls & Hls & Hs). exists ls. split; [exact Hs|]. split; [apply minify_spaced; exact Hs|].
  f_equal. apply compact_lexemes. exact Hls.
Qed.

(** * C37 *)
Theorem C37_pretty_round_trip pw cfg s v indent eol text : parsed_from pw cfg s v -> ws indent -> ws eol ->
  to_json_pretty_custom pw indent eol v = Ok text -> N.of_nat (length text) <= isize_max pw ->
  (forall cfg', admits cfg' v -> value_from_json_with_config pw text cfg' = Ok v /\ value_from_json_bytes_with_config pw text cfg' = Ok v) /\
  value_from_json_with_config pw text cfg = Ok v /\ value_from_json_bytes_with_config pw text cfg = Ok v.
Proof.
  intros H Hi He Et Hlt. destruct (C36_C37_layout pw cfg s v H) as (_ & E & _). rewrite E in Et. injection Et as <-.
  pose proof (C35_parsed_admits _ _ _ _ H) as Hadm.
  apply parsed_from_repr in H as (Hl & t & Ha & Hv). pose proof (value_repr_tree _ _ _ Hv) as Et. unfold admits in *. rewrite Et in *.
  assert (K : forall cfg', match recursion_limit cfg' with Some n => tree_depth t <= n | None => True end /\
      (allow_all_types_at_root cfg' = true \/ is_container t = true) ->
      rust_str pw (pretty_layout indent eol t) /\ value_from_json_with_config pw (pretty_layout indent eol t) cfg' = Ok v /\
      value_from_json_bytes_with_config pw (pretty_layout indent eol t) cfg' = Ok v).
  { intros cfg' [H1 H2]. eapply (reparse pw cfg cfg' s t v); auto. apply pretty_text; [exact Hi|exact He|]. eapply accepted_tree_ok. exact Ha. }
  split; [intros cfg' H'; apply K; exact H'|]. apply K. exact Hadm.
Qed.

Theorem C37_to_json_pretty_is_two_spaces_newline pw v :
  to_json_pretty pw v = to_json_pretty_custom pw (bs "  ") [10] v.
Proof. reflexivity. Qed.

(** Pretty and compact text have the same lexemes: the pretty one minifies to the compact one. *)
Theorem C37_pretty_minifies_to_compact pw cfg s v indent eol text : parsed_from pw cfg s v -> ws indent -> ws eol ->
  to_json_pretty_custom pw indent eol v = Ok text -> to_json pw v = Ok (minify Outside text).
Proof.
  intros H Hi He Et. destruct (C36_C37_layout pw cfg s v H) as (E1 & E2 & _). rewrite E2 in Et. injection Et as <-. rewrite E1. f_equal.
  apply parsed_from_repr in H as (Hl & t & Ha & Hv). pose proof (value_repr_tree _ _ _ Hv) as Et. rewrite Et in *.
  pose proof (pretty_text false indent eol t Hi He (accepted_tree_ok _ _ _ Ha)) as Hp.
  apply json_text_to_lex in Hp as (ls & Hls & Hs). rewrite (minify_spaced _ _ Hs). apply (compact_lexemes false). exact Hls.
Qed.

(** * C38: values built by the program *)

(** Any value a program can build: strings and numbers it can get, arrays and objects of any shape. *)
Definition constructible (pw : pwidth) (v : value) : Prop :=
  all_strings (obtainable pw) v /\ all_numbers (number_obtainable pw) v.

(** Strings whose escaped form is JSON: raw strings must not contain a character of [broken]. *)
Definition escapable (pw : pwidth) (x : json_string) : Prop :=
  is_json_form x \/ forall cs, js_decoded pw x = Ok cs -> Forall (fun c => ~ In c broken) cs.
(** Strings whose escaped form is read back as the same text. *)
Definition readable (pw : pwidth) (x : json_string) : Prop :=
  is_json_form x \/ forall cs, js_decoded pw x = Ok cs -> Forall (fun c => ~ In c broken /\ ~ In c wrong) cs.
(** Strings that also compare equal then. *)
Definition survives (pw : pwidth) (x : json_string) : Prop :=
  is_json_form x \/ forall cs, js_decoded pw x = Ok cs -> Forall (fun c => ~ In c broken /\ ~ In c wrong /\ ~ latin1 c) cs.

Lemma all_strings_impl (P Q : json_string -> Prop) v : (forall x, P x -> Q x) -> all_strings P v -> all_strings Q v.
Proof. intros H Hv. apply all_strings_in. intros x Hx. apply H. eapply string_in_all; eassumption. Qed.

Lemma written_exists pw : forall v, all_strings (fun x => exists out, js_as_json pw x = Ok out) v -> exists t, written_as pw v t.
Proof.
  induction v as [n|s|b|o IH|l IH|] using value_ind'; intro H; inversion H as [ | | |? (out & Ho)|? Hl|? Hl]; subst;
    try (eexists; constructor; eassumption); try (eexists; constructor; fail).
  - clear H. assert (G : exists ts, Forall2 (fun e f => (exists out, js_as_json pw (fst e) = Ok out /\ fst f = utf8_string out) /\
      written_as pw (snd e) (snd f)) o ts).
    { induction Hl as [|[k v] o [(out & Hk) Hv] Hl IHo]; [eexists; constructor|]. inversion IH as [|? ? IHv IHr]; subst.
      cbn [fst snd] in *. destruct (IHo IHr) as (ts & G). destruct (IHv Hv) as (t & Ht).
      exists ((utf8_string out, t) :: ts). constructor; [|exact G]. cbn [fst snd]. eauto. }
    destruct G as (ts & G). eexists. constructor. exact G.
  - clear H. assert (G : exists ts, Forall2 (written_as pw) l ts).
    { induction Hl as [|v l Hv Hl IHl]; [eexists; constructor|]. inversion IH as [|? ? IHv IHr]; subst.
      destruct (IHl IHr) as (ts & G). destruct (IHv Hv) as (t & Ht). eexists. constructor; eassumption. }
    destruct G as (ts & G). eexists. constructor. exact G.
Qed.

Lemma written_depth pw : forall v t, written_as pw v t -> tree_depth t = tree_depth (tree_of v) /\ is_container t = is_container (tree_of v).
Proof.
  fix IH 3. intros v t [ |b|n|s out Ho|l ts H|o ts H]; cbn [tree_of tree_depth is_container]; try (split; reflexivity); (split; [|reflexivity]); f_equal.
  - induction H as [|x y l ts Hx H IHl]; cbn; [reflexivity|]. rewrite (proj1 (IH _ _ Hx)), IHl. reflexivity.
  - induction H as [|[k x] [k' y] l ts [_ Hx] H IHl]; cbn in *; [reflexivity|]. rewrite (proj1 (IH _ _ Hx)), IHl. reflexivity.
Qed.

Lemma written_tree_ok pw : forall v t, written_as pw v t ->
  all_strings (fun x => forall out, js_as_json pw x = Ok out -> exists cs, str_body (utf8_string out) cs) v ->
  all_numbers (fun n => number (jn_str n)) v -> tree_ok t.
Proof.
  fix IH 3. intros v t [ |b|n|s out Ho|l ts H|o ts H] Hs Hn; inversion Hs as [ | | |? A|? A|? A]; inversion Hn as [ | |? B| |? B|? B]; subst; constructor; auto.
  - clear Hs Hn. induction H as [|x y l ts Hx H IHl]; [constructor|]. inversion A; inversion B; subst. constructor; [eapply IH; eassumption|auto].
  - clear Hs Hn. induction H as [|[k x] [k' y] l ts [(out & Hk & Ek) Hx] H IHl]; [constructor|]. inversion A as [|? ? [A1 A2]]; inversion B; subst.
    cbn [fst snd] in *. subst k'. constructor; [cbn [fst snd]; split; [apply A1; exact Hk|eapply IH; eassumption]|auto].
Qed.

(** Original and reparsed value, string by string. *)
Definition reread (pw : pwidth) (x y : json_string) : Prop :=
  exists out cs, js_as_json pw x = Ok out /\ str_body (utf8_string out) cs /\ y = string_for pw (utf8_string out) cs.

Lemma written_reread pw : forall v t, written_as pw v t -> forall v', value_repr pw t v' -> related (reread pw) same_text v v'.
Proof.
  fix IH 3. intros v t [ |b|n|s out Ho|l ts H|o ts H] v' Hr; inversion Hr; subst; constructor.
  - reflexivity.
  - unfold reread. eauto.
  - match goal with H1 : Forall2 _ ts ?x |- _ => clear Hr; revert x H1; induction H as [|a y l ts Hx H IHl]; intros x H1; inversion H1; subst end; constructor; eauto.
  - match goal with H1 : Forall2 _ ts ?x |- _ => clear Hr; revert x H1;
      induction H as [|[k a] [k' y] l ts [(out & Hk & Ek) Hx] H IHl]; intros x H1; inversion H1 as [|? [k'' z] ? ? [(cs2 & Hk2 & Ek2) Hx2]]; subst end; constructor; eauto.
    cbn [fst snd] in *. subst k'. split; [unfold reread; eauto|eauto].
Qed.

Lemma escapable_body pw x out : obtainable pw x -> js_as_json pw x = Ok out -> escapable pw x -> exists cs, str_body (utf8_string out) cs.
Proof.
  intros Hx Eo He. apply obtainable_wf in Hx as (cs & Hw). pose proof (jwf_decoded _ _ _ Hw) as Ed.
  destruct Hw as [a i l Hi Hl _ _|a cs Hcs Ea Hl Hc Hm].
  - pose proof (items_valid _ _ Hi) as Hv. apply chars_valid in Hv as [H1 H2].
    rewrite (as_json_json pw a i _ H1 H2) in Eo. injection Eo as <-. rewrite <- H2. eexists. apply str_body_items. eauto.
  - destruct He as [[]|He]. specialize (He cs Ed).
    destruct (N.le_gt_cases (2 * counted cs) (isize_max pw)) as [H2|H2].
    + rewrite (as_json_raw pw a cs Hcs Ea H2) in Eo. injection Eo as <-. eexists. apply str_body_items.
      eexists. split; [apply escaped_items; assumption|reflexivity].
    + rewrite (as_json_raw_overflow pw a cs Hcs Ea Hc H2) in Eo. discriminate.
Qed.

(** The string read back is the same text iff [readable], and [==] iff [survives]. *)
Lemma reread_string pw x y : obtainable pw x -> parsed pw y -> reread pw x y ->
  (js_decoded pw x = js_decoded pw y <-> readable pw x) /\ (js_eq pw x y = Ok true <-> survives pw x).
Proof.
  intros Hx Hy (out & cs0 & Eo & Hb & Ey). apply obtainable_wf in Hx as (cs & Hw). pose proof (jwf_decoded _ _ _ Hw) as Ed.
  pose proof (parsed_wf pw y Hy) as (l & Hl & Hfy & Hwy & Hly & _). pose proof (jwf_decoded _ _ _ Hwy) as Edy.
  assert (Est : stored y = utf8_string out) by (rewrite Ey; reflexivity). rewrite Est in *.
  unfold readable, survives. rewrite (jwf_eq _ _ _ _ _ Hw Hwy), Ed, Edy.
  assert (Hlen : js_len pw y = N.of_nat (length (utf8_string out))) by (rewrite Ey; reflexivity).
  assert (Hsy : scalars (map crate_char l)) by (eapply jwf_scalars; exact Hwy).
  destruct Hw as [a i l' Hi Hla _ _|a cs Hcs Ea Hla Hc Hm].
  - pose proof (items_valid _ _ Hi) as Hv. apply chars_valid in Hv as [H1 H2].
    rewrite (as_json_json pw a i _ H1 H2) in Eo. injection Eo as <-. rewrite <- H2 in Hl.
    rewrite (items_text_fun _ _ _ Hl Hi). unfold is_json_form, same_form. rewrite Ey. cbn [js_source string_for orb].
    rewrite bytes_eqb_refl. cbn [andb]. split; split; auto.
  - destruct (N.le_gt_cases (2 * counted cs) (isize_max pw)) as [H2|H2];
      [|rewrite (as_json_raw_overflow pw a cs Hcs Ea Hc H2) in Eo; discriminate].
    rewrite (as_json_raw pw a cs Hcs Ea H2) in Eo. injection Eo as <-.
    pose proof (escaped_items_inv cs Hcs l Hl) as Hnb. rewrite (items_text_fun _ _ _ Hl (escaped_items cs Hcs Hnb)) in *.
    assert (Emap : map crate_char (map esc_item cs) = cs <-> Forall (fun c => ~ In c wrong) cs).
    { rewrite map_map, map_id_iff. rewrite !Forall_forall in *. split; intros H c Hin; apply (crate_esc c (Hnb c Hin)); auto. }
    assert (Elen : js_len pw (JStr (CRaw a) (info_new pw true (counted cs))) = js_len pw y <-> Forall (fun c => ~ latin1 c) cs).
    { rewrite Hlen, <- counted_exact, <- latin1_count_0. unfold js_len. cbn [js_source js_info]. rewrite expected_length_info by exact Hc. lia. }
    split.
    + split.
      * intro E. injection E as E. right. intros cs' E'. injection E' as <-.
        assert (K : Forall (fun c => ~ In c wrong) cs) by (apply Emap; congruence). rewrite Forall_forall in *. auto.
      * intros [[]|H]. f_equal. symmetry. apply Emap. specialize (H cs eq_refl). rewrite Forall_forall in *. intros c Hc'. apply H. exact Hc'.
    + assert (Hsf : same_form (JStr (CRaw a) (info_new pw true (counted cs))) y = false) by (rewrite Ey; reflexivity). rewrite Hsf. cbn [orb].
      split.
      * intro E. injection E as E. apply andb_true_iff in E as [E1 E2]. apply bytes_eqb_eq in E1. apply N.eqb_eq in E2.
        apply utf8_string_inj in E1; [|exact Hcs|exact Hsy]. right. intros cs' E'. injection E' as <-.
        symmetry in E1. apply Emap in E1. apply Elen in E2. rewrite Forall_forall in *. auto.
      * intros [[]|H]. specialize (H cs eq_refl). f_equal. apply andb_true_iff.
        assert (H1 : Forall (fun c => ~ In c wrong) cs) by (eapply Forall_impl; [|exact H]; cbv beta; tauto).
        assert (H3 : Forall (fun c => ~ latin1 c) cs) by (eapply Forall_impl; [|exact H]; cbv beta; tauto).
        apply Emap in H1. apply Elen in H3. rewrite H1. split; [apply bytes_eqb_refl|apply N.eqb_eq; exact H3].
Qed.

Lemma related_all (R R' : json_string -> json_string -> Prop) (Q : json_number -> json_number -> Prop) (P P' : json_string -> Prop)  (S : json_string -> Prop) :
  (forall x y, P x -> P' y -> R x y -> (R' x y <-> S x)) ->
  forall v w, all_strings P v -> all_strings P' w -> related R Q v w -> (related R' Q v w <-> all_strings S v).
Proof.
  intros HR. induction v as [n|s|b|o IH|l IH|] using value_ind'; intros w Hv Hw H; inversion H as [ | | | |? m Hl|? p Ho]; subst;
    inversion Hv as [ | | |? A|? A|? A]; inversion Hw as [ | | |? B|? B|? B]; subst.
  - split; [constructor|auto with *]. intros _. exact (rel_num _ _ _ _ H0).
  - split; intro K.
    + inversion K; subst. constructor. eapply HR; eassumption.
    + inversion K; subst. constructor. eapply HR; eassumption.
  - split; constructor.
  - clear H Hv Hw. assert (G : Forall2 (fun e f => R' (fst e) (fst f) /\ related R' Q (snd e) (snd f)) o p <->
      Forall (fun e => S (fst e) /\ all_strings S (snd e)) o).
    { induction Ho as [|[k v] [k' w] o p [Hk Hx] Ho IHo]; [split; constructor|].
      inversion IH as [|? ? IHv IHr]; subst. inversion A as [|? ? [A1 A2] A3]; inversion B as [|? ? [B1 B2] B3]; subst. cbn [fst snd] in *.
      specialize (IHo IHr A3 B3). split; intro K.
      - inversion K as [|? ? ? ? [K1 K2] K3]; subst; cbn [fst snd] in *. constructor; [|apply IHo; assumption]. cbn [fst snd].
        split; [eapply HR; eassumption|eapply IHv; eassumption].
      - inversion K as [|? ? [K1 K2] K3]; subst; cbn [fst snd] in *. constructor; [|apply IHo; assumption]. cbn [fst snd].
        split; [eapply HR; eassumption|eapply IHv; eassumption]. }
    split; intro K; inversion K; subst; constructor; apply G; assumption.
  - clear H Hv Hw. assert (G : Forall2 (related R' Q) l m <-> Forall (all_strings S) l).
    { induction Hl as [|v w l m Hx Hl IHl]; [split; constructor|].
      inversion IH as [|? ? IHv IHr]; subst. inversion A as [|? ? A2 A3]; inversion B as [|? ? B2 B3]; subst.
      specialize (IHl IHr A3 B3). split; intro K.
      - inversion K; subst. constructor; [eapply IHv; eassumption|apply IHl; assumption].
      - inversion K; subst. constructor; [eapply IHv; eassumption|apply IHl; assumption]. }
    split; intro K; inversion K; subst; constructor; apply G; assumption.
  - split; constructor.
Qed.

Lemma as_json_loose pw x out : obtainable pw x -> js_as_json pw x = Ok out -> scalars out /\ loose (utf8_string out).
Proof.
  intros Hx Eo. apply obtainable_wf in Hx as (cs & Hw). destruct Hw as [a i l Hi Hl _ _|a cs Hcs Ea Hl Hc Hm].
  - pose proof (items_valid _ _ Hi) as Hv. apply chars_valid in Hv as [H1 H2].
    rewrite (as_json_json pw a i _ H1 H2) in Eo. injection Eo as <-. split; [exact H1|]. rewrite <- H2. eapply loose_body.
    apply str_body_items. eauto.
  - destruct (N.le_gt_cases (2 * counted cs) (isize_max pw)) as [H2|H2].
    + rewrite (as_json_raw pw a cs Hcs Ea H2) in Eo. injection Eo as <-. split; [|apply loose_escaped; exact Hcs].
      apply Forall_flat_map. eapply Forall_impl; [|exact Hcs]. intros c Hc'. cbv beta in Hc'. destruct (must_escape c) eqn:Em.
      * eapply Forall_impl; [|apply escaped1_ascii; exact Em]. intros b Hb. cbv beta in *. apply is_scalar_spec. lia.
      * unfold escaped1. rewrite Em. cbn [negb]. constructor; [exact Hc'|constructor].
    + rewrite (as_json_raw_overflow pw a cs Hcs Ea Hc H2) in Eo. discriminate.
Qed.

Lemma body_escapable pw x out : obtainable pw x -> js_as_json pw x = Ok out -> body (utf8_string out) -> escapable pw x.
Proof.
  intros Hx Eo (ds & Hb). apply obtainable_wf in Hx as (cs & Hw). pose proof (jwf_decoded _ _ _ Hw) as Ed. unfold escapable. rewrite Ed.
  destruct Hw as [a i l Hi Hl _ _|a cs Hcs Ea Hl Hc Hm]; [left; exact I|right]. intros cs' E. injection E as <-.
  destruct (N.le_gt_cases (2 * counted cs) (isize_max pw)) as [H2|H2];
    [|rewrite (as_json_raw_overflow pw a cs Hcs Ea Hc H2) in Eo; discriminate].
  rewrite (as_json_raw pw a cs Hcs Ea H2) in Eo. injection Eo as <-. apply str_body_items in Hb as (l & Hi & _).
  eapply escaped_items_inv; eassumption.
Qed.

(** Facts about all strings and numbers of a written tree. *)
Lemma written_tree_all pw (P : json_string -> Prop) (Q : json_number -> Prop) (PS PN : list N -> Prop) :
  (forall x out, P x -> js_as_json pw x = Ok out -> PS (utf8_string out)) -> (forall n, Q n -> PN (jn_str n)) ->
  forall v t, written_as pw v t -> all_strings P v -> all_numbers Q v -> tree_all PS PN t.
Proof.
  intros HS HN. fix IH 3. intros v t [ |b|n|s out Ho|l ts H|o ts H] Hs Hn; inversion Hs as [ | | |? A|? A|? A]; inversion Hn as [ | |? B| |? B|? B]; subst; constructor.
  - apply HN. exact B.
  - eapply HS; eassumption.
  - clear Hs Hn. induction H as [|x y l ts Hx H IHl]; [constructor|]. inversion A; inversion B; subst. constructor; [eapply IH; eassumption|auto].
  - clear Hs Hn. induction H as [|[k x] [k' y] l ts [(out & Hk & Ek) Hx] H IHl]; [constructor|]. inversion A as [|? ? [A1 A2]]; inversion B; subst.
    cbn [fst snd] in *. subst k'. constructor; [cbn [fst snd]; split; [eapply HS; eassumption|eapply IH; eassumption]|auto].
Qed.

Lemma written_strings pw (P : json_string -> Prop) (PS PN : list N -> Prop) (S : json_string -> Prop) :
  (forall x out, P x -> js_as_json pw x = Ok out -> PS (utf8_string out) -> S x) ->
  forall v t, written_as pw v t -> all_strings P v -> tree_all PS PN t -> all_strings S v.
Proof.
  intros HS. fix IH 3. intros v t [ |b|n|s out Ho|l ts H|o ts H] Hs Hn; inversion Hs as [ | | |? A|? A|? A]; inversion Hn as [ | |? B|? B|? B|? B]; subst; constructor.
  - eapply HS; eassumption.
  - clear Hs Hn. induction H as [|x y l ts Hx H IHl]; [constructor|]. inversion A; inversion B; subst. constructor; [eapply IH; eassumption|auto].
  - clear Hs Hn. induction H as [|[k x] [k' y] l ts [(out & Hk & Ek) Hx] H IHl]; [constructor|]. inversion A as [|? ? [A1 A2]]; inversion B as [|? ? [B1 B2]]; subst.
    cbn [fst snd] in *. subst k'. constructor; [cbn [fst snd]; split; [eapply HS; eassumption|eapply IH; eassumption]|auto].
Qed.

Lemma as_json_fits pw x : obtainable pw x -> ((exists out, js_as_json pw x = Ok out) <-> recount_fits pw x).
Proof.
  intro Hx. apply obtainable_wf in Hx as (cs & Hw). split.
  - intros (out & Eo). destruct Hw as [a i l Hi Hl _ _|a cs Hcs Ea Hl Hc Hm]; [left; exact I|right].
    unfold js_len. cbn [js_source js_info]. rewrite expected_length_info by exact Hc.
    destruct (N.le_gt_cases (2 * counted cs) (isize_max pw)) as [H2|H2]; [exact H2|].
    rewrite (as_json_raw_overflow pw a cs Hcs Ea Hc H2) in Eo. discriminate.
  - intro Hf. rewrite (as_json_wf pw x cs Hw Hf). eauto.
Qed.

Lemma all_strings_iff (P Q R : json_string -> Prop) v : (forall x, P x -> (Q x <-> R x)) -> all_strings P v -> (all_strings Q v <-> all_strings R v).
Proof.
  intros H Hp. split; intro K; apply all_strings_in; intros x Hx; apply H; try (eapply string_in_all; [exact Hp|exact Hx]); eapply string_in_all; eassumption.
Qed.

(** Serialization panics only for a string whose escaped length does not fit twice. *)
Theorem C38_serializes_iff pw v : constructible pw v -> ((exists u, to_json pw v = Ok u) <-> all_strings (recount_fits pw) v).
Proof.
  intros [Hs _]. rewrite <- (all_strings_iff _ _ _ v (as_json_fits pw) Hs). split.
  - intros (u & E). eapply to_json_ok. exact E.
  - intro H. apply written_exists in H as (t & Ht). eexists. apply to_json_text. exact Ht.
Qed.

(** [serialized pw v u]: [u] is what one of the serializers writes for [v] ([indent] and [eol] whitespace). *)
Inductive serialized (pw : pwidth) (v : value) : list N -> Prop :=
| ser_compact u : to_json pw v = Ok u -> serialized pw v u
| ser_pretty u : to_json_pretty pw v = Ok u -> serialized pw v u
| ser_custom indent eol u : ws indent -> ws eol -> to_json_pretty_custom pw indent eol v = Ok u -> serialized pw v u.

Lemma ws_plain w : ws w -> Forall (fun b => b <> 34) w.
Proof. intro H. eapply Forall_impl; [|exact H]. cbv beta. unfold ws_byte. intros. lia. Qed.
Lemma ws_valid w : ws w -> utf8_valid w = true.
Proof. induction 1 as [|b w Hb Hw IH]; [reflexivity|]. unfold ws_byte in Hb. rewrite utf8_valid_ascii_cons by lia. exact IH. Qed.
Lemma number_valid n : number n -> utf8_valid n = true.
Proof.
  intro H. apply utf8_valid_iff. apply (json_text_valid false (TNum n)). exists [], n, []. rewrite app_nil_r. repeat split; try constructor; exact H.
Qed.

Lemma layout_valid indent eol cl : ws indent -> ws eol -> ws cl -> forall t, tree_all (fun raw => utf8_valid raw = true) number t ->
  forall lvl, utf8_valid (layout indent eol (58 :: cl) lvl t) = true.
Proof.
  intros Hi He Hc.
  assert (V : forall a b, utf8_valid a = true -> utf8_valid b = true -> utf8_valid (a ++ b) = true) by (intros a b Ha Hb; rewrite utf8_valid_app; assumption).
  assert (P : forall n, utf8_valid (pad indent n) = true) by (intro n; apply ws_valid, ws_pad; exact Hi).
  assert (J : forall (A : Type) (f : A -> list N) l, (forall x, In x l -> utf8_valid (f x) = true) -> utf8_valid (join ([44] ++ eol) (map f l)) = true).
  { intros A f l. induction l as [|x l IH]; intro H; [reflexivity|]. cbn [map join]. destruct l as [|y l]; [apply H; left; reflexivity|].
    cbn [map] in *. apply V; [apply H; left; reflexivity|]. apply V; [apply V; [reflexivity|apply ws_valid; exact He]|].
    apply IH. intros z Hz. apply H. right. exact Hz. }
  assert (S : forall raw, utf8_valid raw = true -> utf8_valid ([34] ++ raw ++ [34]) = true).
  { intros raw H. apply V; [reflexivity|]. apply V; [exact H|reflexivity]. }
  induction t as [ |b|n|raw|l IH|l IH] using tree_ind'; intros Ht lvl; inversion Ht as [ | |? Hn|? Hs|? Hl|? Hl]; subst; cbn [layout].
  - reflexivity.
  - destruct b; reflexivity.
  - apply number_valid. exact Hn.
  - apply S. exact Hs.
  - destruct l as [|x l]; [reflexivity|]. apply V; [reflexivity|]. apply V; [apply ws_valid; exact He|]. apply V; [|apply V; [apply ws_valid; exact He|apply V; [apply P|reflexivity]]].
    apply J. intros z Hz. apply V; [apply P|]. rewrite Forall_forall in IH, Hl. apply IH; auto.
  - destruct l as [|x l]; [reflexivity|]. apply V; [reflexivity|]. apply V; [apply ws_valid; exact He|]. apply V; [|apply V; [apply ws_valid; exact He|apply V; [apply P|reflexivity]]].
    apply J. intros z Hz. apply V; [apply P|]. rewrite Forall_forall in IH, Hl. destruct (Hl z Hz) as [K1 K2]. apply V; [apply S; exact K1|].
    apply V; [apply (V [58]); [reflexivity|apply ws_valid; exact Hc]|]. apply IH; auto.
Qed.

Lemma serialized_layout pw v u : constructible pw v -> serialized pw v u -> exists t, written_as pw v t /\ utf8_valid u = true /\
  forall tc, (tree_ok t -> json_text tc t u) /\ (forall t', json_text tc t' u -> tree_ok t).
Proof.
  intros [Hs Hn] H.
  assert (W : forall t, written_as pw v t -> tree_all loose number t /\ tree_all (fun raw => utf8_valid raw = true) number t).
  { intros t Ht. split; eapply (written_tree_all pw (obtainable pw) (number_obtainable pw)); try exact Ht; try exact Hs; try exact Hn.
    - intros x out Hx Eo. eapply as_json_loose; eassumption.
    - intros n Hx. apply number_obtainable_shape in Hx as (m & Hm & ->). exact Hm.
    - intros x out Hx Eo. apply utf8_valid_iff. exists out. split; [|reflexivity]. eapply as_json_loose; eassumption.
    - intros n Hx. apply number_obtainable_shape in Hx as (m & Hm & ->). exact Hm. }
  assert (G : forall indent eol cl, ws indent -> ws eol -> ws cl -> forall t, written_as pw v t -> u = layout indent eol (58 :: cl) 0 t ->
    utf8_valid u = true /\ forall tc, (tree_ok t -> json_text tc t u) /\ (forall t', json_text tc t' u -> tree_ok t)).
  { intros indent eol cl Hi He Hc t Ht ->. destruct (W t Ht) as [W1 W2]. split; [apply layout_valid; assumption|]. intro tc. split.
    - intro Hok. apply value_json_text, layout_text; assumption.
    - intros t' Ht'. apply json_text_to_lex in Ht' as (ls & _ & Hsp). apply spaced_contents in Hsp. rewrite <- (app_nil_r (layout _ _ _ _ _)) in Hsp.
      apply layout_contents in Hsp as [Hok _]; auto using ws_plain. constructor; [lia|apply ws_plain; exact Hc]. }
  assert (Wsp : ws [32; 32] /\ ws [10] /\ ws [32] /\ ws []) by (repeat split; repeat constructor; unfold ws_byte; lia). destruct Wsp as (W1 & W2 & W3 & W4).
  destruct H as [u E|u E|indent eol u Hi He E].
  - pose proof (to_json_ok _ _ _ E) as H. apply written_exists in H as (t & Ht). exists t. split; [exact Ht|].
    rewrite (to_json_text _ _ _ Ht) in E. injection E as <-. apply (G [] [] []); auto.
  - pose proof (to_json_pretty_ok _ [32; 32] [10] _ _ E) as H. apply written_exists in H as (t & Ht). exists t. split; [exact Ht|].
    pose proof (to_json_pretty_text _ [32; 32] [10] _ _ Ht) as E'. change (to_json_pretty pw v) with (to_json_pretty_custom pw [32; 32] [10] v) in E.
    rewrite E' in E. injection E as <-. apply (G [32; 32] [10] [32]); auto.
  - pose proof (to_json_pretty_ok _ _ _ _ _ E) as H. apply written_exists in H as (t & Ht). exists t. split; [exact Ht|].
    rewrite (to_json_pretty_text _ _ _ _ _ Ht) in E. injection E as <-. apply (G indent eol [32]); auto.
Qed.

(** Everything C38 is about, for any serializer. *)
Lemma round_trip pw cfg v u : constructible pw v -> serialized pw v u -> N.of_nat (length u) <= isize_max pw ->
  rust_str pw u /\
  ((exists v', value_from_json_with_config pw u cfg = Ok v') <-> admits cfg v /\ all_strings (escapable pw) v) /\
  (forall v', value_from_json_with_config pw u cfg = Ok v' ->
    (related (fun x y => js_decoded pw x = js_decoded pw y) same_text v v' <-> all_strings (readable pw) v) /\
    (value_eq pw v v' = Ok true <-> all_strings (survives pw) v)).
Proof.
  intros Hc Hser Hl. destruct (serialized_layout pw v u Hc Hser) as (t & Ht & Hv & HT). destruct Hc as [Hs Hn].
  assert (Hu : rust_str pw u) by (split; [apply utf8_valid_iff; exact Hv|exact Hl]).
  split; [exact Hu|]. destruct (written_depth _ _ _ Ht) as [Ed Ec]. specialize (HT (allow_trailing_commas cfg)) as [HT1 HT2]. split.
  - split.
    + intros (v' & E). apply value_str_iff in E as (t' & (Ha & Hd & Hr) & Hv'); [|exact Hu]. pose proof (HT2 _ Ha) as Hok.
      rewrite (json_text_unique pw _ t' t u Hl Ha (HT1 Hok)) in *. split; [unfold admits; rewrite <- Ed, <- Ec; auto|].
      eapply (written_strings pw (obtainable pw)); [|exact Ht|exact Hs|exact Hok]. intros x out Hx Eo Hb. eapply body_escapable; eassumption.
    + intros [[Hd Hr] He]. rewrite <- Ed in Hd. rewrite <- Ec in Hr.
      assert (Hok : tree_ok t).
      { eapply (written_tree_all pw (fun x => obtainable pw x /\ escapable pw x) (number_obtainable pw)); [| |exact Ht| |exact Hn].
        - intros x out [Hx Hx'] Eo. eapply escapable_body; eassumption.
        - intros n Hx. apply number_obtainable_shape in Hx as (m & Hm & ->). exact Hm.
        - apply all_strings_in. intros x Hx. split; eapply string_in_all; eassumption. }
      destruct (accepted_repr pw true cfg t u (rust_str_good _ _ Hu)) as (v' & Hv'); [split; [apply HT1; exact Hok|auto]|]. exists v'.
      apply value_str_iff; [exact Hu|]. exists t. split; [split; [apply HT1; exact Hok|auto]|exact Hv'].
  - intros v' E. assert (Hp : all_strings (parsed pw) v') by (eapply parsed_from_strings; right; split; [exact Hu|exact E]).
    apply value_str_iff in E as (t' & (Ha & Hd & Hr) & Hv'); [|exact Hu]. pose proof (HT2 _ Ha) as Hok.
    rewrite (json_text_unique pw _ t' t u Hl Ha (HT1 Hok)) in *. pose proof (written_reread _ _ _ Ht _ Hv') as Hrr. split.
    + refine (related_all _ _ _ (obtainable pw) (parsed pw) _ _ v v' Hs Hp Hrr). intros x y Hx Hy Hxy. apply reread_string; assumption.
    + rewrite C54_value_equality. refine (related_all _ _ _ (obtainable pw) (parsed pw) _ _ v v' Hs Hp Hrr).
      intros x y Hx Hy Hxy. apply reread_string; assumption.
Qed.

(** The text a serializer writes is a Rust string, and the parser accepts it iff the configuration
    admits the value and no raw string contains a [broken] character. *)
Theorem C38_reparses_iff pw cfg v u : constructible pw v -> serialized pw v u -> N.of_nat (length u) <= isize_max pw ->
  rust_str pw u /\
  ((exists v', value_from_json_with_config pw u cfg = Ok v') <-> admits cfg v /\ all_strings (escapable pw) v).
Proof. intros H1 H2 H3. destruct (round_trip pw cfg v u H1 H2 H3) as (A & B & _). auto. Qed.

(** Parsing the text back gives the same value up to the representation of strings iff moreover no
    raw string contains a [wrong] character ... *)
Theorem C38_same_texts_iff pw cfg v u : constructible pw v -> serialized pw v u -> N.of_nat (length u) <= isize_max pw ->
  ((exists v', value_from_json_with_config pw u cfg = Ok v' /\
     related (fun x y => js_decoded pw x = js_decoded pw y) same_text v v') <-> admits cfg v /\ all_strings (readable pw) v).
Proof.
  intros H1 H2 H3. destruct (round_trip pw cfg v u H1 H2 H3) as (A & B & C). split.
  - intros (v' & E & R). split; [apply B; eauto|]. apply (C v' E). exact R.
  - intros [Ha Hr]. destruct (proj2 B) as (v' & E).
    { split; [exact Ha|]. revert Hr. apply all_strings_impl. intros x [Hx|Hx]; [left; exact Hx|right]. intros cs Ecs.
      eapply Forall_impl; [|exact (Hx cs Ecs)]. cbv beta. tauto. }
    exists v'. split; [exact E|]. apply (C v' E). exact Hr.
Qed.

(** ... and an equal value ([==]) iff moreover none contains a character U+0080..U+00FF. *)
Theorem C38_round_trip_iff pw cfg v u : constructible pw v -> serialized pw v u -> N.of_nat (length u) <= isize_max pw ->
  ((exists v', value_from_json_with_config pw u cfg = Ok v' /\ value_eq pw v v' = Ok true) <->
   admits cfg v /\ all_strings (survives pw) v).
Proof.
  intros H1 H2 H3. destruct (round_trip pw cfg v u H1 H2 H3) as (A & B & C). split.
  - intros (v' & E & R). split; [apply B; eauto|]. apply (C v' E). exact R.
  - intros [Ha Hr]. destruct (proj2 B) as (v' & E).
    { split; [exact Ha|]. revert Hr. apply all_strings_impl. intros x [Hx|Hx]; [left; exact Hx|right]. intros cs Ecs.
      eapply Forall_impl; [|exact (Hx cs Ecs)]. cbv beta. tauto. }
    exists v'. split; [exact E|]. apply (C v' E). exact Hr.
Qed.

(** The property, for values whose texts have no control characters but NUL, BEL, tab, line feed, form
    feed and carriage return, and no characters U+0080..U+00FF. *)
Theorem C38_built_round_trip_partial pw cfg v : constructible pw v ->
  all_strings (fun x => 2 * js_len pw x <= isize_max pw /\ forall cs, js_decoded pw x = Ok cs ->
    Forall (fun c => (32 <= c \/ In c [0; 7; 9; 10; 12; 13]) /\ ~ latin1 c) cs) v ->
  admits cfg v ->
  exists u, to_json pw v = Ok u /\
    (N.of_nat (length u) <= isize_max pw ->
     exists v', value_from_json_with_config pw u cfg = Ok v' /\ value_eq pw v v' = Ok true).
Proof.
  intros Hc Hs Ha. destruct (proj2 (C38_serializes_iff pw v Hc)) as (u & E).
  { revert Hs. apply all_strings_impl. intros x [H _]. right. exact H. }
  exists u. split; [exact E|]. intro Hl. apply (C38_round_trip_iff pw cfg v u Hc (ser_compact _ _ _ E) Hl). split; [exact Ha|].
  revert Hs. apply all_strings_impl. intros x [_ H]. right. intros cs Ecs. eapply Forall_impl; [|exact (H cs Ecs)].
  intros c [K1 K2]. cbv beta. unfold broken, wrong. cbn [In] in *. repeat split; [| |exact K2]; intro K; lia.
Qed.

(** As stated the property is false: [Value::from("\n\u{e9}")] comes back unequal, [Value::from("\u{1}")]
    as another text, [Value::from("\u{b}")] is written as something that is not JSON. *)
Theorem C38_built_round_trip_refuted :
  (exists x u v', js_from_str W64 (utf8_string [10; 0xE9]) = Ok x /\ to_json W64 (VString x) = Ok u /\
     value_from_json W64 u = Ok v' /\ value_eq W64 (VString x) v' = Ok false) /\
  (exists x u y, js_from_str W64 [0x01] = Ok x /\ to_json W64 (VString x) = Ok u /\
     value_from_json W64 u = Ok (VString y) /\ js_decoded W64 x = Ok [0x01] /\ js_decoded W64 y = Ok [0x1000]) /\
  (exists x u e, js_from_str W64 [0x0B] = Ok x /\ to_json W64 (VString x) = Ok u /\ value_from_json W64 u = Err e).
Proof. split; [|split]; eexists _, _, _; repeat (split; [vm_compute; reflexivity|]); vm_compute; reflexivity. Qed.

(** * Concrete cases *)
Definition sample_source : list N := bs " { ""a\n"" : [ 1.5e3 , ""\u00e9"" , { } , [ ] ] , ""b"" : null }".
Definition sample_value : value :=
  match value_from_json W64 sample_source with Ok v => v | _ => VNull end.

Example sample_parsed_from : parsed_from W64 config_default sample_source sample_value /\
  to_json W64 sample_value = Ok (bs "{""a\n"":[1.5e3,""\u00e9"",{},[]],""b"":null}") /\
  to_json_pretty W64 sample_value = Ok (bs "{
  ""a\n"": [
    1.5e3,
    ""\u00e9"",
    {},
    []
  ],
  ""b"": null
}").
Proof.
  split; [right; split; [apply utf8_checked; [reflexivity|vm_compute; discriminate]|vm_compute; reflexivity]|].
  split; vm_compute; reflexivity.
Qed.

Definition sample_trailing : list N := bs "[ 1 , [ true , ] , { ""k"" : 2 , } , ]".
Example sample_trailing_commas : exists v, parsed_from W32 (Config true None true) sample_trailing v /\
  to_json W32 v = Ok (bs "[1,[true],{""k"":2}]").
Proof.
  eexists. split; [left; split; [split; [repeat constructor; vm_compute; reflexivity|vm_compute; discriminate]|vm_compute; reflexivity]|].
  vm_compute. reflexivity.
Qed.

(** A built value: an object with an array of a raw string and a number. *)
Definition sample_string (s : list N) : json_string :=
  match js_from_str W64 s with Ok x => x | _ => JStr (CRaw (Borrowed [])) (info_new W64 false 0) end.
Definition sample_built_value : value :=
  VObject [(sample_string (bs "key"), VArray [VString (sample_string (utf8_string [10; 0x20AC; 34])); VNumber (JNum (Borrowed (bs "-0.5")))])].
Example sample_constructible : constructible W64 sample_built_value /\
  all_strings (fun x => 2 * js_len W64 x <= isize_max W64 /\ forall cs, js_decoded W64 x = Ok cs ->
    Forall (fun c => (32 <= c \/ In c [0; 7; 9; 10; 12; 13]) /\ ~ latin1 c) cs) sample_built_value /\
  admits config_default sample_built_value /\
  to_json W64 sample_built_value = Ok (bs "{""key"":[""\n" ++ utf8_encode 0x20AC ++ bs "\"""",-0.5]}").
Proof.
  assert (K : forall s, utf8_valid s = true -> N.of_nat (length s) <= isize_max W64 ->
    js_from_str W64 s = Ok (sample_string s) -> obtainable W64 (sample_string s)).
  { intros s H1 H2 H3. right. exists s. split; [apply utf8_checked; assumption|left; exact H3]. }
  split; [split|split; [|split]].
  - constructor. constructor; [|constructor]. cbn [fst snd]. split; [apply K; [reflexivity|vm_compute; discriminate|vm_compute; reflexivity]|].
    constructor. constructor; [|constructor; [constructor|constructor]]. constructor. apply K; [reflexivity|vm_compute; discriminate|vm_compute; reflexivity].
  - constructor. constructor; [|constructor]. cbn [fst snd]. constructor. constructor; [constructor|constructor; [constructor|constructor]].
    apply (number_of_number W64 _ (bs "-0.5")); [apply utf8_checked; [reflexivity|vm_compute; discriminate]|vm_compute; reflexivity].
  - repeat (constructor; cbn [fst snd]); try (vm_compute; discriminate).
    + intros cs E. vm_compute in E. injection E as <-. repeat (apply Forall_cons; [split; [cbn [In]; lia|unfold latin1; lia]|]). apply Forall_nil.
    + intros cs E. vm_compute in E. injection E as <-. repeat (apply Forall_cons; [split; [cbn [In]; lia|unfold latin1; lia]|]). apply Forall_nil.
  - split; [vm_compute; discriminate|left; reflexivity].
  - vm_compute. reflexivity.
Qed.

(** A destination that fails when it would hold more than four bytes. *)
Definition tiny_write : fmt_write := {|
  w_st := list N;
  w_write_str := fun w s => if (length (w ++ s) <=? 4)%nat then (true, w ++ s) else (false, w);
  w_write_char := fun w c => if (length (w ++ utf8_encode c) <=? 4)%nat then (true, w ++ utf8_encode c) else (false, w) |}.
Example sample_failing_write : write_json_to W64 tiny_write sample_value [] = (Err tt, bs "{""a\") /\
  exists v, value_from_json W64 (bs "[ 12 ]") = Ok v /\ write_json_to W64 tiny_write v [] = (Ok tt, bs "[12]").
Proof. split; [vm_compute; reflexivity|]. eexists. split; [vm_compute; reflexivity|vm_compute; reflexivity]. Qed.
