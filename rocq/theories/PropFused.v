(** Property theorems about the char iterators of JsonString called by hand (C74), and about how much they yield (C75). *)
From Verif Require Import Base Utf8 Utf8Facts StrModel ErrorModel Tokenizer Parser ValueModel DocModel NumModel Spec SpecStr SpecNum SpecLex SpecWrite
  TokBase TokStr TokNum TokFacts StrSpec StrFacts StrWf StrEsc StrObt View ParseMain PropTok PropNumber PropStr PropEsc.
Local Open Scope N_scope.

(** The results of [n] calls of [next], in order; [None] if one of the calls panics. *)
Fixpoint pulls {S : Type} (next : S -> res infallible (option N * S)) (n : nat) (st : S) : option (list (option N)) :=
  match n with
  | O => Some []
  | S n' => match next st with
            | Ok (o, st') => match pulls next n' st' with Some r => Some (o :: r) | None => None end
            | _ => None
            end
  end.

(** What a well-behaved iterator over [cs] returns in [n] calls: the chars one by one, then [None] forever. *)
Definition one_by_one (n : nat) (cs : list N) : list (option N) :=
  map Some (firstn n cs) ++ repeat None (n - length cs).

Lemma decoded_stops d d' : decoded_next d = Ok (None, d') -> decoded_next d' = Ok (None, d').
Proof.
  destruct d as [needs src [off rest]]. unfold decoded_next, ci_next. cbn [dec_chars dec_needs dec_source ci_rest ci_off].
  destruct (next_char rest) as [[c r]|] eqn:En.
  - destruct (needs && (c =? 92)); [|discriminate].
    cbn [ci_rest ci_off]. destruct (next_char r) as [[c2 r2]|]; [|discriminate].
    do 5 (match goal with |- context [if c2 =? ?k then _ else _] => destruct (c2 =? k); [discriminate|] end).
    destruct (c2 =? 117); [|discriminate].
    destruct (str_slice _ _ _) as [h|]; [|discriminate]. destruct (u32_from_str_radix16 h) as [u|]; [|discriminate].
    destruct (_ && _).
    + destruct (str_slice _ _ _) as [h2|]; [|discriminate]. destruct (u32_from_str_radix16 h2) as [u2|]; [|discriminate].
      destruct (merge_surrogate_pair _ _) as [m| |]; try discriminate. cbn [bind]. destruct (char_from_u32_unchecked m); discriminate.
    + destruct (char_from_u32_unchecked u); discriminate.
  - intro E. injection E as <-. cbn [dec_chars dec_needs dec_source ci_rest ci_off]. rewrite En. reflexivity.
Qed.

Lemma as_json_stops pw a a' : as_json_next pw a = Ok (None, a') -> as_json_next pw a' = Ok (None, a').
Proof.
  assert (Hb : forall A (r : res infallible A) (f : A -> as_json) (c : N), (let? i := r in Ok (Some c, f i)) = Ok (None, a') -> False).
  { intros A r f c. destruct r; discriminate. }
  destruct a as [cs st i]. unfold as_json_next at 1. cbn [aj_state aj_chars aj_info].
  destruct st as [| |b|[nib|] cp].
  - destruct (next_char cs) as [[c r]|] eqn:En; [discriminate|]. intro E. injection E as <-. unfold as_json_next. cbn. rewrite En. reflexivity.
  - destruct (next_char cs) as [[c r]|] eqn:En; [|intro E; injection E as <-; unfold as_json_next; cbn; rewrite En; reflexivity].
    intro E. exfalso.
    repeat match type of E with context [if ?b then _ else _] => destruct b end; try discriminate; apply Hb in E; exact E.
  - discriminate.
  - intro E. exfalso. destruct (if _ <? 10 then _ else _) as [ch| |]; try discriminate. cbn [bind] in E.
    destruct (u8_add nib 1) as [n| |]; try discriminate. cbn [bind] in E. destruct (n =? 4); discriminate.
  - discriminate.
Qed.

Lemma pulls_yields {S} (next : S -> res infallible (option N * S)) (Hs : forall s s', next s = Ok (None, s') -> next s' = Ok (None, s')) st cs st' :
  yields next st cs st' -> forall n, pulls next n st = Some (one_by_one n cs).
Proof.
  assert (Hn : forall n s, next s = Ok (None, s) -> pulls next n s = Some (repeat None n)).
  { induction n as [|n IH]; intros s E; [reflexivity|]. cbn [pulls repeat]. rewrite E, IH by exact E. reflexivity. }
  induction 1 as [a a' E|a c a' cs a'' E H IH]; intros [|n]; cbn [pulls]; try reflexivity.
  - rewrite E, Hn by (eapply Hs; exact E). reflexivity.
  - rewrite E, IH. reflexivity.
Qed.

(** * C74 *)

Lemma pulls_collect {S} (next : S -> res infallible (option N * S)) (Hs : forall s s', next s = Ok (None, s') -> next s' = Ok (None, s')) fuel : forall st cs st',
  collect next fuel st = Ok (cs, st') -> forall n, pulls next n st = Some (one_by_one n cs).
Proof.
  induction fuel as [|fuel IH]; [discriminate|]. intros st cs st' E. cbn [collect] in E.
  assert (Hn : forall n s, next s = Ok (None, s) -> pulls next n s = Some (repeat None n)).
  { induction n as [|n IHn]; intros s E'; [reflexivity|]. cbn [pulls repeat]. rewrite E', IHn by exact E'. reflexivity. }
  destruct (next st) as [[[c|] st1]|e|f] eqn:En; try discriminate; cbn [bind] in E.
  - destruct (collect next fuel st1) as [[cs1 st2]| |] eqn:Ec; try discriminate. cbn [bind] in E. injection E as <- <-.
    intros [|n]; [reflexivity|]. cbn [pulls]. rewrite En, (IH _ _ _ Ec). reflexivity.
  - injection E as <- <-. intros [|n]; [reflexivity|]. cbn [pulls]. rewrite En, Hn by (eapply Hs; exact En). reflexivity.
Qed.

(** [decoded()], pulled any number of times, never panics: it returns the decoded text char by char and then [None] forever. *)
Theorem C74_decoded_one_by_one pw x : obtainable pw x -> exists cs, js_decoded pw x = Ok cs /\
  forall n, pulls decoded_next n (js_decoded_iter pw x) = Some (one_by_one n cs).
Proof.
  intro H. destruct (C23_decoding_never_panics pw x H) as (cs & E & _). exists cs. split; [exact E|].
  unfold js_decoded in E. destruct (collect _ _ _) as [[cs' d]| |] eqn:Ec; try discriminate. injection E as ->.
  intro n. eapply pulls_collect; [exact decoded_stops|exact Ec].
Qed.

(** [as_json()] likewise, unless the second count of a raw string does not fit [isize] (see C32). *)
Theorem C74_as_json_one_by_one pw x : obtainable pw x -> recount_fits pw x -> exists cs, js_as_json pw x = Ok cs /\
  forall n, pulls (as_json_next pw) n (js_as_json_iter x) = Some (one_by_one n cs).
Proof.
  intros H Hf. destruct (C34_as_json_str_and_escape pw x H Hf) as (cs & a & E & _). exists cs. split; [exact E|].
  unfold js_as_json in E. destruct (collect _ _ _) as [[cs' d]| |] eqn:Ec; try discriminate. injection E as ->.
  intro n. eapply pulls_collect; [apply as_json_stops|exact Ec].
Qed.

(** Without any assumption on the string (also one with inconsistent parts): once [None], always [None]. *)
Theorem C74_none_is_final (pw : pwidth) :
  (forall d d', decoded_next d = Ok (None, d') -> forall n, pulls decoded_next n d' = Some (repeat None n)) /\
  (forall a a', as_json_next pw a = Ok (None, a') -> forall n, pulls (as_json_next pw) n a' = Some (repeat None n)).
Proof.
  split.
  - intros d d' E. apply decoded_stops in E. induction n as [|n IH]; [reflexivity|]. cbn [pulls repeat]. rewrite E, IH. reflexivity.
  - intros d d' E. apply as_json_stops in E. induction n as [|n IH]; [reflexivity|]. cbn [pulls repeat]. rewrite E, IH. reflexivity.
Qed.

(** * C75: how much is yielded *)

Lemma chars_count s : utf8_valid s = true -> (length (chars s) <= length s)%nat.
Proof. intro H. apply chars_valid in H as [_ H]. rewrite H at 2. apply utf8_string_length_ge. Qed.

(** Decoding never yields more text than is stored, and less if and only if there is an escape. *)
Theorem C75_decoding_does_not_grow pw x cs : obtainable pw x -> js_decoded pw x = Ok cs ->
  (length (utf8_string cs) <= length (stored x))%nat /\ (length cs <= length (utf8_string cs))%nat /\
  (length (utf8_string cs) = length (stored x) <-> ~ (is_json_form x /\ In 92 (stored x))).
Proof.
  intros H E. apply obtainable_wf in H as (cs' & Hw). rewrite (jwf_decoded _ _ _ Hw) in E. injection E as <-.
  assert (Hlt : forall l t, items_text l t -> In 92 t -> (length (utf8_string (map crate_char l)) < length t)%nat).
  { intros l t Ht Hin. rewrite (items_len _ _ Ht). revert Hin. induction Ht as [|i l a r Hi Hl IH]; [intros []|].
    intro Hin. cbn [map]. rewrite utf8_string_cons, !app_length, utf8_encode_length. pose proof (items_length_le _ _ Hl) as Hle.
    destruct Hi as [c Hs Hx H1 H2|b Hb|h u Hh Hu|h1 hi h2 lo Hh1 Hhi Hh2 Hlo].
    - assert (In 92 r). { apply in_app_or in Hin as [Hin|Hin]; [|exact Hin]. exfalso.
        destruct (N.lt_ge_cases c 128) as [Hc|Hc].
        + rewrite utf8_encode_ascii in Hin by exact Hc. cbn in Hin. destruct Hin as [Hin|[]]. congruence.
        + pose proof (utf8_encode_high c Hc) as Hh. rewrite Forall_forall in Hh. apply Hh in Hin. lia. }
      specialize (IH H). cbn [rfc_char]. rewrite utf8_encode_length. lia.
    - assert (len_utf8 (rfc_char (ISimple b)) < length [92%N; b])%nat.
      { cbn in Hb. repeat (destruct Hb as [<-|Hb]; [cbn; lia|]). contradiction. } lia.
    - cbn [length rfc_char]. rewrite (hex4_length _ _ Hh). pose proof (len_utf8_pos u). lia.
    - cbn [length]. rewrite app_length. cbn [length]. rewrite (hex4_length _ _ Hh1), (hex4_length _ _ Hh2).
      pose proof (len_utf8_pos (rfc_char (IPair hi lo))). lia. }
  split; [|split; [apply utf8_string_length_ge|]].
  - destruct Hw as [a i l Hi Hl _ _|a cs Hcs Ea Hl Hc Hm]; unfold stored; cbn [js_source contents_str].
    + rewrite (items_len _ _ Hi). apply items_length_le. exact Hi.
    + rewrite Ea. lia.
  - destruct Hw as [a i l Hi Hl He _|a cs Hcs Ea Hl Hc Hm]; unfold stored, is_json_form; cbn [js_source contents_str].
    + split.
      * intros Eq (_ & Hin). specialize (Hlt _ _ Hi Hin). lia.
      * intro Hno. rewrite <- (items_plain _ _ Hi); [reflexivity|]. destruct (has_bs (any_str a)) eqn:Eb; [|reflexivity]. exfalso. apply Hno. split; [exact I|]. unfold has_bs in Eb. apply existsb_exists in Eb as (b & Hin & Eb). apply N.eqb_eq in Eb. subst b. exact Hin.
    + rewrite Ea. split; [intros _ [[] _]|reflexivity].
Qed.

(** Escaping text: each char becomes itself, two chars or six chars; the encoding is never shorter than the text and at most six times as long. *)
Theorem C75_escaping_grows_at_most_sixfold pw s x cs out : built pw s x -> js_decoded pw x = Ok cs -> js_as_json pw x = Ok out ->
  s = utf8_string cs /\ N.of_nat (length (utf8_string out)) = escaped_length cs /\
  (length s <= length (utf8_string out) <= 6 * length s)%nat /\ (length cs <= length out <= 6 * length cs)%nat.
Proof.
  intros H E Eo. destruct (built_as_json _ _ _ _ _ H E Eo) as (Hcs & Es & ->). split; [exact Es|]. split; [symmetry; apply escaped_length_eq|]. subst s.
  clear. assert (H1 : forall c, (len_utf8 c <= length (utf8_string (escaped1 c)) <= 6 * len_utf8 c)%nat).
  { intro c. rewrite escaped1_bytes. pose proof (len_utf8_pos c). destruct (must_escape c) eqn:Em; [|lia].
    assert (Hc : c < 128) by (unfold must_escape in Em; lia).
    assert (len_utf8 c = 1)%nat by (unfold len_utf8; destruct (c <? 128) eqn:K; [reflexivity|apply N.ltb_ge in K; lia]).
    unfold escaped1. rewrite Em. cbn [negb]. repeat match goal with |- context [if ?b then _ else _] => destruct b end; cbn [length]; lia. }
  assert (H2 : forall c, (1 <= length (escaped1 c) <= 6)%nat).
  { intro c. unfold escaped1. repeat match goal with |- context [if ?b then _ else _] => destruct b end; cbn [length]; lia. }
  split; induction cs as [|c cs IH]; unfold escaped in *; cbn [flat_map].
  - cbn. lia.
  - rewrite utf8_string_app, utf8_string_cons, !app_length, utf8_encode_length. specialize (H1 c). lia.
  - cbn. lia.
  - rewrite app_length. cbn [length]. specialize (H2 c). lia.
Qed.

(** * The hypotheses are met *)
Example C74_sample : exists x y, js_from_str W64 (bs "a/" ++ [10]) = Ok x /\ string_from_json W64 (bs """\u0041b""") = Ok y /\
  pulls decoded_next 5 (js_decoded_iter W64 y) = Some [Some 65; Some 98; None; None; None] /\
  pulls decoded_next 1 (js_decoded_iter W64 y) = Some [Some 65] /\
  pulls (as_json_next W64) 6 (js_as_json_iter x) = Some [Some 97; Some 47; Some 92; Some 110; None; None] /\
  recount_fits W64 x /\ obtainable W64 x /\ obtainable W64 y.
Proof.
  eexists _, _. split; [vm_compute; reflexivity|]. split; [vm_compute; reflexivity|].
  split; [vm_compute; reflexivity|]. split; [vm_compute; reflexivity|]. split; [vm_compute; reflexivity|].
  split; [right; vm_compute; discriminate|].
  assert (Hr : forall s, utf8_valid s = true -> N.of_nat (length s) <= isize_max W64 -> rust_str W64 s) by (intros; apply utf8_checked; assumption).
  split.
  - right. exists (bs "a/" ++ [10]). split; [apply Hr; [vm_compute; reflexivity|vm_compute; discriminate]|left; vm_compute; reflexivity].
  - left. apply parsed_string with (s := bs """\u0041b"""); [apply Hr; [vm_compute; reflexivity|vm_compute; discriminate]|vm_compute; reflexivity].
Qed.

Example C75_sample : exists x y out, js_from_str W64 (bs "a/" ++ [10]) = Ok x /\ string_from_json W64 (bs """\u0041b""") = Ok y /\
  js_decoded W64 y = Ok [65; 98] /\ length (stored y) = 7%nat /\ is_json_form y /\
  built W64 (bs "a/" ++ [10]) x /\ js_decoded W64 x = Ok [97; 47; 10] /\ js_as_json W64 x = Ok out /\ length (utf8_string out) = 4%nat.
Proof.
  eexists _, _, _. split; [vm_compute; reflexivity|]. split; [vm_compute; reflexivity|].
  split; [vm_compute; reflexivity|]. split; [vm_compute; reflexivity|]. split; [exact I|].
  split; [split; [apply utf8_checked; [vm_compute; reflexivity|vm_compute; discriminate]|left; vm_compute; reflexivity]|].
  split; [vm_compute; reflexivity|]. split; vm_compute; reflexivity.
Qed.
