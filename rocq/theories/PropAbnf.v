(** Property theorems relating acceptance to RFC 8259's own ABNF grammar (C88). *)
From Verif Require Import Base Utf8 Utf8Facts StrModel ErrorModel Tokenizer Parser ValueModel DocModel Spec View ParseMain
  PropParse PropEntry PropExact PropEsc SpecAbnf AbnfFacts.
Local Open Scope N_scope.

(** The grammar a configuration stands for (the recursion limit aside). *)
Definition configured (cfg : parse_config) : rule_name -> expr :=
  if allow_trailing_commas cfg then with_trailing_commas rfc8259_paired else rfc8259_paired.
(** The start expression: RFC 8259's JSON-text, or RFC 4627's (an object or an array). *)
Definition root (cfg : parse_config) : expr :=
  if allow_all_types_at_root cfg then Ref JSON_text
  else Seq (Ref Ws) (Seq (Alt (Ref Object) (Ref Array)) (Ref Ws)).

Lemma box_pad tc w s w' : ws w -> ws w' -> box tc s -> box tc (w ++ s ++ w').
Proof.
  intros Hw Hw' (t & (w1 & b & w2 & H1 & Hb & H2 & ->) & Hc). exists t. split; [|exact Hc]. exists (w ++ w1), b, (w2 ++ w').
  split; [apply Forall_app; auto|]. split; [exact Hb|]. split; [apply Forall_app; auto|]. rewrite <- !app_assoc. reflexivity.
Qed.

Lemma grammar_iff cfg cs : scalars cs ->
  derives (configured cfg) (root cfg) cs <->
  exists t, json_text (allow_trailing_commas cfg) t (utf8_string cs) /\ (allow_all_types_at_root cfg = true \/ is_container t = true).
Proof.
  intro Hs. change (configured cfg) with (grammar (allow_trailing_commas cfg)). unfold root.
  set (tc := allow_trailing_commas cfg). destruct (allow_all_types_at_root cfg).
  - split.
    + intro H. apply abnf_to_spec in H. destruct (H Hs) as (t & Ht). exists t. split; [exact Ht|left; reflexivity].
    + intros (t & (w1 & b & w2 & H1 & Hb & H2 & E) & _). apply (proj1 (spec_to_abnf tc)) in Hb as [(u & Hu & -> & HD) _].
      assert (cs = w1 ++ u ++ w2) as ->.
      { apply utf8_string_inj; [exact Hs|apply Forall_app; split; [apply scalars_ws, H1|apply Forall_app; split; [exact Hu|apply scalars_ws, H2]]|].
        rewrite E, !utf8_string_app, (utf8_ws w1), (utf8_ws w2) by assumption. reflexivity. }
      apply step'; [discriminate..|]. cbn [rfc8259_paired rfc8259]. apply mk_seq; [apply bw_ws, H1|]. apply mk_seq; [exact HD|apply bw_ws, H2].
  - split.
    + intro H. apply abnf_to_spec in H. destruct H as (w & y & Hw & (v & w' & Hv & Hw' & ->) & ->). cbn [sem reading] in *.
      apply Forall_app in Hs as [_ Hs]. apply Forall_app in Hs as [Hs _].
      assert (Hb : box tc (utf8_string v)) by (destruct Hv as [Hv|Hv]; apply Hv, Hs).
      rewrite !utf8_string_app, (utf8_ws w), (utf8_ws w') by assumption.
      destruct (box_pad tc w _ w' Hw Hw' Hb) as (t & Ht & Hc). exists t. split; [exact Ht|right; exact Hc].
    + intros (t & (w1 & b & w2 & H1 & Hb & H2 & E) & [Hc|Hc]); [discriminate|].
      apply (proj1 (spec_to_abnf tc)) in Hb as [_ Hb]. specialize (Hb Hc).
      assert (exists u, scalars u /\ b = utf8_string u /\ sem (fun n => derives (grammar tc) (Ref n)) (Alt (Ref Object) (Ref Array)) u) as (u & Hu & -> & HD).
      { destruct Hb as [(u & Hu & -> & HD)|(u & Hu & -> & HD)]; exists u; (split; [exact Hu|]); (split; [reflexivity|]); [right|left]; exact HD. }
      assert (cs = w1 ++ u ++ w2) as ->.
      { apply utf8_string_inj; [exact Hs|apply Forall_app; split; [apply scalars_ws, H1|apply Forall_app; split; [exact Hu|apply scalars_ws, H2]]|].
        rewrite E, !utf8_string_app, (utf8_ws w1), (utf8_ws w2) by assumption. reflexivity. }
      apply sem_derives. apply mk_seq; [apply bw_ws, H1|]. apply mk_seq; [exact HD|apply bw_ws, H2].
Qed.

(** Without a recursion limit, exactly the texts of the grammar are accepted, for every choice of the
    other options: as [&str] ... *)
Theorem C88_accepts_exactly_the_grammar pw cfg cs : scalars cs -> rust_str pw (utf8_string cs) -> recursion_limit cfg = None ->
  (exists v, value_from_json_with_config pw (utf8_string cs) cfg = Ok v) <-> derives (configured cfg) (root cfg) cs.
Proof.
  intros Hs Hr Hn. rewrite (C01_str_accepts_config pw cfg _ Hr), (grammar_iff cfg cs Hs). unfold accepted. rewrite Hn.
  split; intros (t & H); exists t; tauto.
Qed.
(** ... and as bytes: the accepted byte sequences are the UTF-8 forms of these texts. *)
Theorem C88_bytes_accepts_exactly_the_grammar pw cfg s : rust_slice pw s -> recursion_limit cfg = None ->
  (exists v, value_from_json_bytes_with_config pw s cfg = Ok v) <->
  exists cs, scalars cs /\ s = utf8_string cs /\ derives (configured cfg) (root cfg) cs.
Proof.
  intros Hr Hn. rewrite (C01_bytes_accepts_config pw cfg _ Hr). unfold accepted. rewrite Hn. split.
  - intros (t & Ht & _ & Hc). destruct (json_text_valid _ _ _ Ht) as (cs & Hs & ->). exists cs. split; [exact Hs|]. split; [reflexivity|].
    apply grammar_iff; [exact Hs|]. eauto.
  - intros (cs & Hs & -> & H). apply grammar_iff in H as (t & Ht & Hc); [|exact Hs]. exists t. auto.
Qed.

(** With a limit (128 by default): what is accepted is in the grammar; a text of the grammar is
    accepted or reported as nested too deeply. *)
Theorem C88_with_a_limit pw cfg s : rust_slice pw s ->
  ((exists v, value_from_json_bytes_with_config pw s cfg = Ok v) ->
     exists cs, scalars cs /\ s = utf8_string cs /\ derives (configured cfg) (root cfg) cs) /\
  (forall cs, scalars cs -> s = utf8_string cs -> derives (configured cfg) (root cfg) cs ->
     (exists v, value_from_json_bytes_with_config pw s cfg = Ok v) \/
     exists o, value_from_json_bytes_with_config pw s cfg = Err (Error o KRecursionLimitReached)).
Proof.
  intros Hr. split.
  - intros (v & E). apply (value_bytes_iff _ _ _ _ Hr) in E as (t & (Ht & _ & Hc) & _).
    destruct (json_text_valid _ _ _ Ht) as (cs & Hs & ->). exists cs. split; [exact Hs|]. split; [reflexivity|].
    apply grammar_iff; [exact Hs|]. eauto.
  - intros cs Hs E H.
    assert (K : exists v, value_from_json_bytes_with_config pw s (without_recursion_limit cfg) = Ok v).
    { apply C88_bytes_accepts_exactly_the_grammar; [exact Hr|reflexivity|]. exists cs. auto. }
    destruct K as (v & K). destruct (recursion_limit cfg) as [n|] eqn:En.
    + assert (cfg = with_recursion_limit cfg n) as -> by (destruct cfg; cbn in *; rewrite En; reflexivity).
      destruct (C59_limit_changes_no_other_result pw cfg n s Hr) as [-> |?]; [left; exists v; exact K|right; assumption].
    + assert (cfg = without_recursion_limit cfg) as -> by (destruct cfg; cbn in *; rewrite En; reflexivity). left. exists v. exact K.
Qed.

(** * Against the grammar as printed in RFC 8259 *)
Definition hex_four : expr := Seq (Ref HEXDIG) (Seq (Ref HEXDIG) (Seq (Ref HEXDIG) (Ref HEXDIG))).
Definition in_rfc (n : rule_name) : list N -> Prop :=
  match n with
  | Char => star (derives rfc8259 (Ref Char))
  | non_surrogate | high_surrogate | low_surrogate => derives rfc8259 hex_four
  | _ => derives rfc8259 (Ref n)
  end.
Lemma rfc_hexdig c : 48 <= c <= 57 \/ 65 <= c <= 70 \/ 97 <= c <= 102 -> derives rfc8259 (Ref HEXDIG) [c].
Proof.
  intro H. apply d_ref. cbn [rfc8259]. destruct H as [H|[H|H]].
  - apply d_alt_l, d_alt_l, d_ref. constructor. exact H.
  - apply d_alt_l, d_alt_r. constructor. exact H.
  - apply d_alt_r. constructor. exact H.
Qed.
Lemma rfc_digit c : derives rfc8259 (Ref DIGIT) c -> exists d, 48 <= d <= 57 /\ c = [d].
Proof. intro H. inversion H as [| | | | | | |? ? K]; subst. inversion K; subst. eauto. Qed.
Lemma rfc_D c : sem in_rfc (Alt (x 0x44) (x 0x64)) c -> derives rfc8259 (Ref HEXDIG) c.
Proof. intros [(d & Hd & ->)|(d & Hd & ->)]; apply rfc_hexdig; lia. Qed.

(** The rules for pairs only restrict: what they derive is a sequence of RFC 8259 [char]s. *)
Lemma paired_in_rfc n c : sem in_rfc (rfc8259_paired n) c -> in_rfc n c.
Proof.
  destruct n; intro H; try (apply derives_ref; exact H).
  - (* string *) apply derives_ref. cbn [rfc8259_paired rfc8259 sem] in *. destruct H as (u & r & Hu & (k & v & Hk & Hv & ->) & ->).
    exists u, (k ++ v). split; [exact Hu|]. split; [|reflexivity]. exists k, v. split; [apply star_star; exact Hk|]. split; [exact Hv|reflexivity].
  - (* char *)
    assert (One : forall c, derives rfc8259 (Ref Char) c -> in_rfc Char c) by (intros c' K; rewrite <- (app_nil_r c'); constructor; [exact K|constructor]).
    assert (Uni : forall a h, derives rfc8259 (Ref escape) a -> derives rfc8259 hex_four h -> derives rfc8259 (Ref Char) (a ++ [117] ++ h)).
    { intros a h Ha Hh. apply d_ref. apply d_alt_r. constructor; [exact Ha|]. apply d_alt_r. constructor; [constructor; lia|exact Hh]. }
    cbn [rfc8259_paired] in H. destruct H as [H|H]; [apply One, derives_ref; left; exact H|].
    destruct H as (u & v & Hu & [[H|H]|H] & ->).
    + apply One, derives_ref. right. exists u, v. split; [exact Hu|]. split; [|reflexivity]. left. exact H.
    + destruct H as (a & h & (a' & Ha & ->) & Hh & ->). replace a' with 117 by lia. apply One, Uni; assumption.
    + destruct H as (a & r & (a' & Ha & ->) & (h & r2 & Hh & (e & r3 & He & (b & l & (b' & Hb & ->) & Hl & ->) & ->) & ->) & ->).
      replace a' with 117 by lia. replace b' with 117 by lia. rewrite (app_assoc [117]), (app_assoc u). constructor; [apply Uni; assumption|].
      apply One, Uni; assumption.
  - cbn [rfc8259_paired rfc8259 sem] in H. apply sem_derives. destruct H as [(a & y & Ha & (b & z & Hb & Hz & ->) & ->)|(a & y & Ha & (b & z & (b' & Hb & ->) & Hz & ->) & ->)];
      exists a; eexists; (split; [|split; [exists b; eexists; split; [exact Hb|split; [exact Hz|reflexivity]]|reflexivity]]) || (split; [|split; [eexists [b'], _; split; [|split; [exact Hz|reflexivity]]|reflexivity]]).
    + destruct Ha as [[[[Ha|(d & Hd & ->)]|(d & Hd & ->)]|(d & Hd & ->)]|(d & Hd & ->)]; [|apply rfc_hexdig; lia..].
      apply rfc_digit in Ha as (d & Hd & ->). apply rfc_hexdig. lia.
    + apply rfc_D, Ha.
    + apply rfc_hexdig. lia.
  - cbn [rfc8259_paired rfc8259 sem] in H. apply sem_derives. destruct H as (a & y & Ha & (b & z & Hb & Hz & ->) & ->).
    exists a, (b ++ z). split; [apply rfc_D, Ha|]. split; [|reflexivity]. exists b, z. split; [|split; [exact Hz|reflexivity]].
    destruct Hb as [[(d & Hd & ->)|(d & Hd & ->)]|(d & Hd & ->)]; apply rfc_hexdig; lia.
  - cbn [rfc8259_paired rfc8259 sem] in H. apply sem_derives. destruct H as (a & y & Ha & (b & z & Hb & Hz & ->) & ->).
    exists a, (b ++ z). split; [apply rfc_D, Ha|]. split; [|reflexivity]. exists b, z. split; [|split; [exact Hz|reflexivity]].
    destruct Hb as [(d & Hd & ->)|(d & Hd & ->)]; apply rfc_hexdig; lia.
Qed.

(** Conversely RFC 8259 texts without surrogate escapes satisfy the rules for pairs. *)
Lemma no_escape_app a b : ~ has_surrogate_escape (a ++ b) -> ~ has_surrogate_escape a /\ ~ has_surrogate_escape b.
Proof.
  intro H. split; intros (p & u & q & Hu & ->); apply H.
  - exists p, u, (q ++ b). split; [exact Hu|]. rewrite <- !app_assoc. reflexivity.
  - exists (a ++ p), u, q. split; [exact Hu|]. rewrite <- !app_assoc. reflexivity.
Qed.
Lemma rfc_x c u : derives rfc8259 (x c) u -> u = [c].
Proof. intro H. inversion H; subst. f_equal. lia. Qed.
Lemma rfc_hexdig_inv u : derives rfc8259 (Ref HEXDIG) u -> exists c v, hex_digit_val c v /\ u = [c].
Proof.
  intro H. inversion H as [| | | | | | |? ? K]; subst. cbn [rfc8259] in K.
  inversion K as [| | |? ? ? K1|? ? ? K1| | |]; subst; [inversion K1 as [| | |? ? ? K2|? ? ? K2| | |]; subst|].
  - apply rfc_digit in K2 as (d & Hd & ->). exists d. eexists. split; [apply hex_09; exact Hd|reflexivity].
  - inversion K2 as [? ? d Hd| | | | | | |]; subst. exists d. eexists. split; [apply hex_AF; exact Hd|reflexivity].
  - inversion K1 as [? ? d Hd| | | | | | |]; subst. exists d. eexists. split; [apply hex_af; exact Hd|reflexivity].
Qed.
Lemma rfc_in_paired_char cs : derives rfc8259 (rfc8259 Char) cs -> ~ has_surrogate_escape cs ->
  derives rfc8259_paired (Ref Char) cs.
Proof.
  intros H Hn. apply d_ref. cbn [rfc8259 rfc8259_paired] in *.
  inversion H as [| | |? ? ? K|? ? ? K| | |]; subst.
  - apply d_alt_l. inversion K as [| | | | | | |? ? L]; subst. apply d_ref. cbn [rfc8259_paired rfc8259] in *.
    inversion L as [| | |? ? ? M|? ? ? M| | |]; subst; [inversion M as [| | |? ? ? M'|? ? ? M'| | |]; subst; inversion M'; subst|inversion M; subst].
    + apply d_alt_l, d_alt_l. constructor. assumption.
    + apply d_alt_l, d_alt_r. constructor. assumption.
    + apply d_alt_r. constructor. assumption.
  - apply d_alt_r. inversion K as [| |? ? e r He Hr| | | | |]; subst.
    assert (e = [92]) as -> by (inversion He as [| | | | | | |? ? L]; subst; apply rfc_x; exact L).
    constructor; [apply d_ref; constructor; cbn; lia|]. apply d_alt_l.
    inversion Hr as [| | |? ? ? L|? ? ? L| | |]; subst.
    + apply d_alt_l. clear - L. revert L. generalize r.
      assert (Mono : forall a b, (forall u, derives rfc8259 a u -> derives rfc8259_paired a u) -> (forall u, derives rfc8259 b u -> derives rfc8259_paired b u) ->
        forall u, derives rfc8259 (Alt a b) u -> derives rfc8259_paired (Alt a b) u)
        by (intros a b Ha Hb u L; inversion L; subst; [apply d_alt_l, Ha; assumption|apply d_alt_r, Hb; assumption]).
      repeat (apply Mono); intros u L; apply rfc_x in L; subst; constructor; lia.
    + apply d_alt_r. inversion L as [| |? ? u0 h Hu Hh| | | | |]; subst. apply rfc_x in Hu. subst u0. constructor; [constructor; lia|].
      inversion Hh as [| |? ? h1 r1 H1 Hr1| | | | |]; subst. inversion Hr1 as [| |? ? h2 r2 H2 Hr2| | | | |]; subst. inversion Hr2 as [| |? ? h3 h4 H3 H4| | | | |]; subst.
      apply rfc_hexdig_inv in H1 as (a & va & Ha & ->), H2 as (b & vb & Hb & ->), H3 as (c & vc & Hc & ->), H4 as (d & vd & Hd & ->).
      apply (bw_non_surrogate false _ (va * 4096 + vb * 256 + vc * 16 + vd)); [apply hex4_mk; assumption|]. apply scalar_iff.
      destruct (N.lt_ge_cases (va * 4096 + vb * 256 + vc * 16 + vd) 0xD800) as [Lo|Lo]; [left; exact Lo|].
      destruct (N.lt_ge_cases (va * 4096 + vb * 256 + vc * 16 + vd) 0xE000) as [Hi|Hi];
        [|right; apply hexdig_lt in Ha, Hb, Hc, Hd; lia].
      exfalso. apply Hn. exists [], [92; 117; a; b], [c; d]. split; [|reflexivity]. exists a, b. split; [reflexivity|].
      pose proof (hexdig_lt _ _ Hb). pose proof (hexdig_lt _ _ Hc). pose proof (hexdig_lt _ _ Hd). pose proof (hexdig_lt _ _ Ha).
      assert (va = 13) by lia. assert (8 <= vb) by lia. split.
      * inversion Ha; subst; lia.
      * inversion Hb; subst; lia.
Qed.
Lemma rfc_in_paired e cs : derives rfc8259 e cs -> ~ has_surrogate_escape cs -> derives rfc8259_paired e cs.
Proof.
  intro H. induction H; intro Hn.
  - constructor. assumption.
  - constructor.
  - apply no_escape_app in Hn as [? ?]. constructor; auto.
  - apply d_alt_l; auto.
  - apply d_alt_r; auto.
  - constructor.
  - apply no_escape_app in Hn as [? ?]. constructor; auto.
  - destruct n; try (apply d_ref; apply IHderives; exact Hn). apply rfc_in_paired_char; assumption.
Qed.

(** What is accepted is an RFC 8259 text as printed; an RFC 8259 text is accepted unless it nests too
    deeply or spells a surrogate with an escape (then it depends on the pairing: the theorems above). *)
Theorem C88_accepted_is_rfc8259 pw s v : rust_slice pw s -> value_from_json_bytes pw s = Ok v ->
  exists cs, scalars cs /\ s = utf8_string cs /\ derives rfc8259 (Ref JSON_text) cs.
Proof.
  intros Hr E. destruct (proj1 (C88_with_a_limit pw config_default s Hr) (ex_intro _ v E)) as (cs & Hs & -> & H).
  exists cs. split; [exact Hs|]. split; [reflexivity|]. apply (derives_sem _ in_rfc paired_in_rfc) in H. exact H.
Qed.
Theorem C88_rfc8259_is_accepted pw cs : scalars cs -> rust_str pw (utf8_string cs) ->
  derives rfc8259 (Ref JSON_text) cs -> ~ has_surrogate_escape cs ->
  (exists v, value_from_json_with_config pw (utf8_string cs) (without_recursion_limit config_default) = Ok v) /\
  ((exists v, value_from_json pw (utf8_string cs) = Ok v) \/
   exists o, value_from_json pw (utf8_string cs) = Err (Error o KRecursionLimitReached)).
Proof.
  intros Hs Hr H Hn. apply rfc_in_paired in H; [|exact Hn]. split.
  - apply (C88_accepts_exactly_the_grammar pw (without_recursion_limit config_default) cs Hs Hr eq_refl). exact H.
  - pose proof (rust_str_slice _ _ Hr) as Hsl.
    destruct (proj2 (C88_with_a_limit pw config_default _ Hsl) cs Hs eq_refl H) as [(v & E)|(o & E)]; [left; exists v|right; exists o].
    + apply (value_bytes_iff _ _ _ _ Hsl) in E. apply (value_str_iff _ _ _ _ Hr). exact E.
    + unfold value_from_json. rewrite (proj1 (C03_entry_points_agree pw config_default None (utf8_string cs) Hr)). exact E.
Qed.

(** * Samples *)
Definition sample_cs : list N := bs "{""a"": [1, -2.5e3, ""\u00E9\ud83D\uDE00"", " ++ [34; 0xE9; 0x20AC; 34] ++ bs " ], ""b"": {} }".
Example C88_sample : scalars sample_cs /\ derives rfc8259_paired (Ref JSON_text) sample_cs /\ derives rfc8259 (Ref JSON_text) sample_cs.
Proof.
  assert (Hs : scalars sample_cs) by (apply Forall_forall; intros c Hc; revert c Hc; apply Forall_forall; repeat (constructor; [reflexivity|]); constructor).
  split; [exact Hs|].
  assert (H : derives rfc8259_paired (Ref JSON_text) sample_cs).
  { apply (C88_accepts_exactly_the_grammar W64 (without_recursion_limit config_default) sample_cs Hs); [|reflexivity|eexists; vm_compute; reflexivity].
    split; [exists sample_cs; split; [exact Hs|reflexivity]|vm_compute; discriminate]. }
  split; [exact H|]. apply (derives_sem _ in_rfc paired_in_rfc) in H. exact H.
Qed.

(** With a trailing comma: not RFC 8259, but in the extended grammar. *)
Example C88_sample_trailing : derives (with_trailing_commas rfc8259_paired) (Ref JSON_text) (bs "[1 , ]") /\
  ~ derives rfc8259_paired (Ref JSON_text) (bs "[1 , ]").
Proof.
  assert (Hs : scalars (bs "[1 , ]")) by (repeat (constructor; [reflexivity|]); constructor).
  assert (Hr : rust_str W64 (utf8_string (bs "[1 , ]"))) by (split; [exists (bs "[1 , ]"); split; [exact Hs|reflexivity]|vm_compute; discriminate]).
  split.
  - apply (C88_accepts_exactly_the_grammar W64 (without_recursion_limit (allowing_trailing_commas config_default)) _ Hs Hr eq_refl).
    eexists. vm_compute. reflexivity.
  - intro H. apply (C88_accepts_exactly_the_grammar W64 (without_recursion_limit config_default) _ Hs Hr eq_refl) in H as (v & E).
    vm_compute in E. discriminate.
Qed.

(** RFC 8259's grammar admits an unpaired surrogate escape; the crate rejects it. *)
Example C88_sample_surrogate : let cs := bs """\ud800""" in
  derives rfc8259 (Ref JSON_text) cs /\ has_surrogate_escape cs /\ exists e, value_from_json W64 (utf8_string cs) = Err e.
Proof.
  cbv zeta. split; [|split].
  - assert (W : derives rfc8259 (Ref Ws) []) by (apply d_ref; constructor).
    apply d_ref. cbn [rfc8259]. apply (d_seq _ _ _ [] (bs """\ud800""")); [exact W|]. rewrite <- (app_nil_r (bs """\ud800""")). constructor; [|exact W].
    apply d_ref. apply d_alt_r. apply d_ref. cbn [rfc8259]. apply (d_seq _ _ _ [34] (bs "\ud800""")); [apply d_ref; constructor; cbn; lia|].
    apply (d_seq _ _ _ (bs "\ud800") [34]); [|apply d_ref; constructor; cbn; lia].
    apply (d_star_cons _ _ (bs "\ud800") []); [|constructor].
    apply d_ref. apply d_alt_r. apply (d_seq _ _ _ [92] (bs "ud800")); [apply d_ref; constructor; cbn; lia|]. apply d_alt_r.
    apply (d_seq _ _ _ [117] (bs "d800")); [constructor; cbn; lia|].
    apply (d_seq _ _ _ [100] [56; 48; 48]); [apply rfc_hexdig; lia|]. apply (d_seq _ _ _ [56] [48; 48]); [apply rfc_hexdig; lia|].
    apply (d_seq _ _ _ [48] [48]); apply rfc_hexdig; lia.
  - exists [34], (bs "\ud8"), (bs "00"""). split; [|reflexivity]. exists 100, 56. split; [reflexivity|]. split; [right; reflexivity|left; lia].
  - eexists. vm_compute. reflexivity.
Qed.
