(** Property theorems about what the parser accepts and returns (C01, C02, C05-C08, C16 and C50 for
    the parser, C04, C47, C49, C51, C52). *)
From Verif Require Import Base Utf8 Utf8Facts StrModel ErrorModel Tokenizer Parser ValueModel DocModel NumModel Spec
  TokBase TokStr TokFacts Trace ParserGen ParserSound ParserComplete Sim SimInst StrSpec SpecUnique View ParseMain GrammarFacts.
Local Open Scope N_scope.

(** * C01 *)
Theorem C01_bytes_accepts_exactly_json pw s : rust_slice pw s ->
  (exists v, value_from_json_bytes pw s = Ok v) <-> (exists t, json_text false t s /\ tree_depth t <= 128).
Proof.
  intro H. unfold value_from_json_bytes. split.
  - intros (v & E). apply value_bytes_iff in E as (t & (H1 & H2 & _) & _); [|exact H]. eauto.
  - intros (t & H1 & H2). assert (Ha : accepted config_default t s) by (repeat split; auto).
    destruct (accepted_repr pw false _ _ _ (rust_slice_good _ _ H) Ha) as (v & Hr). exists v. apply value_bytes_iff; eauto.
Qed.

Theorem C01_str_accepts_exactly_json pw s : rust_str pw s ->
  (exists v, value_from_json pw s = Ok v) <-> (exists t, json_text false t s /\ tree_depth t <= 128).
Proof.
  intro H. unfold value_from_json. split.
  - intros (v & E). apply value_str_iff in E as (t & (H1 & H2 & _) & _); [|exact H]. eauto.
  - intros (t & H1 & H2). assert (Ha : accepted config_default t s) by (repeat split; auto).
    destruct (accepted_repr pw true _ _ _ (rust_str_good _ _ H) Ha) as (v & Hr). exists v. apply value_str_iff; eauto.
Qed.

(** For every configuration. *)
Theorem C01_bytes_accepts_config pw cfg s : rust_slice pw s ->
  (exists v, value_from_json_bytes_with_config pw s cfg = Ok v) <-> (exists t, accepted cfg t s).
Proof.
  intro H. split.
  - intros (v & E). apply value_bytes_iff in E as (t & Ha & _); eauto.
  - intros (t & Ha). destruct (accepted_repr pw false _ _ _ (rust_slice_good _ _ H) Ha) as (v & Hr).
    exists v. apply value_bytes_iff; eauto.
Qed.

Theorem C01_str_accepts_config pw cfg s : rust_str pw s ->
  (exists v, value_from_json_with_config pw s cfg = Ok v) <-> (exists t, accepted cfg t s).
Proof.
  intro H. split.
  - intros (v & E). apply value_str_iff in E as (t & Ha & _); eauto.
  - intros (t & Ha). destruct (accepted_repr pw true _ _ _ (rust_str_good _ _ H) Ha) as (v & Hr).
    exists v. apply value_str_iff; eauto.
Qed.

(** * C02 *)
Theorem C02_value_is_denoted_tree_bytes pw cfg s v : rust_slice pw s ->
  value_from_json_bytes_with_config pw s cfg = Ok v ->
  json_text (allow_trailing_commas cfg) (tree_of v) s /\ all_strings is_json_form v.
Proof.
  intros H E. apply value_bytes_iff in E as (t & Ha & Hr); [|exact H].
  rewrite (value_repr_tree _ _ _ Hr). split; [apply Ha|].
  refine (proj1 (repr_all pw is_json_form (fun _ => True) _ _ _ _ t v Hr (json_text_parts _ _ _ (proj1 Ha)))); cbn; auto.
Qed.

Theorem C02_value_is_denoted_tree_str pw cfg s v : rust_str pw s ->
  value_from_json_with_config pw s cfg = Ok v ->
  json_text (allow_trailing_commas cfg) (tree_of v) s /\ all_strings is_json_form v.
Proof.
  intros H E. apply value_str_iff in E as (t & Ha & Hr); [|exact H].
  rewrite (value_repr_tree _ _ _ Hr). split; [apply Ha|].
  refine (proj1 (repr_all pw is_json_form (fun _ => True) _ _ _ _ t v Hr (json_text_parts _ _ _ (proj1 Ha)))); cbn; auto.
Qed.

(** Conversely the tree of every accepted text is what is returned. *)
Theorem C02_denoted_tree_is_returned pw cfg s t : rust_slice pw s -> accepted cfg t s ->
  exists v, value_from_json_bytes_with_config pw s cfg = Ok v /\ tree_of v = t.
Proof.
  intros H Ha. destruct (accepted_repr pw false _ _ _ (rust_slice_good _ _ H) Ha) as (v & Hr).
  exists v. split; [apply value_bytes_iff; eauto|apply (value_repr_tree _ _ _ Hr)].
Qed.

(** * C04, C52: strings and numbers are valid UTF-8 / ASCII parts of the input *)
Definition parsed_string_ok (s : list N) (x : json_string) : Prop :=
  exists raw, js_source x = CJson (Borrowed raw) /\ part_of ([34] ++ raw ++ [34]) s /\ is_utf8 raw.
Definition parsed_number_ok (s : list N) (x : json_number) : Prop :=
  exists raw, jn_source x = Borrowed raw /\ part_of raw s /\ number raw /\ Forall (fun b => b < 128) raw.

Theorem C04_C52_parsed_sources pw cfg s v : rust_slice pw s ->
  value_from_json_bytes_with_config pw s cfg = Ok v ->
  is_utf8 s /\ all_strings (parsed_string_ok s) v /\ all_numbers (parsed_number_ok s) v.
Proof.
  intros H E. apply value_bytes_iff in E as (t & Ha & Hr); [|exact H].
  split; [exact (json_text_valid _ _ _ (proj1 Ha))|].
  refine (repr_all pw _ _ _ _ _ _ t v Hr (json_text_parts _ _ _ (proj1 Ha))).
  - intros raw cs Hb [_ Hp]. exists raw. repeat split; auto. apply utf8_valid_iff. eapply str_body_valid. exact Hb.
  - intros n [Hn Hp]. exists n. repeat split; auto. apply number_ascii. exact Hn.
Qed.

Theorem C04_C52_parsed_sources_str pw cfg s v : rust_str pw s ->
  value_from_json_with_config pw s cfg = Ok v ->
  all_strings (parsed_string_ok s) v /\ all_numbers (parsed_number_ok s) v.
Proof.
  intros H E. apply value_str_iff in E as (t & Ha & Hr); [|exact H].
  refine (repr_all pw _ _ _ _ _ _ t v Hr (json_text_parts _ _ _ (proj1 Ha))).
  - intros raw cs Hb [_ Hp]. exists raw. repeat split; auto. apply utf8_valid_iff. eapply str_body_valid. exact Hb.
  - intros n [Hn Hp]. exists n. repeat split; auto. apply number_ascii. exact Hn.
Qed.

(** * C05: no panic, no undefined behaviour, termination.
    Every panic, every violated precondition of an unsafe call and every exhausted loop bound of the
    model is a [Fault]. *)
Definition returns {E A} (r : res E A) : Prop := (exists a, r = Ok a) \/ (exists e, r = Err e).

Lemma returns_no_fault {E A} (r : res E A) : (forall f, r <> Fault f) -> returns r.
Proof. destruct r as [a|e|f]; unfold returns; eauto. intro H. destruct (H f eq_refl). Qed.

Lemma value_returns g pw cfg s : good g pw s -> returns (fst (parse_bytes g pw cfg value_delegate s tt)).
Proof. intro H. rewrite value_parse_eq. apply returns_no_fault. apply trace_no_fault. exact H. Qed.
Lemma unit_returns g pw cfg s : good g pw s -> returns (fst (parse_bytes g pw cfg unit_delegate s tt)).
Proof.
  intro H. rewrite unit_parse_eq. apply returns_no_fault. intros f E. apply (trace_no_fault g pw cfg s H f).
  destruct (fst (parse_bytes g pw cfg trace_delegate s [])); discriminate || exact E || idtac. cbn in E. congruence.
Qed.
Lemma doc_returns g pw cfg cap s : good g pw s -> returns (document_of (parse_bytes g pw cfg (nodes_delegate cap) s [])).
Proof.
  intro H. pose proof (nodes_parse_eq g pw cfg cap s H) as G. cbv zeta in G.
  destruct (fst (parse_bytes g pw cfg trace_delegate s [])) as [v|e|f]; [| |destruct G]; unfold returns.
  - destruct (match cap with Some k => _ | None => _ end); [eauto|]. destruct G as (o & ->). eauto.
  - destruct G as [->|(o & -> & _)]; eauto.
Qed.

Theorem C05_parsing_returns pw cfg cap s : rust_slice pw s ->
  returns (value_from_json_bytes_with_config pw s cfg) /\
  returns (document_from_json_bytes_with_config pw cap s cfg) /\
  returns (validate_json_bytes_with_config pw s cfg).
Proof.
  intro H. apply rust_slice_good in H. repeat split.
  - apply value_returns. exact H.
  - apply doc_returns. exact H.
  - apply unit_returns. exact H.
Qed.

Theorem C05_parsing_returns_str pw cfg cap s : rust_str pw s ->
  returns (value_from_json_with_config pw s cfg) /\
  returns (document_from_json_with_config pw cap s cfg) /\
  returns (validate_json_with_config pw s cfg).
Proof.
  intro H. apply rust_str_good in H. repeat split.
  - apply value_returns. exact H.
  - apply doc_returns. exact H.
  - apply unit_returns. exact H.
Qed.

(** With a delegate of the user's: the parser itself never panics. A panic can only come out of one of
    the delegate's own methods. *)
Theorem C05_any_delegate pw cfg D s st f : rust_slice pw s ->
  fst (parse_json_bytes_with_config pw D s cfg st) = Fault f -> delegate_faults D f.
Proof.
  intros H E. pose proof (parse_bytes_gen false pw cfg D s (rust_slice_good _ _ H) st) as G.
  unfold parse_json_bytes_with_config in E. rewrite E in G. exact G.
Qed.
Theorem C05_any_delegate_str pw cfg D s st f : rust_str pw s ->
  fst (parse_json_with_config pw D s cfg st) = Fault f -> delegate_faults D f.
Proof.
  intros H E. pose proof (parse_bytes_gen true pw cfg D s (rust_str_good _ _ H) st) as G.
  unfold parse_json_with_config in E. rewrite E in G. exact G.
Qed.

(** * C06: trailing commas *)
Theorem C06_option_accepts_exactly pw cfg s : rust_slice pw s ->
  (exists v, value_from_json_bytes_with_config pw s (allowing_trailing_commas cfg) = Ok v) <->
  (exists t, json_text true t s /\
     match recursion_limit cfg with Some n => tree_depth t <= n | None => True end /\
     (allow_all_types_at_root cfg = true \/ is_container t = true)).
Proof. intro H. rewrite C01_bytes_accepts_config by exact H. reflexivity. Qed.

Theorem C06_same_value_without_comma pw cfg s v : rust_slice pw s ->
  value_from_json_bytes_with_config pw s (allowing_trailing_commas cfg) = Ok v ->
  (exists s', json_text false (tree_of v) s') /\
  (forall v', value_from_json_bytes_with_config pw s cfg = Ok v' -> v' = v).
Proof.
  intros H E. split.
  - apply C02_value_is_denoted_tree_bytes in E as [(w1 & b & w2 & H1 & Hb & H2 & E) _]; [|exact H].
    destruct (proj1 text_strip _ _ Hb) as (b' & Hb'). exists (w1 ++ b' ++ w2). exists w1, b', w2. auto.
  - intros v' E'. apply value_bytes_iff in E as (t & (Ha & _) & Hr); [|exact H].
    apply value_bytes_iff in E' as (t' & (Ha' & _) & Hr'); [|exact H].
    assert (t = t').
    { eapply (json_text_unique pw true); [apply H|exact Ha|]. destruct (allow_trailing_commas cfg); [exact Ha'|].
      apply json_text_mono. exact Ha'. }
    subst t'. eapply value_repr_fun; eassumption.
Qed.

(** Everything accepted without the option is accepted with it, with the same value. *)
Theorem C06_option_only_adds pw cfg s v : rust_slice pw s ->
  value_from_json_bytes_with_config pw s cfg = Ok v ->
  value_from_json_bytes_with_config pw s (allowing_trailing_commas cfg) = Ok v.
Proof.
  intros H E. apply value_bytes_iff in E as (t & (Ha & Hb & Hc) & Hr); [|exact H].
  apply value_bytes_iff; [exact H|]. exists t. split; [|exact Hr]. repeat split; auto.
  cbn. destruct (allow_trailing_commas cfg); [exact Ha|apply json_text_mono; exact Ha].
Qed.

(** Without the option a comma before the closing bracket of the outermost container is rejected. *)
Theorem C06_rejected_without_option pw cfg x w o c : allow_trailing_commas cfg = false -> ws w ->
  (o = 91 /\ c = 93) \/ (o = 123 /\ c = 125) -> rust_slice pw (o :: (x ++ 44 :: w) ++ [c]) ->
  exists e, value_from_json_bytes_with_config pw (o :: (x ++ 44 :: w) ++ [c]) cfg = Err e.
Proof.
  intros Hc Hw Ho H. destruct (proj1 (C05_parsing_returns pw cfg None _ H)) as [(v & E)|E]; [exfalso|exact E].
  apply C02_value_is_denoted_tree_bytes in E as [E _]; [|exact H]. rewrite Hc in E.
  eapply trailing_comma_not_json; eassumption.
Qed.

(** With it, it is accepted around any list of elements or members, and means the same list. *)
Theorem C06_accepted_with_option pw cfg l x w : rust_slice pw (91 :: (x ++ 44 :: w) ++ [93]) -> ws w ->
  elements false l x -> accepted cfg (TArr l) (91 :: x ++ [93]) ->
  exists v v', value_from_json_bytes_with_config pw (91 :: (x ++ 44 :: w) ++ [93]) (allowing_trailing_commas cfg) = Ok v /\
    value_from_json_bytes_with_config pw (91 :: x ++ [93]) cfg = Ok v' /\ tree_of v = TArr l /\ v = v'.
Proof.
  intros H Hw Hel Ha.
  assert (Hel' : elements true l (x ++ 44 :: w)).
  { clear H Ha. induction Hel as [t w1 s w2 tr H1 Hv H2 Htr|t l w1 s w2 r H1 Hv H2 Hl IH].
    - destruct Htr as [|? E _]; [|discriminate]. rewrite app_nil_r, <- !app_assoc. constructor; auto.
      + apply text_mono. exact Hv.
      + constructor; auto.
    - rewrite <- !app_assoc. cbn [app]. constructor; auto. apply text_mono. exact Hv. }
  assert (H' : rust_slice pw (91 :: x ++ [93])).
  { destruct H as [Hb Hl]. unfold rust_slice, is_bytes in *. cbn [length] in *. rewrite !app_length in *. cbn [length] in *.
    split; [|lia]. inversion Hb as [|? ? Hb0 Hb1]; subst. constructor; [exact Hb0|]. rewrite !Forall_app in Hb1. rewrite Forall_app. tauto. }
  destruct (C02_denoted_tree_is_returned pw cfg _ _ H' Ha) as (v' & E' & Ht').
  destruct (C02_denoted_tree_is_returned pw (allowing_trailing_commas cfg) (91 :: (x ++ 44 :: w) ++ [93]) (TArr l) H) as (v & E & Ht).
  { destruct Ha as (_ & Hd & Hr). repeat split; auto. cbn. exists [], (91 :: (x ++ 44 :: w) ++ [93]), []. rewrite app_nil_r.
    split; [constructor|]. split; [constructor; exact Hel'|]. split; [constructor|reflexivity]. }
  exists v, v'. repeat split; auto.
  apply value_bytes_iff in E as (t1 & _ & Hr1); [|exact H]. apply value_bytes_iff in E' as (t2 & _ & Hr2); [|exact H'].
  rewrite (value_repr_tree _ _ _ Hr1) in Ht. rewrite (value_repr_tree _ _ _ Hr2) in Ht'. subst t1 t2.
  eapply value_repr_fun; eassumption.
Qed.

(** * C07: recursion limit *)
Theorem C07_limit_is_exact pw cfg n s v : rust_slice pw s ->
  (value_from_json_bytes_with_config pw s (with_recursion_limit cfg n) = Ok v <->
   value_from_json_bytes_with_config pw s (without_recursion_limit cfg) = Ok v /\ tree_depth (tree_of v) <= n).
Proof.
  intro H. rewrite !value_bytes_iff by exact H. split.
  - intros (t & (H1 & H2 & H3) & Hr). rewrite (value_repr_tree _ _ _ Hr). split; [|exact H2].
    exists t. split; [|exact Hr]. repeat split; auto.
  - intros ((t & (H1 & H2 & H3) & Hr) & Hd). rewrite (value_repr_tree _ _ _ Hr) in Hd.
    exists t. split; [|exact Hr]. repeat split; auto.
Qed.

Theorem C07_no_limit_any_depth pw cfg s t : rust_slice pw s ->
  json_text (allow_trailing_commas cfg) t s -> (allow_all_types_at_root cfg = true \/ is_container t = true) ->
  exists v, value_from_json_bytes_with_config pw s (without_recursion_limit cfg) = Ok v /\ tree_of v = t.
Proof. intros H H1 H2. apply C02_denoted_tree_is_returned; [exact H|]. repeat split; auto. Qed.

(** * C08: root restriction *)
Theorem C08_root_restriction pw cfg s v : rust_slice pw s ->
  (value_from_json_bytes_with_config pw s (allowing_all_types_at_root cfg false) = Ok v <->
   value_from_json_bytes_with_config pw s (allowing_all_types_at_root cfg true) = Ok v /\
   is_container (tree_of v) = true).
Proof.
  intro H. rewrite !value_bytes_iff by exact H. split.
  - intros (t & (H1 & H2 & H3) & Hr). rewrite (value_repr_tree _ _ _ Hr). cbn in H3.
    destruct H3 as [H3|H3]; [discriminate|]. split; [|exact H3]. exists t. split; [|exact Hr]. repeat split; auto.
  - intros ((t & (H1 & H2 & H3) & Hr) & Hd). rewrite (value_repr_tree _ _ _ Hr) in Hd.
    exists t. split; [|exact Hr]. repeat split; auto.
Qed.

Theorem C08_scalar_root_error pw cfg s v : rust_slice pw s ->
  value_from_json_bytes_with_config pw s (allowing_all_types_at_root cfg true) = Ok v ->
  is_container (tree_of v) = false ->
  value_from_json_bytes_with_config pw s (allowing_all_types_at_root cfg false) =
  Err (Error 0 KPayloadsShouldBeObjectOrArray).
Proof.
  intros H E Hc. apply value_bytes_iff in E as (t & (H1 & H2 & _) & Hr); [|exact H].
  rewrite (value_repr_tree _ _ _ Hr) in Hc.
  unfold value_from_json_bytes_with_config, parse_json_bytes_with_config. rewrite value_parse_eq.
  apply (trace_root_refused false pw _ t s (rust_slice_good _ _ H)); [exact H1|exact H2|].
  intros [E|E]; [discriminate|congruence].
Qed.

Theorem C08_strict_is_default_with_container_root pw s v : rust_slice pw s ->
  (value_from_json_bytes_with_config pw s config_strict = Ok v <->
   value_from_json_bytes pw s = Ok v /\ is_container (tree_of v) = true).
Proof. intro H. exact (C08_root_restriction pw config_default s v H). Qed.

(** * C16, C50 for the parser *)
Definition error_in_range {A} (len : nat) (r : res (error infallible) A) : Prop :=
  match r with
  | Err e => (err_offset e <= len)%nat /\
      (match err_kind e with
       | KUnexpectedEof | KUnclosedObject | KUnclosedArray | KUnclosedString => True | _ => False end -> err_offset e = len)
  | _ => True
  end.

Lemma gen_in_range {D} g pw cfg s (H : good g pw s) st :
  match fst (parse_bytes g pw cfg D s st) with
  | Err e => (err_offset e <= length s)%nat /\
      (match err_kind e with
       | KUnexpectedEof | KUnclosedObject | KUnclosedArray | KUnclosedString => True | _ => False end -> err_offset e = length s)
  | _ => True
  end.
Proof.
  pose proof (parse_bytes_gen g pw cfg D s H st) as G.
  destruct (fst (parse_bytes g pw cfg D s st)) as [v|[o k]|f]; auto. cbn in *. destruct G as [G1 G2]. split; [exact G1|].
  intro K. apply G2. destruct k; cbn; try reflexivity; destruct K.
Qed.

Lemma doc_in_range g pw cfg cap s : good g pw s ->
  error_in_range (length s) (document_of (parse_bytes g pw cfg (nodes_delegate cap) s [])).
Proof.
  intro H. pose proof (gen_in_range g pw cfg s H (D := nodes_delegate cap) []) as G.
  pose proof (nodes_parse_eq g pw cfg cap s H) as E.
  pose proof (gen_in_range g pw cfg s H (D := trace_delegate) []) as G'.
  destruct (parse_bytes g pw cfg trace_delegate s []) as [y tr].
  destruct (parse_bytes g pw cfg (nodes_delegate cap) s []) as [[n|[o k]|f] st]; cbn in *; auto.
  split; [destruct k; apply G|]. destruct k as [| | | | | | | | | | | | | | | | | | | | | | | |d]; cbn in *; try apply G.
  (* a delegate error: only PaylodTooLarge, or an error of the reference parse *)
  destruct y as [v|e|f]; [| |destruct E].
  - destruct (match cap with Some k => _ | None => _ end); [discriminate|]. destruct E as (o' & E).
    injection E as -> ->. intros [].
  - destruct E as [E|(o' & E & _)].
    + injection E as <-. cbn in *. apply G'.
    + injection E as -> ->. intros [].
Qed.

Theorem C16_C50_parse_error_offsets pw cfg cap s : rust_slice pw s ->
  error_in_range (length s) (value_from_json_bytes_with_config pw s cfg) /\
  error_in_range (length s) (document_from_json_bytes_with_config pw cap s cfg) /\
  error_in_range (length s) (validate_json_bytes_with_config pw s cfg).
Proof.
  intro H. apply rust_slice_good in H. split; [|split].
  - apply (gen_in_range false pw cfg s H (D := value_delegate) tt).
  - apply doc_in_range. exact H.
  - apply (gen_in_range false pw cfg s H (D := unit_delegate) tt).
Qed.

Theorem C16_C50_parse_error_offsets_str pw cfg cap s : rust_str pw s ->
  error_in_range (length s) (value_from_json_with_config pw s cfg) /\
  error_in_range (length s) (document_from_json_with_config pw cap s cfg) /\
  error_in_range (length s) (validate_json_with_config pw s cfg).
Proof.
  intro H. apply rust_str_good in H. split; [|split].
  - apply (gen_in_range true pw cfg s H (D := value_delegate) tt).
  - apply doc_in_range. exact H.
  - apply (gen_in_range true pw cfg s H (D := unit_delegate) tt).
Qed.

(** Also for every user-supplied delegate. *)
Theorem C16_C50_any_delegate pw cfg D s st e : rust_slice pw s ->
  fst (parse_json_bytes_with_config pw D s cfg st) = Err e ->
  (err_offset e <= length s)%nat /\
  (match err_kind e with
   | KUnexpectedEof | KUnclosedObject | KUnclosedArray | KUnclosedString => True | _ => False end ->
   err_offset e = length s).
Proof.
  intros H E. pose proof (gen_in_range false pw cfg s (rust_slice_good _ _ H) (D := D) st) as G.
  unfold parse_json_bytes_with_config in E. rewrite E in G. exact G.
Qed.

(** * C47: configuration builders *)
Theorem C47_builders_set_one_field c n b :
  (let d := with_recursion_limit c n in recursion_limit d = Some n /\
     allow_trailing_commas d = allow_trailing_commas c /\ allow_all_types_at_root d = allow_all_types_at_root c) /\
  (let d := without_recursion_limit c in recursion_limit d = None /\
     allow_trailing_commas d = allow_trailing_commas c /\ allow_all_types_at_root d = allow_all_types_at_root c) /\
  (let d := allowing_all_types_at_root c b in allow_all_types_at_root d = b /\
     allow_trailing_commas d = allow_trailing_commas c /\ recursion_limit d = recursion_limit c) /\
  (let d := allowing_trailing_commas c in allow_trailing_commas d = true /\
     allow_all_types_at_root d = allow_all_types_at_root c /\ recursion_limit d = recursion_limit c).
Proof. cbn. tauto. Qed.

Theorem C47_builders_commute c n b :
  with_recursion_limit (allowing_all_types_at_root c b) n = allowing_all_types_at_root (with_recursion_limit c n) b /\
  with_recursion_limit (allowing_trailing_commas c) n = allowing_trailing_commas (with_recursion_limit c n) /\
  without_recursion_limit (allowing_all_types_at_root c b) = allowing_all_types_at_root (without_recursion_limit c) b /\
  without_recursion_limit (allowing_trailing_commas c) = allowing_trailing_commas (without_recursion_limit c) /\
  allowing_trailing_commas (allowing_all_types_at_root c b) = allowing_all_types_at_root (allowing_trailing_commas c) b.
Proof. repeat split. Qed.

Theorem C47_last_wins c n m b b' :
  with_recursion_limit (with_recursion_limit c m) n = with_recursion_limit c n /\
  with_recursion_limit (without_recursion_limit c) n = with_recursion_limit c n /\
  without_recursion_limit (with_recursion_limit c m) = without_recursion_limit c /\
  allowing_all_types_at_root (allowing_all_types_at_root c b') b = allowing_all_types_at_root c b.
Proof. repeat split. Qed.

(** Whole sequences of builder calls: every field is what the last call naming it gave, or what it was. *)
Inductive builder_call : Type :=
| CallLimit (n : N) | CallNoLimit | CallRoot (b : bool) | CallTrailing.
Definition call_builder (c : parse_config) (x : builder_call) : parse_config :=
  match x with
  | CallLimit n => with_recursion_limit c n
  | CallNoLimit => without_recursion_limit c
  | CallRoot b => allowing_all_types_at_root c b
  | CallTrailing => allowing_trailing_commas c
  end.
Definition names_limit (x : builder_call) : list (option N) :=
  match x with CallLimit n => [Some n] | CallNoLimit => [None] | _ => [] end.
Definition names_root (x : builder_call) : list bool := match x with CallRoot b => [b] | _ => [] end.
Definition names_trailing (x : builder_call) : list bool := match x with CallTrailing => [true] | _ => [] end.

Lemma last_cons_app {A} (l : list A) a d : last (a :: l) d = last l a.
Proof. revert a d. induction l as [|b l IH]; intros a d; [reflexivity|]. cbn [last] in *. destruct l; [reflexivity|]. apply IH. Qed.

Theorem C47_every_sequence c calls :
  let d := fold_left call_builder calls c in
  recursion_limit d = last (flat_map names_limit calls) (recursion_limit c) /\
  allow_all_types_at_root d = last (flat_map names_root calls) (allow_all_types_at_root c) /\
  allow_trailing_commas d = last (flat_map names_trailing calls) (allow_trailing_commas c).
Proof.
  cbv zeta. revert c. induction calls as [|x calls IH]; intro c; [repeat split|].
  cbn [fold_left flat_map]. destruct (IH (call_builder c x)) as (-> & -> & ->).
  destruct x; cbn [names_limit names_root names_trailing app]; rewrite ?last_cons_app; repeat split.
Qed.
Example C47_sequence_sample :
  fold_left call_builder [CallLimit 3; CallRoot false; CallTrailing; CallNoLimit; CallRoot true; CallLimit 7] config_new
  = Config true (Some 7) true.
Proof. reflexivity. Qed.

Theorem C47_documented_values :
  config_new = config_default /\
  (allow_trailing_commas config_new = false /\ recursion_limit config_new = Some 128 /\ allow_all_types_at_root config_new = true) /\
  config_strict = allowing_all_types_at_root config_new false.
Proof. repeat split. Qed.

(** * C49: truncated texts *)
Theorem C49_truncated_rejected pw cfg p q v v' : rust_slice pw (p ++ q) ->
  value_from_json_bytes_with_config pw (p ++ q) cfg = Ok v ->
  (forall n, tree_of v <> TNum n) ->
  value_from_json_bytes_with_config pw p cfg = Ok v' -> ws q /\ v' = v.
Proof.
  intros H E Hn E'.
  assert (Hp : rust_slice pw p).
  { destruct H as [Hb Hl]. rewrite app_length in Hl. split; [|lia]. apply is_bytes_app in Hb. tauto. }
  apply value_bytes_iff in E as (t & (Ha & _) & Hr); [|exact H].
  apply value_bytes_iff in E' as (t' & (Ha' & _) & Hr'); [|exact Hp].
  rewrite (value_repr_tree _ _ _ Hr) in Hn.
  assert (Hq : ws q) by (eapply (truncated pw); [apply H|exact Ha|exact Hn|exact Ha']).
  split; [exact Hq|].
  assert (t' = t).
  { eapply (json_text_unique pw); [apply H| |exact Ha].
    destruct Ha' as (w1 & b & w2 & H1 & Hb & H2 & ->). exists w1, b, (w2 ++ q). repeat split; auto.
    - apply Forall_app. auto.
    - rewrite <- !app_assoc. reflexivity. }
  subst t'. eapply value_repr_fun; eassumption.
Qed.

(** * C51: unambiguity of the texts, independent of the parser *)
Theorem C51_texts_are_unambiguous tc t t' s : json_text tc t s -> json_text tc t' s -> t = t'.
Proof. apply json_text_unambiguous. Qed.

(** ... with and without trailing commas allowed: allowing them gives no text a second meaning. *)
Theorem C51_trailing_commas_add_no_meaning tc tc' t t' s : json_text tc t s -> json_text tc' t' s -> t = t'.
Proof.
  intros H H'. apply (json_text_unambiguous true t t' s).
  - destruct tc; [exact H|apply json_text_mono; exact H].
  - destruct tc'; [exact H'|apply json_text_mono; exact H'].
Qed.

(** ... including the characters each string denotes. *)
Theorem C51_strings_are_unambiguous raw cs cs' : str_body raw cs -> str_body raw cs' -> cs = cs'.
Proof. apply str_body_det. Qed.

(** * Concrete cases meeting the hypotheses *)
Definition sample : list N := bs " { ""a"" : [1, -2.5e+3, ""x\u0041\n"", null], ""a"": {} } ".
Definition sample_tree : tree :=
  TObj [(bs "a", TArr [TNum (bs "1"); TNum (bs "-2.5e+3"); TStr (bs "x\u0041\n"); TNull]); (bs "a", TObj [])].

Lemma sample_slice : rust_slice W64 sample.
Proof. split; [repeat constructor|vm_compute; discriminate]. Qed.

Example sample_parses : exists v, value_from_json_bytes W64 sample = Ok v /\ tree_of v = sample_tree.
Proof. eexists. split; vm_compute; reflexivity. Qed.

Example sample_is_json : json_text false sample_tree sample.
Proof.
  destruct sample_parses as (v & E & <-). apply (C02_value_is_denoted_tree_bytes W64 config_default sample v sample_slice E).
Qed.

Example sample_rejected : exists e, value_from_json_bytes W64 (bs "[1,]") = Err e /\ err_kind e = KIllegalTrailingComma.
Proof. eexists. split; vm_compute; reflexivity. Qed.
Example sample_trailing : exists v,
  value_from_json_bytes_with_config W64 (bs "[1,]") (allowing_trailing_commas config_default) = Ok v /\ tree_of v = TArr [TNum (bs "1")].
Proof. eexists. split; vm_compute; reflexivity. Qed.
Example sample_depth : exists v, value_from_json_bytes_with_config W64 (bs "[[1]]") (with_recursion_limit config_default 2) = Ok v /\
  tree_depth (tree_of v) = 2 /\
  value_from_json_bytes_with_config W64 (bs "[[1]]") (with_recursion_limit config_default 1) = Err (Error 1 KRecursionLimitReached).
Proof. eexists. split; [|split]; vm_compute; reflexivity. Qed.
Example sample_scalar_root : exists v, value_from_json_bytes W64 (bs " 12 ") = Ok v /\ is_container (tree_of v) = false.
Proof. eexists. split; vm_compute; reflexivity. Qed.
Example sample_truncated : exists e, value_from_json_bytes W64 (bs " { ""a"" : [1") = Err e /\ err_kind e = KUnclosedArray /\ err_offset e = 11%nat.
Proof. eexists. split; [|split]; vm_compute; reflexivity. Qed.
Example sample_utf8_rejected : value_from_json_bytes W64 [34; 0xC3; 34] = Err (Error 1 KUtf8).
Proof. vm_compute. reflexivity. Qed.

