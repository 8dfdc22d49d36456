(** C98: the nodes of a parsed text come from the text in order, without overlap. *)
From Verif Require Import Base Utf8 Utf8Facts StrModel ErrorModel Tokenizer Parser ValueModel DocModel Spec SpecLex SpecTok
  View TokBase TokStr TokNum TokFacts StrSpec PropTok PropTokens PropWrite PropIter PropEntry.
Local Open Scope N_scope.

(** What stands in the text where a node begins: a bracket, or all of the literal. *)
Definition node_text (n : node) : list N :=
  match n with
  | NNull => lit_null
  | NBoolean true => lit_true
  | NBoolean false => lit_false
  | NString x => 34 :: stored x ++ [34]
  | NNumber n => jn_str n
  | NObject _ => [123]
  | NArray _ => [91]
  end.

(** [}], [\]], [:] and [,] begin no node. *)
Definition begins_node (x : list N) : bool :=
  match x with [b] => negb ((b =? 125) || (b =? 93) || (b =? 58) || (b =? 44)) | _ => true end.

(** The texts [xs] stand in [s] in this order and without overlap. *)
Inductive placed : list (list N) -> list N -> Prop :=
| placed_nil s : placed [] s
| placed_cons x xs g s : placed xs s -> placed (x :: xs) (g ++ x ++ s).

Definition token_begins (t : token) : bool :=
  match t with TkObjectEnd | TkArrayEnd | TkColon | TkComma => false | _ => true end.
Definition token_node_text (t : token) : list N :=
  match t with
  | TkNull => lit_null
  | TkBool true => lit_true
  | TkBool false => lit_false
  | TkString x => 34 :: stored x ++ [34]
  | TkNumber n => jn_str n
  | TkObject => [123]
  | TkArray => [91]
  | _ => []
  end.

Lemma number_begins n : number n -> begins_node n = true.
Proof.
  intro H. destruct n as [|b [|c n]]; try reflexivity. pose proof (number_head_cases _ _ H) as K. unfold digit in K. cbn [begins_node].
  destruct (N.eqb_spec b 125); [lia|]. destruct (N.eqb_spec b 93); [lia|]. destruct (N.eqb_spec b 58); [lia|]. destruct (N.eqb_spec b 44); [lia|]. reflexivity.
Qed.
Lemma token_lexemes pw tks ls : Forall2 (token_text pw) tks ls -> filter begins_node ls = map token_node_text (filter token_begins tks).
Proof.
  induction 1 as [|t x tks ls Ht H IH]; [reflexivity|]. destruct Ht; cbn [filter token_begins map token_node_text]; rewrite <- IH; try reflexivity.
  - replace (begins_node (34 :: raw ++ [34])) with true; [reflexivity|]. destruct raw; reflexivity.
  - rewrite number_begins by assumption. reflexivity.
Qed.

Lemma filter_comma : forall parts, filter token_begins (comma_separated parts) = flat_map (filter token_begins) parts.
Proof.
  induction parts as [|p [|q ps] IH]; [reflexivity|cbn [comma_separated flat_map]; rewrite app_nil_r; reflexivity|].
  change (comma_separated (p :: q :: ps)) with (p ++ TkComma :: comma_separated (q :: ps)). rewrite filter_app. cbn [filter token_begins flat_map] in *. rewrite IH. reflexivity.
Qed.
Lemma trailing_filter tc n tr : trailing_tokens tc n tr -> filter token_begins tr = [].
Proof. intros [->|(_ & _ & ->)]; reflexivity. Qed.
Lemma value_tokens_nodes tc : forall v tks, value_tokens tc v tks -> map token_node_text (filter token_begins tks) = map node_text (preorder v).
Proof.
  induction v as [n|s|b|o IH|l IH|] using value_ind'; intros tks H; inversion H as [| | | |l' parts tr Hp Htr|o' parts tr Hp Htr]; subst; try reflexivity.
  - cbn [filter token_begins map token_node_text preorder]. f_equal. rewrite !filter_app, filter_comma, (trailing_filter _ _ _ Htr). cbn [filter token_begins app]. rewrite app_nil_r.
    clear H Htr. induction Hp as [|e p o parts (q & -> & Hq) Hp IHp]; [reflexivity|]. inversion IH; subst.
    cbn [flat_map filter token_begins map token_node_text]. rewrite !map_app. cbn [app map token_node_text node_text]. f_equal. f_equal; auto.
  - cbn [filter token_begins map token_node_text preorder]. f_equal. rewrite !filter_app, filter_comma, (trailing_filter _ _ _ Htr). cbn [filter token_begins app]. rewrite app_nil_r.
    clear H Htr. induction Hp as [|e p l parts Hq Hp IHp]; [reflexivity|]. inversion IH; subst. cbn [flat_map]. rewrite !map_app. f_equal; auto.
Qed.

Lemma placed_more xs g s : placed xs s -> placed xs (g ++ s).
Proof. intro H. destruct H as [|x xs g' s H]; [constructor|]. rewrite app_assoc. constructor. exact H. Qed.
Lemma spaced_placed f ls s : spaced ls s -> placed (filter f ls) s.
Proof.
  induction 1 as [|w x ls s Hw Hx H IH Hg]; [constructor|]. cbn [filter]. destruct (f x); [constructor; exact IH|].
  apply placed_more, placed_more. exact IH.
Qed.

(** The text is whitespace and lexemes; those that are not [}], [\]], [:] or [,] are, in order, exactly what the parts of the
    value begin with (each container before its parts, keys before their values) - all of the source for strings (with
    their quotes), numbers and literals. *)
Theorem C98_parts_are_the_lexemes pw cfg s v : parsed_from pw cfg s v ->
  exists ls, spaced ls s /\ filter begins_node ls = map node_text (preorder v).
Proof.
  intro F. assert (K : exists utf8, input_ok utf8 pw s /\ parse_value utf8 pw s cfg = Ok v).
  { destruct F as [[Hs E]|[Hs E]]; [exists false|exists true]; split; try exact Hs; exact E. }
  destruct K as (utf8 & Hs & E).
  destruct (C36_compact_drops_trailing_commas pw cfg s v F) as (ls & Hl & _ & _). exists ls. split; [exact Hl|].
  apply C84_parser_reads_the_tokens in E as ((tks & Ht & Hv) & _); [|exact Hs].
  destruct (C84_lexemes_tokenize utf8 pw s ls Hs Hl) as (tks' & Ht' & Hf). rewrite (C84_tokens_unique utf8 pw s tks' tks Ht' Ht) in Hf.
  rewrite (token_lexemes _ _ _ Hf). eapply value_tokens_nodes. exact Hv.
Qed.
(** So their sources are disjoint parts of the text, in the order of the value. *)
Theorem C98_parts_in_order pw cfg s v : parsed_from pw cfg s v -> placed (map node_text (preorder v)) s.
Proof. intro H. destruct (C98_parts_are_the_lexemes _ _ _ _ H) as (ls & Hl & <-). apply spaced_placed. exact Hl. Qed.

(** The same for the nodes of documents. *)
Theorem C98_nodes_are_the_lexemes pw cfg s doc v : document_for pw cfg s doc v ->
  (exists ls, spaced ls s /\ filter begins_node ls = map node_text doc) /\ placed (map node_text doc) s.
Proof.
  intro H. pose proof (document_preorder _ _ _ _ _ H) as ->.
  assert (F : parsed_from pw cfg s v) by (destruct H as (cap & [(Hs' & _ & E')|(Hs' & _ & E')]); [left|right]; auto).
  split; [eapply C98_parts_are_the_lexemes; exact F|eapply C98_parts_in_order; exact F].
Qed.

(** In particular everything together is no longer than the text, and a text of [n] bytes gives at most [n] nodes. *)
Theorem C98_total_size pw cfg s doc v : document_for pw cfg s doc v ->
  (length (List.concat (map node_text doc)) <= length s)%nat /\ (length doc <= length s)%nat.
Proof.
  intro H. apply C98_nodes_are_the_lexemes in H as ((ls & Hl & E) & H).
  assert (G : forall xs s, placed xs s -> (length (List.concat xs) <= length s)%nat).
  { intros xs t K. induction K as [|x xs g t K IH]; [cbn; lia|]. cbn [List.concat]. rewrite !app_length. lia. }
  split; [apply G; exact H|]. apply G in H. assert (L : forall xs : list (list N), Forall (fun x => x <> []) xs -> (length xs <= length (List.concat xs))%nat).
  { intros xs K. induction K as [|x xs Hx K IH]; [cbn; lia|]. cbn [List.concat length]. rewrite app_length. destruct x; [congruence|]. cbn [length]. lia. }
  specialize (L (map node_text doc)). rewrite map_length in L. enough (Forall (fun x => x <> []) (map node_text doc)) as Q by (specialize (L Q); lia).
  rewrite <- E. apply spaced_lexemes in Hl. rewrite Forall_forall in *. intros x Hx. apply filter_In in Hx as [Hx _]. apply Hl in Hx.
  intros ->. inversion Hx; subst. match goal with K : number [] |- _ => exact (number_nonnil _ K eq_refl) end.
Qed.

(** * A concrete case *)
Example order_sample : exists v, parsed_from W64 config_new (bs "{""a"" : [true,-1.5e3,""b\n""], ""c"":null}") v /\
  map node_text (preorder v) = [bs "{"; bs """a"""; bs "["; bs "true"; bs "-1.5e3"; bs """b\n"""; bs """c"""; bs "null"].
Proof.
  eexists. split; [left; split; [|vm_compute; reflexivity]|vm_compute; reflexivity].
  split; [repeat constructor|vm_compute; discriminate].
Qed.
