(** Where JsonStrings come from. *)
From Verif Require Import Base Utf8 Utf8Facts StrModel ErrorModel Tokenizer Parser ValueModel DocModel NumModel Spec SpecStr
  TokBase TokStr TokFacts Trace ParserGen ParserSound ParserComplete Sim SimInst StrSpec View ParseMain DocFacts StrFacts StrEsc StrWf PropTok PropEntry.
Local Open Scope N_scope.

(** * Vocabulary *)

(** The string occurs in the value, as a string or as an object key, at any depth. *)
Inductive string_in (x : json_string) : value -> Prop :=
| string_here : string_in x (VString x)
| string_elem l v : In v l -> string_in x v -> string_in x (VArray l)
| string_key o v : In (x, v) o -> string_in x (VObject o)
| string_member o k v : In (k, v) o -> string_in x v -> string_in x (VObject o).

(** A JsonString a program can get by parsing some input. *)
Inductive parsed (pw : pwidth) (x : json_string) : Prop :=
| parsed_bytes s cfg v : rust_slice pw s ->
    value_from_json_bytes_with_config pw s cfg = Ok v -> string_in x v -> parsed pw x
| parsed_str s cfg v : rust_str pw s ->
    value_from_json_with_config pw s cfg = Ok v -> string_in x v -> parsed pw x
| parsed_document s cfg cap doc : rust_slice pw s ->
    document_from_json_bytes_with_config pw cap s cfg = Ok doc -> In (NString x) doc -> parsed pw x
| parsed_token utf8 s it it' : input_ok utf8 pw s -> reachable utf8 pw s it ->
    tokenizer_next utf8 pw it = (Some (Ok (TkString x)), it') -> parsed pw x
| parsed_string s : rust_str pw s -> string_from_json pw s = Ok x -> parsed pw x.

(** A JsonString made by [From<&str>] or [From<String>] from the text [s]. *)
Definition built (pw : pwidth) (s : list N) (x : json_string) : Prop :=
  rust_str pw s /\ (js_from_str pw s = Ok x \/ js_from_string pw s = Ok x).

(** Any JsonString a program can have. *)
Definition obtainable (pw : pwidth) (x : json_string) : Prop :=
  parsed pw x \/ exists s, built pw s x.

(** * Facts *)
Lemma string_in_all P x v : all_strings P v -> string_in x v -> P x.
Proof.
  intros H Hin. induction Hin; inversion H; subst; auto; rewrite Forall_forall in *.
  - apply IHHin. auto.
  - match goal with H : forall e, _ |- _ => destruct (H _ H0) as [Hx _] end. exact Hx.
  - apply IHHin. match goal with H : forall e, _ |- _ => destruct (H _ H0) as [_ Hx] end. exact Hx.
Qed.

(** The shape of parsed strings. *)
Definition parse_shape (pw : pwidth) (x : json_string) : Prop :=
  exists raw cs, str_body raw cs /\ N.of_nat (length raw) <= isize_max pw /\ x = string_for pw raw cs.

Lemma part_len x s : part_of x s -> (length x <= length s)%nat.
Proof. intros (a & b & ->). rewrite !app_length. lia. Qed.

Lemma repr_shape pw t v s tc : N.of_nat (length s) <= isize_max pw -> json_text tc t s -> value_repr pw t v ->
  all_strings (parse_shape pw) v.
Proof.
  intros Hl Ht Hr.
  refine (proj1 (repr_all pw (parse_shape pw) (fun _ => True) _ _ _ _ t v Hr (json_text_parts _ _ _ Ht))); [|auto].
  intros raw cs Hb Hp. exists raw, cs. split; [exact Hb|]. split; [|reflexivity].
  destruct Hp as [_ Hp]. apply part_len in Hp. cbn [length] in Hp. rewrite app_length in Hp. lia.
Qed.

Lemma preorder_string x : forall v, In (NString x) (preorder v) -> string_in x v.
Proof.
  induction v as [n|s|b|o IH|l IH|] using value_ind'; cbn [preorder]; intro H.
  - destruct H as [H|[]]; discriminate.
  - destruct H as [H|[]]. injection H as ->. constructor.
  - destruct H as [H|[]]; discriminate.
  - destruct H as [H|H]; [discriminate|]. apply in_flat_map in H as ([k v] & Hin & H). cbn [fst snd In] in H.
    destruct H as [H|H].
    + injection H as ->. eapply string_key; eassumption.
    + rewrite Forall_forall in IH. eapply string_member; [exact Hin|]. apply (IH _ Hin). exact H.
  - destruct H as [H|H]; [discriminate|]. apply in_flat_map in H as (v & Hin & H).
    rewrite Forall_forall in IH. eapply string_elem; [exact Hin|]. apply (IH _ Hin). exact H.
  - destruct H as [H|[]]; discriminate.
Qed.

Theorem parsed_shape pw x : parsed pw x -> parse_shape pw x.
Proof.
  intros [s cfg v Hs E Hin|s cfg v Hs E Hin|s cfg cap doc Hs E Hin|utf8 s it it' Hs Hre E|s Hs E].
  - apply value_bytes_iff in E as (t & Ha & Hr); [|exact Hs]. eapply string_in_all; [|exact Hin].
    eapply repr_shape; [apply Hs|apply Ha|exact Hr].
  - apply value_str_iff in E as (t & Ha & Hr); [|exact Hs]. eapply string_in_all; [|exact Hin].
    eapply repr_shape; [apply Hs|apply Ha|exact Hr].
  - assert (En : document_from_json_bytes_with_config pw None s cfg = Ok doc).
    { destruct cap as [n|]; [|exact E]. apply C14_bounded_capacity in E as [E _]; assumption. }
    rewrite C09_C12_document_bytes in En by exact Hs.
    destruct (value_from_json_bytes_with_config pw s cfg) as [v|e|f] eqn:Ev; cbn in En; try discriminate.
    injection En as <-.
    apply value_bytes_iff in Ev as (t & Ha & Hr); [|exact Hs].
    eapply string_in_all; [|apply preorder_string; exact Hin]. eapply repr_shape; [apply Hs|apply Ha|exact Hr].
  - destruct (reachable_pos _ _ _ _ Hs Hre) as (pre & r & -> & -> & Hg).
    pose proof (tokenizer_next_spec utf8 pw pre r Hg) as G. rewrite E in G.
    destruct G as (w & y & r' & -> & Hw & Ht & -> & Hst). inversion Ht as [ | | | | | | | | |raw cs Hb|]; subst.
    exists raw, cs. split; [exact Hb|]. split; [|reflexivity]. destruct Hg as [Hg _]. unfold small in Hg.
    rewrite !app_length in Hg. cbn [length] in Hg. rewrite app_length in Hg. lia.
  - apply C46_string_from_json in E; [|exact Hs]. apply value_str_iff in E as (t & Ha & Hr); [|exact Hs].
    assert (Hx : all_strings (parse_shape pw) (VString x)) by (eapply repr_shape; [apply Hs|apply Ha|exact Hr]).
    inversion Hx. assumption.
Qed.

Theorem parsed_wf pw x : parsed pw x ->
  exists l, items_text l (stored x) /\ is_json_form x /\ jwf pw x (map crate_char l) /\
    N.of_nat (length (stored x)) <= isize_max pw /\
    js_info x = info_new pw (has_bs (stored x)) (N.of_nat (length (utf8_string (map crate_char l)))).
Proof.
  intro H. apply parsed_shape in H as (raw & cs & Hb & Hl & ->).
  destruct (string_for_wf pw raw cs Hb Hl) as (l & Hi & -> & Hw). exists l.
  split; [exact Hi|]. split; [exact I|]. split; [exact Hw|]. split; [exact Hl|].
  cbn. rewrite (items_len _ _ Hi). reflexivity.
Qed.

Theorem built_shape pw s x : built pw s x ->
  exists a cs, scalars cs /\ s = utf8_string cs /\ any_str a = s /\ N.of_nat (length s) <= isize_max pw /\
    counted cs <= isize_max pw /\ x = built_from pw a cs /\ jwf pw x cs.
Proof.
  intros [[(cs & Hcs & ->) Hl] H].
  assert (K : forall a, any_str a = utf8_string cs -> js_from_any pw a = Ok x ->
     counted cs <= isize_max pw /\ x = built_from pw a cs /\ jwf pw x cs).
  { intros a Ea E. destruct (N.le_gt_cases (counted cs) (isize_max pw)) as [Hc|Hc].
    - rewrite (from_any_ok pw a cs Hcs Ea Hc) in E. injection E as <-. split; [exact Hc|]. split; [reflexivity|].
      apply built_wf; assumption.
    - rewrite (from_any_overflow pw a cs Hcs Ea Hl Hc) in E. discriminate. }
  destruct H as [H|H]; [exists (Borrowed (utf8_string cs))|exists (Owned (utf8_string cs))]; exists cs;
    (split; [exact Hcs|]); (split; [reflexivity|]); (split; [reflexivity|]); (split; [exact Hl|]); apply K; auto.
Qed.

Theorem obtainable_wf pw x : obtainable pw x -> exists cs, jwf pw x cs.
Proof.
  intros [H|[s H]].
  - apply parsed_wf in H as (l & _ & _ & H & _). eauto.
  - apply built_shape in H as (a & cs & _ & _ & _ & _ & _ & _ & H). eauto.
Qed.

(** Conversely every string content is the content of some parsed string. *)
Lemma parsed_exists pw raw cs : str_body raw cs -> N.of_nat (length raw) + 2 <= isize_max pw ->
  parsed pw (string_for pw raw cs).
Proof.
  intros H Hl.
  assert (Hs : rust_str pw ([34] ++ raw ++ [34])).
  { split.
    - apply utf8_valid_iff. cbn [app]. rewrite utf8_valid_ascii_cons by lia.
      rewrite utf8_valid_app by (eapply str_body_valid; eassumption). reflexivity.
    - rewrite !app_length. cbn [length]. lia. }
  assert (Ha : accepted config_default (TStr raw) ([34] ++ raw ++ [34])).
  { split; [|split; [cbn; lia|left; reflexivity]].
    exists [], ([34] ++ raw ++ [34]), []. rewrite app_nil_r. repeat split; try constructor. econstructor. exact H. }
  destruct (accepted_repr pw true _ _ _ (rust_str_good _ _ Hs) Ha) as (v & Hr).
  assert (E : value_from_json pw ([34] ++ raw ++ [34]) = Ok v) by (apply value_str_iff; eauto).
  inversion Hr as [ | | |r cs' Hb' | | ]; subst. rewrite (string_for_det pw raw cs cs' H Hb').
  apply (parsed_string pw _ _ Hs). apply C46_string_from_json; assumption.
Qed.
