(** Property theorems about which texts are borrowed and which are copied (C87). *)
From Verif Require Import Base Utf8 Utf8Facts StrModel ErrorModel Tokenizer Parser ValueModel DocModel NumModel Spec SpecStr SpecNum SpecLex SpecWrite
  TokBase TokStr TokNum TokFacts StrSpec StrFacts StrWf StrEsc StrObt View ParseMain PropParse PropTok PropEntry PropNumber PropStr PropEsc PropFused.
Local Open Scope N_scope.

(** The [AnyStr] a string holds. *)
Definition held (x : json_string) : anystr := match js_source x with CJson a => a | CRaw a => a end.
Lemma held_stored x : any_str (held x) = stored x.
Proof. unfold held, stored. destruct (js_source x); reflexivity. Qed.

(** Conversions: a [&str] stays borrowed, a [String] is moved in; nothing is rewritten. *)
Theorem C87_conversions pw s x :
  any_from_str s = Borrowed s /\ any_from_string s = Owned s /\
  (js_from_str pw s = Ok x -> held x = Borrowed s) /\ (js_from_string pw s = Ok x -> held x = Owned s).
Proof.
  split; [reflexivity|]. split; [reflexivity|]. unfold js_from_str, js_from_string, js_from_any.
  split; destruct (collect _ _ _) as [[cs d]| |]; cbn [bind]; try discriminate; destruct (has_escapes _ _); intro E; injection E as <-; reflexivity.
Qed.

(** [decode_if_needed] copies exactly if the decoded text differs from the stored text. *)
Theorem C87_decode_copies_only_changed_text pw x : obtainable pw x ->
  exists a, js_decode_if_needed pw x = Ok a /\
  ((any_str a = stored x /\ a = held x) \/ (any_str a <> stored x /\ exists t, a = Owned t)).
Proof.
  intro H. destruct (C23_decoding_never_panics pw x H) as (cs & E & _).
  destruct (C75_decoding_does_not_grow pw x cs H E) as (_ & _ & Hlen).
  destruct (C34_as_str pw x cs H E) as (Hs & _).
  unfold js_decode_if_needed, held, js_as_str in *.
  destruct (js_source x) as [b|b] eqn:Ex.
  - destruct (has_escapes pw (js_info x)) eqn:Eh; cbn [negb] in *.
    + rewrite E. cbn [bind]. eexists. split; [reflexivity|]. right. split; [|eauto]. cbn [any_str]. intro K.
      rewrite K in Hlen. destruct (proj1 Hlen eq_refl Hs).
    + eexists. split; [reflexivity|]. left. unfold stored. rewrite Ex. split; reflexivity.
  - eexists. split; [reflexivity|]. left. unfold stored. rewrite Ex. split; reflexivity.
Qed.

Lemma escaped_longer cs : (length cs <= length (escaped cs))%nat /\ (existsb must_escape cs = true -> length cs < length (escaped cs))%nat.
Proof.
  unfold escaped. induction cs as [|c cs (IH1 & IH2)]; [split; [cbn; lia|discriminate]|]. cbn [flat_map existsb length]. rewrite app_length.
  pose proof (escaped1_len c) as [Hl _]. split; [lia|]. intro K. destruct (must_escape c) eqn:Em; cbn [orb] in K; [|apply IH2 in K; lia].
  assert (2 <= length (escaped1 c))%nat; [|lia]. unfold escaped1. rewrite Em. cbn [negb].
  repeat match goal with |- context [if ?b then _ else _] => destruct b end; cbn [length]; lia.
Qed.

Lemma escaped_scalars cs : scalars cs -> scalars (escaped cs).
Proof.
  intro H. unfold escaped. induction H as [|c cs Hc H IH]; [constructor|]. cbn [flat_map]. apply Forall_app. split; [|exact IH].
  destruct (must_escape c) eqn:Em.
  - eapply Forall_impl; [|apply escaped1_ascii; exact Em]. intros b Hb. cbv beta in Hb. unfold is_scalar. lia.
  - unfold escaped1. rewrite Em. constructor; [exact Hc|constructor].
Qed.

(** [escape_if_needed] likewise. *)
Theorem C87_escape_copies_only_changed_text pw x : obtainable pw x -> recount_fits pw x ->
  exists a, js_escape_if_needed pw x = Ok a /\
  ((any_str a = stored x /\ a = held x) \/ (any_str a <> stored x /\ exists t, a = Owned t)).
Proof.
  intros H Hf. apply obtainable_wf in H as (cs & Hw). pose proof (as_json_wf pw x cs Hw Hf) as E.
  unfold js_escape_if_needed, held, stored in *. destruct Hw as [a i l Hi Hl _ _|a cs Hcs Ea Hl Hc Hm]; cbn [js_source contents_str] in *.
  - exists a. split; [reflexivity|]. left. auto.
  - rewrite E. cbn [bind]. eexists. split; [reflexivity|]. right. split; [|eauto]. cbn [any_str]. rewrite Ea. intro K.
    destruct (escaped_longer cs) as [_ G]. specialize (G Hm).
    assert (Q : escaped cs = cs); [|rewrite Q in G; lia]. apply utf8_string_inj; [|exact Hcs|exact K]. apply escaped_scalars. exact Hcs.
Qed.

(** So a string that was parsed or converted from a [&str] gives back a borrowed text unless there was something to decode or escape. *)
Corollary C87_borrowed_unless_changed pw x s : obtainable pw x -> held x = Borrowed s ->
  (exists a, js_decode_if_needed pw x = Ok a /\ (a = Borrowed s <-> any_str a = s)) /\
  (recount_fits pw x -> exists a, js_escape_if_needed pw x = Ok a /\ (a = Borrowed s <-> any_str a = s)).
Proof.
  intros H Eh. assert (Es : stored x = s) by (rewrite <- held_stored, Eh; reflexivity). split.
  - destruct (C87_decode_copies_only_changed_text pw x H) as (a & E & [[E1 E2]|[E1 (t & E2)]]); exists a; (split; [exact E|]).
    + rewrite E2, Eh. split; [reflexivity|reflexivity].
    + split; [intros ->; reflexivity|]. rewrite Es in E1. contradiction.
  - intro Hf. destruct (C87_escape_copies_only_changed_text pw x H Hf) as (a & E & [[E1 E2]|[E1 (t & E2)]]); exists a; (split; [exact E|]).
    + rewrite E2, Eh. split; [reflexivity|reflexivity].
    + split; [intros ->; reflexivity|]. rewrite Es in E1. contradiction.
Qed.

(** * Concrete cases *)
Example borrow_sample : exists x y z,
  js_from_str W64 (bs "plain") = Ok x /\ js_decode_if_needed W64 x = Ok (Borrowed (bs "plain")) /\ js_escape_if_needed W64 x = Ok (Borrowed (bs "plain")) /\
  js_from_str W64 [97; 10] = Ok y /\ js_decode_if_needed W64 y = Ok (Borrowed [97; 10]) /\ js_escape_if_needed W64 y = Ok (Owned (bs "a\n")) /\
  string_from_json W64 (bs """a\n""") = Ok z /\ js_decode_if_needed W64 z = Ok (Owned [97; 10]) /\ js_escape_if_needed W64 z = Ok (Borrowed (bs "a\n")).
Proof. eexists _, _, _. do 8 (split; [vm_compute; reflexivity|]). vm_compute. reflexivity. Qed.
Example borrow_sample_ok : exists y, js_from_str W64 [97; 10] = Ok y /\ obtainable W64 y /\ recount_fits W64 y /\ held y = Borrowed [97; 10].
Proof.
  eexists. split; [vm_compute; reflexivity|]. split.
  { right. exists [97; 10]. split; [apply utf8_checked; [vm_compute; reflexivity|vm_compute; discriminate]|left; vm_compute; reflexivity]. }
  split; [right; vm_compute; discriminate|reflexivity].
Qed.
