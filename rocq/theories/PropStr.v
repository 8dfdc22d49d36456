(** Property theorems about JsonString: decoding, comparison, hashing (C22-C31, C34). *)
From Verif Require Import Base Utf8 Utf8Facts StrModel ErrorModel Tokenizer Parser ValueModel DocModel NumModel Spec SpecStr
  TokBase TokStr TokFacts StrSpec View ParseMain StrFacts StrEsc StrWf PropTok StrObt.
Local Open Scope N_scope.

(** * C22: what [decoded()] yields *)

(** The characters the crate gets right: everything but [\b] and the surrogate pairs that denote a
    character of an even-numbered plane (U+20000..U+2FFFF, U+40000..U+4FFFF, ...). *)
Definition decoded_right (i : item) : Prop :=
  i <> ISimple 98 /\ (rfc_char i < 0x10000 \/ (rfc_char i / 0x10000) mod 2 = 1 \/ i = IPlain (rfc_char i)).

Lemma merged_right hi lo : 0xD800 <= hi <= 0xDBFF -> 0xDC00 <= lo <= 0xDFFF ->
  (merged hi lo = rfc_char (IPair hi lo) <-> (rfc_char (IPair hi lo) / 0x10000) mod 2 = 1).
Proof.
  intros H1 H2. cbn [rfc_char]. unfold merged.
  set (h := hi - 0xD800). set (w := lo - 0xDC00). assert (Hh : h < 1024) by lia. assert (Hw : w < 1024) by lia.
  clearbody h w. clear H1 H2.
  assert (E1 : N.lor (N.lor 65536 (h * 1024)) w = N.lor 65536 (h * 1024) + w).
  { rewrite <- N.lxor_lor, <- N.add_nocarry_lxor; [reflexivity| |].
    all: apply N.bits_inj; intro j; rewrite N.land_spec, N.bits_0; destruct (N.ltb_spec j 10) as [Hj|Hj].
    1,3: rewrite N.lor_spec; change 65536 with (2 ^ 16); change 1024 with (2 ^ 10);
      rewrite N.pow2_bits_false by lia; rewrite N.mul_pow2_bits_low by lia; reflexivity.
    all: apply andb_false_iff; right; apply N.bits_above_log2; destruct (N.eq_dec w 0) as [->|]; [cbn; lia|];
      apply N.log2_lt_pow2; [lia|]; eapply N.lt_le_trans; [exact Hw|]; change 1024 with (2 ^ 10); apply N.pow_le_mono_r; lia. }
  rewrite E1.
  assert (E2 : N.lor 65536 (h * 1024) = 65536 + h * 1024 <-> (h / 64) mod 2 = 0).
  { rewrite <- (N.bit0_mod (h / 64)). change 64 with (2 ^ 6). rewrite N.div_pow2_bits. change (0 + 6) with 6.
    destruct (N.testbit h 6) eqn:Et; cbn [N.b2n].
    - split; [|lia]. intro E. exfalso.
      assert (E3 : N.lor 65536 (h * 1024) = h * 1024).
      { apply N.bits_inj. intro j. rewrite N.lor_spec. change 65536 with (2 ^ 16). change 1024 with (2 ^ 10).
        destruct (N.eq_dec j 16) as [->|].
        - rewrite N.mul_pow2_bits_high by lia. change (16 - 10) with 6. rewrite Et. apply orb_true_r.
        - rewrite N.pow2_bits_false by congruence. reflexivity. }
      rewrite E3 in E. clear - E. lia.
    - split; [reflexivity|intros _]. rewrite <- N.lxor_lor, <- N.add_nocarry_lxor; [reflexivity| |].
      all: apply N.bits_inj; intro j; rewrite N.land_spec, N.bits_0; change 65536 with (2 ^ 16); change 1024 with (2 ^ 10);
        destruct (N.eq_dec j 16) as [->|];
        [rewrite N.mul_pow2_bits_high by lia; change (16 - 10) with 6; rewrite Et; apply andb_false_r
        |rewrite N.pow2_bits_false by congruence; reflexivity]. }
  replace ((65536 + h * 1024 + w) / 65536) with (1 + h / 64) by lia.
  split; intro E.
  - assert (N.lor 65536 (h * 1024) = 65536 + h * 1024) as E3 by lia. apply E2 in E3. lia.
  - rewrite (proj2 E2); [reflexivity|]. lia.
Qed.

Lemma decoded_right_iff i a : item_spelling i a -> (crate_char i = rfc_char i <-> decoded_right i).
Proof.
  intro H. unfold decoded_right. destruct H as [x Hs Hx H1 H2|b Hin|h u Hh Hu|h1 hi h2 lo Hh1 Hhi Hh2 Hlo]; cbn [crate_char].
  - split; [|reflexivity]. intros _. split; [discriminate|]. right. right. reflexivity.
  - destruct (N.eqb_spec b 98) as [->|Hb].
    + split; [discriminate|]. intros [K _]. destruct (K eq_refl).
    + split; [|reflexivity]. intros _. split; [congruence|]. left.
      cbn in Hin. repeat (destruct Hin as [<-|Hin]; [reflexivity|]). contradiction.
  - split; [|reflexivity]. intros _. split; [discriminate|]. left. cbn [rfc_char]. pose proof (hex4_bound _ _ Hh). lia.
  - rewrite (merged_right hi lo Hhi Hlo). split.
    + intro K. split; [discriminate|]. right. left. exact K.
    + intros [_ [K|[K|K]]]; [|exact K|discriminate]. cbn [rfc_char] in K. lia.
Qed.

(** Exactly what is decoded, item by item. *)
Theorem C22_decoded_exactly pw x l : parsed pw x -> items_text l (stored x) ->
  js_decoded pw x = Ok (map crate_char l) /\ str_body (stored x) (map rfc_char l).
Proof.
  intros H Hl. apply parsed_wf in H as (l' & Hl' & _ & Hw & _).
  rewrite (items_text_fun _ _ _ Hl Hl'). split; [apply jwf_decoded; exact Hw|]. apply str_body_items. eauto.
Qed.

(** The decoded text is the text of RFC 8259 exactly when every item is one the crate gets right. *)
Theorem C22_decoded_is_denoted_partial pw x l : parsed pw x -> items_text l (stored x) ->
  ((exists cs, str_body (stored x) cs /\ js_decoded pw x = Ok cs) <-> Forall decoded_right l).
Proof.
  intros H Hl. destruct (C22_decoded_exactly pw x l H Hl) as [E Hb]. rewrite E. split.
  - intros (cs & Hcs & Ec). injection Ec as <-. pose proof (str_body_det _ _ _ Hb Hcs) as Em.
    clear - Hl Em. induction Hl as [|i l a r Hi Hl IH]; [constructor|]. cbn [map] in Em. injection Em as E1 E2.
    constructor; [|apply IH; exact E2]. apply (decoded_right_iff _ _ Hi). congruence.
  - intro Hr. exists (map rfc_char l). split; [exact Hb|]. f_equal. clear - Hl Hr.
    induction Hl as [|i l a r Hi Hl IH]; [reflexivity|]. inversion Hr; subst. cbn [map]. f_equal; [|apply IH; assumption].
    apply (decoded_right_iff _ _ Hi). assumption.
Qed.

(** Every string content can be parsed, so the above says something about each of them. *)
Theorem C22_every_content_is_parsed pw raw cs : str_body raw cs -> N.of_nat (length raw) + 2 <= isize_max pw ->
  exists x l, parsed pw x /\ stored x = raw /\ items_text l (stored x).
Proof.
  intros H Hl. exists (string_for pw raw cs). pose proof (parsed_exists pw raw cs H Hl) as Hp.
  apply str_body_items in H as (l & Hi & _). exists l. auto.
Qed.

(** The full property is false of the crate: [\b], and a pair denoting U+20000. *)
Theorem C22_decoded_is_denoted_refuted :
  (exists x, string_from_json W64 (bs """\b""") = Ok x /\ str_body (stored x) [8] /\ js_decoded W64 x = Ok [7]) /\
  (exists x, string_from_json W64 (bs """\ud840\udc00""") = Ok x /\ str_body (stored x) [0x20000] /\
             js_decoded W64 x = Ok [0x10000]).
Proof.
  split.
  - eexists. split; [vm_compute; reflexivity|]. split; [|vm_compute; reflexivity].
    apply str_body_one. apply (si_simple 98 8). cbn. tauto.
  - eexists. split; [vm_compute; reflexivity|]. split; [|vm_compute; reflexivity].
    apply (str_body_one _ 0x20000).
    assert (H1 : hex4 (bs "d840") 0xD840).
    { apply (hex4_intro 100 56 52 48 13 8 4 0); [apply (hex_af 100)|apply (hex_09 56)|apply (hex_09 52)|apply (hex_09 48)]; lia. }
    assert (H2 : hex4 (bs "dc00") 0xDC00).
    { apply (hex4_intro 100 99 48 48 13 12 0 0); [apply (hex_af 100)|apply (hex_af 99)|apply (hex_09 48)|apply (hex_09 48)]; lia. }
    apply (si_pair _ 0xD840 _ 0xDC00 H1); [lia|exact H2|lia].
Qed.

(** * C23: no operation panics, only scalar values are produced *)
Theorem C23_decoding_never_panics pw x : obtainable pw x ->
  exists cs, js_decoded pw x = Ok cs /\ Forall (fun c => is_scalar c = true) cs /\
    js_display pw x = Ok (utf8_string cs).
Proof.
  intro H. apply obtainable_wf in H as (cs & H). exists cs. rewrite (jwf_decoded _ _ _ H).
  split; [reflexivity|]. split; [eapply jwf_scalars; eassumption|]. unfold js_display. rewrite (jwf_decoded _ _ _ H). reflexivity.
Qed.

Lemma is_utf8_chars s : is_utf8 s -> exists ds, scalars ds /\ s = utf8_string ds.
Proof. intros (ds & H1 & H2). eauto. Qed.

Theorem C23_comparing_never_panics pw x y s : obtainable pw x -> obtainable pw y -> is_utf8 s ->
  (exists b, js_eq pw x y = Ok b) /\ (exists b, js_eq_str pw x s = Ok b) /\
  (exists c, js_cmp pw x y = Ok c) /\ (exists c, js_partial_cmp pw x y = Ok (Some c)) /\
  (exists c, js_partial_cmp_str pw x s = Ok (Some c)) /\ (exists h, js_hash pw x = Ok h).
Proof.
  intros Hx Hy Hs. apply obtainable_wf in Hx as (cs & Hx). apply obtainable_wf in Hy as (ds & Hy).
  apply is_utf8_chars in Hs as (es & Hes & ->).
  rewrite (jwf_eq _ _ _ _ _ Hx Hy), (jwf_eq_str _ _ _ _ Hx Hes), (jwf_cmp_str _ _ _ _ Hx Hes).
  unfold js_partial_cmp. rewrite (jwf_cmp _ _ _ _ _ Hx Hy). cbn [bind].
  destruct (jwf_hash _ _ _ Hx) as (h & Hh & _). rewrite Hh. repeat split; eauto.
Qed.

(** * C25: equality with a str *)
Theorem C25_eq_str_is_text_equality pw x cs s : obtainable pw x -> js_decoded pw x = Ok cs -> is_utf8 s ->
  exists b, js_eq_str pw x s = Ok b /\ (b = true <-> utf8_string cs = s).
Proof.
  intros Hx E Hs. apply obtainable_wf in Hx as (cs' & Hx). rewrite (jwf_decoded _ _ _ Hx) in E. injection E as ->.
  apply is_utf8_chars in Hs as (ds & Hds & ->). rewrite (jwf_eq_str _ _ _ _ Hx Hds). eexists. split; [reflexivity|].
  apply bytes_eqb_eq.
Qed.

(** * C26: equality of JsonStrings *)

(** Exactly when two strings compare equal: same text and, if one is in JSON form and the other in raw
    form, also the same [len()]. *)
Theorem C26_eq_exactly pw x y cs ds : obtainable pw x -> obtainable pw y ->
  js_decoded pw x = Ok cs -> js_decoded pw y = Ok ds ->
  exists b, js_eq pw x y = Ok b /\
    (b = true <-> cs = ds /\ ((is_json_form x <-> is_json_form y) \/ js_len pw x = js_len pw y)).
Proof.
  intros Hx Hy Ex Ey. apply obtainable_wf in Hx as (cs' & Hx). apply obtainable_wf in Hy as (ds' & Hy).
  rewrite (jwf_decoded _ _ _ Hx) in Ex. injection Ex as ->. rewrite (jwf_decoded _ _ _ Hy) in Ey. injection Ey as ->.
  rewrite (jwf_eq _ _ _ _ _ Hx Hy). eexists. split; [reflexivity|].
  rewrite andb_true_iff, orb_true_iff, bytes_eqb_eq, N.eqb_eq.
  assert (Hf : same_form x y = true <-> (is_json_form x <-> is_json_form y)).
  { unfold same_form, is_json_form. destruct (js_source x), (js_source y); intuition discriminate. }
  rewrite Hf. split; intros [H1 H2]; (split; [|exact H2]).
  - apply utf8_string_inj; [eapply jwf_scalars; eassumption|eapply jwf_scalars; eassumption|exact H1].
  - congruence.
Qed.

(** Equal strings always have the same text; strings of the same form are equal exactly when they
    have the same text (in particular all parsed strings). *)
Theorem C26_eq_is_text_equality_partial pw x y cs ds : obtainable pw x -> obtainable pw y ->
  js_decoded pw x = Ok cs -> js_decoded pw y = Ok ds ->
  (js_eq pw x y = Ok true -> cs = ds) /\
  ((is_json_form x <-> is_json_form y) -> (js_eq pw x y = Ok true <-> cs = ds)).
Proof.
  intros Hx Hy Ex Ey. destruct (C26_eq_exactly pw x y cs ds Hx Hy Ex Ey) as (b & E & Hb). rewrite E. split.
  - intro K. injection K as ->. apply Hb. reflexivity.
  - intro Hf. split.
    + intro K. injection K as ->. apply Hb. reflexivity.
    + intro K. f_equal. apply Hb. auto.
Qed.

Theorem C26_parsed_strings pw x y cs ds : parsed pw x -> parsed pw y ->
  js_decoded pw x = Ok cs -> js_decoded pw y = Ok ds -> (js_eq pw x y = Ok true <-> cs = ds).
Proof.
  intros Hx Hy Ex Ey. apply (C26_eq_is_text_equality_partial pw x y cs ds); try assumption; try (left; assumption).
  apply parsed_wf in Hx as (_ & _ & Hx & _). apply parsed_wf in Hy as (_ & _ & Hy & _). tauto.
Qed.

(** The full property is false: the two strings below both decode to a line feed. *)
Theorem C26_eq_is_text_equality_refuted : exists x y,
  string_from_json W64 (bs """\u000a""") = Ok x /\ js_from_str W64 [10] = Ok y /\
  js_decoded W64 x = Ok [10] /\ js_decoded W64 y = Ok [10] /\ js_eq W64 x y = Ok false.
Proof. eexists _, _. split; [vm_compute; reflexivity|]. split; [vm_compute; reflexivity|]. split; [|split]; vm_compute; reflexivity. Qed.

(** * C27: [==] as a relation *)
Theorem C27_eq_reflexive pw x : obtainable pw x -> js_eq pw x x = Ok true.
Proof.
  intro Hx. apply obtainable_wf in Hx as (cs & Hx). rewrite (jwf_eq _ _ _ _ _ Hx Hx), bytes_eqb_refl, N.eqb_refl, orb_true_r. reflexivity.
Qed.

Theorem C27_eq_symmetric pw x y : obtainable pw x -> obtainable pw y -> js_eq pw x y = js_eq pw y x.
Proof.
  intros Hx Hy. destruct (obtainable_wf _ _ Hx) as (cs & Wx). destruct (obtainable_wf _ _ Hy) as (ds & Wy).
  destruct (C26_eq_exactly pw x y cs ds Hx Hy (jwf_decoded _ _ _ Wx) (jwf_decoded _ _ _ Wy)) as (b & E & Hb).
  destruct (C26_eq_exactly pw y x ds cs Hy Hx (jwf_decoded _ _ _ Wy) (jwf_decoded _ _ _ Wx)) as (b' & E' & Hb').
  rewrite E, E'. f_equal. apply eq_true_iff_eq. rewrite Hb, Hb'. split; intros [-> [H|H]]; (split; [reflexivity|]); [left; tauto|auto|left; tauto|auto].
Qed.

(** Transitive as long as the two ends have the same form, or all three the same [len()]. *)
Theorem C27_eq_transitive_partial pw x y z : obtainable pw x -> obtainable pw y -> obtainable pw z ->
  (is_json_form x <-> is_json_form z) \/ js_len pw x = js_len pw z ->
  js_eq pw x y = Ok true -> js_eq pw y z = Ok true -> js_eq pw x z = Ok true.
Proof.
  intros Hx Hy Hz Hf E1 E2. destruct (obtainable_wf _ _ Hx) as (cs & Wx). destruct (obtainable_wf _ _ Hy) as (ds & Wy).
  destruct (obtainable_wf _ _ Hz) as (es & Wz).
  apply jwf_decoded in Wx as Dx. apply jwf_decoded in Wy as Dy. apply jwf_decoded in Wz as Dz.
  apply (proj1 (C26_eq_is_text_equality_partial pw x y cs ds Hx Hy Dx Dy)) in E1.
  apply (proj1 (C26_eq_is_text_equality_partial pw y z ds es Hy Hz Dy Dz)) in E2. subst.
  destruct (C26_eq_exactly pw x z es es Hx Hz Dx Dz) as (b & -> & Hb). f_equal. apply Hb. auto.
Qed.

Theorem C27_eq_transitive_refuted : exists x y z,
  string_from_json W64 (bs """\u000a""") = Ok x /\ string_from_json W64 (bs """\n""") = Ok y /\ js_from_str W64 [10] = Ok z /\
  js_eq W64 x y = Ok true /\ js_eq W64 y z = Ok true /\ js_eq W64 x z = Ok false.
Proof.
  eexists _, _, _. split; [vm_compute; reflexivity|]. split; [vm_compute; reflexivity|]. split; [vm_compute; reflexivity|].
  split; [|split]; vm_compute; reflexivity.
Qed.

(** * C28: ordering *)
Theorem C28_cmp_is_text_order pw x y cs ds : obtainable pw x -> obtainable pw y ->
  js_decoded pw x = Ok cs -> js_decoded pw y = Ok ds ->
  js_cmp pw x y = Ok (lex_cmp cs ds) /\ js_partial_cmp pw x y = Ok (Some (lex_cmp cs ds)) /\
  lex_cmp cs ds = lex_cmp (utf8_string cs) (utf8_string ds).
Proof.
  intros Hx Hy Ex Ey. apply obtainable_wf in Hx as (cs' & Hx). apply obtainable_wf in Hy as (ds' & Hy).
  rewrite (jwf_decoded _ _ _ Hx) in Ex. injection Ex as ->. rewrite (jwf_decoded _ _ _ Hy) in Ey. injection Ey as ->.
  unfold js_partial_cmp. rewrite (jwf_cmp _ _ _ _ _ Hx Hy). split; [reflexivity|]. split; [reflexivity|].
  symmetry. apply utf8_string_order; eapply jwf_scalars; eassumption.
Qed.

Theorem C28_cmp_str_is_text_order pw x cs s : obtainable pw x -> js_decoded pw x = Ok cs -> is_utf8 s ->
  js_partial_cmp_str pw x s = Ok (Some (lex_cmp (utf8_string cs) s)).
Proof.
  intros Hx E Hs. apply obtainable_wf in Hx as (cs' & Hx). rewrite (jwf_decoded _ _ _ Hx) in E. injection E as ->.
  apply is_utf8_chars in Hs as (ds & Hds & ->). rewrite (jwf_cmp_str _ _ _ _ Hx Hds).
  rewrite utf8_string_order; [reflexivity|eapply jwf_scalars; eassumption|exact Hds].
Qed.

(** [cmp] is a total order on JsonStrings (as a total preorder: [Equal] means same text). *)
Theorem C28_cmp_total_order pw x y z : obtainable pw x -> obtainable pw y -> obtainable pw z ->
  (exists c, js_cmp pw x y = Ok c /\ js_cmp pw y x = Ok (CompOpp c)) /\
  js_cmp pw x x = Ok Eq /\
  (js_cmp pw x y = Ok Lt -> js_cmp pw y z = Ok Lt -> js_cmp pw x z = Ok Lt) /\
  (js_cmp pw x y = Ok Eq -> js_cmp pw x z = js_cmp pw y z) /\
  (js_cmp pw x y = Ok Eq <-> js_decoded pw x = js_decoded pw y).
Proof.
  intros Hx Hy Hz. apply obtainable_wf in Hx as (cs & Hx). apply obtainable_wf in Hy as (ds & Hy). apply obtainable_wf in Hz as (es & Hz).
  rewrite (jwf_cmp _ _ _ _ _ Hx Hy), (jwf_cmp _ _ _ _ _ Hy Hx), (jwf_cmp _ _ _ _ _ Hx Hx), (jwf_cmp _ _ _ _ _ Hx Hz), (jwf_cmp _ _ _ _ _ Hy Hz).
  rewrite (jwf_decoded _ _ _ Hx), (jwf_decoded _ _ _ Hy).
  split; [eexists; split; [reflexivity|]; f_equal; apply lex_cmp_antisym|].
  split; [f_equal; apply lex_cmp_refl|]. split.
  - intros E1 E2. injection E1 as E1. injection E2 as E2. f_equal. eapply lex_cmp_trans_lt; eassumption.
  - split.
    + intro E. injection E as E. apply lex_cmp_eq in E. congruence.
    + split; intro E.
      * injection E as E. apply lex_cmp_eq in E. congruence.
      * injection E as ->. f_equal. apply lex_cmp_refl.
Qed.

(** * C29: ordering against equality *)
Theorem C29_cmp_str_consistent pw x s : obtainable pw x -> is_utf8 s ->
  (js_partial_cmp_str pw x s = Ok (Some Eq) <-> js_eq_str pw x s = Ok true).
Proof.
  intros Hx Hs. apply obtainable_wf in Hx as (cs & Hx). apply is_utf8_chars in Hs as (ds & Hds & ->).
  rewrite (jwf_cmp_str _ _ _ _ Hx Hds), (jwf_eq_str _ _ _ _ Hx Hds). split; intro E; injection E as E.
  - f_equal. apply lex_cmp_eq in E. subst. apply bytes_eqb_refl.
  - apply bytes_eqb_eq, utf8_string_inj in E; [|eapply jwf_scalars; eassumption|exact Hds]. subst. do 2 f_equal. apply lex_cmp_refl.
Qed.

(** [==] implies [cmp] Equal; the converse holds between strings of the same form. *)
Theorem C29_cmp_consistent_partial pw x y : obtainable pw x -> obtainable pw y ->
  (js_eq pw x y = Ok true -> js_cmp pw x y = Ok Eq) /\
  ((is_json_form x <-> is_json_form y) -> js_cmp pw x y = Ok Eq -> js_eq pw x y = Ok true).
Proof.
  intros Hx Hy. destruct (obtainable_wf _ _ Hx) as (cs & Wx). destruct (obtainable_wf _ _ Hy) as (ds & Wy).
  destruct (C26_eq_is_text_equality_partial pw x y cs ds Hx Hy (jwf_decoded _ _ _ Wx) (jwf_decoded _ _ _ Wy)) as [H1 H2].
  rewrite (jwf_cmp _ _ _ _ _ Wx Wy). split.
  - intro E. rewrite (H1 E). f_equal. apply lex_cmp_refl.
  - intros Hf E. injection E as E. apply lex_cmp_eq in E. apply H2; assumption.
Qed.

Theorem C29_cmp_consistent_refuted : exists x y,
  string_from_json W64 (bs """\u000a""") = Ok x /\ js_from_str W64 [10] = Ok y /\
  js_cmp W64 x y = Ok Eq /\ js_eq W64 x y = Ok false.
Proof. eexists _, _. split; [vm_compute; reflexivity|]. split; [vm_compute; reflexivity|]. split; vm_compute; reflexivity. Qed.

(** * C30: hashing
    A hash run is the list of byte slices passed to [Hasher::write]. *)

(** Every string feeds the hasher the bytes that hashing its text as a [str] feeds. *)
Theorem C30_hash_bytes_of_text_partial pw x cs : obtainable pw x -> js_decoded pw x = Ok cs ->
  exists chunks, js_hash pw x = Ok chunks /\ List.concat chunks = List.concat (str_hash (utf8_string cs)).
Proof.
  intros Hx E. apply obtainable_wf in Hx as (cs' & Hx). rewrite (jwf_decoded _ _ _ Hx) in E. injection E as ->.
  destruct (jwf_hash _ _ _ Hx) as (h & Hh & Hc & _). eauto.
Qed.

(** Hence equal strings hash equally for every hasher that does not look at how the bytes are divided
    into [write] calls. *)
Theorem C30_equal_strings_hash_equally_partial pw x y {H : Type} (hasher : list (list N) -> H) :
  (forall c c', List.concat c = List.concat c' -> hasher c = hasher c') ->
  obtainable pw x -> obtainable pw y -> js_eq pw x y = Ok true ->
  exists cx cy, js_hash pw x = Ok cx /\ js_hash pw y = Ok cy /\ hasher cx = hasher cy.
Proof.
  intros Hh Hx Hy E. destruct (obtainable_wf _ _ Hx) as (cs & Wx). destruct (obtainable_wf _ _ Hy) as (ds & Wy).
  apply (proj1 (C26_eq_is_text_equality_partial pw x y cs ds Hx Hy (jwf_decoded _ _ _ Wx) (jwf_decoded _ _ _ Wy))) in E. subst ds.
  destruct (jwf_hash _ _ _ Wx) as (cx & Ex & Cx & _). destruct (jwf_hash _ _ _ Wy) as (cy & Ey & Cy & _).
  exists cx, cy. split; [exact Ex|]. split; [exact Ey|]. apply Hh. congruence.
Qed.

(** Strings whose JSON form has no escapes, and raw strings, hash exactly as their text. *)
Theorem C30_hash_like_str pw x cs t : obtainable pw x -> js_decoded pw x = Ok cs -> js_as_str pw x = Some t ->
  js_hash pw x = Ok (str_hash (utf8_string cs)).
Proof.
  intros Hx E Hs. apply obtainable_wf in Hx as (cs' & Hx). rewrite (jwf_decoded _ _ _ Hx) in E. injection E as ->.
  destruct (jwf_hash _ _ _ Hx) as (h & Hh & _ & Hc & _). rewrite Hh. f_equal. apply Hc.
  unfold js_as_str in Hs. destruct (js_source x); [|reflexivity]. destruct (has_escapes pw (js_info x)); [discriminate|reflexivity].
Qed.

(** The division into [write] calls is not the same for equal strings, so a hasher that depends on it
    (which [Hasher] permits) can tell them apart. *)
Theorem C30_equal_strings_hash_equally_refuted : exists x y,
  string_from_json W64 (bs """\na""") = Ok x /\ js_from_str W64 [10; 97] = Ok y /\
  js_eq W64 x y = Ok true /\ js_hash W64 x <> js_hash W64 y.
Proof.
  eexists _, _. split; [vm_compute; reflexivity|]. split; [vm_compute; reflexivity|]. split; [vm_compute; reflexivity|].
  vm_compute. discriminate.
Qed.

(** * C31: From<&str> and From<String> keep the text *)
Theorem C31_from_keeps_text pw s x : built pw s x ->
  exists cs, s = utf8_string cs /\ Forall (fun c => is_scalar c = true) cs /\
    js_decoded pw x = Ok cs /\ js_display pw x = Ok s /\ js_eq_str pw x s = Ok true /\
    js_partial_cmp_str pw x s = Ok (Some Eq).
Proof.
  intro H. apply built_shape in H as (a & cs & Hcs & -> & _ & _ & _ & _ & Hw). exists cs.
  split; [reflexivity|]. split; [exact Hcs|]. split; [apply jwf_decoded; exact Hw|].
  unfold js_display. rewrite (jwf_decoded _ _ _ Hw), (jwf_eq_str _ _ _ _ Hw Hcs), (jwf_cmp_str _ _ _ _ Hw Hcs), bytes_eqb_refl, lex_cmp_refl.
  auto.
Qed.

(** Borrowed and owned texts give strings that behave the same. *)
Theorem C31_from_string_is_from_str pw s x y : rust_str pw s -> js_from_str pw s = Ok x -> js_from_string pw s = Ok y ->
  js_eq pw x y = Ok true /\ js_decoded pw x = js_decoded pw y /\ js_len pw x = js_len pw y /\ (is_json_form x <-> is_json_form y).
Proof.
  intros Hs Ex Ey.
  destruct (built_shape pw s x (conj Hs (or_introl Ex))) as (a & cs & Hcs & E1 & Ea & Hl & Hc & -> & Wx).
  destruct (built_shape pw s y (conj Hs (or_intror Ey))) as (b & ds & Hds & E2 & Eb & _ & _ & -> & Wy).
  assert (cs = ds) by (apply utf8_string_inj; congruence). subst ds.
  assert (Hf : is_json_form (built_from pw a cs) <-> is_json_form (built_from pw b cs)).
  { unfold built_from. destruct (existsb must_escape cs); cbn; tauto. }
  split; [|split; [|split; [|exact Hf]]].
  - rewrite (jwf_eq _ _ _ _ _ Wx Wy), bytes_eqb_refl. cbn [andb]. unfold same_form, built_from.
    destruct (existsb must_escape cs); reflexivity.
  - rewrite (jwf_decoded _ _ _ Wx), (jwf_decoded _ _ _ Wy). reflexivity.
  - unfold js_len, built_from. destruct (existsb must_escape cs); cbn; congruence.
Qed.
