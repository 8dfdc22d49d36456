(** Property theorems about JsonString: lengths, escaping, size hints, capacity (C24, C32-C34, C44, C45). *)
From Verif Require Import Base Utf8 Utf8Facts StrModel ErrorModel Tokenizer Parser ValueModel DocModel NumModel Spec SpecStr
  TokBase TokStr TokFacts StrSpec View ParseMain StrFacts StrEsc StrWf PropTok PropEntry StrObt PropStr.
Local Open Scope N_scope.

(** Characters U+0080..U+00FF: two bytes in UTF-8, counted as one by the crate. *)
Definition latin1 (c : N) : Prop := 0x80 <= c <= 0xFF.

(** * Lengths *)
Lemma nibble_range c : c < 32 -> 48 <= nibble_char (c mod 16) < 128 /\ 48 <= nibble_char (c / 16) < 128.
Proof. intro H. unfold nibble_char. destruct (c mod 16 <? 10), (c / 16 <? 10); lia. Qed.

Lemma escaped1_ascii c : must_escape c = true -> Forall (fun b => b < 128) (escaped1 c).
Proof.
  intro H. unfold escaped1. rewrite H. cbn [negb].
  destruct ((c =? 34) || (c =? 92)) eqn:E1; [repeat constructor; lia|].
  repeat match goal with |- context [if c =? ?k then _ else _] => destruct (c =? k); [repeat constructor; lia|] end.
  assert (Hc : c < 32) by (unfold must_escape in H; lia). pose proof (nibble_range c Hc). repeat constructor; lia.
Qed.

Lemma utf8_string_ascii t : Forall (fun b => b < 128) t -> utf8_string t = t.
Proof.
  induction 1 as [|b t Hb Ht IH]; [reflexivity|]. rewrite utf8_string_cons, utf8_encode_ascii, IH by assumption. reflexivity.
Qed.

Lemma escaped1_bytes c : length (utf8_string (escaped1 c)) = if must_escape c then length (escaped1 c) else len_utf8 c.
Proof.
  destruct (must_escape c) eqn:E.
  - rewrite utf8_string_ascii by (apply escaped1_ascii; exact E). reflexivity.
  - unfold escaped1. rewrite E. cbn [negb]. rewrite utf8_string_cons, app_length, utf8_encode_length. cbn. lia.
Qed.

Lemma counted1_exact c : counted1 c + (if (0x80 <=? c) && (c <=? 0xFF) then 1 else 0) = N.of_nat (length (utf8_string (escaped1 c))).
Proof.
  rewrite escaped1_bytes. unfold counted1. destruct (must_escape c) eqn:E.
  - unfold must_escape in E. destruct ((128 <=? c) && (c <=? 255)) eqn:E2; lia.
  - unfold len_utf8. destruct (N.ltb_spec c 128).
    { destruct (N.leb_spec c 255), (N.leb_spec 128 c); try lia; reflexivity. }
    destruct (N.ltb_spec c 2048).
    { destruct (N.leb_spec c 255), (N.leb_spec 128 c); try lia; reflexivity. }
    destruct (N.leb_spec c 255), (N.leb_spec 128 c); try lia. destruct (c <? 65536); reflexivity.
Qed.

(** How far the counter is off: one for every character U+0080..U+00FF. *)
Fixpoint latin1_count (cs : list N) : N :=
  match cs with [] => 0 | c :: r => (if (0x80 <=? c) && (c <=? 0xFF) then 1 else 0) + latin1_count r end.

Lemma counted_exact cs : counted cs + latin1_count cs = N.of_nat (length (utf8_string (escaped cs))).
Proof.
  induction cs as [|c cs IH]; [reflexivity|]. unfold escaped in *. cbn [counted latin1_count flat_map].
  rewrite utf8_string_app, app_length. pose proof (counted1_exact c). lia.
Qed.

Lemma latin1_count_0 cs : latin1_count cs = 0 <-> Forall (fun c => ~ latin1 c) cs.
Proof.
  induction cs as [|c cs IH]; cbn [latin1_count]; [split; [constructor|reflexivity]|]. unfold latin1 in *.
  destruct ((128 <=? c) && (c <=? 255)) eqn:E; split; intro H.
  - lia.
  - inversion H. lia.
  - constructor; [lia|apply IH; lia].
  - inversion H. apply IH in H3. lia.
Qed.

Lemma escaped_plain cs : existsb must_escape cs = false -> escaped cs = cs.
Proof.
  induction cs as [|c cs IH]; [reflexivity|]. cbn [existsb]. intro H. apply orb_false_iff in H as [H1 H2].
  unfold escaped in *. cbn [flat_map]. rewrite IH by exact H2. unfold escaped1. rewrite H1. reflexivity.
Qed.

(** * C24: decoded_len *)
Theorem C24_parsed_decoded_len pw x cs : parsed pw x -> js_decoded pw x = Ok cs ->
  js_decoded_len pw x = N.of_nat (length (utf8_string cs)).
Proof.
  intros H E. apply parsed_wf in H as (l & Hi & Hj & Hw & Hl & Hinfo).
  rewrite (jwf_decoded _ _ _ Hw) in E. injection E as <-. unfold js_decoded_len, is_json_form in *.
  destruct (js_source x) as [a|a]; [|contradiction]. rewrite Hinfo. apply expected_length_info.
  pose proof (items_length_le _ _ Hi). rewrite (items_len _ _ Hi). lia.
Qed.

(** For strings built from text: exact in raw form; in JSON form short by one for every character
    U+0080..U+00FF. *)
Theorem C24_built_decoded_len_exactly pw s x cs : built pw s x -> js_decoded pw x = Ok cs ->
  (js_source x = CRaw (Borrowed s) \/ js_source x = CRaw (Owned s) -> js_decoded_len pw x = N.of_nat (length s)) /\
  (is_json_form x -> js_decoded_len pw x + latin1_count cs = N.of_nat (length s)).
Proof.
  intros H E. apply built_shape in H as (a & cs' & Hcs & -> & Ea & Hl & Hc & -> & Hw).
  rewrite (jwf_decoded _ _ _ Hw) in E. injection E as ->. unfold built_from, js_decoded_len, is_json_form.
  destruct (existsb must_escape cs) eqn:Em; cbn [js_source js_info]; split; intro H.
  - rewrite Ea. reflexivity.
  - contradiction.
  - destruct H; discriminate.
  - rewrite expected_length_info by exact Hc. rewrite counted_exact, escaped_plain by exact Em. reflexivity.
Qed.

Theorem C24_decoded_len_partial pw x cs : obtainable pw x -> js_decoded pw x = Ok cs ->
  parsed pw x \/ ~ is_json_form x \/ Forall (fun c => ~ latin1 c) cs ->
  js_decoded_len pw x = N.of_nat (length (utf8_string cs)).
Proof.
  intros H E Hc. destruct H as [H|[s H]]; [apply C24_parsed_decoded_len; assumption|].
  destruct Hc as [Hc|Hc]; [apply C24_parsed_decoded_len; assumption|].
  apply built_shape in H as (a & cs' & Hcs & -> & Ea & Hl & Hcn & -> & Hw).
  rewrite (jwf_decoded _ _ _ Hw) in E. injection E as ->. unfold built_from, js_decoded_len, is_json_form in *.
  destruct (existsb must_escape cs) eqn:Em; cbn [js_source js_info] in *.
  - rewrite Ea. reflexivity.
  - destruct Hc as [Hc|Hc]; [destruct Hc; exact I|]. apply latin1_count_0 in Hc.
    rewrite expected_length_info by exact Hcn. pose proof (counted_exact cs) as G. rewrite escaped_plain in G by exact Em. lia.
Qed.

Theorem C24_decoded_len_refuted : exists x,
  js_from_str W64 (utf8_string [0xE9]) = Ok x /\ js_decoded W64 x = Ok [0xE9] /\
  length (utf8_string [0xE9]) = 2%nat /\ js_decoded_len W64 x = 1.
Proof. eexists. split; [vm_compute; reflexivity|]. split; [|split]; vm_compute; reflexivity. Qed.

(** * as_json of obtainable strings *)

(** [as_json()] recounts on top of the stored length, so it needs twice the length of a raw string
    to fit the counter (see C45). *)
Definition recount_fits (pw : pwidth) (x : json_string) : Prop :=
  is_json_form x \/ 2 * js_len pw x <= isize_max pw.

Lemma as_json_wf pw x cs : jwf pw x cs -> recount_fits pw x ->
  js_as_json pw x = Ok (match js_source x with CJson a => chars (any_str a) | CRaw _ => escaped cs end).
Proof.
  intros [a i l Hi Hl _ _|a cs' Hcs Ea Hl Hc Hm] Hf; cbn [js_source].
  - pose proof (items_valid _ _ Hi) as Hv. apply chars_valid in Hv as [H1 H2]. apply as_json_json; assumption.
  - destruct Hf as [[]|Hf]. unfold js_len in Hf. cbn [js_source js_info] in Hf. rewrite expected_length_info in Hf by exact Hc.
    apply as_json_raw; assumption.
Qed.

(** * C33: len and is_empty *)
Theorem C33_len_exactly pw x cs out : obtainable pw x -> js_decoded pw x = Ok cs -> js_as_json pw x = Ok out ->
  (is_json_form x -> js_len pw x = N.of_nat (length (utf8_string out))) /\
  (~ is_json_form x -> js_len pw x + latin1_count cs = N.of_nat (length (utf8_string out))).
Proof.
  intros H E Eo. apply obtainable_wf in H as (cs' & Hw). rewrite (jwf_decoded _ _ _ Hw) in E. injection E as ->.
  destruct Hw as [a i l Hi Hl _ _|a cs Hcs Ea Hl Hc Hm]; unfold js_len, is_json_form; cbn [js_source js_info]; split; intro H.
  - pose proof (items_valid _ _ Hi) as Hv. apply chars_valid in Hv as [H1 H2].
    rewrite (as_json_json pw a i (chars (any_str a)) H1 H2) in Eo. injection Eo as <-. rewrite <- H2. reflexivity.
  - destruct H. exact I.
  - contradiction.
  - rewrite expected_length_info by exact Hc.
    destruct (N.le_gt_cases (2 * counted cs) (isize_max pw)) as [H2|H2].
    + rewrite (as_json_raw pw a cs Hcs Ea H2) in Eo. injection Eo as <-. apply counted_exact.
    + rewrite (as_json_raw_overflow pw a cs Hcs Ea Hc H2) in Eo. discriminate.
Qed.

Theorem C33_len_partial pw x cs out : obtainable pw x -> js_decoded pw x = Ok cs -> js_as_json pw x = Ok out ->
  is_json_form x \/ Forall (fun c => ~ latin1 c) cs -> js_len pw x = N.of_nat (length (utf8_string out)).
Proof.
  intros H E Eo Hc. destruct (C33_len_exactly pw x cs out H E Eo) as [H1 H2].
  destruct Hc as [Hc|Hc]; [auto|]. apply latin1_count_0 in Hc.
  assert (is_json_form x \/ ~ is_json_form x) as [K|K] by (unfold is_json_form; destruct (js_source x); tauto); [auto|].
  specialize (H2 K). lia.
Qed.

Theorem C33_len_refuted : exists x out,
  js_from_str W64 (utf8_string [10; 0xE9]) = Ok x /\ js_as_json W64 x = Ok out /\
  length (utf8_string out) = 4%nat /\ js_len W64 x = 3.
Proof. eexists _, _. split; [vm_compute; reflexivity|]. split; [vm_compute; reflexivity|]. split; vm_compute; reflexivity. Qed.

Theorem C33_is_empty pw x cs : obtainable pw x -> js_decoded pw x = Ok cs -> (js_is_empty pw x = true <-> cs = []).
Proof.
  intros H E. apply obtainable_wf in H as (cs' & Hw). rewrite (jwf_decoded _ _ _ Hw) in E. injection E as ->.
  unfold js_is_empty. rewrite N.eqb_eq.
  destruct Hw as [a i l Hi Hl _ _|a cs Hcs Ea Hl Hc Hm]; unfold js_len; cbn [js_source js_info].
  - split.
    + intro H. assert (Ea : any_str a = []) by (destruct (any_str a); [reflexivity|cbn in H; lia]). clear H Hl.
      destruct Hi as [|i0 l a0 r Hi0 Hl0]; [reflexivity|]. apply app_eq_nil in Ea as [-> _]. destruct (item_nonnil _ Hi0).
    + intro H. clear Hl. destruct Hi; [reflexivity|discriminate].
  - rewrite expected_length_info by exact Hc. split; [apply counted_0|]. intros ->. reflexivity.
Qed.

(** * C34: the borrowing accessors *)
Theorem C34_as_str pw x cs : obtainable pw x -> js_decoded pw x = Ok cs ->
  match js_as_str pw x with
  | Some t => t = utf8_string cs /\ t = stored x
  | None => is_json_form x /\ In 92 (stored x)
  end /\ (is_json_form x -> In 92 (stored x) -> js_as_str pw x = None).
Proof.
  intros H E. apply obtainable_wf in H as (cs' & Hw). rewrite (jwf_decoded _ _ _ Hw) in E. injection E as ->.
  pose proof (jwf_plain_text _ _ _ Hw) as Hp. unfold js_as_str, stored, is_json_form in *.
  assert (Hbs : forall t, has_bs t = true <-> In 92 t).
  { intro t. unfold has_bs. rewrite existsb_exists. split.
    - intros (b & Hin & Eb). apply N.eqb_eq in Eb. subst. exact Hin.
    - intro Hin. exists 92. split; [exact Hin|apply N.eqb_refl]. }
  destruct Hw as [a i l Hi Hl He _|a cs Hcs Ea Hl Hc Hm]; cbn [js_source js_info contents_str] in *.
  - destruct (has_escapes pw i) eqn:Ei; cbn [negb].
    + split; [split; [exact I|apply Hbs; congruence]|reflexivity].
    + split; [split; [apply Hp; reflexivity|reflexivity]|]. intros _ Hin. apply Hbs in Hin. congruence.
  - split; [split; [exact Ea|reflexivity]|]. intros [].
Qed.

Theorem C34_decode_if_needed pw x cs : obtainable pw x -> js_decoded pw x = Ok cs ->
  exists a, js_decode_if_needed pw x = Ok a /\ any_str a = utf8_string cs /\
    (js_as_str pw x <> None -> js_source x = CJson a \/ js_source x = CRaw a).
Proof.
  intros H E. apply obtainable_wf in H as (cs' & Hw). rewrite (jwf_decoded _ _ _ Hw) in E. injection E as ->.
  pose proof (jwf_plain_text _ _ _ Hw) as Hp. pose proof (jwf_decoded _ _ _ Hw) as Hd.
  unfold js_decode_if_needed, js_as_str in *. destruct (js_source x) as [a|a]; cbn [contents_str] in *.
  - destruct (has_escapes pw (js_info x)); cbn [negb].
    + rewrite Hd. cbn [bind]. eexists. split; [reflexivity|]. split; [reflexivity|]. intro K. destruct (K eq_refl).
    + exists a. auto.
  - exists a. auto.
Qed.

Theorem C34_as_json_str_and_escape pw x : obtainable pw x -> recount_fits pw x ->
  exists out a, js_as_json pw x = Ok out /\ js_escape_if_needed pw x = Ok a /\ any_str a = utf8_string out /\
    (is_json_form x -> js_as_json_str x = Some a /\ any_str a = stored x) /\
    (~ is_json_form x -> js_as_json_str x = None).
Proof.
  intros H Hf. apply obtainable_wf in H as (cs & Hw). pose proof (as_json_wf pw x cs Hw Hf) as E.
  unfold js_escape_if_needed, js_as_json_str, stored, is_json_form in *.
  destruct Hw as [a i l Hi Hl _ _|a cs Hcs Ea Hl Hc Hm]; cbn [js_source] in *.
  - eexists _, a. split; [exact E|]. split; [reflexivity|]. split.
    + apply items_valid, chars_valid in Hi as [_ Hi]. exact Hi.
    + split; [auto|]. intro K. destruct (K I).
  - eexists _, _. split; [exact E|]. rewrite E. cbn [bind]. split; [reflexivity|]. split; [reflexivity|]. split; [intros []|reflexivity].
Qed.

(** * C32: escaping *)

(** What the crate does with each character (all other characters: escaped properly or left alone):
    the escape of a [broken] one is not JSON, that of a [wrong] one denotes another character.
    U+0007 is written [\b], which denotes U+0008, but the crate itself reads that back as U+0007. *)
Definition broken : list N := [0x0B; 0x0E; 0x0F; 0x1A; 0x1B; 0x1C; 0x1D; 0x1E; 0x1F].
Definition wrong : list N :=
  [0x01; 0x02; 0x03; 0x04; 0x05; 0x06; 0x08; 0x10; 0x11; 0x12; 0x13; 0x14; 0x15; 0x16; 0x17; 0x18; 0x19].

Lemma below_32 c : c < 32 -> In c (map N.of_nat (seq 0 32)).
Proof. intro H. apply in_map_iff. exists (N.to_nat c). rewrite N2Nat.id. split; [reflexivity|]. apply in_seq. lia. Qed.

Ltac each_control H := apply below_32 in H; cbn in H; repeat (destruct H as [<-|H]; [|]); [..|destruct H].

Definition esc_item (c : N) : item :=
  if negb (must_escape c) then IPlain c
  else match escaped1 c with
       | [_; b] => ISimple b
       | _ => IUnicode (c mod 16 * 4096 + c / 16 * 256)
       end.

Lemma must_escape_split c : must_escape c = true -> c < 32 \/ c = 34 \/ c = 92.
Proof. unfold must_escape. lia. Qed.

Lemma esc_item_spelling c : is_scalar c = true -> ~ In c broken -> item_spelling (esc_item c) (utf8_string (escaped1 c)).
Proof.
  intros Hs Hb. destruct (must_escape c) eqn:Em.
  - apply must_escape_split in Em as [H|[->| ->]].
    + each_control H; try (exfalso; apply Hb; cbn; tauto).
      all: try (apply spell_simple; cbn; tauto).
      all: match goal with |- item_spelling ?i (utf8_string ?t) => let i' := eval vm_compute in i in let t' := eval vm_compute in (utf8_string t) in
        change (item_spelling i' t') end.
      all: match goal with |- item_spelling (IUnicode _) (_ :: _ :: [?a; ?b; ?c; ?d]) =>
        assert (Hx : hex4 [a; b; c; d] ((a - 48) * 4096 + (b - 48) * 256 + (c - 48) * 16 + (d - 48))) by (constructor; apply hex_09; lia) end.
      all: vm_compute in Hx; apply spell_unicode; [exact Hx|reflexivity].
    + apply spell_simple. cbn. tauto.
    + apply spell_simple. cbn. tauto.
  - unfold esc_item, escaped1. rewrite Em. cbn [negb]. rewrite utf8_string_cons. cbn [utf8_string flat_map].
    rewrite app_nil_r. unfold must_escape in Em. constructor; [exact Hs|lia|lia|lia].
Qed.

Lemma broken_no_item c i a r t : In c broken -> item_spelling i a -> utf8_string (escaped1 c) ++ t = a ++ r -> False.
Proof.
  intros Hb Hi E.
  assert (K : exists k t', utf8_string (escaped1 c) ++ t = 92 :: 117 :: k :: t' /\ 102 < k).
  { cbn in Hb. repeat (destruct Hb as [<-|Hb]; [eexists _, _; split; [vm_compute; reflexivity|reflexivity]|]). destruct Hb. }
  destruct K as (k & t' & K & Hk). rewrite K in E. clear K Hb.
  destruct Hi as [x Hs Hx H1 H2|b Hin|h u Hh Hu|h1 hi h2 lo Hh1 Hhi Hh2 Hlo].
  - destruct (N.ltb_spec x 128).
    + rewrite utf8_encode_ascii in E by assumption. cbn in E. congruence.
    + pose proof (utf8_encode_high x H) as Hh. destruct (utf8_encode x) as [|y ys] eqn:Ey; [destruct (utf8_encode_nonnil _ Ey)|].
      inversion Hh; subst. cbn in E. injection E as <- _. lia.
  - cbn in E. injection E as <- _. cbn in Hin. repeat (destruct Hin as [Hin|Hin]; [discriminate|]). destruct Hin.
  - destruct Hh as [a b c0 d x y z w Ha]. cbn in E. injection E as <- _. inversion Ha; lia.
  - destruct Hh1 as [a b c0 d x y z w Ha]. cbn in E. injection E as <- _. inversion Ha; lia.
Qed.

Lemma escaped_items cs : scalars cs -> Forall (fun c => ~ In c broken) cs ->
  items_text (map esc_item cs) (utf8_string (escaped cs)).
Proof.
  intro H. induction H as [|c cs Hc Hcs IH]; intro Hb; [constructor|]. inversion Hb; subst.
  unfold escaped in *. cbn [map flat_map]. rewrite utf8_string_app. constructor; [apply esc_item_spelling; assumption|auto].
Qed.

Lemma escaped_items_inv cs : scalars cs -> forall l, items_text l (utf8_string (escaped cs)) -> Forall (fun c => ~ In c broken) cs.
Proof.
  induction 1 as [|c cs Hc Hcs IH]; intros l Hl; [constructor|].
  unfold escaped in Hl. cbn [flat_map] in Hl. rewrite utf8_string_app in Hl.
  destruct (in_dec N.eq_dec c broken) as [Hb|Hb].
  - exfalso. remember (utf8_string (escaped1 c) ++ utf8_string (flat_map escaped1 cs)) as t eqn:Et.
    destruct Hl as [|i l a r Hi Hl].
    + symmetry in Et. apply app_eq_nil in Et as [Et _]. cbn in Hb.
      repeat (destruct Hb as [<-|Hb]; [vm_compute in Et; discriminate|]). destruct Hb.
    + eapply broken_no_item; [exact Hb|exact Hi|symmetry; exact Et].
  - constructor; [exact Hb|]. pose proof (esc_item_spelling c Hc Hb) as Hi.
    remember (utf8_string (escaped1 c) ++ utf8_string (flat_map escaped1 cs)) as t eqn:Et.
    destruct Hl as [|i l a r Hi' Hl].
    + symmetry in Et. apply app_eq_nil in Et as [Et _]. rewrite Et in Hi. destruct (item_nonnil _ Hi).
    + assert (Hx : str_item a (rfc_char i)) by (apply str_item_items; eauto).
      assert (Hy : str_item (utf8_string (escaped1 c)) (rfc_char (esc_item c))) by (apply str_item_items; eauto).
      destruct (str_item_det _ _ _ _ _ _ Hx Hy Et) as (-> & _ & ->). eapply IH. exact Hl.
Qed.

Lemma rfc_esc c : ~ In c broken -> (rfc_char (esc_item c) = c <-> ~ In c wrong /\ c <> 7).
Proof.
  intro Hb. destruct (must_escape c) eqn:Em.
  - apply must_escape_split in Em as [H|[->| ->]].
    + each_control H; try (exfalso; apply Hb; cbn; tauto).
      all: match goal with |- ?l = _ <-> _ => let l' := eval vm_compute in l in change l with l' end; cbn; split; intro K; try discriminate K;
        try tauto; try (split; [|lia]; intros K'; repeat (destruct K' as [K'|K']; [lia|]); destruct K').
      all: try reflexivity; exfalso; destruct K as [K1 K2]; apply K1; tauto.
    + split; [|reflexivity]. intros _. split; [|lia]. cbn. intros K; repeat (destruct K as [K|K]; [lia|]); destruct K.
    + split; [|reflexivity]. intros _. split; [|lia]. cbn. intros K; repeat (destruct K as [K|K]; [lia|]); destruct K.
  - unfold esc_item. rewrite Em. cbn [negb rfc_char]. split; [|reflexivity]. intros _. unfold must_escape in Em.
    split; [|lia]. cbn. intros K; repeat (destruct K as [K|K]; [lia|]); destruct K.
Qed.

Lemma crate_esc c : ~ In c broken -> (crate_char (esc_item c) = c <-> ~ In c wrong).
Proof.
  intro Hb. destruct (N.eq_dec c 7) as [->|H7].
  - cbn. split; [|reflexivity]. intros _ K. repeat (destruct K as [K|K]; [discriminate|]); destruct K.
  - assert (E : crate_char (esc_item c) = rfc_char (esc_item c)).
    { unfold esc_item. destruct (must_escape c) eqn:Em; cbn [negb]; [|reflexivity].
      apply must_escape_split in Em as [H|[->| ->]]; try reflexivity. each_control H; try reflexivity. destruct (H7 eq_refl). }
    rewrite E, rfc_esc by exact Hb. tauto.
Qed.

Lemma built_as_json pw s x cs out : built pw s x -> js_decoded pw x = Ok cs -> js_as_json pw x = Ok out ->
  scalars cs /\ s = utf8_string cs /\ out = escaped cs.
Proof.
  intros H E Eo. apply built_shape in H as (a & cs' & Hcs & -> & Ea & Hl & Hc & -> & Hw).
  rewrite (jwf_decoded _ _ _ Hw) in E. injection E as ->. split; [exact Hcs|]. split; [reflexivity|].
  unfold built_from in *. destruct (existsb must_escape cs) eqn:Em.
  - destruct (N.le_gt_cases (2 * counted cs) (isize_max pw)) as [H2|H2].
    + rewrite (as_json_raw pw a cs Hcs Ea H2) in Eo. injection Eo as <-. reflexivity.
    + rewrite (as_json_raw_overflow pw a cs Hcs Ea Hc H2) in Eo. discriminate.
  - rewrite (as_json_json pw a _ cs Hcs Ea) in Eo. injection Eo as <-. rewrite escaped_plain by exact Em. reflexivity.
Qed.

Lemma map_id_iff (f : N -> N) cs : map f cs = cs <-> Forall (fun c => f c = c) cs.
Proof.
  induction cs as [|c cs IH]; cbn [map]; [split; [constructor|reflexivity]|]. split; intro H.
  - injection H as H1 H2. constructor; [exact H1|apply IH; exact H2].
  - inversion H; subst. f_equal; [assumption|apply IH; assumption].
Qed.

(** When the escaped form of a text is JSON string content, and when it denotes the text. *)
Theorem C32_escaping_exactly pw s x cs out : built pw s x -> js_decoded pw x = Ok cs -> js_as_json pw x = Ok out ->
  s = utf8_string cs /\
  ((exists ds, str_body (utf8_string out) ds) <-> Forall (fun c => ~ In c broken) cs) /\
  (str_body (utf8_string out) cs <-> Forall (fun c => ~ In c broken /\ ~ In c wrong /\ c <> 7) cs).
Proof.
  intros H E Eo. destruct (built_as_json _ _ _ _ _ H E Eo) as (Hcs & Es & ->). split; [exact Es|].
  assert (H1 : (exists ds, str_body (utf8_string (escaped cs)) ds) <-> Forall (fun c => ~ In c broken) cs).
  { split.
    - intros (ds & Hd). apply str_body_items in Hd as (l & Hl & _). eapply escaped_items_inv; eassumption.
    - intro Hb. exists (map rfc_char (map esc_item cs)). apply str_body_items. eexists. split; [|reflexivity]. apply escaped_items; assumption. }
  split; [exact H1|].
  assert (H2 : Forall (fun c => ~ In c broken) cs -> str_body (utf8_string (escaped cs)) (map rfc_char (map esc_item cs))).
  { intro Hb. apply str_body_items. eexists. split; [|reflexivity]. apply escaped_items; assumption. }
  split.
  - intro Hd. assert (Hb : Forall (fun c => ~ In c broken) cs) by (apply H1; eauto).
    pose proof (str_body_det _ _ _ Hd (H2 Hb)) as Em. rewrite map_map in Em. symmetry in Em.
    apply (map_id_iff (fun c => rfc_char (esc_item c))) in Em. clear - Em Hb.
    induction Hb as [|c cs Hc Hb IH]; [constructor|]. inversion Em; subst. constructor; [|auto].
    split; [exact Hc|]. apply rfc_esc; assumption.
  - intro Hb. assert (Hb' : Forall (fun c => ~ In c broken) cs) by (eapply Forall_impl; [|exact Hb]; cbv beta; tauto).
    specialize (H2 Hb'). rewrite map_map in H2. rewrite (proj2 (map_id_iff (fun c => rfc_char (esc_item c)) cs)) in H2; [exact H2|].
    eapply Forall_impl; [|exact Hb]. intros c (K1 & K2). cbv beta. apply rfc_esc; assumption.
Qed.

(** The property, for texts whose control characters are among NUL, tab, line feed, form feed and
    carriage return. *)
Theorem C32_escaping_denotes_text_partial pw s x cs out : built pw s x -> js_decoded pw x = Ok cs -> js_as_json pw x = Ok out ->
  Forall (fun c => 32 <= c \/ In c [0; 9; 10; 12; 13]) cs ->
  str_body (utf8_string out) cs /\
  (recount_fits pw x -> exists a, js_escape_if_needed pw x = Ok a /\ any_str a = utf8_string out).
Proof.
  intros H E Eo Hc. split.
  - apply (C32_escaping_exactly pw s x cs out H E Eo). eapply Forall_impl; [|exact Hc].
    intros c K. cbv beta in K. unfold broken, wrong. cbn [In] in *. repeat split; intro K'; lia.
  - intro Hf. destruct (C34_as_json_str_and_escape pw x) as (out' & a & E1 & E2 & E3 & _); [right; eauto|exact Hf|].
    rewrite Eo in E1. injection E1 as <-. eauto.
Qed.

Lemma quoted_inv w1 raw w2 t : ws w1 -> ws w2 -> w1 ++ (34 :: raw ++ [34]) ++ w2 = [34] ++ t ++ [34] -> raw = t.
Proof.
  intros H1 H2 E. destruct w1 as [|b w1].
  - cbn [app] in E. injection E as E. destruct w2 as [|b w2] using rev_ind.
    + rewrite app_nil_r in E. apply app_inj_tail in E. tauto.
    + rewrite !app_assoc in E. apply app_inj_tail in E as [_ ->]. apply Forall_app in H2 as [_ H2]. inversion H2; subst.
      unfold ws_byte in *. lia.
  - cbn [app] in E. injection E as -> _. inversion H1; subst. unfold ws_byte in *. lia.
Qed.

(** When the crate itself reads an escaped text back as that text. *)
Theorem C32_crate_reads_back_exactly pw s x cs out : built pw s x -> js_decoded pw x = Ok cs -> js_as_json pw x = Ok out ->
  N.of_nat (length (utf8_string out)) + 2 <= isize_max pw ->
  (exists y, string_from_json pw ([34] ++ utf8_string out ++ [34]) = Ok y /\ js_decoded pw y = Ok cs) <->
  Forall (fun c => ~ In c broken /\ ~ In c wrong) cs.
Proof.
  intros H E Eo Hl. destruct (C32_escaping_exactly pw s x cs out H E Eo) as (_ & H1 & _).
  destruct (built_as_json _ _ _ _ _ H E Eo) as (Hcs & Es & ->). clear H E Eo.
  set (t := utf8_string (escaped cs)) in *.
  assert (Hs : rust_str pw ([34] ++ t ++ [34])).
  { split.
    - apply utf8_valid_iff. cbn [app]. rewrite utf8_valid_ascii_cons by lia.
      rewrite utf8_valid_app; [reflexivity|]. apply utf8_valid_iff. exists (escaped cs). split; [|reflexivity].
      apply Forall_flat_map. eapply Forall_impl; [|exact Hcs]. intros c Hc. cbv beta in Hc.
      destruct (must_escape c) eqn:Em.
      + eapply Forall_impl; [|apply escaped1_ascii; exact Em]. intros b Hb. cbv beta in *. apply is_scalar_spec. lia.
      + unfold escaped1. rewrite Em. cbn [negb]. constructor; [exact Hc|constructor].
    - rewrite !app_length. cbn [length]. lia. }
  split.
  - intros (y & Ey & Ed).
    assert (Hp : parsed pw y) by (eapply parsed_string; eassumption).
    pose proof Hp as Hw. apply parsed_wf in Hw as (_ & _ & Hf & _).
    destruct (proj1 (C46_string_accepts_exactly pw _ (stored y) Hs)) as (w1 & w2 & ds & Hw1 & Hw2 & Hd & E); [eauto|].
    pose proof (quoted_inv w1 (stored y) w2 t Hw1 Hw2 (eq_sym E)) as Est. rewrite Est in Hd.
    assert (Ht : exists ds, str_body t ds) by eauto.
    apply H1 in Ht. pose proof (escaped_items cs Hcs Ht) as Hi.
    assert (Hi' : items_text (map esc_item cs) (stored y)) by (rewrite Est; exact Hi).
    destruct (C22_decoded_exactly pw y _ Hp Hi') as [Ed' _]. rewrite Ed' in Ed. injection Ed as Ed. rewrite map_map in Ed.
    apply (map_id_iff (fun c => crate_char (esc_item c))) in Ed. clear - Ed Ht.
    induction Ht as [|c cs Hc Hb IH]; [constructor|]. inversion Ed; subst. constructor; [|auto].
    split; [exact Hc|]. apply crate_esc; assumption.
  - intro Hb. assert (Hb' : Forall (fun c => ~ In c broken) cs) by (eapply Forall_impl; [|exact Hb]; cbv beta; tauto).
    pose proof (escaped_items cs Hcs Hb') as Hi. fold t in Hi.
    destruct (proj2 (C46_string_accepts_exactly pw _ t Hs)) as (y & Ey & _ & Est).
    { apply H1 in Hb' as (ds & Hd). exists [], [], ds. split; [constructor|]. split; [constructor|]. split; [exact Hd|]. rewrite app_nil_r. reflexivity. }
    exists y. split; [exact Ey|].
    assert (Hp : parsed pw y) by (eapply parsed_string; eassumption).
    rewrite <- Est in Hi. destruct (C22_decoded_exactly pw y _ Hp Hi) as [-> _]. f_equal. rewrite map_map.
    apply (map_id_iff (fun c => crate_char (esc_item c))). eapply Forall_impl; [|exact Hb]. intros c (K1 & K2). cbv beta. apply crate_esc; assumption.
Qed.

Theorem C32_escaping_denotes_text_refuted :
  (exists x out, js_from_str W64 [0x0B] = Ok x /\ js_as_json W64 x = Ok out /\
     out = bs "\ul000" /\ forall ds, ~ str_body (utf8_string out) ds) /\
  (exists x out, js_from_str W64 [0x01] = Ok x /\ js_as_json W64 x = Ok out /\
     out = bs "\u1000" /\ str_body (utf8_string out) [0x1000] /\ ~ str_body (utf8_string out) [0x01]) /\
  (exists x out, js_from_str W64 [0x07] = Ok x /\ js_as_json W64 x = Ok out /\
     out = bs "\b" /\ str_body (utf8_string out) [0x08] /\ ~ str_body (utf8_string out) [0x07]).
Proof.
  assert (Hr : forall c, c < 128 -> rust_str W64 [c]).
  { intros c Hc. split; [|cbn; lia]. exists [c]. split; [constructor; [apply is_scalar_spec; lia|constructor]|]. cbn.
    rewrite app_nil_r, utf8_encode_ascii by assumption. reflexivity. }
  split; [|split]; eexists _, _; (split; [vm_compute; reflexivity|]); (split; [vm_compute; reflexivity|]); (split; [reflexivity|]).
  - intros ds Hd.
    assert (K : exists ds, str_body (utf8_string (bs "\ul000")) ds) by (eexists; exact Hd).
    eapply (C32_escaping_exactly W64 [0x0B] _ [0x0B] (bs "\ul000")) in K.
    + inversion K as [|c cs Hc _ Ec]. apply Hc. cbn. tauto.
    + split; [apply Hr; lia|left; vm_compute; reflexivity].
    + vm_compute. reflexivity.
    + vm_compute. reflexivity.
  - assert (Hb : str_body (utf8_string (bs "\u1000")) [0x1000]).
    { apply (sb_cons (bs "\u1000") 0x1000 [] []); [|constructor]. apply (si_unicode (bs "1000")); [|reflexivity].
      apply (hex4_intro 49 48 48 48 1 0 0 0); [apply (hex_09 49)|apply (hex_09 48)..]; lia. }
    split; [exact Hb|]. intro K. pose proof (str_body_det _ _ _ Hb K). discriminate.
  - assert (Hb : str_body (utf8_string (bs "\b")) [0x08]).
    { apply (sb_cons (bs "\b") 8 [] []); [|constructor]. apply si_simple. cbn. tauto. }
    split; [exact Hb|]. intro K. pose proof (str_body_det _ _ _ Hb K). discriminate.
Qed.

(** * C44: size hints *)

(** The state of the iterator after it has yielded [pre]. *)
Definition as_json_after (pw : pwidth) (x : json_string) (pre : list N) (it : as_json) : Prop :=
  steps (as_json_next pw) (js_as_json_iter x) pre it.

(** [rest] is what the iterator still yields. *)
Definition as_json_rest (pw : pwidth) (it : as_json) (rest : list N) : Prop :=
  exists fuel d, collect (as_json_next pw) fuel it = Ok (rest, d).

Lemma u8_add_inv (a b : N) (r : N) : @u8_add infallible a b = Ok r -> r = a + b.
Proof. unfold u8_add. destruct (a + b <? 256); congruence. Qed.

Lemma as_json_next_chars pw it o it' cs : scalars cs -> aj_chars it = utf8_string cs -> as_json_next pw it = Ok (o, it') ->
  match o with
  | None => it' = it /\ cs = []
  | Some _ => (aj_chars it' = aj_chars it \/ aj_chars it' = utf8_string (tl cs) /\ cs <> []) /\
              (aj_state it = EAlreadyEscaped -> aj_chars it' = utf8_string (tl cs) /\ aj_state it' = EAlreadyEscaped /\ cs <> [])
  end.
Proof.
  intros Hcs Ec E. destruct it as [rest st i]. cbn [aj_chars aj_state] in *. subst rest.
  assert (Hn : next_char (utf8_string cs) = match cs with [] => None | c :: r => Some (c, utf8_string r) end).
  { destruct Hcs as [|c cs Hc Hcs]; [reflexivity|]. rewrite utf8_string_cons. apply next_char_encode. exact Hc. }
  unfold as_json_next in E. cbn [aj_chars aj_state aj_info] in E. destruct st as [| |b|[n|] c].
  - rewrite Hn in E. destruct cs as [|c cs]; injection E as <- <-; cbn [aj_chars aj_state tl]; [auto|].
    split; [right; split; [reflexivity|discriminate]|]. intros _. split; [reflexivity|]. split; [reflexivity|discriminate].
  - rewrite Hn in E. destruct cs as [|c cs]; [injection E as <- <-; auto|].
    assert (K : exists ch st' i', o = Some ch /\ it' = AJ (utf8_string cs) st' i').
    { repeat match type of E with
      | context [if ?b then _ else _] => destruct b
      | context [add_bytes pw ?i ?n] => destruct (@add_bytes infallible pw i n); cbn [bind] in E
      | context [add_bytes_from_escape pw ?i ?n] => destruct (@add_bytes_from_escape infallible pw i n); cbn [bind] in E
      end; try discriminate; injection E as <- <-; eauto. }
    destruct K as (ch & st' & i' & -> & ->). cbn [aj_chars tl]. split; [right; split; [reflexivity|discriminate]|discriminate].
  - injection E as <- <-. cbn. split; [auto|discriminate].
  - assert (K : exists ch, o = Some ch /\ aj_chars it' = utf8_string cs).
    { destruct (if N.land (c mod 256) 15 <? 10 then _ else _) as [ch|e|f]; cbn [bind] in E; try discriminate.
      destruct (u8_add n 1) as [nib|e|f]; cbn [bind] in E; try discriminate.
      destruct (nib =? 4); injection E as <- <-; eauto. }
    destruct K as (ch & -> & Ek). split; [auto|discriminate].
  - injection E as <- <-. cbn. split; [auto|discriminate].
Qed.

Lemma rest_lower pw : forall fuel it rest d cs, scalars cs -> aj_chars it = utf8_string cs ->
  collect (as_json_next pw) fuel it = Ok (rest, d) -> (length cs <= length rest)%nat.
Proof.
  induction fuel as [|fuel IH]; intros it rest d cs Hcs Ec E; [discriminate|]. cbn [collect] in E.
  destruct (as_json_next pw it) as [[o it']|e|f] eqn:En; cbn [bind] in E; try discriminate.
  pose proof (as_json_next_chars pw it o it' cs Hcs Ec En) as G. destruct o as [c|].
  - destruct (collect (as_json_next pw) fuel it') as [[rest' d']|e|f] eqn:Er; cbn [bind] in E; try discriminate.
    injection E as <- <-. cbn [length]. destruct G as [[G|[G Hne]] _].
    + specialize (IH it' rest' d' cs Hcs ltac:(congruence) Er). lia.
    + assert (Ht : scalars (tl cs)) by (destruct Hcs; [constructor|assumption]).
      specialize (IH it' rest' d' (tl cs) Ht G Er). destruct cs; [congruence|]. cbn [tl length] in *. lia.
  - injection E as <- <-. destruct G as [_ ->]. cbn. lia.
Qed.

Lemma rest_already pw : forall fuel it rest d cs, scalars cs -> aj_chars it = utf8_string cs -> aj_state it = EAlreadyEscaped ->
  collect (as_json_next pw) fuel it = Ok (rest, d) -> length rest = length cs.
Proof.
  induction fuel as [|fuel IH]; intros it rest d cs Hcs Ec Es E; [discriminate|]. cbn [collect] in E.
  destruct (as_json_next pw it) as [[o it']|e|f] eqn:En; cbn [bind] in E; try discriminate.
  pose proof (as_json_next_chars pw it o it' cs Hcs Ec En) as G. destruct o as [c|].
  - destruct (collect (as_json_next pw) fuel it') as [[rest' d']|e|f] eqn:Er; cbn [bind] in E; try discriminate.
    injection E as <- <-. cbn [length]. destruct G as [_ G]. destruct (G Es) as (G1 & G2 & Hne).
    assert (Ht : scalars (tl cs)) by (destruct Hcs; [constructor|assumption]).
    specialize (IH _ _ _ (tl cs) Ht G1 G2 Er). destruct cs; [congruence|]. cbn [tl length] in *. lia.
  - injection E as <- <-. destruct G as [_ ->]. reflexivity.
Qed.

Lemma after_inv pw x pre it : obtainable pw x -> as_json_after pw x pre it ->
  (exists cs, scalars cs /\ aj_chars it = utf8_string cs) /\ (is_json_form x -> aj_state it = EAlreadyEscaped).
Proof.
  intros Ho H. apply obtainable_wf in Ho as (cs0 & Hw).
  assert (H0 : (exists cs, scalars cs /\ aj_chars (js_as_json_iter x) = utf8_string cs) /\
               (is_json_form x -> aj_state (js_as_json_iter x) = EAlreadyEscaped)).
  { unfold js_as_json_iter, as_json_new, is_json_form. destruct Hw as [a i l Hi Hl _ _|a cs Hcs Ea Hl Hc Hm]; cbn.
    - split; [|reflexivity]. apply items_valid, chars_valid in Hi. eauto.
    - split; [eauto|intros []]. }
  clear Hw cs0. unfold as_json_after in H. generalize dependent (js_as_json_iter x). intros it0 H H0.
  induction H as [it|it c it' pre it'' En H IH]; [exact H0|]. apply IH. destruct H0 as [(cs & Hcs & Ec) Hs].
  pose proof (as_json_next_chars pw it _ it' cs Hcs Ec En) as [G1 G2].
  assert (Ht : scalars (tl cs)) by (destruct Hcs; [constructor|assumption]).
  split.
  - destruct G1 as [G1|[G1 _]]; [exists cs|exists (tl cs)]; (split; [assumption|congruence]).
  - intro Hf. apply G2. apply Hs. exact Hf.
Qed.

Lemma quarter cs : scalars cs -> ((length (utf8_string cs) + 3) / 4 <= length cs)%nat.
Proof.
  intro H. assert (length (utf8_string cs) <= 4 * length cs)%nat.
  { clear H. induction cs as [|c cs IH]; [reflexivity|]. rewrite utf8_string_cons, app_length, utf8_encode_length. cbn [length].
    pose proof (len_utf8_pos c). lia. }
  apply Nat.lt_succ_r, Nat.div_lt_upper_bound; lia.
Qed.

Theorem C44_size_hint_lower pw x pre it rest : obtainable pw x -> as_json_after pw x pre it -> as_json_rest pw it rest ->
  (fst (as_json_size_hint it) <= length rest)%nat.
Proof.
  intros Ho Ha (fuel & d & E). destruct (after_inv pw x pre it Ho Ha) as [(cs & Hcs & Ec) _].
  pose proof (rest_lower pw fuel it rest d cs Hcs Ec E). unfold as_json_size_hint. cbn [fst]. rewrite Ec.
  pose proof (quarter cs Hcs). lia.
Qed.

Theorem C44_size_hint_upper_partial pw x pre it rest : obtainable pw x -> is_json_form x ->
  as_json_after pw x pre it -> as_json_rest pw it rest ->
  exists hi, snd (as_json_size_hint it) = Some hi /\ (length rest <= hi)%nat.
Proof.
  intros Ho Hf Ha (fuel & d & E). destruct (after_inv pw x pre it Ho Ha) as [(cs & Hcs & Ec) Hs].
  pose proof (rest_already pw fuel it rest d cs Hcs Ec (Hs Hf) E) as Hl. eexists. split; [reflexivity|]. rewrite Hl, Ec.
  apply utf8_string_length_ge.
Qed.

Theorem C44_size_hint_upper_refuted : exists x rest,
  js_from_str W64 [10] = Ok x /\ as_json_after W64 x [] (js_as_json_iter x) /\ as_json_rest W64 (js_as_json_iter x) rest /\
  rest = bs "\n" /\ as_json_size_hint (js_as_json_iter x) = (1%nat, Some 1%nat) /\ length rest = 2%nat.
Proof.
  eexists _, (bs "\n"). split; [vm_compute; reflexivity|]. split; [constructor|].
  split; [exists 10%nat; eexists; vm_compute; reflexivity|]. split; [reflexivity|]. split; reflexivity.
Qed.

(** * C45: capacity of the length counter *)
Lemma escaped_length1_eq c : escaped_length1 c = N.of_nat (length (utf8_string (escaped1 c))).
Proof.
  rewrite escaped1_bytes. unfold escaped_length1. destruct (must_escape c) eqn:Em.
  - apply must_escape_split in Em as [H|[->| ->]]; try reflexivity. each_control H; reflexivity.
  - unfold must_escape in Em.
    assert (existsb (N.eqb c) [34; 92; 7; 9; 10; 12; 13] = false) as -> by (cbn [existsb]; lia).
    assert (c <? 32 = false) as -> by lia. rewrite utf8_encode_length. reflexivity.
Qed.

Lemma escaped_length_eq cs : escaped_length cs = N.of_nat (length (utf8_string (escaped cs))).
Proof.
  induction cs as [|c cs IH]; [reflexivity|]. unfold escaped in *. cbn [escaped_length fold_right flat_map].
  fold (escaped_length cs). rewrite utf8_string_app, app_length, escaped_length1_eq, IH. lia.
Qed.

(** [From<&str>] panics exactly when the counter overflows; the counter is the escaped length less
    one for every character U+0080..U+00FF. *)
Theorem C45_from_exactly pw cs s : Forall (fun c => is_scalar c = true) cs -> s = utf8_string cs -> rust_str pw s ->
  if escaped_length cs - latin1_count cs <=? isize_max pw
  then (exists x, js_from_str pw s = Ok x) /\ (exists x, js_from_string pw s = Ok x)
  else js_from_str pw s = Fault FOverflow /\ js_from_string pw s = Fault FOverflow.
Proof.
  intros Hcs -> [_ Hl]. assert (E : escaped_length cs - latin1_count cs = counted cs).
  { rewrite escaped_length_eq, <- counted_exact. lia. }
  rewrite E. destruct (N.leb_spec (counted cs) (isize_max pw)) as [H|H]; unfold js_from_str, js_from_string.
  - split; eexists; apply from_any_ok; eauto.
  - split; apply (from_any_overflow pw _ cs); auto.
Qed.

Theorem C45_from_never_panics pw cs s : Forall (fun c => is_scalar c = true) cs -> s = utf8_string cs -> rust_str pw s ->
  escaped_length cs <= isize_max pw ->
  (exists x, js_from_str pw s = Ok x) /\ (exists x, js_from_string pw s = Ok x).
Proof.
  intros Hcs Es Hs Hl. pose proof (C45_from_exactly pw cs s Hcs Es Hs) as G.
  destruct (N.leb_spec (escaped_length cs - latin1_count cs) (isize_max pw)); [exact G|lia].
Qed.

Lemma escaped_length_le cs : escaped_length cs <= 6 * N.of_nat (length (utf8_string cs)).
Proof.
  induction cs as [|c cs IH]; [cbn; lia|]. cbn [escaped_length fold_right]. fold (escaped_length cs).
  rewrite utf8_string_cons, app_length, utf8_encode_length.
  assert (escaped_length1 c <= 6 * N.of_nat (len_utf8 c)); [|lia].
  pose proof (len_utf8_pos c). unfold escaped_length1. rewrite utf8_encode_length.
  destruct (existsb _ _); [lia|]. destruct (c <? 32); lia.
Qed.

(** In particular: every text of at most a sixth of the address space, and every text without
    characters to escape. *)
Corollary C45_from_sixth pw s : rust_str pw s -> 6 * N.of_nat (length s) <= isize_max pw ->
  (exists x, js_from_str pw s = Ok x) /\ (exists x, js_from_string pw s = Ok x).
Proof.
  intros Hs Hl. pose proof Hs as [(cs & Hcs & Es) _]. apply (C45_from_never_panics pw cs s Hcs Es Hs).
  pose proof (escaped_length_le cs). rewrite <- Es in H. lia.
Qed.

Corollary C45_from_plain pw cs s : Forall (fun c => is_scalar c = true) cs -> s = utf8_string cs -> rust_str pw s ->
  Forall (fun c => 32 <= c /\ c <> 34 /\ c <> 92) cs ->
  (exists x, js_from_str pw s = Ok x) /\ (exists x, js_from_string pw s = Ok x).
Proof.
  intros Hcs Es Hs Hp. apply (C45_from_never_panics pw cs s Hcs Es Hs).
  assert (Em : existsb must_escape cs = false).
  { clear - Hp. induction Hp as [|c cs Hc Hp IH]; [reflexivity|]. cbn [existsb]. rewrite IH, orb_false_r. unfold must_escape. lia. }
  rewrite escaped_length_eq, escaped_plain, <- Es by exact Em. destruct Hs as [_ Hs]. exact Hs.
Qed.

(** The bound matters on 32-bit targets only: there are texts Rust can hold that make it panic. *)
Theorem C45_from_panics_on_huge_32bit_text :
  exists s, rust_str W32 s /\ js_from_str W32 s = Fault FOverflow.
Proof.
  assert (Hk : exists k, N.of_nat k = 0x20000000) by (eexists; apply N2Nat.id). destruct Hk as [k Hk].
  assert (Hr : forall n, utf8_string (repeat 0 n) = repeat 0 n).
  { intro n. apply utf8_string_ascii. apply Forall_forall. intros x Hx. apply repeat_spec in Hx. lia. }
  assert (Hs : scalars (repeat 0 k)).
  { apply Forall_forall. intros x Hx. apply repeat_spec in Hx. subst. reflexivity. }
  assert (Hu : rust_str W32 (repeat 0 k)).
  { split; [exists (repeat 0 k); split; [exact Hs|symmetry; apply Hr]|]. rewrite repeat_length, Hk. cbn. lia. }
  exists (repeat 0 k). split; [exact Hu|].
  assert (Hc : forall n, counted (repeat 0 n) = 6 * N.of_nat n).
  { induction n as [|n IH]; [reflexivity|]. cbn [repeat counted]. rewrite IH. change (counted1 0) with 6. lia. }
  unfold js_from_str. apply (from_any_overflow W32 _ (repeat 0 k)).
  - exact Hs.
  - cbn [any_str]. symmetry. apply Hr.
  - rewrite Hr. apply Hu.
  - rewrite Hc, Hk. cbn. lia.
Qed.

(** Escaping such strings: the counter of [as_json()] starts from the stored length, so it needs
    room for twice the length. *)
Theorem C45_as_json_exactly pw x : obtainable pw x ->
  if match js_source x with CJson _ => true | CRaw _ => 2 * js_len pw x <=? isize_max pw end
  then (exists out, js_as_json pw x = Ok out) /\ exists a, js_escape_if_needed pw x = Ok a
  else js_as_json pw x = Fault FOverflow /\ js_escape_if_needed pw x = Fault FOverflow.
Proof.
  intro H. pose proof H as Ho. apply obtainable_wf in H as (cs & Hw).
  assert (K : recount_fits pw x -> (exists out, js_as_json pw x = Ok out) /\ exists a, js_escape_if_needed pw x = Ok a).
  { intro Hf. destruct (C34_as_json_str_and_escape pw x Ho Hf) as (out & a & E1 & E2 & _). eauto. }
  unfold recount_fits, is_json_form in K. destruct (js_source x) as [a|a] eqn:Es; [apply K; auto|].
  destruct (N.leb_spec (2 * js_len pw x) (isize_max pw)) as [Hl|Hl]; [apply K; auto|]. clear K.
  unfold js_escape_if_needed. rewrite Es.
  assert (E : js_as_json pw x = Fault FOverflow); [|rewrite E; auto].
  destruct Hw as [a' i l Hi _ _ _|a' cs Hcs Ea Hl' Hc Hm]; [discriminate|].
  unfold js_len in Hl. cbn [js_source js_info] in Hl. rewrite expected_length_info in Hl by exact Hc.
  apply as_json_raw_overflow; assumption.
Qed.

Theorem C45_as_json_panics_on_huge_32bit_text :
  exists s x, rust_str W32 s /\ js_from_str W32 s = Ok x /\ js_as_json W32 x = Fault FOverflow.
Proof.
  assert (Hk : exists k, N.of_nat k = 0x10000000) by (eexists; apply N2Nat.id). destruct Hk as [k Hk].
  assert (Hr : forall n, utf8_string (repeat 0 n) = repeat 0 n).
  { intro n. apply utf8_string_ascii. apply Forall_forall. intros x Hx. apply repeat_spec in Hx. lia. }
  assert (Hs : scalars (repeat 0 k)).
  { apply Forall_forall. intros x Hx. apply repeat_spec in Hx. subst. reflexivity. }
  assert (Hu : rust_str W32 (repeat 0 k)).
  { split; [exists (repeat 0 k); split; [exact Hs|symmetry; apply Hr]|]. rewrite repeat_length, Hk. cbn. lia. }
  assert (Hc : forall n, counted (repeat 0 n) = 6 * N.of_nat n).
  { induction n as [|n IH]; [reflexivity|]. cbn [repeat counted]. rewrite IH. change (counted1 0) with 6. lia. }
  exists (repeat 0 k), (built_from W32 (Borrowed (repeat 0 k)) (repeat 0 k)). split; [exact Hu|].
  assert (Ea : any_str (Borrowed (repeat 0 k)) = utf8_string (repeat 0 k)) by (symmetry; apply Hr).
  split; [apply from_any_ok; [exact Hs|exact Ea|rewrite Hc, Hk; cbn; lia]|].
  unfold built_from. assert (existsb must_escape (repeat 0 k) = true) as ->.
  { apply existsb_exists. exists 0. split; [|reflexivity]. destruct k; [discriminate|left; reflexivity]. }
  apply (as_json_raw_overflow W32 _ (repeat 0 k) Hs Ea); rewrite Hc, Hk; cbn; lia.
Qed.

(** * Concrete cases meeting the hypotheses
    A parsed string with every kind of item, a built string with and one without characters to
    escape. *)
Definition sample_content : list N := bs "a\n\""\u00e9\ud83d\uDE00" ++ utf8_encode 0xE9.
Definition sample_built : list N := utf8_string [0x61; 10; 0xE9; 34; 0x1F600; 0].

Lemma utf8_checked pw s : utf8_valid s = true -> N.of_nat (length s) <= isize_max pw -> rust_str pw s.
Proof. intros H1 H2. split; [apply utf8_valid_iff; exact H1|exact H2]. Qed.

Example sample_parsed : exists x, parsed W64 x /\ stored x = sample_content /\
  js_decoded W64 x = Ok [0x61; 10; 34; 0xE9; 0x1F600; 0xE9].
Proof.
  eexists. split; [|split].
  - eapply (parsed_string W64 _ ([34] ++ sample_content ++ [34])); [apply utf8_checked; [reflexivity|cbn; lia]|vm_compute; reflexivity].
  - reflexivity.
  - vm_compute. reflexivity.
Qed.

Example sample_parsed_key : exists x s, rust_slice W32 s /\ s = bs "[{""k"":[""v"",{}]}]" /\ parsed W32 x /\ stored x = bs "k".
Proof.
  eexists _, _. split; [|split; [reflexivity|split]].
  - split; [|cbn; lia]. repeat constructor.
  - eapply (parsed_bytes W32 _ (bs "[{""k"":[""v"",{}]}]") config_default).
    + split; [|cbn; lia]. repeat constructor.
    + vm_compute. reflexivity.
    + eapply string_elem; [left; reflexivity|]. eapply string_key. left. reflexivity.
  - reflexivity.
Qed.

Example sample_built_ok : exists x out, built W64 sample_built x /\ ~ is_json_form x /\ js_as_json W64 x = Ok out /\
  js_decoded W64 x = Ok [0x61; 10; 0xE9; 34; 0x1F600; 0] /\
  utf8_string out = bs "a\n" ++ utf8_encode 0xE9 ++ bs "\""" ++ utf8_encode 0x1F600 ++ bs "\u0000" /\ recount_fits W64 x /\
  Forall (fun c => 32 <= c \/ In c [0; 9; 10; 12; 13]) [0x61; 10; 0xE9; 34; 0x1F600; 0].
Proof.
  eexists _, _. split; [split; [apply utf8_checked; [reflexivity|cbn; lia]|left; vm_compute; reflexivity]|].
  split; [intros []|]. split; [vm_compute; reflexivity|]. split; [vm_compute; reflexivity|]. split; [reflexivity|].
  split; [right; vm_compute; discriminate|]. repeat constructor; cbn; lia.
Qed.

Example sample_built_plain : exists x, built W64 (utf8_string [0x61; 0x1F600]) x /\ is_json_form x.
Proof.
  eexists. split; [split; [apply utf8_checked; [reflexivity|cbn; lia]|right; vm_compute; reflexivity]|exact I].
Qed.
