(** The operations of [JsonString] in terms of the decoded text. *)
From Verif Require Import Base Utf8 Utf8Facts StrModel ErrorModel Tokenizer Spec SpecStr TokBase TokStr TokFacts StrSpec StrFacts StrEsc.
Local Open Scope N_scope.

(** [jwf pw js cs]: [js] is well formed and its decoded text is [cs]. *)
Inductive jwf (pw : pwidth) : json_string -> list N -> Prop :=
| jwf_json a i l :
    items_text l (any_str a) -> N.of_nat (length (any_str a)) <= isize_max pw ->
    has_escapes pw i = has_bs (any_str a) ->
    (has_bs (any_str a) = true -> expected_length pw i = N.of_nat (length (utf8_string (map crate_char l)))) ->
    jwf pw (JStr (CJson a) i) (map crate_char l)
| jwf_raw a cs :
    scalars cs -> any_str a = utf8_string cs -> N.of_nat (length (utf8_string cs)) <= isize_max pw ->
    counted cs <= isize_max pw -> existsb must_escape cs = true ->
    jwf pw (JStr (CRaw a) (info_new pw true (counted cs))) cs.

Lemma items_crate_length l t : items_text l t -> (length (map crate_char l) <= length t)%nat.
Proof.
  intro H. pose proof (items_length_le _ _ H). pose proof (utf8_string_length_ge (map rfc_char l)).
  rewrite !map_length in *. lia.
Qed.

Lemma string_for_wf pw raw cs : str_body raw cs -> N.of_nat (length raw) <= isize_max pw ->
  exists l, items_text l raw /\ cs = map rfc_char l /\ jwf pw (string_for pw raw cs) (map crate_char l).
Proof.
  intros H Hl. apply str_body_items in H as (l & H & ->). exists l. split; [exact H|]. split; [reflexivity|].
  pose proof (items_length_le _ _ H) as Hle. unfold string_for.
  apply (jwf_json pw (Borrowed raw)); cbn [any_str]; [exact H|exact Hl| |].
  - apply has_escapes_info. lia.
  - intros _. rewrite expected_length_info by lia. rewrite (items_len _ _ H). reflexivity.
Qed.

Lemma built_wf pw a cs : scalars cs -> any_str a = utf8_string cs ->
  N.of_nat (length (utf8_string cs)) <= isize_max pw -> counted cs <= isize_max pw ->
  jwf pw (built_from pw a cs) cs.
Proof.
  intros Hcs Ea Hl Hc. unfold built_from. destruct (existsb must_escape cs) eqn:Em.
  - apply jwf_raw; assumption.
  - pose proof (proj1 (map_plain cs)) as Ep. rewrite <- Ep at 2. apply jwf_json.
    + rewrite Ea. apply plain_items; assumption.
    + rewrite Ea. exact Hl.
    + rewrite Ea, plain_has_bs, has_escapes_info by assumption. reflexivity.
    + rewrite Ea, plain_has_bs by assumption. discriminate.
Qed.

Lemma jwf_scalars pw js cs : jwf pw js cs -> scalars cs.
Proof. intros [a i l H _ _ _|a cs' H _ _ _]; [eapply items_scalar; eassumption|exact H]. Qed.

Lemma jwf_fuel pw js cs : jwf pw js cs -> (length cs < str_fuel (contents_str (js_source js)))%nat.
Proof.
  intros [a i l H _ _ _|a cs' H Ea _ _]; cbn [js_source contents_str]; unfold str_fuel.
  - pose proof (items_crate_length _ _ H). lia.
  - rewrite Ea. pose proof (utf8_string_length_ge cs'). lia.
Qed.

(** The decoding iterator, whatever info with the right escape flag it is given. *)
Lemma jwf_yields_info pw js cs i : jwf pw js cs ->
  has_escapes pw i = has_escapes pw (js_info js) ->
  exists d, yields decoded_next (decoded_new pw (js_source js) i) cs d.
Proof.
  intros [a i' l H _ He _|a cs' H Ea _ _] Hi; cbn [js_source js_info] in *; cbn [decoded_new].
  - rewrite Hi, He. destruct (has_bs (any_str a)) eqn:Eb.
    + apply (decoded_yields_true l (any_str a) H []).
    + destruct (decoded_yields_false _ (items_scalar _ _ H) (any_str a) 0%nat) as (d & Hd).
      exists d. rewrite <- (items_plain _ _ H Eb) in Hd. exact Hd.
  - rewrite Ea. apply decoded_yields_false. exact H.
Qed.

Lemma jwf_yields pw js cs : jwf pw js cs -> exists d, yields decoded_next (js_decoded_iter pw js) cs d.
Proof. intro H. apply jwf_yields_info with (1 := H). reflexivity. Qed.

Theorem jwf_decoded pw js cs : jwf pw js cs -> js_decoded pw js = Ok cs.
Proof.
  intro H. destruct (jwf_yields _ _ _ H) as (d & Hd). unfold js_decoded.
  rewrite (collect_yields _ _ _ _ Hd _ (jwf_fuel _ _ _ H)). reflexivity.
Qed.

Lemma jwf_fun pw js cs cs' : jwf pw js cs -> jwf pw js cs' -> cs = cs'.
Proof. intros H H'. apply jwf_decoded in H, H'. congruence. Qed.

(** The stored text is the decoded text unless it is JSON with escapes. *)
Lemma jwf_plain_text pw js cs : jwf pw js cs ->
  match js_source js with CJson _ => has_escapes pw (js_info js) = false | CRaw _ => True end ->
  contents_str (js_source js) = utf8_string cs.
Proof.
  intros [a i l H _ He _|a cs' H Ea _ _] Hi; cbn [js_source js_info contents_str] in *; [|exact Ea].
  apply items_plain; [exact H|]. rewrite <- He. exact Hi.
Qed.

Theorem jwf_eq_str pw js cs ds : jwf pw js cs -> scalars ds ->
  js_eq_str pw js (utf8_string ds) = Ok (bytes_eqb (utf8_string cs) (utf8_string ds)).
Proof.
  intros H Hds. unfold js_eq_str. pose proof (jwf_plain_text _ _ _ H) as Hp. pose proof (jwf_fuel _ _ _ H) as Hf.
  pose proof (jwf_scalars _ _ _ H) as Hcs. pose proof (jwf_yields _ _ _ H) as (d & Hd).
  unfold js_decoded_iter in Hd.
  destruct H as [a i l Hl _ He Hx|a cs' _ Ea _ _]; cbn [js_source js_info contents_str] in *.
  - destruct (has_escapes pw i) eqn:E.
    + symmetry in He. rewrite (Hx He). destruct (N.eqb_spec (N.of_nat (length (utf8_string (map crate_char l)))) (N.of_nat (length (utf8_string ds)))) as [El|El]; cbn [negb].
      * rewrite (zip_yields _ _ _ _ _ Hd _ _ _ _ (chars_yields ds Hds) Hf). f_equal. apply agree_same_bytes; try assumption. lia.
      * f_equal. destruct (bytes_eqb (utf8_string (map crate_char l)) (utf8_string ds)) eqn:Eb; [|reflexivity].
        apply bytes_eqb_eq in Eb. rewrite Eb in El. congruence.
    + unfold any_eq_str. rewrite Hp by reflexivity. reflexivity.
  - unfold any_eq_str. rewrite Ea. reflexivity.
Qed.

Theorem jwf_cmp_str pw js cs ds : jwf pw js cs -> scalars ds ->
  js_partial_cmp_str pw js (utf8_string ds) = Ok (Some (lex_cmp cs ds)).
Proof.
  intros H Hds. unfold js_partial_cmp_str. pose proof (jwf_plain_text _ _ _ H) as Hp. pose proof (jwf_fuel _ _ _ H) as Hf.
  pose proof (jwf_scalars _ _ _ H) as Hcs. pose proof (jwf_yields _ _ _ H) as (d & Hd).
  unfold js_decoded_iter in *.
  destruct H as [a i l Hl _ He Hx|a cs' _ Ea _ _]; cbn [js_source js_info contents_str] in *.
  - destruct (has_escapes pw i) eqn:E.
    + rewrite (cmp_yields _ _ _ _ _ Hd _ _ _ _ (chars_yields ds Hds) Hf). reflexivity.
    + rewrite Hp by reflexivity. rewrite utf8_string_order by assumption. reflexivity.
  - rewrite Ea. rewrite utf8_string_order by assumption. reflexivity.
Qed.

Theorem jwf_cmp pw a cs b ds : jwf pw a cs -> jwf pw b ds -> js_cmp pw a b = Ok (lex_cmp cs ds).
Proof.
  intros Ha Hb. pose proof (jwf_scalars _ _ _ Ha) as Hcs. pose proof (jwf_scalars _ _ _ Hb) as Hds.
  destruct (jwf_yields _ _ _ Ha) as (d & Hd). destruct (jwf_yields _ _ _ Hb) as (d' & Hd').
  pose proof (cmp_yields _ _ _ _ _ Hd _ _ _ _ Hd' (jwf_fuel _ _ _ Ha)) as Hloop.
  pose proof (jwf_plain_text _ _ _ Ha) as Hpa. pose proof (jwf_plain_text _ _ _ Hb) as Hpb.
  pose proof (jwf_cmp_str _ _ _ ds Ha Hds) as Ea. pose proof (jwf_cmp_str _ _ _ cs Hb Hcs) as Eb.
  unfold js_cmp. destruct (js_source a) as [x|x], (js_source b) as [y|y]; cbn [contents_str] in *.
  - destruct (has_escapes pw (js_info a)); cbn [negb andb]; [exact Hloop|].
    destruct (has_escapes pw (js_info b)); cbn [negb]; [exact Hloop|].
    rewrite Hpa, Hpb by reflexivity. rewrite utf8_string_order by assumption. reflexivity.
  - rewrite Hpb by exact I. rewrite Ea. reflexivity.
  - rewrite Hpa by exact I. rewrite Eb. cbn [bind expect_some]. rewrite <- lex_cmp_antisym. reflexivity.
  - rewrite Hpa, Hpb by exact I. rewrite utf8_string_order by assumption. reflexivity.
Qed.

Definition same_form (a b : json_string) : bool :=
  match js_source a, js_source b with
  | CJson _, CJson _ => true
  | CRaw _, CRaw _ => true
  | _, _ => false
  end.

Theorem jwf_eq pw a cs b ds : jwf pw a cs -> jwf pw b ds ->
  js_eq pw a b = Ok (bytes_eqb (utf8_string cs) (utf8_string ds) && (same_form a b || (js_len pw a =? js_len pw b))).
Proof.
  intros Ha Hb. pose proof (jwf_scalars _ _ _ Ha) as Hcs. pose proof (jwf_scalars _ _ _ Hb) as Hds.
  pose proof (jwf_plain_text _ _ _ Ha) as Hpa. pose proof (jwf_plain_text _ _ _ Hb) as Hpb.
  pose proof (jwf_eq_str _ _ _ ds Ha Hds) as Ea. pose proof (jwf_eq_str _ _ _ cs Hb Hcs) as Eb.
  assert (Hsym : bytes_eqb (utf8_string ds) (utf8_string cs) = bytes_eqb (utf8_string cs) (utf8_string ds)).
  { destruct (bytes_eqb (utf8_string ds) (utf8_string cs)) eqn:E1, (bytes_eqb (utf8_string cs) (utf8_string ds)) eqn:E2; try reflexivity.
    - apply bytes_eqb_eq in E1. rewrite E1, bytes_eqb_refl in E2. discriminate.
    - apply bytes_eqb_eq in E2. rewrite E2, bytes_eqb_refl in E1. discriminate. }
  unfold js_eq, same_form. destruct (js_source a) as [x|x] eqn:Sa, (js_source b) as [y|y] eqn:Sb; cbn [contents_str] in *; cbn [orb]; rewrite ?andb_true_r.
  - destruct (has_escapes pw (js_info a)) eqn:Ha1, (has_escapes pw (js_info b)) eqn:Hb1.
    + assert (La : expected_length pw (js_info a) = N.of_nat (length (utf8_string cs))).
      { destruct Ha as [? ? ? ? ? He Hx|]; cbn in *; [|discriminate]. injection Sa as ->. apply Hx. congruence. }
      assert (Lb : expected_length pw (js_info b) = N.of_nat (length (utf8_string ds))).
      { destruct Hb as [? ? ? ? ? He Hx|]; cbn in *; [|discriminate]. injection Sb as ->. apply Hx. congruence. }
      rewrite La, Lb. destruct (N.eqb_spec (N.of_nat (length (utf8_string cs))) (N.of_nat (length (utf8_string ds)))) as [El|El].
      * destruct (jwf_yields _ _ _ Ha) as (d & Hd). destruct (jwf_yields_info pw b ds (js_info a) Hb) as (d' & Hd'); [congruence|].
        unfold js_decoded_iter in Hd. rewrite Sa in Hd. rewrite Sb in Hd'.
        pose proof (jwf_fuel _ _ _ Ha) as Hf. rewrite Sa in Hf. cbn [contents_str] in Hf.
        rewrite (zip_yields _ _ _ _ _ Hd _ _ _ _ Hd' Hf). f_equal. apply agree_same_bytes; try assumption. lia.
      * f_equal. destruct (bytes_eqb (utf8_string cs) (utf8_string ds)) eqn:E; [|reflexivity].
        apply bytes_eqb_eq in E. rewrite E in El. congruence.
    + rewrite Hpb by reflexivity. exact Ea.
    + rewrite Hpa by reflexivity. rewrite Eb, Hsym. reflexivity.
    + rewrite Hpa, Hpb by reflexivity. reflexivity.
  - assert (Lb : js_len pw b = expected_length pw (js_info b)) by (unfold js_len; rewrite Sb; reflexivity).
    rewrite Lb, N.eqb_sym. destruct (js_len pw a =? expected_length pw (js_info b)); cbn [orb].
    + rewrite Hpb by exact I. rewrite Ea, andb_true_r. reflexivity.
    + rewrite andb_false_r. reflexivity.
  - assert (La : js_len pw a = expected_length pw (js_info a)) by (unfold js_len; rewrite Sa; reflexivity).
    rewrite La. destruct (expected_length pw (js_info a) =? js_len pw b); cbn [orb].
    + rewrite Hpa by exact I. rewrite Eb, andb_true_r, Hsym. reflexivity.
    + rewrite andb_false_r. reflexivity.
  - rewrite Hpa, Hpb by exact I. reflexivity.
Qed.

Theorem jwf_hash pw js cs : jwf pw js cs ->
  exists chunks, js_hash pw js = Ok chunks /\ List.concat chunks = List.concat (str_hash (utf8_string cs)) /\
    (match js_source js with CJson _ => has_escapes pw (js_info js) | CRaw _ => false end = false ->
     chunks = str_hash (utf8_string cs)) /\
    (match js_source js with CJson _ => has_escapes pw (js_info js) | CRaw _ => false end = true ->
     chunks = map utf8_encode cs ++ [[0xFF]]).
Proof.
  intro H. unfold js_hash. pose proof (jwf_decoded _ _ _ H) as Hd. pose proof (jwf_plain_text _ _ _ H) as Hp.
  destruct (js_source js) as [a|a]; cbn [contents_str] in Hp.
  - destruct (has_escapes pw (js_info js)).
    + rewrite Hd. cbn [bind]. eexists. split; [reflexivity|]. split; [|split; [discriminate|reflexivity]].
      rewrite concat_app. unfold str_hash. cbn [List.concat app]. f_equal.
      unfold utf8_string. rewrite flat_map_concat_map. reflexivity.
    + eexists. split; [reflexivity|]. unfold any_hash. rewrite Hp by reflexivity. split; [reflexivity|]. split; [reflexivity|discriminate].
  - eexists. split; [reflexivity|]. unfold any_hash. rewrite Hp by exact I. split; [reflexivity|]. split; [reflexivity|discriminate].
Qed.

(** * as_json *)
Lemma already_yields pw cs i : scalars cs ->
  yields (as_json_next pw) (AJ (utf8_string cs) EAlreadyEscaped i) cs (AJ [] EAlreadyEscaped i).
Proof.
  induction 1 as [|c cs Hc Hcs IH].
  - constructor. reflexivity.
  - econstructor; [|exact IH]. unfold as_json_next. cbn [aj_state aj_chars aj_info].
    rewrite utf8_string_cons, next_char_encode by assumption. reflexivity.
Qed.

Theorem as_json_json pw a i cs : scalars cs -> any_str a = utf8_string cs -> js_as_json pw (JStr (CJson a) i) = Ok cs.
Proof.
  intros H E. unfold js_as_json, js_as_json_iter, as_json_new. cbn [js_source js_info contents_str]. rewrite E.
  rewrite (collect_yields _ _ _ _ (already_yields pw cs i H)); [reflexivity|].
  unfold json_fuel. pose proof (utf8_string_length_ge cs). lia.
Qed.

Theorem as_json_raw pw a cs : scalars cs -> any_str a = utf8_string cs -> 2 * counted cs <= isize_max pw ->
  js_as_json pw (JStr (CRaw a) (info_new pw true (counted cs))) = Ok (escaped cs).
Proof.
  intros H E Hc. unfold js_as_json, js_as_json_iter, as_json_new. cbn [js_source js_info contents_str]. rewrite E.
  rewrite (collect_yields _ _ _ _ (as_json_yields pw cs H true (counted cs) ltac:(lia))); [reflexivity|].
  apply json_fuel_enough.
Qed.

Theorem as_json_raw_overflow pw a cs : scalars cs -> any_str a = utf8_string cs ->
  counted cs <= isize_max pw -> isize_max pw < 2 * counted cs ->
  js_as_json pw (JStr (CRaw a) (info_new pw true (counted cs))) = Fault FOverflow.
Proof.
  intros H E Hc Ho. unfold js_as_json, js_as_json_iter, as_json_new. cbn [js_source js_info contents_str]. rewrite E.
  destruct (as_json_overflow pw cs H true (counted cs)) as (x & b & Hx & Hb & Lx); [lia|lia|left; reflexivity|].
  pose proof (json_fuel_enough cs). rewrite (steps_fault _ _ _ _ _ Hx Hb) by lia. reflexivity.
Qed.
