(** Closed forms of the string iterators: what [decoded()] and [as_json()] yield. *)
From Verif Require Import Base Utf8 Utf8Facts StrModel ErrorModel Tokenizer Spec SpecStr TokBase TokStr StrSpec.
Local Open Scope N_scope.

(** * Items *)
Lemma str_item_items a c : str_item a c <-> exists i, item_spelling i a /\ rfc_char i = c.
Proof.
  split.
  - intros [x Hs Hx H1 H2|b x Hin|h u Hh Hu|h1 hi h2 lo Hh1 Hhi Hh2 Hlo].
    + exists (IPlain x). split; [constructor; assumption|reflexivity].
    + exists (ISimple b). split.
      * constructor. apply (in_map fst) in Hin. exact Hin.
      * cbn in Hin. repeat (destruct Hin as [E|Hin]; [injection E as <- <-; reflexivity|]). contradiction.
    + exists (IUnicode u). split; [constructor; assumption|reflexivity].
    + exists (IPair hi lo). split; [constructor; assumption|reflexivity].
  - intros (i & H & <-). destruct H as [x Hs Hx H1 H2|b Hin|h u Hh Hu|h1 hi h2 lo Hh1 Hhi Hh2 Hlo].
    + apply si_plain; assumption.
    + apply si_simple. cbn in Hin. cbn [rfc_char].
      repeat (destruct Hin as [<-|Hin]; [cbn; tauto|]). contradiction.
    + apply si_unicode; assumption.
    + apply si_pair; assumption.
Qed.

Theorem str_body_items raw cs : str_body raw cs <-> exists l, items_text l raw /\ cs = map rfc_char l.
Proof.
  split.
  - induction 1 as [|a c r cs Ha Hr (l & Hl & ->)]; [exists []; split; [constructor|reflexivity]|].
    apply str_item_items in Ha as (i & Hi & <-). exists (i :: l). split; [constructor; assumption|reflexivity].
  - intros (l & H & ->). induction H as [|i l a r Hi Hl IH]; cbn; [constructor|].
    constructor; [|exact IH]. apply str_item_items. eauto.
Qed.

(** What the crate makes of an item. *)
Definition crate_char (i : item) : N :=
  match i with
  | ISimple b => if b =? 98 then 7 else rfc_char i
  | IPair hi lo => merged hi lo
  | _ => rfc_char i
  end.

Lemma item_len i a : item_spelling i a -> len_utf8 (crate_char i) = len_utf8 (rfc_char i).
Proof.
  intros [x Hs Hx H1 H2|b Hin|h u Hh Hu|h1 hi h2 lo Hh1 Hhi Hh2 Hlo]; try reflexivity.
  - cbn in Hin. repeat (destruct Hin as [<-|Hin]; [reflexivity|]). contradiction.
  - cbn [crate_char rfc_char]. rewrite merged_len by assumption. unfold len_utf8. ifs; lia.
Qed.

Lemma item_scalar i a : item_spelling i a -> is_scalar (crate_char i) = true.
Proof.
  intros [x Hs Hx H1 H2|b Hin|h u Hh Hu|h1 hi h2 lo Hh1 Hhi Hh2 Hlo]; try assumption.
  - cbn in Hin. repeat (destruct Hin as [<-|Hin]; [reflexivity|]). contradiction.
  - apply merged_scalar; assumption.
Qed.

Lemma items_scalar l t : items_text l t -> Forall (fun c => is_scalar c = true) (map crate_char l).
Proof. induction 1; cbn; constructor; auto. eapply item_scalar; eassumption. Qed.

Lemma items_len l t : items_text l t ->
  length (utf8_string (map crate_char l)) = length (utf8_string (map rfc_char l)).
Proof.
  induction 1 as [|i l a r Hi Hl IH]; cbn [map]; [reflexivity|].
  rewrite !utf8_string_cons, !app_length, !utf8_encode_length, IH, (item_len _ _ Hi). reflexivity.
Qed.

Lemma items_valid l t : items_text l t -> utf8_valid t = true.
Proof. intro H. eapply str_body_valid. apply str_body_items. eauto. Qed.

Lemma items_length_le l t : items_text l t -> (length (utf8_string (map rfc_char l)) <= length t)%nat.
Proof.
  induction 1 as [|i l a r Hi Hl IH]; cbn [map]; [cbn; lia|].
  rewrite utf8_string_cons, !app_length.
  enough (length (utf8_encode (rfc_char i)) <= length a)%nat by lia.
  rewrite utf8_encode_length.
  destruct Hi as [x Hs Hx H1 H2|b Hin|h u Hh Hu|h1 hi h2 lo Hh1 Hhi Hh2 Hlo].
  - rewrite utf8_encode_length. cbn [rfc_char]. lia.
  - cbn in Hin. repeat (destruct Hin as [<-|Hin]; [cbn; lia|]). contradiction.
  - cbn [length rfc_char]. rewrite (hex4_length _ _ Hh). pose proof (len_utf8_pos u). lia.
  - cbn [length]. rewrite app_length. cbn [length]. rewrite (hex4_length _ _ Hh1), (hex4_length _ _ Hh2).
    pose proof (len_utf8_pos (rfc_char (IPair hi lo))). lia.
Qed.

(** * Iterators: the list of items an iterator yields *)
Section Yields.
  Context {S : Type}.
  Variable na : S -> res infallible (option N * S).
  Inductive yields : S -> list N -> S -> Prop :=
  | y_nil a a' : na a = Ok (None, a') -> yields a [] a'
  | y_cons a c a' cs a'' : na a = Ok (Some c, a') -> yields a' cs a'' -> yields a (c :: cs) a''.

  Lemma collect_yields a cs a' : yields a cs a' -> forall fuel, (length cs < fuel)%nat ->
    collect na fuel a = Ok (cs, a').
  Proof.
    induction 1 as [a a' E|a c a' cs a'' E H IH]; intros [|fuel] Hf; cbn [length] in Hf; try lia; cbn [collect]; rewrite E; cbn [bind].
    - reflexivity.
    - rewrite (IH fuel) by lia. reflexivity.
  Qed.
End Yields.

(** [a.zip(b).all(==)]: equal up to the shorter length. *)
Fixpoint agree (a b : list N) : bool :=
  match a, b with
  | x :: a', y :: b' => (x =? y) && agree a' b'
  | _, _ => true
  end.

Lemma zip_yields {SA SB} (na : SA -> res infallible (option N * SA)) (nb : SB -> res infallible (option N * SB))
  a la a' : yields na a la a' -> forall b lb b' fuel, yields nb b lb b' -> (length la < fuel)%nat ->
  zip_all_eq na nb fuel a b = Ok (agree la lb).
Proof.
  induction 1 as [a a' E|a c a' cs a'' E H IH]; intros b lb b' [|fuel] Hb Hf; cbn [length] in Hf; try lia; cbn [zip_all_eq]; rewrite E; cbn [bind].
  - reflexivity.
  - destruct Hb as [b b' Eb|b d b1 ds b' Eb Hb]; rewrite Eb; cbn [bind agree]; [reflexivity|].
    destruct (c =? d); [|reflexivity]. cbn [andb]. eapply IH; [eassumption|lia].
Qed.

Lemma cmp_yields {SA SB} (na : SA -> res infallible (option N * SA)) (nb : SB -> res infallible (option N * SB))
  a la a' : yields na a la a' -> forall b lb b' fuel, yields nb b lb b' -> (length la < fuel)%nat ->
  cmp_loop na nb fuel a b = Ok (lex_cmp la lb).
Proof.
  induction 1 as [a a' E|a c a' cs a'' E H IH]; intros b lb b' [|fuel] Hb Hf; cbn [length] in Hf; try lia; cbn [cmp_loop]; rewrite E; cbn [bind];
    destruct Hb as [b b' Eb|b d b1 ds b' Eb Hb]; rewrite Eb; cbn [bind lex_cmp]; try reflexivity.
  destruct (c ?= d); try reflexivity. eapply IH; [eassumption|lia].
Qed.

Lemma agree_same_bytes : forall a b, Forall (fun c => is_scalar c = true) a -> Forall (fun c => is_scalar c = true) b ->
  length (utf8_string a) = length (utf8_string b) -> agree a b = bytes_eqb (utf8_string a) (utf8_string b).
Proof.
  intros a b Ha Hb L.
  assert (Hag : agree a b = true -> a = b).
  { clear Ha Hb. revert b L. induction a as [|x a IH]; intros [|y b] L H.
    - reflexivity.
    - rewrite utf8_string_cons, app_length, utf8_encode_length in L. pose proof (len_utf8_pos y). cbn in L. lia.
    - rewrite utf8_string_cons, app_length, utf8_encode_length in L. pose proof (len_utf8_pos x). cbn in L. lia.
    - cbn in H. apply andb_true_iff in H as [H1 H2]. apply N.eqb_eq in H1. subst y. f_equal. apply IH; [|exact H2].
      rewrite !utf8_string_cons, !app_length in L. lia. }
  destruct (bytes_eqb (utf8_string a) (utf8_string b)) eqn:E.
  - apply bytes_eqb_eq, utf8_string_inj in E; [|assumption|assumption]. subst b. clear.
    induction a as [|x a IH]; cbn; [reflexivity|]. rewrite N.eqb_refl. exact IH.
  - destruct (agree a b) eqn:E2; [|reflexivity]. rewrite (Hag eq_refl), bytes_eqb_refl in E. discriminate.
Qed.

(** * chars() *)
Lemma chars_yields cs : Forall (fun c => is_scalar c = true) cs -> yields chars_next (utf8_string cs) cs [].
Proof.
  induction 1 as [|c cs Hc Hcs IH].
  - constructor. reflexivity.
  - econstructor; [|exact IH]. unfold chars_next. rewrite utf8_string_cons, next_char_encode by assumption. reflexivity.
Qed.

(** * Decoded *)
Lemma ci_next_encode off c r : is_scalar c = true ->
  ci_next (CI off (utf8_encode c ++ r)) = (Some (off, c), CI (off + length (utf8_encode c)) r).
Proof.
  intro H. unfold ci_next. cbn [ci_rest ci_off]. rewrite next_char_encode by assumption.
  rewrite app_length. do 2 f_equal. lia.
Qed.

Lemma ci_next_ascii off c r : c < 0x80 -> ci_next (CI off (c :: r)) = (Some (off, c), CI (off + 1) r).
Proof.
  intro H. assert (Hs : is_scalar c = true) by (apply is_scalar_spec; lia).
  pose proof (ci_next_encode off c r Hs) as E. rewrite utf8_encode_ascii in E by assumption. exact E.
Qed.

Lemma ci_skip_ascii h : Forall (fun b => b < 0x80) h -> forall off r,
  ci_skip (length h) (CI off (h ++ r)) = CI (off + length h) r.
Proof.
  induction 1 as [|b h Hb Hh IH]; intros off r; cbn [length ci_skip app].
  - f_equal. lia.
  - rewrite ci_next_ascii by assumption. cbn [snd]. rewrite IH. f_equal. lia.
Qed.

Lemma valid_head b r : utf8_valid (b :: r) = true -> is_cont b = false.
Proof.
  intro H. unfold is_cont. destruct (b <? 0x80) eqn:E; [lia|].
  cbn [utf8_valid] in H. rewrite E in H. destruct r as [|b1 r1]; [discriminate|].
  destruct ((0xC2 <=? b) && (b <=? 0xDF)) eqn:E1; [lia|].
  destruct r1 as [|b2 r2]; [discriminate|].
  destruct ((0xE0 <=? b) && (b <=? 0xEF)) eqn:E2; [lia|].
  destruct r2 as [|b3 r3]; [discriminate|]. lia.
Qed.

Lemma boundary_app p r : utf8_valid r = true -> is_char_boundary (p ++ r) (length p) = true.
Proof.
  intro H. unfold is_char_boundary. destruct (length p =? 0)%nat; [reflexivity|].
  rewrite nth_error_app2 by lia. rewrite Nat.sub_diag. destruct r as [|b r]; cbn.
  - rewrite app_nil_r. apply Nat.eqb_refl.
  - rewrite (valid_head _ _ H). reflexivity.
Qed.

Lemma str_slice_app p h r a b : a = length p -> b = (length p + length h)%nat ->
  utf8_valid (h ++ r) = true -> utf8_valid r = true ->
  str_slice (p ++ h ++ r) a b = Some h.
Proof.
  intros -> -> H1 H2. unfold str_slice. rewrite (proj2 (Nat.leb_le _ _)) by lia.
  rewrite boundary_app by exact H1.
  rewrite app_assoc, <- app_length, boundary_app by exact H2. cbn [andb].
  rewrite app_length, <- app_assoc. apply slice_app.
Qed.

Lemma hex_digit_ok b x : hex_digit_val b x -> hex_digit b = Some x /\ x < 16 /\ b <> 43 /\ b <> 45.
Proof. intro H. unfold hex_digit. destruct H; ifb; (split; [f_equal; lia|lia]). Qed.

Lemma radix16_ok h u : hex4 h u -> u32_from_str_radix16 h = Some u.
Proof.
  intros [a b c d x y z w Ha Hb Hc Hd].
  apply hex_digit_ok in Ha as (Ea & Ha & H1 & H2). apply hex_digit_ok in Hb as (Eb & Hb & _).
  apply hex_digit_ok in Hc as (Ec & Hc & _). apply hex_digit_ok in Hd as (Ed & Hd & _).
  unfold u32_from_str_radix16. destruct (N.eqb_spec a 43); [contradiction|].
  cbn [hex_digits]. rewrite Ea, Eb, Ec, Ed.
  repeat match goal with |- context [?p <=? ?q] => destruct (N.leb_spec p q); [|lia] end. f_equal. lia.
Qed.

Lemma decoded_item i a p r : item_spelling i a -> utf8_valid r = true ->
  decoded_next (Dec true (p ++ a ++ r) (CI (length p) (a ++ r))) =
  Ok (Some (crate_char i), Dec true (p ++ a ++ r) (CI (length (p ++ a)) r)).
Proof.
  intros H Hr. unfold decoded_next. cbn [dec_chars dec_needs dec_source].
  destruct H as [x Hs Hx H1 H2|b Hin|h u Hh Hu|h1 hi h2 lo Hh1 Hhi Hh2 Hlo].
  - rewrite ci_next_encode by assumption. cbn [andb]. destruct (N.eqb_spec x 92); [contradiction|].
    cbn [crate_char rfc_char]. rewrite app_length. reflexivity.
  - cbn [app]. rewrite ci_next_ascii by lia. cbn [andb N.eqb Pos.eqb].
    assert (Hb : b < 0x80) by (cbn in Hin; lia).
    rewrite ci_next_ascii by assumption. rewrite app_length. cbn [length].
    replace (length p + 1 + 1)%nat with (length p + 2)%nat by lia.
    cbn in Hin. repeat (destruct Hin as [<-|Hin]; [reflexivity|]). contradiction.
  - cbn [app]. rewrite ci_next_ascii by lia. cbn [andb N.eqb Pos.eqb].
    rewrite ci_next_ascii by lia. cbn [N.eqb Pos.eqb].
    pose proof (hex4_ascii _ _ Hh) as Ha. pose proof (hex4_length _ _ Hh) as L.
    pose proof (ci_skip_ascii h Ha (length p + 1 + 1) r) as Sk. rewrite L in Sk. rewrite Sk.
    replace (p ++ 92 :: 117 :: h ++ r) with ((p ++ [92; 117]) ++ h ++ r) by (rewrite <- app_assoc; reflexivity).
    rewrite str_slice_app; try (rewrite ?app_length; cbn; lia); [| |exact Hr].
    2:{ rewrite utf8_valid_app; [exact Hr|]. apply utf8_valid_ascii. exact Ha. }
    rewrite (radix16_ok _ _ Hh). unfold HIGH_SURROGATE_MIN, HIGH_SURROGATE_MAX.
    apply is_scalar_spec in Hu as Hu'.
    destruct ((0xD800 <=? u) && (u <=? 0xDBFF)) eqn:E; [lia|].
    unfold char_from_u32_unchecked. rewrite Hu. cbn [bind crate_char rfc_char].
    do 4 f_equal. rewrite app_length. cbn [length]. lia.
  - rewrite <- !app_comm_cons, <- app_assoc. cbn [app]. rewrite ci_next_ascii by lia. cbn [andb N.eqb Pos.eqb].
    rewrite ci_next_ascii by lia. cbn [N.eqb Pos.eqb].
    pose proof (hex4_ascii _ _ Hh1) as Ha1. pose proof (hex4_length _ _ Hh1) as L1.
    pose proof (hex4_ascii _ _ Hh2) as Ha2. pose proof (hex4_length _ _ Hh2) as L2.
    assert (V2 : utf8_valid (h2 ++ r) = true).
    { rewrite utf8_valid_app; [exact Hr|]. apply utf8_valid_ascii. exact Ha2. }
    assert (V3 : utf8_valid (92 :: 117 :: h2 ++ r) = true).
    { rewrite !utf8_valid_ascii_cons by lia. exact V2. }
    pose proof (ci_skip_ascii h1 Ha1 (length p + 1 + 1) (92 :: 117 :: h2 ++ r)) as Sk. rewrite L1 in Sk. rewrite Sk.
    set (src := p ++ 92 :: 117 :: h1 ++ 92 :: 117 :: h2 ++ r).
    assert (S1 : str_slice src (length p + 1 + 1) (length p + 1 + 5) = Some h1).
    { unfold src. replace (p ++ 92 :: 117 :: h1 ++ 92 :: 117 :: h2 ++ r)
        with ((p ++ [92; 117]) ++ h1 ++ (92 :: 117 :: h2 ++ r)) by (rewrite <- !app_assoc; reflexivity).
      apply str_slice_app; try (rewrite ?app_length; cbn; lia); [|exact V3].
      rewrite utf8_valid_app; [exact V3|]. apply utf8_valid_ascii. exact Ha1. }
    assert (S2 : str_slice src (length p + 1 + 7) (length p + 1 + 11) = Some h2).
    { unfold src. replace (p ++ 92 :: 117 :: h1 ++ 92 :: 117 :: h2 ++ r)
        with ((p ++ [92; 117] ++ h1 ++ [92; 117]) ++ h2 ++ r) by (rewrite <- !app_assoc; reflexivity).
      apply str_slice_app; try (rewrite ?app_length; cbn; lia); assumption. }
    rewrite S1, (radix16_ok _ _ Hh1). unfold HIGH_SURROGATE_MIN, HIGH_SURROGATE_MAX.
    destruct ((0xD800 <=? hi) && (hi <=? 0xDBFF)) eqn:E; [|lia].
    rewrite S2, (radix16_ok _ _ Hh2). rewrite merge_ok by lia. cbn [bind].
    unfold char_from_u32_unchecked. rewrite merged_scalar by assumption. cbn [bind crate_char].
    assert (Ha3 : Forall (fun b => b < 0x80) (92 :: 117 :: h2)) by (constructor; [lia|constructor; [lia|exact Ha2]]).
    pose proof (ci_skip_ascii _ Ha3 (length p + 1 + 1 + 4) r) as Sk2. cbn [length] in Sk2. rewrite L2 in Sk2.
    cbn [app] in Sk2. rewrite Sk2.
    do 4 f_equal. rewrite app_length. cbn [length]. rewrite !app_length. cbn [length]. lia.
Qed.

Lemma decoded_yields_true l t : items_text l t -> forall p,
  exists d, yields decoded_next (Dec true (p ++ t) (CI (length p) t)) (map crate_char l) d.
Proof.
  induction 1 as [|i l a r Hi Hl IH]; intro p.
  - eexists. constructor. reflexivity.
  - destruct (IH (p ++ a)) as (d & Hd). rewrite <- app_assoc in Hd. exists d. cbn [map].
    econstructor; [|exact Hd]. apply decoded_item; [exact Hi|]. eapply items_valid; eassumption.
Qed.

Lemma decoded_yields_false cs : Forall (fun c => is_scalar c = true) cs -> forall src off,
  exists d, yields decoded_next (Dec false src (CI off (utf8_string cs))) cs d.
Proof.
  induction 1 as [|c cs Hc Hcs IH]; intros src off.
  - eexists. constructor. reflexivity.
  - destruct (IH src (off + length (utf8_encode c))%nat) as (d & Hd). exists d.
    econstructor; [|exact Hd]. unfold decoded_next. cbn [dec_chars dec_needs dec_source].
    rewrite utf8_string_cons, ci_next_encode by assumption. reflexivity.
Qed.

(** A content without backslash consists of plain items. *)
Lemma items_plain l t : items_text l t -> has_bs t = false -> t = utf8_string (map crate_char l).
Proof.
  induction 1 as [|i l a r Hi Hl IH]; intro H; [reflexivity|].
  rewrite has_bs_app in H. apply orb_false_iff in H as [Ha Hr]. cbn [map]. rewrite utf8_string_cons.
  rewrite <- IH by exact Hr. f_equal. destruct Hi; try discriminate. reflexivity.
Qed.

(** A spelling determines the item. *)
Lemma item_spelling_fun i i' a : item_spelling i a -> item_spelling i' a -> i = i'.
Proof.
  assert (Hno : forall x y, is_scalar x = true -> x <> 92 -> utf8_encode x = 92 :: y -> False).
  { intros x y _ Hn E. destruct (utf8_encode_head x) as (b & t & Eb & Hb). rewrite Eb in E. injection E as -> _. auto. }
  intros H H'. enough (K : forall a', item_spelling i' a' -> a' = a -> i = i') by eauto. clear H'. intros a' H' E.
  destruct H as [x Hs Hx H1 H2|b Hin|h u Hh Hu|h1 hi h2 lo Hh1 Hhi Hh2 Hlo];
    destruct H' as [x' Hs' Hx' H1' H2'|b' Hin'|h' u' Hh' Hu'|h1' hi' h2' lo' Hh1' Hhi' Hh2' Hlo'].
  - f_equal. pose proof (next_char_encode x [] Hs) as N1. pose proof (next_char_encode x' [] Hs') as N2.
    rewrite E in N2. congruence.
  - exfalso. symmetry in E. eapply Hno in E; eauto.
  - exfalso. symmetry in E. eapply Hno in E; eauto.
  - exfalso. symmetry in E. eapply Hno in E; eauto.
  - exfalso. eapply Hno in E; eauto.
  - congruence.
  - exfalso. injection E as <- _. cbn in Hin. lia.
  - exfalso. injection E as <- _. cbn in Hin. lia.
  - exfalso. eapply Hno in E; eauto.
  - exfalso. injection E as -> _. cbn in Hin'. lia.
  - injection E as <-. f_equal. eapply hex4_fun; eassumption.
  - exfalso. injection E as E. apply hex4_length in Hh. rewrite <- E, app_length in Hh. apply hex4_length in Hh1'. cbn [length] in Hh. lia.
  - exfalso. eapply Hno in E; eauto.
  - exfalso. injection E as -> _. cbn in Hin'. lia.
  - exfalso. injection E as E. apply hex4_length in Hh'. rewrite E, app_length in Hh'. apply hex4_length in Hh1. cbn [length] in Hh'. lia.
  - injection E as E. apply app_eq_len in E as [<- E].
    + injection E as <-. f_equal; eapply hex4_fun; eassumption.
    + rewrite (hex4_length _ _ Hh1), (hex4_length _ _ Hh1'). reflexivity.
Qed.

Lemma item_nonnil i : ~ item_spelling i [].
Proof. intro H. assert (Hx : str_item [] (rfc_char i)) by (apply str_item_items; eauto). exact (str_item_nonnil _ _ Hx eq_refl). Qed.

Theorem items_text_fun l l' t : items_text l t -> items_text l' t -> l = l'.
Proof.
  intro H. revert l'. induction H as [|i l a r Hi Hl IH]; intros k' H'.
  - inversion H' as [|i' l' a' r' Hi' Hl' E1 E2]; [reflexivity|]. exfalso. apply app_eq_nil in E2 as [-> _].
    exact (item_nonnil _ Hi').
  - inversion H' as [E1 E2|i' l' a' r' Hi' Hl' E1 E2]; subst.
    + exfalso. symmetry in E2. apply app_eq_nil in E2 as [-> _]. exact (item_nonnil _ Hi).
    + assert (Hx : str_item a (rfc_char i)) by (apply str_item_items; eauto).
      assert (Hy : str_item a' (rfc_char i')) by (apply str_item_items; eauto).
      destruct (str_item_det _ _ _ _ _ _ Hy Hx E2) as (-> & _ & ->).
      f_equal; [eapply item_spelling_fun; eassumption|apply IH; exact Hl'].
Qed.
