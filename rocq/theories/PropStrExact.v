(** Exact characterisations completing the partial claims C27, C29, C30 and C44: when precisely the refuted properties hold. *)
From Verif Require Import Base Utf8 Utf8Facts StrModel ErrorModel Tokenizer Parser ValueModel DocModel NumModel Spec SpecStr SpecNum SpecLex SpecWrite
  TokBase TokStr TokNum TokFacts StrSpec StrFacts StrWf StrEsc StrObt View ParseMain PropTok PropNumber PropStr PropEsc.
Local Open Scope N_scope.

(** [x == y] and [y == z] give [x == z] exactly if [x] and [z] have the same form (JSON or raw) or the same [len()]. *)
Theorem C27_eq_transitive_exactly pw x y z : obtainable pw x -> obtainable pw y -> obtainable pw z ->
  js_eq pw x y = Ok true -> js_eq pw y z = Ok true ->
  exists b, js_eq pw x z = Ok b /\ (b = true <-> (is_json_form x <-> is_json_form z) \/ js_len pw x = js_len pw z).
Proof.
  intros Hx Hy Hz E1 E2. destruct (obtainable_wf _ _ Hx) as (cs & Wx). destruct (obtainable_wf _ _ Hy) as (ds & Wy).
  destruct (obtainable_wf _ _ Hz) as (es & Wz).
  apply jwf_decoded in Wx as Dx. apply jwf_decoded in Wy as Dy. apply jwf_decoded in Wz as Dz.
  apply (proj1 (C26_eq_is_text_equality_partial pw x y cs ds Hx Hy Dx Dy)) in E1.
  apply (proj1 (C26_eq_is_text_equality_partial pw y z ds es Hy Hz Dy Dz)) in E2. subst.
  destruct (C26_eq_exactly pw x z es es Hx Hz Dx Dz) as (b & E & Hb). exists b. split; [exact E|]. rewrite Hb. tauto.
Qed.

(** [cmp] is Equal exactly for equal texts, and then [==] holds exactly if the forms or the [len()]s agree. *)
Theorem C29_cmp_consistent_exactly pw x y cs ds : obtainable pw x -> obtainable pw y -> js_decoded pw x = Ok cs -> js_decoded pw y = Ok ds ->
  (js_cmp pw x y = Ok Eq <-> cs = ds) /\
  (js_cmp pw x y = Ok Eq -> (js_eq pw x y = Ok true <-> (is_json_form x <-> is_json_form y) \/ js_len pw x = js_len pw y)) /\
  (js_eq pw x y = Ok true -> js_cmp pw x y = Ok Eq).
Proof.
  intros Hx Hy Dx Dy. destruct (C28_cmp_is_text_order pw x y cs ds Hx Hy Dx Dy) as (E & _ & _).
  assert (K : js_cmp pw x y = Ok Eq <-> cs = ds).
  { rewrite E. split; [intro H; injection H as H; apply lex_cmp_eq; exact H|]. intros <-. f_equal. apply lex_cmp_refl. }
  destruct (C26_eq_exactly pw x y cs ds Hx Hy Dx Dy) as (b & Eb & Hb).
  split; [exact K|]. rewrite K, Eb. split.
  - intro Eq. split; [intro H; injection H as ->; apply Hb; reflexivity|]. intro H. f_equal. apply Hb. auto.
  - intro H. injection H as ->. apply Hb. reflexivity.
Qed.

(** A string read from JSON that contains escapes. *)
Definition stored_escaped (x : json_string) : Prop := is_json_form x /\ In 92 (stored x).

Lemma stored_escaped_dec x : stored_escaped x \/ ~ stored_escaped x.
Proof.
  unfold stored_escaped, is_json_form. destruct (js_source x); [|tauto].
  destruct (in_dec N.eq_dec 92 (stored x)); tauto.
Qed.

(** What exactly is passed to the [Hasher]: one [write] per char for a string stored with escapes, one for the whole text otherwise; then 0xFF. *)
Theorem C30_hash_exactly pw x cs : obtainable pw x -> js_decoded pw x = Ok cs ->
  (stored_escaped x -> js_hash pw x = Ok (map utf8_encode cs ++ [[0xFF]])) /\
  (~ stored_escaped x -> js_hash pw x = Ok [utf8_string cs; [0xFF]]).
Proof.
  intros H E. destruct (C34_as_str pw x cs H E) as (_ & Hn). destruct (C34_as_str pw x cs H E) as (Hs & _). pose proof H as Ho.
  apply obtainable_wf in H as (cs' & Hw). rewrite (jwf_decoded _ _ _ Hw) in E. injection E as ->.
  destruct (jwf_hash _ _ _ Hw) as (h & Hh & _ & Hp & He). unfold js_as_str in Hs, Hn. unfold stored_escaped. rewrite Hh. split.
  - intros [H1 H2]. specialize (Hn H1 H2). unfold is_json_form in H1. f_equal. apply He. destruct (js_source x); [|destruct H1]. destruct (has_escapes pw (js_info x)); [reflexivity|discriminate].
  - intro Hno. f_equal. apply Hp. destruct (js_source x); [|reflexivity]. destruct (has_escapes pw (js_info x)); [|reflexivity]. cbn [negb] in Hs. destruct Hno. exact Hs.
Qed.

(** Two strings feed the hasher identically exactly if they have the same text and either both or none are stored with escapes, or the text is a single char. *)
Theorem C30_hashes_agree_exactly pw x y cs ds : obtainable pw x -> obtainable pw y -> js_decoded pw x = Ok cs -> js_decoded pw y = Ok ds ->
  (js_hash pw x = js_hash pw y <-> cs = ds /\ ((stored_escaped x <-> stored_escaped y) \/ length cs = 1%nat)).
Proof.
  intros Hx Hy Dx Dy. destruct (C30_hash_exactly pw x cs Hx Dx) as [X1 X2]. destruct (C30_hash_exactly pw y ds Hy Dy) as [Y1 Y2].
  assert (Sx : scalars cs) by (destruct (obtainable_wf _ _ Hx) as (c & W); pose proof (jwf_decoded _ _ _ W); assert (c = cs) by congruence; subst; eapply jwf_scalars; exact W).
  assert (Sy : scalars ds) by (destruct (obtainable_wf _ _ Hy) as (c & W); pose proof (jwf_decoded _ _ _ W); assert (c = ds) by congruence; subst; eapply jwf_scalars; exact W).
  assert (Hm : forall a b, scalars a -> scalars b -> map utf8_encode a = map utf8_encode b -> a = b).
  { intros a b Ha Hb Em. apply utf8_string_inj; [exact Ha|exact Hb|]. unfold utf8_string. rewrite !flat_map_concat_map, Em. reflexivity. }
  assert (Mix : forall a b, scalars a -> scalars b -> Ok (E := infallible) (map utf8_encode a ++ [[0xFF]]) = Ok [utf8_string b; [0xFF]] -> a = b /\ length a = 1%nat).
  { intros a b Ha Hb Em. injection Em as Em. change [utf8_string b; [0xFF]] with ([utf8_string b] ++ [[0xFF]]) in Em. apply app_inv_tail in Em.
    destruct a as [|c [|c' a]]; try discriminate. cbn [map] in Em. injection Em as Em. split; [|reflexivity].
    apply utf8_string_inj; [exact Ha|exact Hb|]. rewrite <- Em. unfold utf8_string. cbn. apply app_nil_r. }
  assert (One : forall c, [utf8_encode c] ++ [[0xFF]] = [utf8_string [c]; [0xFF]]) by (intro c; unfold utf8_string; cbn; rewrite app_nil_r; reflexivity).
  destruct (stored_escaped_dec x) as [Kx|Kx], (stored_escaped_dec y) as [Ky|Ky];
    try rewrite (X1 Kx); try rewrite (X2 Kx); try rewrite (Y1 Ky); try rewrite (Y2 Ky); (split; [intro E|intros [<- Hc]]).
  - injection E as E. apply app_inv_tail in E. split; [apply Hm; assumption|left; tauto].
  - reflexivity.
  - apply Mix in E as [-> E]; auto.
  - destruct Hc as [Hc|Hc]; [tauto|]. destruct cs as [|c [|]]; try discriminate. cbn [map]. rewrite One. reflexivity.
  - symmetry in E. apply Mix in E as [-> E]; auto.
  - destruct Hc as [Hc|Hc]; [tauto|]. destruct cs as [|c [|]]; try discriminate. cbn [map]. rewrite One. reflexivity.
  - injection E as E. apply utf8_string_inj in E; [|assumption|assumption]. split; [exact E|left; tauto].
  - reflexivity.
Qed.

(** * C44 *)

Lemma det_steps {S} (na : S -> res infallible (option N * S)) a cs d : yields na a cs d -> forall pre it, steps na a pre it ->
  exists rest, cs = pre ++ rest /\ yields na it rest d.
Proof.
  intros Hy pre it Hs. revert cs Hy. induction Hs as [a|a c a' pre it E Hs IH]; intros cs Hy; [exists cs; auto|].
  inversion Hy as [a1 a2 E' |a1 c' a2 cs' a3 E' Hy']; subst; rewrite E in E'; [discriminate|]. injection E' as <- <-.
  destruct (IH _ Hy') as (rest & -> & K). exists rest. auto.
Qed.

(** In the middle of an escape no further char of the source is taken. *)
Lemma after_steps pw c r i pre it : steps (as_json_next pw) (AJ r (after c) i) pre it ->
  (exists more, tl (escaped1 c) = pre ++ more /\ more <> [] /\ aj_chars it = r /\ exists o, as_json_next pw it = Ok (Some (hd 0 more), o)) \/
  (exists pre', pre = tl (escaped1 c) ++ pre' /\ steps (as_json_next pw) (AJ r ENone i) pre' it).
Proof.
  intro H.
  assert (Single : forall b, steps (as_json_next pw) (AJ r (ESingle b) i) pre it ->
    (exists more, [b] = pre ++ more /\ more <> [] /\ aj_chars it = r /\ exists o, as_json_next pw it = Ok (Some (hd 0 more), o)) \/ (exists pre', pre = [b] ++ pre' /\ steps (as_json_next pw) (AJ r ENone i) pre' it)).
  { intros b K. inversion K as [a|a c' a' pre' a'' E K']; subst; [left; exists [b]; split; [reflexivity|]; split; [discriminate|]; split; [reflexivity|]; eexists; reflexivity|].
    cbn in E. injection E as <- <-. right. exists pre'. auto. }
  unfold after, escaped1 in *. destruct (must_escape c) eqn:Em; cbn [negb] in *; [|right; exists pre; auto].
  destruct ((c =? 34) || (c =? 92)) eqn:E1; [apply Single; exact H|].
  repeat match goal with H : context [if c =? ?k then _ else _] |- _ => destruct (c =? k); [apply Single; exact H|] end.
  cbn [tl].
  assert (Hc : c < 32) by (unfold must_escape in Em; lia).
  assert (Hbits : N.land (c mod 256) 15 = c mod 16).
  { replace (c mod 256) with c by (rewrite N.mod_small; lia). change 15 with (N.ones 4). rewrite N.land_ones. reflexivity. }
  assert (Hb2 : N.land (N.shiftr c 4 mod 256) 15 = c / 16).
  { rewrite N.shiftr_div_pow2. change (2 ^ 4) with 16. rewrite (N.mod_small (c / 16)) by lia.
    change 15 with (N.ones 4). rewrite N.land_ones. change (2 ^ 4) with 16. apply N.mod_small. lia. }
  assert (Hs3 : N.shiftr (N.shiftr c 4) 4 = 0).
  { rewrite !N.shiftr_div_pow2. change (2 ^ 4) with 16. apply N.div_small. lia. }
  assert (Hn : forall n, n < 16 -> (if n <? 10 then @u8_add infallible n 48 else u8_add n 97) = Ok (nibble_char n)).
  { intros n Hlt. unfold nibble_char, u8_add. destruct (n <? 10) eqn:E; destruct (_ <? 256) eqn:E'; try reflexivity; lia. }
  assert (H1 : c mod 16 < 16) by (apply N.mod_lt; lia). assert (H2 : c / 16 < 16) by (apply N.div_lt_upper_bound; lia).
  set (n1 := nibble_char (c mod 16)) in *. set (n2 := nibble_char (c / 16)) in *.
  assert (S0 : as_json_next pw (AJ r (EUnicode None c) i) = Ok (Some 117, AJ r (EUnicode (Some 0) c) i)) by reflexivity.
  assert (S1 : as_json_next pw (AJ r (EUnicode (Some 0) c) i) = Ok (Some n1, AJ r (EUnicode (Some 1) (N.shiftr c 4)) i)).
  { unfold as_json_next. cbn [aj_state aj_chars aj_info]. rewrite Hbits, Hn by exact H1. reflexivity. }
  assert (S2 : as_json_next pw (AJ r (EUnicode (Some 1) (N.shiftr c 4)) i) = Ok (Some n2, AJ r (EUnicode (Some 2) 0) i)).
  { unfold as_json_next. cbn [aj_state aj_chars aj_info]. rewrite Hb2, Hn, Hs3 by exact H2. reflexivity. }
  assert (S3 : as_json_next pw (AJ r (EUnicode (Some 2) 0) i) = Ok (Some 48, AJ r (EUnicode (Some 3) 0) i)) by reflexivity.
  assert (S4 : as_json_next pw (AJ r (EUnicode (Some 3) 0) i) = Ok (Some 48, AJ r ENone i)) by reflexivity.
  set (k := N.shiftr c 4) in *. clearbody n1 n2 k.
  inversion H as [a|a c1 a1 p1 a1' E K1]; subst; [left; eexists; split; [reflexivity|]; split; [discriminate|]; split; [reflexivity|]; cbn [hd]; eauto|]. rewrite S0 in E. injection E as <- <-.
  inversion K1 as [a|a c2 a2 p2 a2' E K2]; subst; [left; eexists; split; [reflexivity|]; split; [discriminate|]; split; [reflexivity|]; cbn [hd]; eauto|]. rewrite S1 in E. injection E as <- <-.
  inversion K2 as [a|a c3 a3 p3 a3' E K3]; subst; [left; eexists; split; [reflexivity|]; split; [discriminate|]; split; [reflexivity|]; cbn [hd]; eauto|]. rewrite S2 in E. injection E as <- <-.
  inversion K3 as [a|a c4 a4 p4 a4' E K4]; subst; [left; eexists; split; [reflexivity|]; split; [discriminate|]; split; [reflexivity|]; cbn [hd]; eauto|]. rewrite S3 in E. injection E as <- <-.
  inversion K4 as [a|a c5 a5 p5 a5' E K5]; subst; [left; eexists; split; [reflexivity|]; split; [discriminate|]; split; [reflexivity|]; cbn [hd]; eauto|]. rewrite S4 in E. injection E as <- <-.
  right. exists p5. split; [reflexivity|exact K5].
Qed.

(** [taken cs1 pre pending]: the chars [cs1] have been taken from the source one by one, each after the escaped form of the one before was complete;
    [pre] is what has been yielded of their escaped form, which is not empty for the last of them, and [pending] is the rest. *)
Definition taken (cs1 pre pending : list N) : Prop :=
  (cs1 = [] /\ pre = [] /\ pending = []) \/
  exists l c started, cs1 = l ++ [c] /\ started <> [] /\ pre = escaped l ++ started /\ escaped1 c = started ++ pending.

Lemma raw_states pw cs : scalars cs -> forall i pre it, steps (as_json_next pw) (AJ (utf8_string cs) ENone i) pre it ->
  exists cs1 cs2 pending, cs = cs1 ++ cs2 /\ taken cs1 pre pending /\ aj_chars it = utf8_string cs2.
Proof.
  induction 1 as [|c cs Hc Hcs IH]; intros i pre it H.
  - inversion H as [a|a c' a' p a'' E K]; subst; [exists [], [], []; repeat split; left; auto|]. discriminate.
  - inversion H as [a|a c' a' p a'' E K]; subst; [exists [], (c :: cs), []; repeat split; left; auto|].
    rewrite utf8_string_cons, as_json_first in E by exact Hc.
    assert (exists i', c' = hd 0 (escaped1 c) /\ a' = AJ (utf8_string cs) (after c) i') as (i' & -> & ->).
    { destruct (must_escape c); [destruct (add_bytes_from_escape _ _ _)|destruct (add_bytes _ _ _)]; try discriminate; cbn [bind] in E; injection E as <- <-; eauto. }
    apply after_steps in K as [(more & E1 & E2 & E3 & _)|(p' & -> & K)].
    + exists [c], cs, more. split; [reflexivity|]. split; [|exact E3]. right. exists [], c, (hd 0 (escaped1 c) :: p).
      split; [reflexivity|]. split; [discriminate|]. split; [reflexivity|]. rewrite escaped1_split at 1. rewrite E1. reflexivity.
    + rewrite app_comm_cons, <- escaped1_split. destruct (IH _ _ _ K) as (cs1 & cs2 & pend & -> & T & E2). exists (c :: cs1), cs2, pend. split; [reflexivity|].
      split; [|exact E2]. right. destruct T as [(-> & -> & ->)|(l & d & st & -> & Hst & -> & Ed)].
      * exists [], c, (escaped1 c). split; [reflexivity|]. split; [rewrite escaped1_split; discriminate|]. split; [cbn; apply app_nil_r|rewrite app_nil_r; reflexivity].
      * exists (c :: l), d, st. split; [reflexivity|]. split; [exact Hst|]. split; [unfold escaped; cbn [flat_map]; rewrite <- app_assoc; reflexivity|exact Ed].
Qed.

Lemma taken_escaped cs1 pre pending : taken cs1 pre pending -> escaped cs1 = pre ++ pending.
Proof.
  intros [(-> & -> & ->)|(l & d & st & -> & Hst & -> & Ed)]; [reflexivity|].
  unfold escaped. rewrite flat_map_app. cbn [flat_map]. rewrite app_nil_r, Ed, app_assoc. reflexivity.
Qed.

Lemma yields_steps {S} (na : S -> res infallible (option N * S)) a cs d : yields na a cs d -> exists b, steps na a cs b /\ na b = Ok (None, d).
Proof.
  induction 1 as [a a' E|a c a' cs a'' E H (b & H1 & H2)]; [exists a; split; [constructor|exact E]|]. exists b. split; [econstructor; eassumption|exact H2].
Qed.
Lemma steps_yields {S} (na : S -> res infallible (option N * S)) a pre b cs d : steps na a pre b -> yields na b cs d -> yields na a (pre ++ cs) d.
Proof. induction 1; intro H2; [exact H2|]. cbn. econstructor; eauto. Qed.
Lemma collect_is_yields {S} (na : S -> res infallible (option N * S)) fuel : forall a cs d, collect na fuel a = Ok (cs, d) -> yields na a cs d.
Proof.
  induction fuel as [|fuel IH]; [discriminate|]. intros a cs d E. cbn [collect] in E. destruct (na a) as [[[c|] a']| |] eqn:En; try discriminate; cbn [bind] in E.
  - destruct (collect na fuel a') as [[cs' d']| |] eqn:Ec; try discriminate. injection E as <- <-. econstructor; [exact En|apply IH; exact Ec].
  - injection E as <- <-. constructor. exact En.
Qed.

(** Whatever is yielded to the end is the escaped form, also when a count is started at some other length. *)
Lemma raw_yields pw cs : scalars cs -> forall i out d, yields (as_json_next pw) (AJ (utf8_string cs) ENone i) out d -> out = escaped cs.
Proof.
  induction 1 as [|c cs Hc Hcs IH]; intros i out d H.
  - inversion H as [a1 a2 E' |a1 c' a2 cs' a3 E' Hy']; subst; [reflexivity|discriminate].
  - inversion H as [a1 a2 E|a1 c' a' out' a3 E K]; subst.
    + rewrite utf8_string_cons, as_json_first in E by exact Hc.
      destruct (must_escape c); [destruct (add_bytes_from_escape _ _ _)|destruct (add_bytes _ _ _)]; discriminate.
    + rewrite utf8_string_cons, as_json_first in E by exact Hc.
      assert (exists i', c' = hd 0 (escaped1 c) /\ a' = AJ (utf8_string cs) (after c) i') as (i' & -> & ->).
      { destruct (must_escape c); [destruct (add_bytes_from_escape _ _ _)|destruct (add_bytes _ _ _)]; try discriminate; cbn [bind] in E; injection E as <- <-; eauto. }
      apply yields_steps in K as (b & K & Kn). apply after_steps in K as [(more & _ & _ & _ & (o & Eo))|(p' & -> & K)]; [rewrite Kn in Eo; discriminate|].
      assert (Y : yields (as_json_next pw) (AJ (utf8_string cs) ENone i') p' d) by (rewrite <- (app_nil_r p'); eapply steps_yields; [exact K|constructor; exact Kn]).
      apply IH in Y. subst p'. unfold escaped. cbn [flat_map]. rewrite app_comm_cons, <- escaped1_split. reflexivity.
Qed.

(** For a string kept raw, in every state of the iterator: [cs1] has been taken from the source, of its escaped form [pre] has been
    yielded and [pending] not yet, [cs2] is untouched. What comes is [pending] and the escaped form of [cs2]; the hint counts the bytes of [cs2].
    So the upper bound holds exactly if these are not fewer. *)
Theorem C44_size_hint_exactly pw s x cs pre it rest : built pw s x -> ~ is_json_form x -> js_decoded pw x = Ok cs ->
  as_json_after pw x pre it -> as_json_rest pw it rest ->
  exists cs1 cs2 pending, cs = cs1 ++ cs2 /\ taken cs1 pre pending /\ rest = pending ++ escaped cs2 /\
    as_json_size_hint it = (((length (utf8_string cs2) + 3) / 4)%nat, Some (length (utf8_string cs2))).
Proof.
  intros H Hr E Ha (fuel & d & Ec). apply collect_is_yields in Ec. apply built_shape in H as (a & cs' & Hcs & -> & Ea & Hl & Hc & -> & Hw).
  rewrite (jwf_decoded _ _ _ Hw) in E. injection E as ->. unfold as_json_after, js_as_json_iter, as_json_new, built_from in *.
  destruct (existsb must_escape cs) eqn:Em; [|destruct (Hr I)]. cbn [js_source js_info] in Ha. rewrite Ea in Ha.
  pose proof (raw_yields _ _ Hcs _ _ _ (steps_yields _ _ _ _ _ _ Ha Ec)) as Et.
  destruct (raw_states _ _ Hcs _ _ _ Ha) as (cs1 & cs2 & pend & -> & T & E2). exists cs1, cs2, pend. split; [reflexivity|]. split; [exact T|].
  split; [|unfold as_json_size_hint; rewrite E2; reflexivity].
  apply taken_escaped in T. unfold escaped in *. rewrite flat_map_app, T, <- app_assoc in Et. apply app_inv_head in Et. exact Et.
Qed.

Lemma escaped_longer l : (length l <= length (escaped l))%nat /\ (length (escaped l) = length l <-> existsb must_escape l = false).
Proof.
  induction l as [|c l [I1 I2]]; [split; [cbn; lia|cbn; tauto]|]. unfold escaped in *. cbn [flat_map existsb length]. rewrite app_length.
  assert (G : if must_escape c then (2 <= length (escaped1 c))%nat else length (escaped1 c) = 1%nat).
  { unfold escaped1. destruct (must_escape c); cbn [negb]; [|reflexivity]. repeat match goal with |- context [if ?b then _ else _] => destruct b end; cbn [length]; lia. }
  destruct (must_escape c); cbn [orb]; (split; [lia|]).
  - split; [lia|discriminate].
  - rewrite <- I2. lia.
Qed.

(** For ASCII text: at the start the upper bound is wrong for every string kept raw. *)
Theorem C44_size_hint_upper_wrong_for_raw_ascii pw s x rest : built pw s x -> ~ is_json_form x -> Forall (fun b => b < 128) s ->
  as_json_rest pw (js_as_json_iter x) rest ->
  snd (as_json_size_hint (js_as_json_iter x)) = Some (length s) /\ (length s < length rest)%nat.
Proof.
  intros H Hr Hs Hre. destruct (C31_from_keeps_text pw s x H) as (cs & Es & Hc & E & _).
  destruct (C44_size_hint_exactly pw s x cs [] _ rest H Hr E (st_nil _ _) Hre) as (cs1 & cs2 & pend & -> & T & -> & Eh).
  assert (cs1 = [] /\ pend = []) as [-> ->].
  { destruct T as [(-> & _ & ->)|(l & c & st & _ & K & K2 & _)]; [auto|]. destruct (escaped l); [destruct st; [congruence|discriminate]|discriminate]. }
  cbn [app] in *. rewrite Eh, Es. split; [reflexivity|].
  assert (L2 : length (utf8_string cs2) = length cs2).
  { rewrite Es in Hs. clear - Hs Hc. induction cs2 as [|c l IHl]; [reflexivity|]. rewrite utf8_string_cons in *. apply Forall_app in Hs as [H1 H2]. inversion Hc; subst.
    rewrite app_length, IHl by assumption. destruct (N.lt_ge_cases c 128) as [K|K]; [rewrite utf8_encode_ascii by exact K; reflexivity|].
    pose proof (utf8_encode_high c K) as G. pose proof (utf8_encode_length c) as G2. pose proof (len_utf8_pos c). destruct (utf8_encode c); [cbn in G2; lia|]. inversion H1; inversion G; subst. lia. }
  rewrite L2. destruct (escaped_longer cs2) as [G1 G2].
  assert (existsb must_escape cs2 = true).
  { apply built_shape in H as (a & cs' & Hcs & Es' & Ea & Hl & Hcn & -> & Hw). unfold built_from in Hr. destruct (existsb must_escape cs') eqn:Em; [|destruct (Hr I)].
    rewrite Es in Es'. apply utf8_string_inj in Es'; [congruence|assumption|assumption]. }
  destruct (Nat.eq_dec (length (escaped cs2)) (length cs2)) as [K|K]; [apply G2 in K; congruence|lia].
Qed.

(** * The hypotheses are met *)
Example C44_exactly_sample : exists x it, built W64 [97; 10; 98] x /\ ~ is_json_form x /\ js_decoded W64 x = Ok [97; 10; 98] /\
  as_json_after W64 x [97; 92] it /\ as_json_rest W64 it [110; 98] /\ taken [97; 10] [97; 92] [110] /\ as_json_size_hint it = (1%nat, Some 1%nat).
Proof.
  eexists _, _. split; [split; [apply utf8_checked; [vm_compute; reflexivity|vm_compute; discriminate]|left; vm_compute; reflexivity]|].
  split; [intros []|]. split; [vm_compute; reflexivity|]. split.
  { unfold as_json_after. econstructor; [vm_compute; reflexivity|]. econstructor; [vm_compute; reflexivity|]. constructor. }
  split; [exists 10%nat; eexists; vm_compute; reflexivity|]. split; [|vm_compute; reflexivity].
  right. exists [97], 10, [92]. repeat split. discriminate.
Qed.

Example C30_exactly_sample : exists x y z, string_from_json W64 (bs """\n""") = Ok x /\ js_from_str W64 [10] = Ok y /\ string_from_json W64 (bs """\na""") = Ok z /\
  stored_escaped x /\ ~ stored_escaped y /\ js_hash W64 x = js_hash W64 y /\ js_hash W64 z = Ok [[10]; [97]; [0xFF]] /\
  obtainable W64 x /\ obtainable W64 y /\ obtainable W64 z.
Proof.
  assert (Hr : forall s, utf8_valid s = true -> N.of_nat (length s) <= isize_max W64 -> rust_str W64 s) by (intros; apply utf8_checked; assumption).
  eexists _, _, _. split; [vm_compute; reflexivity|]. split; [vm_compute; reflexivity|]. split; [vm_compute; reflexivity|].
  split; [split; [exact I|left; reflexivity]|]. split; [intros [[] _]|]. split; [vm_compute; reflexivity|]. split; [vm_compute; reflexivity|].
  split; [left; apply parsed_string with (s := bs """\n"""); [apply Hr; [vm_compute; reflexivity|vm_compute; discriminate]|vm_compute; reflexivity]|].
  split; [right; exists [10]; split; [apply Hr; [vm_compute; reflexivity|vm_compute; discriminate]|left; vm_compute; reflexivity]|].
  left; apply parsed_string with (s := bs """\na"""); [apply Hr; [vm_compute; reflexivity|vm_compute; discriminate]|vm_compute; reflexivity].
Qed.
