(** Property theorems about builds with and without overflow checks (C92). *)
From Verif Require Import Base Utf8 Utf8Facts StrModel ErrorModel Tokenizer Parser ValueModel DocModel ReleaseModel Spec SpecStr
  TokBase StrSpec StrFacts StrWf StrEsc StrObt View PropTok PropStr PropEsc PropFused PropWrite PropIter.
Local Open Scope N_scope.

Lemma sub_ok {E} a b r : u32_sub (E := E) a b = Ok r -> a < 2 ^ 32 -> rel_u32_sub a b = r.
Proof.
  unfold u32_sub, rel_u32_sub. destruct (N.leb_spec b a) as [H|H]; [|discriminate]. intros E0 Ha. injection E0 as <-.
  replace (a + 2 ^ 32 - b) with (a - b + 1 * 2 ^ 32) by lia. rewrite N.mod_add by lia. apply N.mod_small. lia.
Qed.

Lemma merge_ok {E} hi lo m : merge_surrogate_pair (E := E) hi lo = Ok m -> hi <= HIGH_SURROGATE_MAX -> lo < 2 ^ 32 -> rel_merge_surrogate_pair hi lo = m.
Proof.
  unfold merge_surrogate_pair, rel_merge_surrogate_pair. intros E0 Hh Hl.
  assert (Hh' : hi < 2 ^ 32) by (unfold HIGH_SURROGATE_MAX in Hh; lia).
  destruct (u32_sub hi HIGH_SURROGATE_MIN) as [h| |] eqn:E1; try discriminate. cbn [bind] in E0.
  destruct (u32_sub lo LOW_SURROGATE_MIN) as [l| |] eqn:E2; try discriminate. cbn [bind] in E0.
  apply sub_ok in E2; [|exact Hl]. pose proof (sub_ok _ _ _ E1 Hh') as E3. subst l.
  assert (Hm : rel_u32_mul h 0x400 = h * 0x400).
  2:{ rewrite E3, Hm. assert (Hi : forall A B (x y : A), @Ok B A x = Ok y -> x = y) by (intros A B x y K; inversion K; reflexivity). exact (Hi _ _ _ _ E0). }
  clear E0. unfold rel_u32_mul. apply N.mod_small.
  clear E3. unfold u32_sub in E1. destruct (N.leb_spec HIGH_SURROGATE_MIN hi) as [H|H]; [|discriminate]. injection E1 as <-.
  unfold HIGH_SURROGATE_MIN, HIGH_SURROGATE_MAX in *. lia.
Qed.

(** * Tokenizing *)

Lemma second_half_same decoded it : rel_read_second_half decoded it = read_second_half decoded it.
Proof.
  unfold rel_read_second_half, read_second_half.
  destruct (N.leb_spec HIGH_SURROGATE_MIN decoded) as [H1|H1]; [|reflexivity].
  destruct (N.leb_spec decoded HIGH_SURROGATE_MAX) as [H2|H2]; [|reflexivity]. cbn [andb].
  unfold tbind. destruct (bi_read it) as [[[o1 b1]|e|f] it1]; try reflexivity.
  destruct (b1 =? 92); [|reflexivity].
  destruct (bi_read it1) as [[[o2 b2]|e|f] it2]; try reflexivity.
  destruct (b2 =? 117); [|reflexivity].
  destruct (read_hex 4 0 it2) as [[second|e|f] it3]; try reflexivity.
  destruct (N.leb_spec LOW_SURROGATE_MIN second) as [H3|H3]; [|reflexivity].
  destruct (N.leb_spec second LOW_SURROGATE_MAX) as [H4|H4]; [|reflexivity]. cbn [andb].
  unfold tlift, tret.
  destruct (merge_surrogate_pair (E := error infallible) decoded second) as [m|e|f] eqn:Em.
  - rewrite (merge_ok _ _ _ Em H2); [reflexivity|]. unfold LOW_SURROGATE_MAX in H4. lia.
  - exfalso. unfold merge_surrogate_pair, u32_sub in Em. apply N.leb_le in H1. rewrite H1 in Em. cbn [bind] in Em. apply N.leb_le in H3. rewrite H3 in Em. discriminate.
  - exfalso. unfold merge_surrogate_pair, u32_sub in Em. apply N.leb_le in H1. rewrite H1 in Em. cbn [bind] in Em. apply N.leb_le in H3. rewrite H3 in Em. discriminate.
Qed.

(** The only arithmetic of the tokenizer that a build without overflow checks computes differently on some numbers is in the
    reading of an escape; on every input and in every state it gives the same result. *)
Theorem C92_reading_escapes pw i it : rel_read_string_escape pw i it = read_string_escape pw i it.
Proof.
  unfold rel_read_string_escape, read_string_escape, tbind.
  destruct (bi_read it) as [[[o b]|e|f] it1]; try reflexivity.
  destruct (_ || _); [reflexivity|]. destruct (b =? 117); [|reflexivity].
  destruct (read_hex 4 0 it1) as [[decoded|e|f] it2]; try reflexivity.
  destruct (char_from_u32 decoded); [reflexivity|]. rewrite second_half_same. reflexivity.
Qed.

(** * Decoding *)

Lemma hex_digits_small s : forall acc n, acc <= 0xFFFFFFFF -> hex_digits acc s = Some n -> n <= 0xFFFFFFFF.
Proof.
  induction s as [|b r IH]; intros acc n Ha E; cbn [hex_digits] in E; [injection E as <-; exact Ha|].
  destruct (hex_digit b) as [d|]; [|discriminate]. destruct (N.leb_spec (acc * 16 + d) 0xFFFFFFFF) as [H|H]; [|discriminate].
  eapply IH; [|exact E]. exact H.
Qed.
Lemma radix_small s n : u32_from_str_radix16 s = Some n -> n < 2 ^ 32.
Proof.
  intro E. apply N.le_lt_trans with 0xFFFFFFFF; [|reflexivity]. unfold u32_from_str_radix16 in E.
  destruct s as [|b [|c r]]; [discriminate| |].
  - destruct (_ || _); [discriminate|]. eapply hex_digits_small; [|exact E]. discriminate.
  - destruct (b =? 43); (eapply hex_digits_small; [|exact E]; discriminate).
Qed.

Lemma decoded_same d r : decoded_next d = Ok r -> rel_decoded_next d = Ok r.
Proof.
  unfold decoded_next, rel_decoded_next. destruct (ci_next (dec_chars d)) as [[[o ch]|] it]; [|tauto].
  destruct (dec_needs d && (ch =? 92)); [|tauto]. destruct (ci_next it) as [[[offset c]|] it2]; [|tauto].
  do 5 (match goal with |- context [if c =? ?k then _ else _] => destruct (c =? k); [tauto|] end).
  destruct (c =? 117); [|tauto]. destruct (str_slice _ _ _) as [h|]; [|tauto].
  destruct (u32_from_str_radix16 h) as [u|] eqn:Eu; [|tauto].
  destruct (HIGH_SURROGATE_MIN <=? u); [|tauto]. destruct (N.leb_spec u HIGH_SURROGATE_MAX) as [H2|H2]; [|tauto]. cbn [andb].
  destruct (str_slice _ _ _) as [h2|]; [|tauto]. destruct (u32_from_str_radix16 h2) as [u2|] eqn:Eu2; [|tauto].
  destruct (merge_surrogate_pair u u2) as [m| |] eqn:Em; try discriminate. cbn [bind].
  rewrite (merge_ok _ _ _ Em H2 (radix_small _ _ Eu2)). tauto.
Qed.

Lemma pulls_same {S} (f g : S -> res infallible (option N * S)) : (forall s r, f s = Ok r -> g s = Ok r) ->
  forall n s l, pulls f n s = Some l -> pulls g n s = Some l.
Proof.
  intros H. induction n as [|n IH]; intros s l E; [exact E|]. cbn [pulls] in *.
  destruct (f s) as [[o s']| |] eqn:Ef; try discriminate. rewrite (H _ _ Ef).
  destruct (pulls f n s') as [r|] eqn:Ep; [|discriminate]. rewrite (IH _ _ Ep). exact E.
Qed.

(** Decoding a string a program can have, pulled any number of times: the same with and without overflow checks. *)
Theorem C92_decoding pw x : obtainable pw x -> forall n,
  pulls rel_decoded_next n (js_decoded_iter pw x) = pulls decoded_next n (js_decoded_iter pw x) /\
  pulls decoded_next n (js_decoded_iter pw x) <> None.
Proof.
  intros H n. destruct (C74_decoded_one_by_one pw x H) as (cs & _ & E). specialize (E n).
  rewrite E. split; [|discriminate]. eapply pulls_same; [|exact E]. exact decoded_same.
Qed.

(** * Escaping *)

Definition nibble_ok (a : as_json) : Prop := match aj_state a with EUnicode (Some n) _ => n < 4 | _ => True end.

Lemma nibble_new c i : nibble_ok (as_json_new c i).
Proof. destruct c; exact I. Qed.

Lemma as_json_same pw a : nibble_ok a -> rel_as_json_next pw a = as_json_next pw a.
Proof.
  unfold nibble_ok, rel_as_json_next. destruct a as [cs st i]. cbn [aj_state aj_chars aj_info].
  destruct st as [| |b|[n|] cp]; try reflexivity. intro Hn. unfold as_json_next. cbn [aj_state aj_chars aj_info].
  assert (Hb : N.land (cp mod 256) 15 < 16). { change 15 with (N.ones 4). rewrite N.land_ones. apply N.mod_lt. discriminate. }
  unfold rel_u8_add, u8_add. assert (E1 : (n + 1 <? 256) = true) by (apply N.ltb_lt; lia). rewrite E1.
  assert (E2 : (n + 1) mod 256 = n + 1) by (apply N.mod_small; lia). rewrite E2.
  set (bits := N.land (cp mod 256) 15) in *. destruct (N.ltb_spec bits 10) as [H|H].
  - assert (E3 : (bits + 48 <? 256) = true) by (apply N.ltb_lt; lia). rewrite E3. cbn [bind]. rewrite (N.mod_small (bits + 48)) by lia. reflexivity.
  - assert (E3 : (bits + 97 <? 256) = true) by (apply N.ltb_lt; lia). rewrite E3. cbn [bind]. rewrite (N.mod_small (bits + 97)) by lia. reflexivity.
Qed.

Lemma nibble_next pw a o a' : nibble_ok a -> as_json_next pw a = Ok (o, a') -> nibble_ok a'.
Proof.
  intros Ha. destruct a as [cs st i]. unfold as_json_next. cbn [aj_state aj_chars aj_info]. unfold nibble_ok in Ha. cbn [aj_state] in Ha.
  destruct st as [| |b|[n|] cp].
  - destruct (next_char cs) as [[c r]|]; intro E; injection E as <- <-; exact I.
  - destruct (next_char cs) as [[c r]|]; [|intro E; injection E as <- <-; exact I]. intro E.
    repeat match type of E with
    | context [if ?b then _ else _] => destruct b
    | context [add_bytes ?p ?i ?n] => destruct (add_bytes (E := infallible) p i n)
    | context [add_bytes_from_escape ?p ?i ?n] => destruct (add_bytes_from_escape (E := infallible) p i n)
    end; cbn [bind] in E; try discriminate; injection E as <- <-; exact I.
  - intro E. injection E as <- <-. exact I.
  - intro E. destruct (if _ <? 10 then _ else _) as [ch| |]; try discriminate. cbn [bind] in E.
    unfold u8_add in E. destruct (n + 1 <? 256); [|discriminate]. cbn [bind] in E.
    destruct (N.eqb_spec (n + 1) 4) as [H|H]; injection E as <- <-; cbn [nibble_ok aj_state]; [exact I|]. unfold nibble_ok. cbn [aj_state]. lia.
  - intro E. injection E as <- <-. unfold nibble_ok. cbn [aj_state]. reflexivity.
Qed.

Lemma pulls_as_json_same pw : forall n a, nibble_ok a -> pulls (rel_as_json_next pw) n a = pulls (as_json_next pw) n a.
Proof.
  induction n as [|n IH]; intros a Ha; [reflexivity|]. cbn [pulls]. rewrite as_json_same by exact Ha.
  destruct (as_json_next pw a) as [[o a']| |] eqn:E; try reflexivity. rewrite IH; [reflexivity|]. eapply nibble_next; eassumption.
Qed.

(** Escaping any string, pulled any number of times: the same with and without overflow checks (also when it panics: the count of
    bytes is checked in both). *)
Theorem C92_escaping pw x n : pulls (rel_as_json_next pw) n (js_as_json_iter x) = pulls (as_json_next pw) n (js_as_json_iter x).
Proof. apply pulls_as_json_same. apply nibble_new. Qed.

Lemma collect_as_json_same pw : forall fuel a, nibble_ok a -> collect (rel_as_json_next pw) fuel a = collect (as_json_next pw) fuel a.
Proof.
  induction fuel as [|fuel IH]; intros a Ha; [reflexivity|]. cbn [collect]. rewrite as_json_same by exact Ha.
  destruct (as_json_next pw a) as [[[c|] a']| |] eqn:E; try reflexivity. cbn [bind]. rewrite IH; [reflexivity|]. eapply nibble_next; eassumption.
Qed.

(** * Serializing *)

Section Write.
  Variable pw : pwidth.
  Variable W : fmt_write.
  Variable pretty : bool.
  Variables indent eol : list N.
  Local Notation lvl := (ws_level W).

  (** From level [l] both computations do the same; if they succeed they end on level [l']. *)
  Definition same (l l' : nat) (m m' : wm W) : Prop := forall s, lvl s = l ->
    m' s = m s /\ forall u s', m s = (Ok u, s') -> lvl s' = l'.

  Lemma same_then l l1 l2 m m' k k' : same l l1 m m' -> same l1 l2 k k' -> same l l2 (wthen W m k) (wthen W m' k').
  Proof.
    intros Hm Hk s Hs. destruct (Hm s Hs) as [E1 E2]. unfold wthen. rewrite E1.
    destruct (m s) as [[u|e|f] s'] eqn:Em; try (split; [reflexivity|discriminate]).
    destruct (Hk s' (E2 u s' eq_refl)) as [E3 E4]. rewrite E3. split; [reflexivity|exact E4].
  Qed.
  Lemma same_refl l m : (forall s u s', m s = (Ok u, s') -> lvl s' = lvl s) -> same l l m m.
  Proof. intros H s Hs. split; [reflexivity|]. intros u s' E. rewrite (H _ _ _ E). exact Hs. Qed.
  Lemma keep_str t s u s' : w_str W t s = (Ok u, s') -> lvl s' = lvl s.
  Proof. unfold w_str. destruct (w_write_str W (ws_writer W s) t) as [ok w]. intro E. injection E as _ <-. reflexivity. Qed.
  Lemma keep_char c s u s' : w_char W c s = (Ok u, s') -> lvl s' = lvl s.
  Proof. unfold w_char. destruct (w_write_char W (ws_writer W s) c) as [ok w]. intro E. injection E as _ <-. reflexivity. Qed.
  Lemma keep_then m k : (forall s u s', m s = (Ok u, s') -> lvl s' = lvl s) -> (forall s u s', k s = (Ok u, s') -> lvl s' = lvl s) ->
    forall s u s', wthen W m k s = (Ok u, s') -> lvl s' = lvl s.
  Proof.
    intros Hm Hk s u s'. unfold wthen. destruct (m s) as [[x|e|f] s1] eqn:Em; try discriminate. intro E.
    rewrite (Hk _ _ _ E). eapply Hm. exact Em.
  Qed.
  Lemma keep_repeat n t : forall s u s', w_repeat W n (w_str W t) s = (Ok u, s') -> lvl s' = lvl s.
  Proof.
    induction n as [|n IH]; cbn [w_repeat]; [intros s u s' E; injection E as _ <-; reflexivity|].
    apply keep_then; [apply keep_str|exact IH].
  Qed.
  Lemma keep_indent s u s' : w_indent W pretty indent s = (Ok u, s') -> lvl s' = lvl s.
  Proof.
    unfold w_indent. destruct (pretty && _); [|intro E; injection E as _ <-; reflexivity]. intro E. apply keep_repeat in E. exact E.
  Qed.
  Lemma same_write l t : same l l (w_write W pretty indent t) (w_write W pretty indent t).
  Proof. apply same_refl. apply keep_then; [exact keep_indent|apply keep_str]. Qed.
  Lemma same_as_json l : forall fuel a, nibble_ok a -> same l l (w_as_json pw W fuel a) (rel_w_as_json pw W fuel a).
  Proof.
    induction fuel as [|fuel IH]; intros a Ha s Hs; cbn [w_as_json rel_w_as_json]; [split; [reflexivity|discriminate]|].
    rewrite as_json_same by exact Ha. destruct (as_json_next pw a) as [[[c|] a']|[]|f] eqn:E.
    - apply (same_then l l l); [apply same_refl; apply keep_char| |exact Hs]. apply IH. eapply nibble_next; eassumption.
    - split; [reflexivity|]. intros u s' E'. injection E' as _ <-. exact Hs.
    - split; [reflexivity|discriminate].
  Qed.
  Lemma same_json l x : same l l (w_write_json pw W pretty indent x) (rel_w_write_json pw W pretty indent x).
  Proof.
    unfold w_write_json, rel_w_write_json. apply same_then with l; [apply same_refl; exact keep_indent|].
    apply same_then with l; [apply same_refl; apply keep_str|]. apply same_then with l; [|apply same_refl; apply keep_str].
    apply same_as_json. apply nibble_new.
  Qed.
  Lemma same_new_line l : same l l (w_new_line W pretty indent eol) (w_new_line W pretty indent eol).
  Proof.
    assert (K : forall t s u s', w_write W pretty indent t s = (Ok u, s') -> lvl s' = lvl s) by (intro t; apply keep_then; [exact keep_indent|apply keep_str]).
    unfold w_new_line. revert K. case pretty; intro K; [|apply same_refl; intros s u s' E; injection E as _ <-; reflexivity].
    apply same_refl. apply keep_then; [apply K|]. intros s u s' E. injection E as _ <-. reflexivity.
  Qed.
  Lemma same_ret l : same l l (wret W) (wret W).
  Proof. apply same_refl. intros s u s' E. injection E as _ <-. reflexivity. Qed.
  Lemma same_up l : N.of_nat l < usize_max pw -> same l (S l) (w_level_up W) (rel_w_level_up pw W).
  Proof.
    intros H s Hs. unfold w_level_up, rel_w_level_up. rewrite Hs. destruct (N.eqb_spec (N.of_nat l) (usize_max pw)) as [E|E]; [lia|].
    split; [reflexivity|]. intros u s' E'. injection E' as _ <-. reflexivity.
  Qed.
  Lemma same_down l : same (S l) l (w_level_down W) (rel_w_level_down pw W).
  Proof.
    intros s Hs. unfold w_level_down, rel_w_level_down. rewrite Hs. split; [reflexivity|]. intros u s' E. injection E as _ <-. reflexivity.
  Qed.
  Lemma same_value : forall v l, N.of_nat l + tree_depth (tree_of v) <= usize_max pw ->
    same l l (write_json_value pw W pretty indent eol v) (rel_write_json_value pw W pretty indent eol v).
  Proof.
    induction v as [n|x|b|o IH|a IH|] using value_ind'; intros l Hl.
    - apply same_write. - apply same_json. - apply same_write.
    - cbn [write_json_value rel_write_json_value]. cbn [tree_of tree_depth] in Hl.
      apply same_then with (S l). { apply same_then with l; [apply same_write|]. apply same_up. lia. }
      apply same_then with (S l); [|apply same_then with l; [apply same_down|apply same_write]].
      assert (Hd : forall e, In e o -> N.of_nat (S l) + tree_depth (tree_of (snd e)) <= usize_max pw).
      { intros e He. assert (tree_depth (tree_of (snd e)) <= fold_right (fun e m => N.max (tree_depth (snd e)) m) 0 (map (fun e => (stored (fst e), tree_of (snd e))) o)); [|lia].
        clear - He. induction o as [|e' o IH]; [contradiction|]. cbn [map fold_right snd fst]. destruct He as [->|He]; [lia|]. specialize (IH He). lia. }
      clear Hl. match goal with |- same _ _ ?A ?B => match A with context [wthen W _ (?F o)] => match B with context [wthen W _ (?G o)] => assert (HG : same (S l) (S l) (F o) (G o)) end end end.
      { revert IH Hd. generalize (S l). intro l1. induction o as [|[k v] o IHo]; intros IH Hd; [apply same_ret|].
        inversion IH as [|? ? IHv IHr]; subst. cbn [snd] in IHv.
        apply same_then with l1; [apply same_json|].
        apply same_then with l1; [apply same_write|].
        apply same_then with l1; [apply IHv; apply (Hd (k, v)); left; reflexivity|].
        apply same_then with l1; [destruct o; [apply same_ret|apply same_write]|].
        apply same_then with l1; [apply same_new_line|]. apply IHo; [exact IHr|]. intros e He. apply Hd. right. exact He. }
      destruct o; [apply same_ret|]. apply same_then with (S l); [apply same_new_line|]. exact HG.
    - cbn [write_json_value rel_write_json_value]. cbn [tree_of tree_depth] in Hl.
      apply same_then with (S l). { apply same_then with l; [apply same_write|]. apply same_up. lia. }
      apply same_then with (S l); [|apply same_then with l; [apply same_down|apply same_write]].
      assert (Hd : forall e, In e a -> N.of_nat (S l) + tree_depth (tree_of e) <= usize_max pw).
      { intros e He. assert (tree_depth (tree_of e) <= fold_right (fun e m => N.max (tree_depth e) m) 0 (map tree_of a)); [|lia].
        clear - He. induction a as [|e' o IH]; [contradiction|]. cbn [map fold_right]. destruct He as [->|He]; [lia|]. specialize (IH He). lia. }
      clear Hl. match goal with |- same _ _ ?A ?B => match A with context [wthen W _ (?F a)] => match B with context [wthen W _ (?G a)] => assert (HG : same (S l) (S l) (F a) (G a)) end end end.
      { revert IH Hd. generalize (S l). intro l1. induction a as [|v o IHo]; intros IH Hd; [apply same_ret|].
        inversion IH as [|? ? IHv IHr]; subst.
        apply same_then with l1; [apply IHv; apply Hd; left; reflexivity|].
        apply same_then with l1; [destruct o; [apply same_ret|apply same_write]|].
        apply same_then with l1; [apply same_new_line|]. apply IHo; [exact IHr|]. intros e He. apply Hd. right. exact He. }
      destruct a; [apply same_ret|]. apply same_then with (S l); [apply same_new_line|]. exact HG.
    - apply same_write.
  Qed.
End Write.

(** Serializing any value that is not nested deeper than [usize] can count, compactly or not, into any writer: the same calls to
    the writer and the same result with and without overflow checks. *)
Theorem C92_serializing pw W pretty indent eol v w : tree_depth (tree_of v) <= usize_max pw ->
  rel_write_json pw W pretty indent eol v w = write_json pw W pretty indent eol v w.
Proof.
  intro H. unfold rel_write_json, write_json. destruct (same_value pw W pretty indent eol v 0%nat H (WS W w 0 true) eq_refl) as [E _].
  rewrite E. reflexivity.
Qed.

(** In particular, for every parsed value, whatever its size. *)
Corollary C92_serializing_parsed pw W pretty indent eol cfg s v w : parsed_from pw cfg s v ->
  rel_write_json pw W pretty indent eol v w = write_json pw W pretty indent eol v w.
Proof.
  intro H. apply C92_serializing. pose proof (C68_depth _ _ _ _ H) as K.
  apply parsed_from_repr in H as [L _].
  assert (isize_max pw <= usize_max pw) by (clear; destruct pw; discriminate). lia.
Qed.

(** * Counting *)

Definition node_length (n : node) : nat := match n with NObject k | NArray k => k | _ => O end.

Lemma flat_map_length_ge {A B} (f : A -> list B) l : (forall x, f x <> []) -> (length l <= length (flat_map f l))%nat.
Proof.
  intro H. induction l as [|x l IH]; [apply le_n|]. cbn [flat_map length]. rewrite app_length.
  pose proof (H x). destruct (f x); [congruence|]. cbn [length]. lia.
Qed.
Lemma flat_map_length_in {A B} (f : A -> list B) l x : In x l -> (length (f x) <= length (flat_map f l))%nat.
Proof.
  induction l as [|y l IH]; [intros []|]. cbn [flat_map]. rewrite app_length. intros [->|H]; [lia|]. apply IH in H. lia.
Qed.
Lemma preorder_not_nil v : preorder v <> [].
Proof. destruct v; discriminate. Qed.

Lemma node_length_preorder : forall v n, In n (preorder v) -> (node_length n < length (preorder v))%nat.
Proof.
  induction v as [x|x|b|o IH|a IH|] using value_ind'; intros n Hn; try (destruct Hn as [<-|[]]; cbn; lia).
  - cbn [preorder] in *. cbn [length]. destruct Hn as [<-|Hn].
    + cbn [node_length]. pose proof (flat_map_length_ge (fun e : json_string * value => NString (fst e) :: preorder (snd e)) o) as K.
      assert ((length o <= length (flat_map (fun e : json_string * value => NString (fst e) :: preorder (snd e)) o))%nat) by (apply K; discriminate). lia.
    + apply in_flat_map in Hn as (e & He & Hn). pose proof (flat_map_length_in (fun e : json_string * value => NString (fst e) :: preorder (snd e)) o e He) as K.
      cbn [length] in K. destruct Hn as [<-|Hn]; [cbn [node_length]; lia|]. rewrite Forall_forall in IH. specialize (IH e He n Hn). lia.
  - cbn [preorder] in *. cbn [length]. destruct Hn as [<-|Hn].
    + cbn [node_length]. pose proof (flat_map_length_ge preorder a preorder_not_nil). lia.
    + apply in_flat_map in Hn as (e & He & Hn). pose proof (flat_map_length_in preorder a e He) as K.
      rewrite Forall_forall in IH. specialize (IH e He n Hn). lia.
Qed.

(** The lengths a document counts stay below half the size of the input, so they cannot overflow. *)
Theorem C92_node_lengths pw cfg s doc v n : document_for pw cfg s doc v -> In n doc ->
  (2 * node_length n < length s)%nat.
Proof.
  intros H Hn. pose proof (C68_node_count _ _ _ _ _ H) as K. rewrite (document_preorder _ _ _ _ _ H) in K, Hn.
  apply node_length_preorder in Hn. lia.
Qed.

(** The wrapped arithmetic is really different where a check would fail, and a string with an unpaired surrogate, which no program
    can get, would be decoded differently. *)
Example C92_sample :
  rel_u32_sub 0 1 = 0xFFFFFFFF /\ u32_sub (E := infallible) 0 1 = Fault FOverflow /\
  rel_u8_add 250 10 = 4 /\ rel_merge_surrogate_pair 0xD83D 0xDE39 = 0x1F639 /\
  (let x := JStr (CJson (Borrowed (bs "\ud83d\u0041"))) (info_new W64 true 4) in
   pulls decoded_next 1 (js_decoded_iter W64 x) = None /\ ~ obtainable W64 x) /\
  (let y := JStr (CRaw (Borrowed [1])) (info_new W64 true 6) in
   pulls (rel_as_json_next W64) 7 (js_as_json_iter y) = Some [Some 92; Some 117; Some 49; Some 48; Some 48; Some 48; None]) /\
  rel_write_json W64 string_write false [] [] (VArray [VArray []; VNull]) [] = (Ok tt, bs "[[],null]").
Proof.
  split; [reflexivity|]. split; [reflexivity|]. split; [reflexivity|]. split; [reflexivity|].
  split; [|split; [vm_compute; reflexivity|vm_compute; reflexivity]].
  split; [vm_compute; reflexivity|]. intro H. destruct (C92_decoding _ _ H 1%nat) as [_ K]. apply K. vm_compute. reflexivity.
Qed.
