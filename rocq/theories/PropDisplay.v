(** Property theorems about displaying JsonString and its iterators (C85). *)
From Verif Require Import Base Utf8 Utf8Facts StrModel ErrorModel Tokenizer Parser ValueModel DocModel NumModel ErrorDisplay DisplayModel Spec SpecStr SpecNum SpecLex SpecWrite
  TokBase TokStr TokNum TokFacts StrSpec StrFacts StrWf StrEsc StrObt View ParseMain WriteFacts PropTok PropNumber PropStr PropEsc PropFused PropStrExact PropWrite PropData PropMessage.
Local Open Scope N_scope.

(** * The loop *)
Lemma write_chars_run {S} (next : S -> res infallible (option N * S)) W st cs st' : yields next st cs st' ->
  forall fuel w, (length cs < fuel)%nat ->
  write_chars next W fuel st w = let '(ok, w') := do_calls W w (map CallChar cs) in ((if ok then Ok tt else Err tt), w').
Proof.
  induction 1 as [a a' E|a c a' cs a'' E H IH]; intros [|fuel] w Hf; cbn [length] in Hf; try lia; cbn [write_chars map do_calls do_call]; rewrite E.
  - reflexivity.
  - destruct (w_write_char W w c) as [[] w']; [|reflexivity]. apply IH. lia.
Qed.

Lemma replays_chars {S} (next : S -> res infallible (option N * S)) st cs st' (fuel : nat) : yields next st cs st' -> (length cs < fuel)%nat ->
  replays (map CallChar cs) (Ok (utf8_string cs)) (fun W w => write_chars next W fuel st w).
Proof.
  intros Hy Hf. split.
  - intros t E. injection E as <-. unfold utf8_string. rewrite flat_map_concat_map, map_map. reflexivity.
  - intros W w. rewrite (write_chars_run next W st cs st' Hy fuel w Hf). pose proof (do_calls_spec W (map CallChar cs) w) as G.
    destruct (do_calls W w (map CallChar cs)) as [[] w'] eqn:Ed; cbn [fst].
    + split; [split; [exact G|eauto]|discriminate].
    + split; [exact G|]. intros w2 K. apply calls_ok_fun in K. congruence.
Qed.

(** * Each char takes a byte of the source *)
Lemma next_char_shorter s c r : next_char s = Some (c, r) -> (length r < length s)%nat.
Proof.
  unfold next_char. destruct s as [|b s]; [discriminate|].
  repeat match goal with |- context [if ?x then _ else _] => destruct x | |- context [match ?l with [] => _ | _ :: _ => _ end] => destruct l end;
    intro E; try discriminate; injection E as _ <-; cbn [length]; lia.
Qed.
Lemma ci_next_le it : (length (ci_rest (snd (ci_next it))) <= length (ci_rest it))%nat.
Proof. unfold ci_next. destruct (next_char (ci_rest it)) as [[c r]|] eqn:E; [|reflexivity]. apply next_char_shorter in E. cbn. lia. Qed.
Lemma ci_skip_le n : forall it, (length (ci_rest (ci_skip n it)) <= length (ci_rest it))%nat.
Proof. induction n as [|n IH]; intro it; [reflexivity|]. cbn [ci_skip]. specialize (IH (snd (ci_next it))). pose proof (ci_next_le it). lia. Qed.

Lemma decoded_next_shorter d c d' : decoded_next d = Ok (Some c, d') -> (length (ci_rest (dec_chars d')) < length (ci_rest (dec_chars d)))%nat.
Proof.
  assert (Ret : forall (E : Type) (c0 : N) (d0 : decoded), Ok (E := E) (Some c0, d0) = Ok (Some c, d') -> d' = d0).
  { intros E c0 d0 K. injection K as _ <-. reflexivity. }
  unfold decoded_next, ci_next at 1. destruct (next_char (ci_rest (dec_chars d))) as [[ch r]|] eqn:E; [|discriminate]. apply next_char_shorter in E.
  destruct (dec_needs d && (ch =? 92)); [|intro K; injection K as _ <-; exact E].
  unfold ci_next at 1. cbn [ci_rest]. destruct (next_char r) as [[c2 r2]|] eqn:E2; [|discriminate]. apply next_char_shorter in E2.
  do 5 (match goal with |- context [if c2 =? ?k then _ else _] => destruct (c2 =? k); [intro K; injection K as _ <-; cbn; lia|] end).
  destruct (c2 =? 117); [|intro K; injection K as _ <-; cbn; lia].
  set (it := CI _ r2). assert (Hi : ci_rest it = r2) by reflexivity. clearbody it.
  pose proof (ci_skip_le 4 it) as H4. pose proof (ci_skip_le 6 (ci_skip 4 it)) as H6. rewrite Hi in H4.
  set (i4 := ci_skip 4 it) in *. clearbody i4. set (i6 := ci_skip 6 i4) in *. clearbody i6.
  destruct (str_slice _ _ _) as [h|]; [|discriminate]. destruct (u32_from_str_radix16 h) as [u|]; [|discriminate].
  destruct (_ && _).
  - destruct (str_slice _ _ _) as [h2|]; [|discriminate]. destruct (u32_from_str_radix16 h2) as [u2|]; [|discriminate].
    destruct (merge_surrogate_pair _ _) as [m| |]; try discriminate. cbn [bind]. destruct (char_from_u32_unchecked m); try discriminate.
    cbn [bind]. intro K. apply Ret in K. subst d'. cbn [dec_chars]. lia.
  - destruct (char_from_u32_unchecked u); try discriminate. cbn [bind]. intro K. apply Ret in K. subst d'. cbn [dec_chars]. lia.
Qed.

Lemma decoded_yields_le d cs d' : yields decoded_next d cs d' -> (length cs <= length (ci_rest (dec_chars d)))%nat.
Proof. induction 1 as [|a c a' cs a'' E H IH]; [cbn; lia|]. apply decoded_next_shorter in E. cbn [length]. lia. Qed.

(** The chars an [AsJson] still owes for an escape it has begun. *)
Definition owed (e : escape_state) : nat :=
  match e with EAlreadyEscaped => 0 | ENone => 0 | ESingle _ => 1 | EUnicode None _ => 5 | EUnicode (Some n) _ => 4 - N.to_nat n end%nat.
Definition nibble_ok (e : escape_state) : Prop := match e with EUnicode (Some n) _ => n < 4 | _ => True end.

Lemma as_json_next_shorter pw a c a' : nibble_ok (aj_state a) -> as_json_next pw a = Ok (Some c, a') -> nibble_ok (aj_state a') /\
  (owed (aj_state a') + 6 * length (aj_chars a') < owed (aj_state a) + 6 * length (aj_chars a))%nat.
Proof.
  destruct a as [cs st i]. cbn [aj_state aj_chars]. intro Hn. unfold as_json_next. cbn [aj_state aj_chars aj_info].
  assert (Hb : forall (r : res infallible info) (f : info -> as_json) (ch : N), (let? i := r in Ok (Some ch, f i)) = Ok (Some c, a') -> exists i, a' = f i).
  { intros r f ch. destruct r as [i'| |]; try discriminate. cbn. intro K. injection K as _ <-. eauto. }
  destruct st as [| |b|[nib|] cp].
  - destruct (next_char cs) as [[ch r]|] eqn:E; [|discriminate]. apply next_char_shorter in E. intro K. injection K as _ <-. cbn. split; [exact I|lia].
  - destruct (next_char cs) as [[ch r]|] eqn:E; [|discriminate]. apply next_char_shorter in E. intro K.
    repeat match type of K with context [if ?b then _ else _] => destruct b end; try discriminate; apply Hb in K as (i' & ->); cbn [aj_state aj_chars owed nibble_ok]; (split; [exact I|lia]).
  - intro K. injection K as _ <-. cbn. split; [exact I|lia].
  - intro K. destruct (if _ <? 10 then _ else _) as [ch| |]; try discriminate. cbn [bind] in K. unfold u8_add in K. cbn in Hn.
    destruct (nib + 1 <? 256); [|discriminate]. cbn [bind] in K. destruct (N.eqb_spec (nib + 1) 4) as [E|E]; injection K as _ <-; cbn [aj_state aj_chars owed nibble_ok]; (split; [|lia]); [exact I|lia].
  - intro K. injection K as _ <-. cbn [aj_state aj_chars owed nibble_ok]. split; lia.
Qed.
Lemma as_json_yields_le pw a cs a' : yields (as_json_next pw) a cs a' -> nibble_ok (aj_state a) ->
  (length cs <= owed (aj_state a) + 6 * length (aj_chars a))%nat.
Proof.
  induction 1 as [|a c a' cs a'' E H IH]; intro Hn; [cbn; lia|]. destruct (as_json_next_shorter _ _ _ _ Hn E) as [Hn' Hl]. specialize (IH Hn'). cbn [length]. lia.
Qed.
Lemma as_json_steps_ok pw a pre a' : steps (as_json_next pw) a pre a' -> nibble_ok (aj_state a) -> nibble_ok (aj_state a').
Proof. induction 1 as [|a c a' cs a'' E H IH]; intro Hn; [exact Hn|]. apply IH. eapply as_json_next_shorter; eassumption. Qed.
Lemma owed_le e : (owed e <= 5)%nat.
Proof. destruct e as [| | |[n|] c]; cbn [owed]; lia. Qed.

(** * C85 *)

(** Displaying [decoded()], after any number of calls of [next] that returned [pre]: one [write_char] for each char that is
    still to come, until one fails; never a panic. *)
Theorem C85_decoded_display pw x pre it : obtainable pw x -> steps decoded_next (js_decoded_iter pw x) pre it ->
  exists rest, js_decoded pw x = Ok (pre ++ rest) /\
    replays (map CallChar rest) (Ok (utf8_string rest)) (fun W w => decoded_display W it w).
Proof.
  intros H Hs. destruct (C23_decoding_never_panics pw x H) as (cs & E & _). pose proof E as E'.
  unfold js_decoded in E'. destruct (collect _ _ _) as [[cs' d]| |] eqn:Ec; try discriminate. injection E' as ->.
  apply collect_is_yields in Ec. destruct (det_steps _ _ _ _ Ec _ _ Hs) as (rest & -> & Hy). exists rest. split; [exact E|].
  apply (replays_chars decoded_next it rest d); [exact Hy|]. apply decoded_yields_le in Hy. lia.
Qed.

(** Displaying the string itself: the decoded text, the same that [decode_if_needed] returns. *)
Theorem C85_string_display pw x : obtainable pw x -> exists cs, js_decoded pw x = Ok cs /\
  replays (map CallChar cs) (Ok (utf8_string cs)) (fun W w => js_display_to pw W x w) /\
  js_display_to pw string_write x [] = (Ok tt, utf8_string cs) /\ js_display pw x = Ok (utf8_string cs).
Proof.
  intro H. destruct (C85_decoded_display pw x [] _ H (st_nil _ _)) as (cs & E & R). exists cs. split; [exact E|]. split; [exact R|].
  split; [|unfold js_display; rewrite E; reflexivity]. destruct R as [_ R]. destruct (R string_write []) as [G1 G2].
  change (decoded_display string_write (js_decoded_iter pw x) []) with (js_display_to pw string_write x []) in *.
  assert (K : do_calls string_write [] (map CallChar cs) = (true, utf8_string cs)).
  { cbn [w_st string_write]. rewrite string_calls. unfold utf8_string. rewrite flat_map_concat_map, map_map. reflexivity. }
  pose proof (do_calls_spec string_write (map CallChar cs) []) as K2. cbn [w_st string_write] in K2. rewrite K in K2.
  destruct (js_display_to pw string_write x []) as [[[]|[]|f] w'] eqn:Ed.
  - destruct G1 as [G1 _]. apply calls_ok_fun in G1. rewrite K in G1. injection G1 as ->. reflexivity.
  - destruct (G2 _ K2 eq_refl).
  - destruct G1 as [_ G1]. discriminate.
Qed.

(** Displaying [as_json()], after any number of calls of [next] - also between the chars of an escape: the rest of the JSON form. *)
Theorem C85_as_json_display pw x pre it : obtainable pw x -> recount_fits pw x -> steps (as_json_next pw) (js_as_json_iter x) pre it ->
  exists rest, js_as_json pw x = Ok (pre ++ rest) /\
    replays (map CallChar rest) (Ok (utf8_string rest)) (fun W w => as_json_display pw W it w).
Proof.
  intros H Hf Hs. destruct (C34_as_json_str_and_escape pw x H Hf) as (cs & a & E & _). pose proof E as E'.
  unfold js_as_json in E'. destruct (collect _ _ _) as [[cs' d]| |] eqn:Ec; try discriminate. injection E' as ->.
  apply collect_is_yields in Ec. destruct (det_steps _ _ _ _ Ec _ _ Hs) as (rest & -> & Hy). exists rest. split; [exact E|].
  apply (replays_chars (as_json_next pw) it rest d); [exact Hy|]. apply as_json_yields_le in Hy.
  - pose proof (owed_le (aj_state it)). lia.
  - eapply as_json_steps_ok; [exact Hs|]. unfold js_as_json_iter, as_json_new. destruct (js_source x); exact I.
Qed.

Lemma decoded_next_fuel d : decoded_next d <> Fault FFuel.
Proof.
  unfold decoded_next. destruct (ci_next _) as [[[? ch]|] it0]; [|discriminate].
  destruct (_ && _); [|discriminate]. destruct (ci_next it0) as [[[off c]|] it2]; [|discriminate].
  destruct (c =? 114); [discriminate|]. destruct (c =? 110); [discriminate|]. destruct (c =? 116); [discriminate|].
  destruct (c =? 98); [discriminate|]. destruct (c =? 102); [discriminate|]. destruct (c =? 117); [|discriminate].
  destruct (str_slice _ _ _); [|discriminate]. destruct (u32_from_str_radix16 _) as [u|]; [|discriminate].
  destruct (_ && _).
  - destruct (str_slice _ _ _); [|discriminate]. destruct (u32_from_str_radix16 _) as [u2|]; [|discriminate].
    unfold merge_surrogate_pair, u32_sub. destruct (_ <=? u); [|discriminate]. cbn [bind]. destruct (_ <=? u2); [|discriminate]. cbn [bind].
    unfold char_from_u32_unchecked. destruct (is_scalar _); discriminate.
  - unfold char_from_u32_unchecked. destruct (is_scalar _); discriminate.
Qed.

(** Whatever the string (also an inconsistent one), displaying ends. *)
Theorem C85_display_ends pw W :
  (forall d w, fst (decoded_display W d w) <> Fault FFuel) /\
  (forall x pre it w, steps (as_json_next pw) (js_as_json_iter x) pre it -> fst (as_json_display pw W it w) <> Fault FFuel).
Proof.
  split.
  - intro d. unfold decoded_display. remember (length (ci_rest (dec_chars d))) as n eqn:En.
    assert (Hn : (length (ci_rest (dec_chars d)) <= n)%nat) by lia. clear En. revert d Hn.
    induction n as [|n IH]; intros d Hn w; cbn [write_chars]; destruct (decoded_next d) as [[[c|] d']|[]|f] eqn:E; try discriminate.
    + apply decoded_next_shorter in E. lia.
    + cbn [fst]. intro K. injection K as ->. exact (decoded_next_fuel d E).
    + apply decoded_next_shorter in E. destruct (w_write_char W w c) as [[] w']; [|discriminate]. apply IH. lia.
    + cbn [fst]. intro K. injection K as ->. exact (decoded_next_fuel d E).
  - intros x pre it w Hs. assert (Hok : nibble_ok (aj_state it)).
    { eapply as_json_steps_ok; [exact Hs|]. unfold js_as_json_iter, as_json_new. destruct (js_source x); exact I. }
    clear Hs. unfold as_json_display. remember (6 + 6 * length (aj_chars it))%nat as n eqn:En.
    assert (Hn : (owed (aj_state it) + 6 * length (aj_chars it) < n)%nat) by (pose proof (owed_le (aj_state it)); lia). clear En. revert it w Hok Hn.
    induction n as [|n IH]; intros a w Hok Hn; [lia|]. cbn [write_chars]. destruct (as_json_next pw a) as [[[c|] a']|[]|f] eqn:E; try discriminate.
    + destruct (as_json_next_shorter _ _ _ _ Hok E) as [Hok' Hl]. destruct (w_write_char W w c) as [[] w']; [|discriminate]. apply IH; [exact Hok'|lia].
    + cbn [fst]. intro K. injection K as ->. unfold as_json_next, add_bytes, add_bytes_from_escape, u8_add in E.
      destruct (aj_state a) as [| |b|[nib|] cp]; try discriminate.
      * destruct (next_char _) as [[? ?]|]; discriminate.
      * destruct (next_char _) as [[? ?]|]; [|discriminate].
        repeat (cbn [bind] in E; match type of E with context [if ?b then _ else _] => destruct b | context [match checked_add ?p ?q ?r with _ => _ end] => destruct (checked_add p q r) end; cbn [bind] in E); discriminate.
      * repeat (cbn [bind] in E; match type of E with context [if ?b then _ else _] => destruct b end; cbn [bind] in E); discriminate.
Qed.

(** * C61: Debug output of JsonStringInfo *)
(** [{:?}] and [{:#?}] of a JsonStringInfo tell any two different ones apart. *)
Theorem C61_debug_tells_apart pw alternate i j : i <= usize_max pw -> j <= usize_max pw ->
  (info_debug pw alternate i = info_debug pw alternate j <-> i = j).
Proof.
  intros Hi Hj. split; [|intros ->; reflexivity]. intro E. apply (C61_info_equality pw i j Hi Hj).
  unfold info_debug in E. destruct alternate.
  - do 3 apply app_inv_head in E. unfold fmt_bool in E.
    destruct (has_escapes pw i), (has_escapes pw j); try discriminate; (split; [reflexivity|]);
      do 4 apply app_inv_head in E; apply app_inv_tail in E; apply fmt_dec_inj; exact E.
  - apply app_inv_head in E. unfold fmt_bool in E.
    destruct (has_escapes pw i), (has_escapes pw j); try discriminate; (split; [reflexivity|]);
      do 2 apply app_inv_head in E; apply app_inv_tail in E; apply fmt_dec_inj; exact E.
Qed.
(** src/string.rs 657-666, the crate's own test. *)
Example debug_sample : exists i, add_bytes_from_escape (E := infallible) W64 (info_none W64) 1 = Ok i /\ i <= usize_max W64 /\
  info_debug W64 false i = bs "EscapeInfo { has_escapes: true, unescaped_length: 1 }" /\
  info_debug W64 true (info_new W64 false 12) = bs "EscapeInfo {" ++ [10] ++ bs "    has_escapes: false," ++ [10] ++ bs "    unescaped_length: 12," ++ [10] ++ bs "}".
Proof. eexists. split; [vm_compute; reflexivity|]. split; [vm_compute; discriminate|]. split; vm_compute; reflexivity. Qed.

(** * Concrete cases *)
(** A destination that takes [n] chars and then fails. *)
Definition limited : fmt_write := {|
  w_st := nat * list N;
  w_write_str := fun st s => match fst st with O => (false, st) | S n => (true, (n, snd st ++ s)) end;
  w_write_char := fun st c => match fst st with O => (false, st) | S n => (true, (n, snd st ++ utf8_encode c)) end |}.
(** A parsed string with escapes, after two calls of [next] on [decoded()]: the rest is displayed, in full or up to the failure. *)
Example decoded_display_sample : exists x it,
  string_from_json W64 (bs """a\n\u00e9z""") = Ok x /\ steps decoded_next (js_decoded_iter W64 x) [97; 10] it /\
  decoded_display string_write it [] = (Ok tt, utf8_string [0xE9; 122]) /\
  decoded_display limited it (1%nat, []) = (Err tt, (0%nat, utf8_string [0xE9])) /\
  js_display_to W64 limited x (9%nat, []) = (Ok tt, (5%nat, utf8_string [97; 10; 0xE9; 122])).
Proof.
  eexists _, _. split; [vm_compute; reflexivity|]. split; [econstructor; [vm_compute; reflexivity|econstructor; [vm_compute; reflexivity|constructor]]|].
  split; [vm_compute; reflexivity|]. split; vm_compute; reflexivity.
Qed.
(** A string built from text, after one call of [next] on [as_json()], which stands between the two chars of an escape. *)
Example as_json_display_sample : exists x it,
  js_from_str W64 (bs """q") = Ok x /\ steps (as_json_next W64) (js_as_json_iter x) [92] it /\
  as_json_display W64 string_write it [] = (Ok tt, bs """q") /\
  as_json_display W64 limited it (1%nat, []) = (Err tt, (0%nat, bs """")).
Proof.
  eexists _, _. split; [vm_compute; reflexivity|]. split; [econstructor; [vm_compute; reflexivity|constructor]|]. split; vm_compute; reflexivity.
Qed.
Example display_samples_obtainable : exists x y, string_from_json W64 (bs """a\n\u00e9z""") = Ok x /\ obtainable W64 x /\
  js_from_str W64 (bs """q") = Ok y /\ obtainable W64 y /\ recount_fits W64 x /\ recount_fits W64 y.
Proof.
  eexists _, _. split; [vm_compute; reflexivity|]. split.
  { left. apply parsed_string with (s := bs """a\n\u00e9z"""); [apply utf8_checked; [vm_compute; reflexivity|vm_compute; discriminate]|vm_compute; reflexivity]. }
  split; [vm_compute; reflexivity|]. split.
  { right. exists (bs """q"). split; [apply utf8_checked; [vm_compute; reflexivity|vm_compute; discriminate]|left; vm_compute; reflexivity]. }
  split; [left; exact I|right; vm_compute; discriminate].
Qed.
