(** Closed form of the escaping iterator [as_json()] and of [JsonString::from]. *)
From Verif Require Import Base Utf8 Utf8Facts StrModel ErrorModel Tokenizer Spec SpecStr TokBase TokStr StrSpec StrFacts.
Local Open Scope N_scope.

Notation scalars cs := (Forall (fun c => is_scalar c = true) cs).

(** What the crate writes for one character. *)
Definition nibble_char (b : N) : N := if b <? 10 then b + 48 else b + 97.
Definition escaped1 (c : N) : list N :=
  if negb (must_escape c) then [c]
  else if (c =? 34) || (c =? 92) then [92; c]
  else if c =? 7 then [92; 98] else if c =? 10 then [92; 110] else if c =? 13 then [92; 114]
  else if c =? 9 then [92; 116] else if c =? 12 then [92; 102]
  else [92; 117; nibble_char (c mod 16); nibble_char (c / 16); 48; 48].
Definition escaped (cs : list N) : list N := flat_map escaped1 cs.

(** What the crate counts for one character. *)
Definition counted1 (c : N) : N :=
  if must_escape c then N.of_nat (length (escaped1 c))
  else if c <=? 0xFF then 1 else N.of_nat (len_utf8 c).
Fixpoint counted (cs : list N) : N := match cs with [] => 0 | c :: r => counted1 c + counted r end.

Lemma counted_app a b : counted (a ++ b) = counted a + counted b.
Proof. induction a as [|c a IH]; cbn [counted app]; [lia|rewrite IH; lia]. Qed.

Lemma escaped1_len c : (1 <= length (escaped1 c) <= 6)%nat.
Proof.
  unfold escaped1.
  repeat match goal with |- context [if ?b then _ else _] => destruct b; [cbn [length]; lia|] end. cbn [length]. lia.
Qed.

Lemma counted1_pos c : 1 <= counted1 c <= 6.
Proof. pose proof (escaped1_len c). pose proof (len_utf8_pos c). unfold counted1. destruct (must_escape c), (c <=? 255); lia. Qed.

Lemma escaped_len cs : (length (escaped cs) <= 6 * length cs)%nat.
Proof.
  induction cs as [|c cs IH]; [cbn; lia|]. unfold escaped in *. cbn [flat_map]. rewrite app_length. cbn [length].
  pose proof (escaped1_len c). lia.
Qed.

Lemma u8_add_ok {E} a b : a + b < 256 -> @u8_add E a b = Ok (a + b).
Proof. intro H. unfold u8_add. destruct (N.ltb_spec (a + b) 256); [reflexivity|lia]. Qed.

(** The five calls after the backslash of a [\u] escape. *)
Lemma unicode_yields pw c rest i cs d : c < 32 ->
  yields (as_json_next pw) (AJ rest ENone i) cs d ->
  yields (as_json_next pw) (AJ rest (EUnicode None c) i)
    ([117; nibble_char (c mod 16); nibble_char (c / 16); 48; 48] ++ cs) d.
Proof.
  intros Hc H.
  assert (Hbits : N.land (c mod 256) 15 = c mod 16).
  { replace (c mod 256) with c by (rewrite N.mod_small; lia). change 15 with (N.ones 4). rewrite N.land_ones. reflexivity. }
  assert (Hb2 : N.land (N.shiftr c 4 mod 256) 15 = c / 16).
  { rewrite N.shiftr_div_pow2. change (2 ^ 4) with 16. rewrite (N.mod_small (c / 16)) by lia.
    change 15 with (N.ones 4). rewrite N.land_ones. change (2 ^ 4) with 16. apply N.mod_small. lia. }
  assert (Hs3 : N.shiftr (N.shiftr c 4) 4 = 0).
  { rewrite !N.shiftr_div_pow2. change (2 ^ 4) with 16. apply N.div_small. lia. }
  assert (Hn : forall b, b < 16 -> (if b <? 10 then @u8_add infallible b 48 else u8_add b 97) = Ok (nibble_char b)).
  { intros b Hb. unfold nibble_char. destruct (b <? 10); apply u8_add_ok; lia. }
  cbn [app]. econstructor; [reflexivity|]. 
  econstructor. { unfold as_json_next. cbn [aj_state aj_chars aj_info]. rewrite Hbits, Hn by lia. reflexivity. }
  econstructor. { unfold as_json_next. cbn [aj_state aj_chars aj_info N.add N.eqb Pos.eqb]. rewrite Hb2, Hn by lia. reflexivity. }
  econstructor. { unfold as_json_next. cbn [aj_state aj_chars aj_info]. rewrite Hs3. reflexivity. }
  econstructor; [reflexivity|]. exact H.
Qed.

Lemma single_yields pw b rest i cs d :
  yields (as_json_next pw) (AJ rest ENone i) cs d ->
  yields (as_json_next pw) (AJ rest (ESingle b) i) (b :: cs) d.
Proof. intro H. econstructor; [reflexivity|exact H]. Qed.

(** The first call on a character: what it yields, the next state, and when it overflows. *)
Definition after (c : N) : escape_state :=
  match escaped1 c with
  | [_; b] => ESingle b
  | _ :: _ :: _ => EUnicode None c
  | _ => ENone
  end.

Lemma as_json_first pw c r i : is_scalar c = true ->
  as_json_next pw (AJ (utf8_encode c ++ r) ENone i) =
  let? i' := (if must_escape c then add_bytes_from_escape pw i (counted1 c) else add_bytes pw i (counted1 c)) in
  Ok (Some (hd 0 (escaped1 c)), AJ r (after c) i').
Proof.
  intro Hs. unfold as_json_next. cbn [aj_state aj_chars aj_info]. rewrite next_char_encode by assumption.
  unfold safe_string_bytes. rewrite safe_table_spec, andb_true_r.
  unfold counted1, escaped1, after, escaped1.
  destruct (c <=? 0xFF) eqn:Eff.
  - destruct ((32 <=? c) && negb (c =? 34) && negb (c =? 92) && ((c <? 128) || (c <? 256))) eqn:Et.
    + assert (must_escape c = false) as -> by (unfold must_escape; lia). cbn [negb]. reflexivity.
    + assert (must_escape c = true) as -> by (unfold must_escape; lia). cbn [negb].
      destruct ((c =? 34) || (c =? 92)) eqn:E1; cbn [orb].
      { reflexivity. }
      destruct (N.eqb_spec c 47); [lia|]. cbn [orb].
      destruct (c =? 7); [reflexivity|]. destruct (c =? 10); [reflexivity|]. destruct (c =? 13); [reflexivity|].
      destruct (c =? 9); [reflexivity|]. destruct (c =? 12); [reflexivity|].
      destruct (N.leb_spec c 31); [reflexivity|lia].
  - assert (must_escape c = false) as -> by (unfold must_escape; lia). cbn [negb]. reflexivity.
Qed.

Lemma after_yields pw c rest i cs d :
  yields (as_json_next pw) (AJ rest ENone i) cs d ->
  yields (as_json_next pw) (AJ rest (after c) i) (tl (escaped1 c) ++ cs) d.
Proof.
  intro H. unfold after, escaped1.
  destruct (must_escape c) eqn:Em; cbn [negb]; [|exact H].
  destruct ((c =? 34) || (c =? 92)) eqn:E1; [apply single_yields; exact H|].
  repeat match goal with |- context [if c =? ?k then _ else _] => destruct (c =? k); [apply single_yields; exact H|] end.
  cbn [tl]. apply unicode_yields; [|exact H]. unfold must_escape in Em. lia.
Qed.

Lemma escaped1_split c : escaped1 c = hd 0 (escaped1 c) :: tl (escaped1 c).
Proof. pose proof (escaped1_len c). destruct (escaped1 c); [cbn in *; lia|reflexivity]. Qed.

Lemma as_json_yields pw cs : scalars cs -> forall esc n, n + counted cs <= isize_max pw ->
  yields (as_json_next pw) (AJ (utf8_string cs) ENone (info_new pw esc n)) (escaped cs)
         (AJ [] ENone (info_new pw (esc || existsb must_escape cs) (n + counted cs))).
Proof.
  induction 1 as [|c cs Hc Hcs IH]; intros esc n Hn.
  - cbn. rewrite orb_false_r, N.add_0_r. constructor. reflexivity.
  - cbn [counted existsb] in *. unfold escaped in *. cbn [flat_map]. rewrite escaped1_split, <- app_comm_cons.
    rewrite utf8_string_cons, N.add_assoc, orb_assoc.
    econstructor.
    { rewrite as_json_first by assumption.
      instantiate (1 := AJ (utf8_string cs) (after c) (info_new pw (esc || must_escape c) (n + counted1 c))).
      destruct (must_escape c).
      - rewrite add_bytes_from_escape_info by lia. rewrite orb_true_r. reflexivity.
      - rewrite add_bytes_info by lia. rewrite orb_false_r. reflexivity. }
    apply after_yields. apply IH. lia.
Qed.

(** Consuming a finite prefix. *)
Inductive steps {S} (na : S -> res infallible (option N * S)) : S -> list N -> S -> Prop :=
| st_nil a : steps na a [] a
| st_cons a c a' cs a'' : na a = Ok (Some c, a') -> steps na a' cs a'' -> steps na a (c :: cs) a''.

Lemma steps_app {S} (na : S -> res infallible (option N * S)) a x b y c :
  steps na a x b -> steps na b y c -> steps na a (x ++ y) c.
Proof. induction 1; intro H2; [exact H2|]. cbn. econstructor; eauto. Qed.

Lemma steps_fault {S} (na : S -> res infallible (option N * S)) a x b f :
  steps na a x b -> na b = Fault f -> forall fuel, (length x < fuel)%nat -> collect na fuel a = Fault f.
Proof.
  induction 1 as [a|a c a' cs a'' E H IH]; intros Hb [|fuel] Hf; cbn [length] in Hf; try lia; cbn [collect].
  - rewrite Hb. reflexivity.
  - rewrite E. cbn [bind]. rewrite (IH Hb) by lia. reflexivity.
Qed.

Lemma after_steps pw c rest i : c < 32 \/ c = 34 \/ c = 92 \/ must_escape c = false ->
  steps (as_json_next pw) (AJ rest (after c) i) (tl (escaped1 c)) (AJ rest ENone i).
Proof.
  intro Hc. unfold after, escaped1.
  destruct (must_escape c) eqn:Em; cbn [negb]; [|constructor].
  destruct ((c =? 34) || (c =? 92)) eqn:E1; [econstructor; [reflexivity|constructor]|].
  repeat match goal with |- context [if c =? ?k then _ else _] => destruct (c =? k); [econstructor; [reflexivity|constructor]|] end.
  cbn [tl]. assert (Hlt : c < 32) by (unfold must_escape in Em; lia). clear Em E1 Hc.
  assert (Hbits : N.land (c mod 256) 15 = c mod 16).
  { replace (c mod 256) with c by (rewrite N.mod_small; lia). change 15 with (N.ones 4). rewrite N.land_ones. reflexivity. }
  assert (Hb2 : N.land (N.shiftr c 4 mod 256) 15 = c / 16).
  { rewrite N.shiftr_div_pow2. change (2 ^ 4) with 16. rewrite (N.mod_small (c / 16)) by lia.
    change 15 with (N.ones 4). rewrite N.land_ones. change (2 ^ 4) with 16. apply N.mod_small. lia. }
  assert (Hs3 : N.shiftr (N.shiftr c 4) 4 = 0).
  { rewrite !N.shiftr_div_pow2. change (2 ^ 4) with 16. apply N.div_small. lia. }
  assert (Hn : forall b, b < 16 -> (if b <? 10 then @u8_add infallible b 48 else u8_add b 97) = Ok (nibble_char b)).
  { intros b Hb. unfold nibble_char. destruct (b <? 10); apply u8_add_ok; lia. }
  econstructor; [reflexivity|]. 
  econstructor. { unfold as_json_next. cbn [aj_state aj_chars aj_info]. rewrite Hbits, Hn by lia. reflexivity. }
  econstructor. { unfold as_json_next. cbn [aj_state aj_chars aj_info N.add N.eqb Pos.eqb]. rewrite Hb2, Hn by lia. reflexivity. }
  econstructor. { unfold as_json_next. cbn [aj_state aj_chars aj_info]. rewrite Hs3. reflexivity. }
  econstructor; [reflexivity|]. constructor.
Qed.

Lemma must_escape_cases c : c < 32 \/ c = 34 \/ c = 92 \/ must_escape c = false.
Proof. unfold must_escape. lia. Qed.

(** The length counter overflows exactly when the total exceeds the mask. *)
Lemma as_json_overflow pw cs : scalars cs -> forall esc n, n <= isize_max pw -> isize_max pw < n + counted cs ->
  (esc = true \/ n + N.of_nat (length (utf8_string cs)) <= isize_max pw) ->
  exists x b, steps (as_json_next pw) (AJ (utf8_string cs) ENone (info_new pw esc n)) x b /\
    as_json_next pw b = Fault FOverflow /\ (length x <= length (escaped cs))%nat.
Proof.
  pose proof (isize_max_mask pw) as Hm. pose proof (usize_max_mask pw) as Hu.
  induction 1 as [|c cs Hc Hcs IH]; intros esc n Hn Ho He.
  - cbn in Ho. lia.
  - cbn [counted] in Ho. rewrite utf8_string_cons in *.
    assert (Hstep : n + counted1 c <= isize_max pw \/ isize_max pw < n + counted1 c) by lia.
    destruct Hstep as [Hle|Hgt].
    + destruct (IH (esc || must_escape c) (n + counted1 c)) as (x & b & Hx & Hb & Lx); [lia|lia| |].
      { destruct (must_escape c) eqn:Em; [left; apply orb_true_r|]. rewrite orb_false_r.
        destruct He as [->|He]; [auto|right]. rewrite app_length, utf8_encode_length in He.
        unfold counted1. rewrite Em. pose proof (len_utf8_pos c). destruct (c <=? 255); lia. }
      exists (escaped1 c ++ x), b. split; [|split; [exact Hb|unfold escaped in *; cbn [flat_map]; rewrite !app_length; lia]].
      rewrite escaped1_split. cbn [app]. econstructor.
      { rewrite as_json_first by assumption.
        instantiate (1 := AJ (utf8_string cs) (after c) (info_new pw (esc || must_escape c) (n + counted1 c))).
        destruct (must_escape c).
        - rewrite add_bytes_from_escape_info by lia. rewrite orb_true_r. reflexivity.
        - rewrite add_bytes_info by lia. rewrite orb_false_r. reflexivity. }
      eapply steps_app; [|exact Hx]. apply after_steps, must_escape_cases.
    + exists [], (AJ (utf8_encode c ++ utf8_string cs) ENone (info_new pw esc n)).
      split; [constructor|]. split; [|cbn; lia].
      rewrite as_json_first by assumption.
      destruct (must_escape c) eqn:Em.
      * unfold add_bytes_from_escape, checked_add.
        assert (E1 : N.lor (has_escapes_mask pw) (info_new pw esc n) = has_escapes_mask pw + n).
        { unfold info_new. destruct esc; [rewrite N.lor_assoc, N.lor_diag|]; apply mask_lor; lia. }
        rewrite E1. destruct (N.leb_spec (has_escapes_mask pw + n + counted1 c) (usize_max pw)); [lia|reflexivity].
      * destruct He as [->|He].
        -- unfold add_bytes, checked_add. rewrite info_new_val by lia.
           destruct (N.leb_spec (has_escapes_mask pw + n + counted1 c) (usize_max pw)); [lia|reflexivity].
        -- exfalso. rewrite app_length, utf8_encode_length in He. unfold counted1 in Hgt. rewrite Em in Hgt.
           pose proof (len_utf8_pos c). destruct (c <=? 255); lia.
Qed.

(** * JsonString::from *)
Definition built_from (pw : pwidth) (a : anystr) (cs : list N) : json_string :=
  if existsb must_escape cs
  then JStr (CRaw a) (info_new pw true (counted cs))
  else JStr (CJson a) (info_new pw false (counted cs)).

Lemma json_fuel_enough cs : (length (escaped cs) < json_fuel (utf8_string cs))%nat.
Proof. unfold json_fuel. pose proof (escaped_len cs). pose proof (utf8_string_length_ge cs). lia. Qed.

Theorem from_any_ok pw a cs : scalars cs -> any_str a = utf8_string cs -> counted cs <= isize_max pw ->
  js_from_any pw a = Ok (built_from pw a cs).
Proof.
  intros Hcs Ea Hc. unfold js_from_any. rewrite Ea. unfold as_json_new. cbn [any_str].
  rewrite info_none_new.
  rewrite (collect_yields _ _ _ _ (as_json_yields pw cs Hcs false 0 ltac:(lia)) _ (json_fuel_enough cs)).
  cbn [bind aj_info orb]. rewrite N.add_0_l, has_escapes_info by exact Hc. unfold built_from.
  destruct (existsb must_escape cs); reflexivity.
Qed.

Theorem from_any_overflow pw a cs : scalars cs -> any_str a = utf8_string cs ->
  N.of_nat (length (utf8_string cs)) <= isize_max pw -> isize_max pw < counted cs ->
  js_from_any pw a = Fault FOverflow.
Proof.
  intros Hcs Ea Hl Hc. unfold js_from_any. rewrite Ea. unfold as_json_new. cbn [any_str]. rewrite info_none_new.
  destruct (as_json_overflow pw cs Hcs false 0) as (x & b & Hx & Hb & Lx); [lia|lia|right; lia|].
  pose proof (json_fuel_enough cs).
  rewrite (steps_fault _ _ _ _ _ Hx Hb) by lia. reflexivity.
Qed.

(** Without anything to escape the counter cannot overflow. *)
Lemma counted_le_len cs : existsb must_escape cs = false -> counted cs <= N.of_nat (length (utf8_string cs)).
Proof.
  induction cs as [|c cs IH]; [cbn; lia|]. cbn [existsb counted]. intro H. apply orb_false_iff in H as [H1 H2].
  rewrite utf8_string_cons, app_length, utf8_encode_length. specialize (IH H2). unfold counted1. rewrite H1.
  pose proof (len_utf8_pos c). destruct (c <=? 255); lia.
Qed.

Lemma counted_0 cs : counted cs = 0 -> cs = [].
Proof. destruct cs as [|c cs]; [reflexivity|]. cbn. pose proof (counted1_pos c). lia. Qed.

(** Texts with nothing to escape are their own JSON content. *)
Lemma plain_items cs : scalars cs -> existsb must_escape cs = false -> items_text (map IPlain cs) (utf8_string cs).
Proof.
  induction 1 as [|c cs Hc Hcs IH]; cbn [existsb map]; intro H; [constructor|].
  apply orb_false_iff in H as [H1 H2]. rewrite utf8_string_cons. unfold must_escape in H1.
  constructor; [|apply IH; exact H2]. constructor; [assumption|lia|lia|lia].
Qed.

Lemma map_plain cs : map crate_char (map IPlain cs) = cs /\ map rfc_char (map IPlain cs) = cs.
Proof. induction cs as [|c cs [IH1 IH2]]; cbn [map crate_char rfc_char]; [auto|]. rewrite IH1, IH2. auto. Qed.

Lemma plain_has_bs cs : existsb must_escape cs = false -> has_bs (utf8_string cs) = false.
Proof.
  induction cs as [|c cs IH]; cbn [existsb]; intro H; [reflexivity|]. apply orb_false_iff in H as [H1 H2].
  rewrite utf8_string_cons, has_bs_app, IH by exact H2. rewrite orb_false_r.
  destruct (N.ltb_spec c 128).
  - rewrite utf8_encode_ascii by assumption. unfold must_escape in H1. unfold has_bs. cbn. lia.
  - apply high_no_bs. eapply Forall_impl; [|apply utf8_encode_high; exact H]. intros b Hb. cbv beta in *. unfold high. lia.
Qed.
