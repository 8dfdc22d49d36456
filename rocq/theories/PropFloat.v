(** C83: [as_f32] and [as_f64] return the nearest float. *)
From Coq Require Import QArith Qabs Qpower Lqa.
From Verif Require Import Base Utf8 Utf8Facts StrModel ErrorModel Tokenizer Parser ValueModel DocModel NumModel FloatModel Spec SpecNum SpecFloat
  TokBase TokStr TokFacts Trace ParserGen View ParseMain StrObt PropNumber FloatFacts.
Local Open Scope Q_scope.

(** * Proof *)
Lemma rounded_ext f neg x x' y : x == x' -> rounded f neg x y -> rounded f neg x' y.
Proof.
  intros E. destruct y as [|n|n M X]; cbn [rounded]; [auto|rewrite E; auto|].
  intros (A & B & C & D). split; [exact A|]. split; [rewrite <- E; exact B|]. split; [exact C|].
  intros M' E' F. rewrite <- E. apply D, F.
Qed.

Lemma ten_pos e : 0 < (10 # 1) ^ e.
Proof. apply Qpower_0_lt. reflexivity. Qed.
Lemma ten_plus a b : (10 # 1) ^ (a + b) == (10 # 1) ^ a * (10 # 1) ^ b.
Proof. apply Qpower_plus. discriminate. Qed.
Lemma ten_nat n : (0 <= n)%Z -> inject_Z (10 ^ n) == (10 # 1) ^ n.
Proof. apply Zpower_Qpower. Qed.

Lemma decimal_ratio m e :
  inject_Z (Z.of_N m * 10 ^ Z.max 0 e) / inject_Z (10 ^ Z.max 0 (- e)) == decimal_value m e.
Proof.
  unfold decimal_value. rewrite inject_Z_mult, !ten_nat by lia.
  assert (S : (10 # 1) ^ e * (10 # 1) ^ Z.max 0 (- e) == (10 # 1) ^ Z.max 0 e).
  { rewrite <- ten_plus. replace (e + Z.max 0 (- e))%Z with (Z.max 0 e) by lia. reflexivity. }
  rewrite <- S. pose proof (ten_pos (Z.max 0 (- e))). field. lra.
Qed.

Lemma round_decimal_spec f neg m e : format_ok f -> rounded f neg (decimal_value m e) (round_decimal f neg m e).
Proof.
  intro Hf. unfold round_decimal.
  pose proof (round_ratio_spec f (Z.of_N m * 10 ^ Z.max 0 e) (10 ^ Z.max 0 (- e)) neg Hf) as H.
  specialize (H ltac:(apply Z.mul_nonneg_nonneg; [lia|apply Z.pow_nonneg; lia]) ltac:(apply Z.pow_pos_nonneg; lia)).
  eapply rounded_ext; [apply decimal_ratio|].
  destruct (round_ratio f _ _) as [[M E]|]; exact H.
Qed.

Lemma decimal_bound ds : Forall digit ds -> (decimal ds < 10 ^ N.of_nat (length ds))%N.
Proof.
  intro H. induction H as [|d ds Hd H IH]; cbn [decimal length]; [reflexivity|].
  rewrite Nat2N.inj_succ, N.pow_succ_r'. unfold digit in Hd. nia.
Qed.
Lemma literal_digits s neg m e : literal_value s neg m e -> (m < 10 ^ N.of_nat (length s))%N.
Proof.
  assert (K : forall n k m, (m < 10 ^ N.of_nat n)%N -> (n <= k)%nat -> (m < 10 ^ N.of_nat k)%N).
  { intros n k m0 H L. eapply N.lt_le_trans; [exact H|]. apply N.pow_le_mono_r; lia. }
  intros [neg' i x ex Hi Hx|neg' i f x ex Hi Hf Hx]; destruct (num_int_digits i Hi) as [Hd Hn].
  - eapply K; [apply decimal_bound, Hd|]. rewrite !app_length. lia.
  - eapply K; [apply decimal_bound, Forall_app; split; [exact Hd|apply Hf]|]. rewrite !app_length. cbn [length]. rewrite !app_length. lia.
Qed.

(** A format whose finite range lies within 10^-500 .. 10^500. *)
Definition moderate (f : format) : Prop :=
  format_ok f /\ overflow_bound f <= (10 # 1) ^ 500 /\ (10 # 1) ^ (-500) < dyadic 1 (f_emin f - 1).
Lemma moderate_64 : moderate binary64.
Proof. split; [exact binary64_ok|]. split; vm_compute; [discriminate|reflexivity]. Qed.
Lemma moderate_32 : moderate binary32.
Proof. split; [exact binary32_ok|]. split; vm_compute; [discriminate|reflexivity]. Qed.

Lemma decimal_large m e : (0 < m)%N -> (500 <= e)%Z -> (10 # 1) ^ 500 <= decimal_value m e.
Proof.
  intros Hm He. unfold decimal_value. apply Qle_trans with (1 * (10 # 1) ^ e).
  - rewrite Qmult_1_l. apply Qpower_le_compat_l; [exact He|discriminate].
  - apply Qmult_le_compat_r; [|apply Qlt_le_weak, ten_pos]. change 1 with (inject_Z 1). rewrite <- Zle_Qle. lia.
Qed.
Lemma decimal_small m e n : (m < 10 ^ N.of_nat n)%N -> (e + Z.of_nat n <= -500)%Z -> decimal_value m e <= (10 # 1) ^ (-500).
Proof.
  intros Hm He. unfold decimal_value. apply Qle_trans with (inject_Z (10 ^ Z.of_nat n) * (10 # 1) ^ e).
  - apply Qmult_le_compat_r; [|apply Qlt_le_weak, ten_pos]. rewrite <- Zle_Qle. apply Z.lt_le_incl.
    rewrite <- nat_N_Z. change 10%Z with (Z.of_N 10). rewrite <- N2Z.inj_pow. lia.
  - rewrite ten_nat by lia. rewrite <- ten_plus. apply Qpower_le_compat_l; [lia|discriminate].
Qed.
Lemma decimal_nonneg m e : 0 <= decimal_value m e.
Proof.
  unfold decimal_value. rewrite <- (Qmult_0_l ((10 # 1) ^ e)). apply Qmult_le_compat_r; [|apply Qlt_le_weak, ten_pos].
  change 0 with (inject_Z 0). rewrite <- Zle_Qle. lia.
Qed.

Lemma round_read f s neg m e ex : moderate f -> literal_value s neg m e -> written_exponent s ex ->
  (Z.abs ex < 655360)%Z \/ (Z.of_nat (length s) <= 65000)%Z ->
  exists r, float_from_str s = Some r /\ rounded f neg (decimal_value m e) (to_float f r).
Proof.
  intros (Hf & Hbig & Hsmall) Hl Hw Hc. destruct (float_exact s neg m e Hl) as (e' & ex0 & ex' & E & Hw' & Hr & Hd & Hlen).
  rewrite (written_exponent_fun _ _ _ Hw' Hw) in *. clear Hw' ex0. exists (FrDec neg m e'). split; [exact E|]. cbn [to_float].
  destruct Hr as [[_ ->]|(R1 & R2 & R3)].
  { replace e' with e by lia. apply round_decimal_spec, Hf. }
  destruct Hc as [Hc|Hc]; [lia|]. pose proof (literal_digits _ _ _ _ Hl) as Hm.
  destruct (N.eq_dec m 0) as [->|Nm].
  { assert (Z0 : forall k, decimal_value 0 k == 0) by (intro k; unfold decimal_value; change (inject_Z (Z.of_N 0)) with 0; ring).
    eapply rounded_ext; [|apply round_decimal_spec, Hf]. rewrite !Z0. reflexivity. }
  destruct (Z.le_gt_cases 0 ex) as [S|S].
  - (* both overflow *)
    assert (A : (10 # 1) ^ 500 <= decimal_value m e') by (apply decimal_large; nia).
    assert (B : (10 # 1) ^ 500 <= decimal_value m e) by (apply decimal_large; nia).
    assert (O : round_decimal f neg m e' = FInf neg).
    { apply (rounded_unique f neg (decimal_value m e') (decimal_value m e')); [exact Hf|reflexivity|apply round_decimal_spec, Hf|].
      split; [reflexivity|lra]. }
    rewrite O. split; [reflexivity|lra].
  - (* both vanish *)
    assert (A : decimal_value m e' <= (10 # 1) ^ (-500)) by (apply (decimal_small m e' (length s)); [exact Hm|nia]).
    assert (B : decimal_value m e <= (10 # 1) ^ (-500)) by (apply (decimal_small m e (length s)); [exact Hm|nia]).
    assert (O : round_decimal f neg m e' = FFin neg 0 (f_emin f)).
    { apply (rounded_unique f neg (decimal_value m e') (decimal_value m e')); [exact Hf|reflexivity|apply round_decimal_spec, Hf|].
      apply rounded_zero; [exact Hf|apply decimal_nonneg|lra]. }
    rewrite O. apply rounded_zero; [exact Hf|apply decimal_nonneg|lra].
Qed.

(** * C83 *)

(** The literals for which std reads the exponent precisely enough: fewer than 65000 bytes, or an exponent
    below 655360. *)
Definition readable (s : list N) : Prop :=
  exists ex, written_exponent s ex /\ ((Z.abs ex < 655360)%Z \/ (Z.of_nat (length s) <= 65000)%Z).

(** [as_f64()]/[as_f32()] are the floats nearest to the number that the literal denotes, ties to even,
    infinite from the overflow bound on, with the sign of the literal (also for zero). *)
(** The formats of the model are the ones of the standard. *)
Lemma single_is : single = binary32. Proof. reflexivity. Qed.
Lemma double_is : double = binary64. Proof. reflexivity. Qed.
Theorem C83_as_f64_is_nearest pw x neg m e : number_obtainable pw x -> literal_value (jn_str x) neg m e -> readable (jn_str x) ->
  exists y, as_f64 x = Some y /\ value_as_f64 (VNumber x) = Some y /\ rounded double neg (decimal_value m e) y.
Proof.
  rewrite ?single_is, ?double_is.
  intros _ Hl (ex & Hw & Hc). destruct (round_read binary64 _ _ _ _ _ moderate_64 Hl Hw Hc) as (r & E & H).
  exists (to_float binary64 r). unfold as_f64, value_as_f64, value_as_float, as_number, as_float, number_parse. rewrite E. auto.
Qed.
Theorem C83_as_f32_is_nearest pw x neg m e : number_obtainable pw x -> literal_value (jn_str x) neg m e -> readable (jn_str x) ->
  exists y, as_f32 x = Some y /\ value_as_f32 (VNumber x) = Some y /\ rounded single neg (decimal_value m e) y.
Proof.
  rewrite ?single_is, ?double_is.
  intros _ Hl (ex & Hw & Hc). destruct (round_read binary32 _ _ _ _ _ moderate_32 Hl Hw Hc) as (r & E & H).
  exists (to_float binary32 r). unfold as_f32, value_as_f32, value_as_float, as_number, as_float, number_parse. rewrite E. auto.
Qed.

(** That leaves exactly one possible answer. *)
Theorem C83_nearest_is_unique f neg x y y' : f = single \/ f = double -> rounded f neg x y -> rounded f neg x y' -> y = y'.
Proof.
  rewrite ?single_is, ?double_is.
  intro Hf. apply rounded_unique; [|reflexivity]. destruct Hf as [->| ->]; [exact binary32_ok|exact binary64_ok].
Qed.

(** However the number is spelled, equal numbers (of equal sign, if zero) give the same floats. *)
Theorem C83_equal_numbers pw x x' neg m e m' e' : number_obtainable pw x -> number_obtainable pw x' ->
  literal_value (jn_str x) neg m e -> literal_value (jn_str x') neg m' e' -> readable (jn_str x) -> readable (jn_str x') ->
  decimal_value m e == decimal_value m' e' -> as_f64 x = as_f64 x' /\ as_f32 x = as_f32 x'.
Proof.
  intros H H' L L' R R' E. split.
  - destruct (C83_as_f64_is_nearest pw x neg m e H L R) as (y & -> & _ & Hy).
    destruct (C83_as_f64_is_nearest pw x' neg m' e' H' L' R') as (y' & -> & _ & Hy').
    f_equal. exact (rounded_unique _ _ _ _ _ _ binary64_ok E Hy Hy').
  - destruct (C83_as_f32_is_nearest pw x neg m e H L R) as (y & -> & _ & Hy).
    destruct (C83_as_f32_is_nearest pw x' neg m' e' H' L' R') as (y' & -> & _ & Hy').
    f_equal. exact (rounded_unique _ _ _ _ _ _ binary32_ok E Hy Hy').
Qed.

(** The larger magnitude gets the larger float. *)
Theorem C83_monotone pw x x' n n' m e m' e' M' E' : number_obtainable pw x -> number_obtainable pw x' ->
  literal_value (jn_str x) n m e -> literal_value (jn_str x') n' m' e' -> readable (jn_str x) -> readable (jn_str x') ->
  decimal_value m e <= decimal_value m' e' -> as_f64 x' = Some (FFin n' M' E') ->
  exists M E, as_f64 x = Some (FFin n M E) /\ dyadic M E <= dyadic M' E'.
Proof.
  intros H H' L L' R R' D E.
  destruct (C83_as_f64_is_nearest pw x n m e H L R) as (y & -> & _ & Hy).
  destruct (C83_as_f64_is_nearest pw x' n' m' e' H' L' R') as (y' & E2 & _ & Hy'). rewrite E2 in E. injection E as ->.
  destruct (rounded_monotone _ _ _ _ _ _ _ _ binary64_ok D Hy Hy') as (M & X & -> & HM). eauto.
Qed.

(** A number that a float can hold is returned as it is. *)
Theorem C83_representable_is_exact pw x neg m e M E : number_obtainable pw x -> literal_value (jn_str x) neg m e -> readable (jn_str x) ->
  finite double M E -> decimal_value m e == dyadic M E -> as_f64 x = Some (FFin neg M E).
Proof.
  rewrite ?single_is, ?double_is.
  intros H L R F D. destruct (C83_as_f64_is_nearest pw x neg m e H L R) as (y & -> & _ & Hy). f_equal.
  apply (rounded_unique _ neg _ (decimal_value m e) _ _ binary64_ok (Qeq_refl _) Hy).
  apply rounded_exact; [exact binary64_ok|exact F|exact D].
Qed.

(** The same two for [as_f32]. *)
Theorem C83_monotone_f32 pw x x' n n' m e m' e' M' E' : number_obtainable pw x -> number_obtainable pw x' ->
  literal_value (jn_str x) n m e -> literal_value (jn_str x') n' m' e' -> readable (jn_str x) -> readable (jn_str x') ->
  decimal_value m e <= decimal_value m' e' -> as_f32 x' = Some (FFin n' M' E') ->
  exists M E, as_f32 x = Some (FFin n M E) /\ dyadic M E <= dyadic M' E'.
Proof.
  intros H H' L L' R R' D E.
  destruct (C83_as_f32_is_nearest pw x n m e H L R) as (y & -> & _ & Hy).
  destruct (C83_as_f32_is_nearest pw x' n' m' e' H' L' R') as (y' & E2 & _ & Hy'). rewrite E2 in E. injection E as ->.
  destruct (rounded_monotone _ _ _ _ _ _ _ _ binary32_ok D Hy Hy') as (M & X & -> & HM). eauto.
Qed.
Theorem C83_representable_is_exact_f32 pw x neg m e M E : number_obtainable pw x -> literal_value (jn_str x) neg m e -> readable (jn_str x) ->
  finite single M E -> decimal_value m e == dyadic M E -> as_f32 x = Some (FFin neg M E).
Proof.
  rewrite ?single_is.
  intros H L R F D. destruct (C83_as_f32_is_nearest pw x neg m e H L R) as (y & -> & _ & Hy). f_equal.
  apply (rounded_unique _ neg _ (decimal_value m e) _ _ binary32_ok (Qeq_refl _) Hy).
  apply rounded_exact; [exact binary32_ok|exact F|exact D].
Qed.

(** Integers up to 2^53 that the integer conversions return are returned exactly as floats, too. *)
Theorem C83_integers_are_exact pw t x k : number_obtainable pw x -> as_int pw t x = Some k -> (Z.abs k <= 2 ^ 53)%Z ->
  exists y, as_f64 x = Some y /\ float_is y (inject_Z k).
Proof.
  intros H E Hk. apply (C42_integers_exact pw t x k H) in E as (L & _).
  assert (G : exists neg m, literal_value (jn_str x) neg m 0 /\ written_exponent (jn_str x) 0 /\
            k = (if neg then - Z.of_N m else Z.of_N m)%Z).
  { assert (W : forall i, num_int i -> Forall (fun b => b <> 101 /\ b <> 69)%N i) by (intros i Hi; apply digits_no_e, num_int_digits, Hi).
    destruct L as [i Hi|i Hi].
    - exists false, (decimal i). split; [|split; [|reflexivity]].
      + pose proof (lv_no_frac false i [] 0 Hi exp_none) as V. rewrite app_nil_r in V. exact V.
      + exists i, []. rewrite app_nil_r. split; [reflexivity|]. split; [apply W, Hi|constructor].
    - exists true, (decimal i). split; [|split; [|reflexivity]].
      + pose proof (lv_no_frac true i [] 0 Hi exp_none) as V. rewrite app_nil_r in V. exact V.
      + exists (45%N :: i), []. rewrite app_nil_r. split; [reflexivity|]. split; [|constructor].
        constructor; [lia|apply W, Hi]. }
  destruct G as (neg & m & V & W & Ek).
  assert (R : readable (jn_str x)) by (exists 0%Z; split; [exact W|left; reflexivity]).
  assert (F : exists M X, finite binary64 M X /\ dyadic M X == inject_Z (Z.of_N m)).
  { assert (D0 : dyadic (Z.of_N m) 0 == inject_Z (Z.of_N m)) by (unfold dyadic; change ((2 # 1) ^ 0) with 1; ring).
    destruct (Z.eq_dec (Z.of_N m) (2 ^ 53)) as [Em|Nm].
    - exists (2 ^ 52)%Z, 1%Z. split; [split; [cbn; lia|split; [cbn; lia|left; cbn; lia]]|]. rewrite Em. reflexivity.
    - destruct (finite_exists binary64 ltac:(cbn; lia) (Z.of_N m) 0) as (M & X & F & D).
      + change (f_prec binary64) with 53%Z. destruct neg; lia.
      + cbn. lia.
      + exists M, X. split; [exact F|]. rewrite D. exact D0. }
  destruct F as (M & X & F & D). exists (FFin neg M X). split.
  - apply (C83_representable_is_exact pw x neg m 0 M X H V R F). rewrite D. unfold decimal_value. change ((10 # 1) ^ 0) with 1. ring.
  - exists neg, M, X. split; [reflexivity|]. rewrite Ek. destruct neg; [rewrite inject_Z_opp|]; rewrite D; reflexivity.
Qed.

(** Integers up to 2^24 that the integer conversions return are returned exactly as floats, too. *)
Theorem C83_integers_are_exact_f32 pw t x k : number_obtainable pw x -> as_int pw t x = Some k -> (Z.abs k <= 2 ^ 24)%Z ->
  exists y, as_f32 x = Some y /\ float_is y (inject_Z k).
Proof.
  intros H E Hk. apply (C42_integers_exact pw t x k H) in E as (L & _).
  assert (G : exists neg m, literal_value (jn_str x) neg m 0 /\ written_exponent (jn_str x) 0 /\
            k = (if neg then - Z.of_N m else Z.of_N m)%Z).
  { assert (W : forall i, num_int i -> Forall (fun b => b <> 101 /\ b <> 69)%N i) by (intros i Hi; apply digits_no_e, num_int_digits, Hi).
    destruct L as [i Hi|i Hi].
    - exists false, (decimal i). split; [|split; [|reflexivity]].
      + pose proof (lv_no_frac false i [] 0 Hi exp_none) as V. rewrite app_nil_r in V. exact V.
      + exists i, []. rewrite app_nil_r. split; [reflexivity|]. split; [apply W, Hi|constructor].
    - exists true, (decimal i). split; [|split; [|reflexivity]].
      + pose proof (lv_no_frac true i [] 0 Hi exp_none) as V. rewrite app_nil_r in V. exact V.
      + exists (45%N :: i), []. rewrite app_nil_r. split; [reflexivity|]. split; [|constructor].
        constructor; [lia|apply W, Hi]. }
  destruct G as (neg & m & V & W & Ek).
  assert (R : readable (jn_str x)) by (exists 0%Z; split; [exact W|left; reflexivity]).
  assert (F : exists M X, finite binary32 M X /\ dyadic M X == inject_Z (Z.of_N m)).
  { assert (D0 : dyadic (Z.of_N m) 0 == inject_Z (Z.of_N m)) by (unfold dyadic; change ((2 # 1) ^ 0) with 1; ring).
    destruct (Z.eq_dec (Z.of_N m) (2 ^ 24)) as [Em|Nm].
    - exists (2 ^ 23)%Z, 1%Z. split; [split; [cbn; lia|split; [cbn; lia|left; cbn; lia]]|]. rewrite Em. reflexivity.
    - destruct (finite_exists binary32 ltac:(cbn; lia) (Z.of_N m) 0) as (M & X & F & D).
      + change (f_prec binary32) with 24%Z. destruct neg; lia.
      + cbn. lia.
      + exists M, X. split; [exact F|]. rewrite D. exact D0. }
  destruct F as (M & X & F & D). exists (FFin neg M X). split.
  - apply (C83_representable_is_exact_f32 pw x neg m 0 M X H V R F). rewrite D. unfold decimal_value. change ((10 # 1) ^ 0) with 1. ring.
  - exists neg, M, X. split; [reflexivity|]. rewrite Ek. destruct neg; [rewrite inject_Z_opp|]; rewrite D; reflexivity.
Qed.

(** Without that proviso the claim is false: std stops reading the exponent of
    0.000...0001e655360 (655359 zeros), which denotes 1, and returns zero. *)
Definition long_one_zeros : nat := Z.to_nat 655359.
Definition long_one : list N := bs "0." ++ repeat 48%N long_one_zeros ++ bs "1e655360".

Lemma decimal_zeros n r : decimal (repeat 48%N n ++ r) = decimal r.
Proof. induction n as [|n IH]; [reflexivity|]. cbn [repeat app decimal]. rewrite IH. reflexivity. Qed.
Lemma zeros_digits n : Forall digit (repeat 48%N n).
Proof. induction n as [|n IH]; cbn; constructor; [unfold digit; lia|exact IH]. Qed.
Lemma long_literal n : literal_value (bs "0." ++ repeat 48%N n ++ bs "1e655360") false 1 (655360 - Z.of_nat (n + 1)).
Proof.
  pose proof (lv_frac false [48%N] (repeat 48%N n ++ [49%N]) (bs "e655360") 655360) as V.
  rewrite app_length, repeat_length in V. cbn [length] in V.
  replace (decimal ([48%N] ++ repeat 48%N n ++ [49%N])) with 1%N in V by (cbn [app decimal]; rewrite decimal_zeros; reflexivity).
  replace ((if false then [45%N] else []) ++ [48%N] ++ 46%N :: (repeat 48%N n ++ [49%N]) ++ bs "e655360")
    with (bs "0." ++ repeat 48%N n ++ bs "1e655360") in V by (rewrite <- app_assoc; reflexivity).
  apply V.
  - left. reflexivity.
  - split; [|apply Forall_app; split; [apply zeros_digits|constructor; [unfold digit; lia|constructor]]].
    intro C. apply app_eq_nil in C as [_ C]. discriminate.
  - apply (exp_pos 101 (bs "655360")); [left; reflexivity|]. split; [discriminate|]. cbn. repeat (constructor; [unfold digit; lia|]). constructor.
Qed.
Lemma long_read n : float_from_str (bs "0." ++ repeat 48%N n ++ bs "1e655360") = Some (FrDec false 1 (65536 - Z.of_nat (n + 1))).
Proof.
  unfold float_from_str. change (take_sign (bs "0." ++ repeat 48%N n ++ bs "1e655360"))
    with (false, [48%N] ++ 46%N :: repeat 48%N n ++ bs "1e655360").
  assert (E : float_number ([48%N] ++ 46%N :: repeat 48%N n ++ bs "1e655360") = Some (1%N, (65536 - Z.of_nat (n + 1))%Z)).
  { unfold float_number. rewrite take_digits_app; [|constructor; [unfold digit; lia|constructor]|unfold digit; lia].
    rewrite N.eqb_refl. replace (repeat 48%N n ++ bs "1e655360") with ((repeat 48%N n ++ [49%N]) ++ bs "e655360") by (rewrite <- app_assoc; reflexivity).
    rewrite take_digits_app; [|apply Forall_app; split; [apply zeros_digits|constructor; [unfold digit; lia|constructor]]|cbn; unfold digit; lia].
    assert (V : digits_value ([48%N] ++ repeat 48%N n ++ [49%N]) = 1%N).
    { rewrite digits_value_eq; [cbn [app decimal]; rewrite decimal_zeros; reflexivity|].
      constructor; [unfold digit; lia|]. apply Forall_app; split; [apply zeros_digits|constructor; [unfold digit; lia|constructor]]. }
    cbn [app] in V |- *. rewrite V. rewrite app_length, repeat_length. reflexivity. }
  cbn [app] in E |- *. rewrite E. reflexivity.
Qed.

Lemma number_obtains pw s : rust_slice pw s -> number s -> number_obtainable pw (JNum (Borrowed s)).
Proof.
  intros H Hn. apply (number_of_bytes pw _ s config_default (VNumber (JNum (Borrowed s)))); [exact H| |constructor].
  apply value_bytes_iff; [exact H|]. exists (TNum s). split; [|constructor].
  split; [|split; [cbn; lia|left; reflexivity]].
  exists [], s, []. split; [constructor|]. split; [constructor; exact Hn|]. split; [constructor|]. rewrite app_nil_r. reflexivity.
Qed.

Lemma long_number n : number (bs "0." ++ repeat 48%N n ++ bs "1e655360").
Proof.
  exists [], [48%N], (46%N :: repeat 48%N n ++ [49%N]), (bs "e655360"). split; [left; reflexivity|]. split; [left; reflexivity|].
  split; [right; exists (repeat 48%N n ++ [49%N]); split; [|reflexivity]|].
  - split; [|apply Forall_app; split; [apply zeros_digits|constructor; [unfold digit; lia|constructor]]].
    intro C. apply app_eq_nil in C as [_ C]. discriminate.
  - split; [right; exists 101%N, [], (bs "655360"); split; [left; reflexivity|split; [left; reflexivity|split; [|reflexivity]]]|].
    + split; [discriminate|]. cbn. repeat (constructor; [unfold digit; lia|]). constructor.
    + cbn [app]. rewrite <- app_assoc. reflexivity.
Qed.

Theorem C83_long_exponents_refuted :
  exists x m e, number_obtainable W64 x /\ literal_value (jn_str x) false m e /\ decimal_value m e == 1 /\
    as_f64 x = Some (FFin false 0 (-1074)) /\ ~ rounded double false 1 (FFin false 0 (-1074)).
Proof.
  rewrite ?single_is, ?double_is.
  exists (JNum (Borrowed long_one)), 1%N, (655360 - Z.of_nat (long_one_zeros + 1))%Z.
  assert (Z1 : Z.of_nat (long_one_zeros + 1) = 655360%Z) by (unfold long_one_zeros; rewrite Nat2Z.inj_add, Z2Nat.id by lia; reflexivity).
  split; [|split; [|split; [|split]]].
  - apply number_obtains; [|apply long_number]. split.
    + unfold long_one. apply Forall_app. split; [repeat constructor|]. apply Forall_app. split; [|repeat constructor].
      eapply Forall_impl; [|apply zeros_digits]. unfold digit. intros; lia.
    + unfold long_one. rewrite !app_length, repeat_length. unfold long_one_zeros. rewrite !Nat2N.inj_add, Z_nat_N. vm_compute. discriminate.
  - apply long_literal.
  - rewrite Z1. reflexivity.
  - unfold as_f64, as_float, number_parse. cbn [jn_str jn_source any_str]. unfold long_one. rewrite long_read, Z1. cbn [option_map to_float]. apply (f_equal Some).
    apply (rounded_unique binary64 false (decimal_value 1 (65536 - 655360)) (decimal_value 1 (65536 - 655360)));
      [exact binary64_ok|apply Qeq_refl|apply round_decimal_spec, binary64_ok|].
    apply (rounded_zero binary64); [exact binary64_ok|apply decimal_nonneg|].
    pose proof moderate_64 as (_ & _ & S). eapply Qle_lt_trans; [|exact S].
    apply (decimal_small 1 _ 1); [reflexivity|]. cbn. lia.
  - intros (_ & _ & _ & H). specialize (H (2 ^ 52)%Z (-52)%Z). destruct H as [H _].
    + split; [cbn; lia|]. split; [cbn; lia|]. left. cbn. lia.
    + vm_compute in H. apply H. reflexivity.
Qed.

(** * Concrete cases *)
Definition num (s : string) : json_number := JNum (Borrowed (bs s)).
Example sample_floats :
  as_f64 (num "0.1") = Some (FFin false 7205759403792794 (-56)) /\
  as_f64 (num "9007199254740993") = Some (FFin false 4503599627370496 1) /\
  as_f64 (num "-0.0") = Some (FFin true 0 (-1074)) /\
  as_f64 (num "1e400") = Some (FInf false) /\
  as_f64 (num "-1.7976931348623157e308") = Some (FFin true 9007199254740991 971) /\
  as_f64 (num "1.7976931348623159e308") = Some (FInf false) /\
  as_f64 (num "4.9e-324") = Some (FFin false 1 (-1074)) /\
  as_f64 (num "2e-324") = Some (FFin false 0 (-1074)) /\
  as_f32 (num "16777217") = Some (FFin false 8388608 1) /\
  as_f32 (num "3.4028236e38") = Some (FInf false).
Proof. repeat split; vm_compute; reflexivity. Qed.

Example sample_nearest : number_obtainable W32 (num "12.50e-3") /\ literal_value (bs "12.50e-3") false 1250 (-5) /\ readable (bs "12.50e-3").
Proof.
  assert (L : literal_value (bs "12.50e-3") false 1250 (-5)).
  { apply (lv_frac false (bs "12") (bs "50") (bs "e-3") (-3)).
    - right. exists 49%N, (bs "2"). split; [lia|]. split; [change (bs "2") with [50%N]; constructor; [unfold digit; lia|constructor]|reflexivity].
    - split; [discriminate|]. cbn. repeat (constructor; [unfold digit; lia|]). constructor.
    - apply (exp_minus 101 (bs "3")); [left; reflexivity|]. split; [discriminate|]. cbn. repeat (constructor; [unfold digit; lia|]). constructor. }
  split; [|split; [exact L|]].
  - apply (number_of_number W32 _ (bs "12.50e-3")); [split; [apply utf8_valid_iff; reflexivity|cbn; lia]|vm_compute; reflexivity].
  - destruct (float_exact _ _ _ _ L) as (e' & ex & ex' & _ & W & _). exists ex. split; [exact W|]. right. cbn. lia.
Qed.
