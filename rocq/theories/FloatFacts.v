(** Correct rounding: facts about [rounded] and the proof that [round_ratio] meets it. *)
From Coq Require Import QArith Qabs Qpower Lqa.
From Verif Require Import Base FloatModel SpecFloat.
Local Open Scope Q_scope.

(** * Powers *)
Lemma two_pos E : 0 < (2 # 1) ^ E.
Proof. apply Qpower_0_lt. reflexivity. Qed.
Lemma two_plus a b : (2 # 1) ^ (a + b) == (2 # 1) ^ a * (2 # 1) ^ b.
Proof. apply Qpower_plus. discriminate. Qed.
Lemma two_nat n : (0 <= n)%Z -> inject_Z (2 ^ n) == (2 # 1) ^ n.
Proof. apply Zpower_Qpower. Qed.
Lemma two_split E : (2 # 1) ^ E * inject_Z (2 ^ Z.max 0 (- E)) == inject_Z (2 ^ Z.max 0 E).
Proof.
  rewrite !two_nat by lia. rewrite <- two_plus. replace (E + Z.max 0 (- E))%Z with (Z.max 0 E) by lia. reflexivity.
Qed.
Lemma dyadic_shift M E k : (0 <= k)%Z -> dyadic (M * 2 ^ k) E == dyadic M (E + k).
Proof. intro H. unfold dyadic. rewrite inject_Z_mult, two_nat, two_plus by exact H. ring. Qed.
Lemma dyadic_up M E E' : (E <= E')%Z -> dyadic M E' == inject_Z (M * 2 ^ (E' - E)) * (2 # 1) ^ E.
Proof. intro H. fold (dyadic (M * 2 ^ (E' - E)) E). rewrite dyadic_shift by lia. replace (E + (E' - E))%Z with E' by lia. reflexivity. Qed.
Lemma dyadic_le M M' E : (M <= M')%Z -> dyadic M E <= dyadic M' E.
Proof. intro H. unfold dyadic. apply Qmult_le_compat_r; [rewrite <- Zle_Qle; exact H|apply Qlt_le_weak, two_pos]. Qed.
Lemma dyadic_lt M M' E : (M < M')%Z -> dyadic M E < dyadic M' E.
Proof. intro H. unfold dyadic. apply Qmult_lt_r; [apply two_pos|rewrite <- Zlt_Qlt; exact H]. Qed.
Lemma dyadic_nonneg M E : (0 <= M)%Z -> 0 <= dyadic M E.
Proof. intro H. pose proof (dyadic_le 0 M E H) as G. unfold dyadic in G at 1. change (inject_Z 0) with 0 in G. rewrite Qmult_0_l in G. exact G. Qed.

(** [M < 2^(E2-E1+k)] style comparison between different exponents. *)
Lemma dyadic_lt_diff M M' E E' : (E <= E')%Z -> (M < M' * 2 ^ (E' - E))%Z -> dyadic M E < dyadic M' E'.
Proof. intros HE H. rewrite (dyadic_up M' E E' HE). apply Qmult_lt_r; [apply two_pos|rewrite <- Zlt_Qlt; exact H]. Qed.

(** Normal forms are unique. *)
Lemma finite_unique f M E M' E' : (1 <= f_prec f)%Z -> finite f M E -> finite f M' E' -> dyadic M E == dyadic M' E' -> (M, E) = (M', E').
Proof.
  intro Hp.
  assert (K : forall M E M' E', finite f M E -> finite f M' E' -> dyadic M E == dyadic M' E' -> (E <= E')%Z -> (M, E) = (M', E')).
  { clear M E M' E'. intros M E M' E' (HM & HE & HN) (HM' & HE' & HN') H L.
    rewrite (dyadic_up M' E E' L) in H. unfold dyadic in H. apply Qmult_inj_r in H; [|intro Z0; pose proof (two_pos E) as G; rewrite Z0 in G; discriminate].
    rewrite inject_Z_injective in H. destruct (Z.eq_dec E E') as [<-|N].
    { rewrite Z.sub_diag, Z.pow_0_r, Z.mul_1_r in H. subst M. reflexivity. }
    exfalso. destruct HN' as [HN'|HN']; [|lia].
    assert (P : (2 ^ f_prec f = 2 * 2 ^ (f_prec f - 1))%Z) by (rewrite <- Z.pow_succ_r by lia; f_equal; lia).
    assert (2 <= 2 ^ (E' - E))%Z by (change 2%Z with (2 ^ 1)%Z at 1; apply Z.pow_le_mono_r; lia).
    assert (0 < 2 ^ (f_prec f - 1))%Z by (apply Z.pow_pos_nonneg; lia). nia. }
  intros H1 H2 H. destruct (Z.le_ge_cases E E') as [L|L]; [apply K; assumption|].
  symmetry. apply K; auto. symmetry. exact H.
Qed.

(** Every magnitude with few enough bits has a normal form. *)
Lemma finite_exists f : (1 <= f_prec f)%Z -> forall M E, (0 <= M < 2 ^ f_prec f)%Z -> (f_emin f <= E <= f_emax f)%Z ->
  exists M' E', finite f M' E' /\ dyadic M' E' == dyadic M E.
Proof.
  intro Hp. assert (K : forall n M E, Z.to_nat (E - f_emin f) = n -> (0 <= M < 2 ^ f_prec f)%Z -> (f_emin f <= E <= f_emax f)%Z ->
    exists M' E', finite f M' E' /\ dyadic M' E' == dyadic M E).
  { induction n as [|n IH]; intros M E Hn HM HE.
    - exists M, E. split; [|reflexivity]. split; [exact HM|]. split; [exact HE|]. right. lia.
    - destruct (Z.le_gt_cases (2 ^ (f_prec f - 1)) M) as [L|L].
      + exists M, E. split; [|reflexivity]. split; [exact HM|]. split; [exact HE|]. left. exact L.
      + destruct (IH (M * 2 ^ 1)%Z (E - 1)%Z) as (M' & E' & HF & HV).
        * lia.
        * assert (P : (2 ^ f_prec f = 2 * 2 ^ (f_prec f - 1))%Z) by (rewrite <- Z.pow_succ_r by lia; f_equal; lia). lia.
        * lia.
        * exists M', E'. split; [exact HF|]. rewrite HV, dyadic_shift by lia. replace (E - 1 + 1)%Z with E by lia. reflexivity. }
  intros M E. apply (K _ M E eq_refl).
Qed.

Lemma finite_below f M E : (1 <= f_prec f)%Z -> finite f M E -> dyadic M E < overflow_bound f.
Proof.
  intros Hp (HM & HE & _). unfold overflow_bound.
  apply Qle_lt_trans with (dyadic (2 ^ f_prec f - 1) E); [apply dyadic_le; lia|].
  assert (P : (2 ^ (f_prec f + 1) = 2 * 2 ^ f_prec f)%Z) by (rewrite <- Z.pow_succ_r by lia; f_equal; lia).
  assert (P0 : (0 < 2 ^ f_prec f)%Z) by (apply Z.pow_pos_nonneg; lia).
  destruct (Z.eq_dec E (f_emax f)) as [->|N].
  - replace (f_emax f) with (f_emax f - 1 + 1)%Z at 1 by lia. rewrite <- dyadic_shift by lia. apply dyadic_lt. rewrite P. lia.
  - apply dyadic_lt_diff; [lia|]. rewrite P.
    assert (1 <= 2 ^ (f_emax f - 1 - E))%Z by (apply (Z.pow_le_mono_r 2 0); lia). nia.
Qed.

(** * Distances *)
Lemma abs_scale a b u : 0 < u -> Qabs (a * u - b * u) == Qabs (a - b) * u.
Proof.
  intro H. setoid_replace (a * u - b * u) with ((a - b) * u) by ring. rewrite Qabs_Qmult.
  rewrite (Qabs_pos u) by lra. reflexivity.
Qed.

(** The nearest integer, ties to even. *)
Lemma nearest_integer t M k : Qabs (t - inject_Z M) <= 1 # 2 -> (Qabs (t - inject_Z M) == 1 # 2 -> Z.even M = true) ->
  Qabs (t - inject_Z M) <= Qabs (t - inject_Z k) /\
  (Qabs (t - inject_Z M) == Qabs (t - inject_Z k) -> k = M \/ Z.even M = true).
Proof.
  intros H T. destruct (Z.eq_dec k M) as [->|N]; [split; [apply Qle_refl|auto]|].
  assert (D : 1 # 2 <= Qabs (t - inject_Z k)).
  { assert (G : inject_Z 1 <= Qabs (inject_Z k - inject_Z M)).
    { rewrite <- inject_Z_opp || idtac. unfold Qminus. rewrite <- inject_Z_opp, <- inject_Z_plus.
      rewrite <- (Qabs_Zabs (k + - M)) || idtac. change (Qabs (inject_Z (k + - M))) with (inject_Z (Z.abs (k + - M))). rewrite <- Zle_Qle. lia. }
    change (inject_Z 1) with 1 in G.
    revert H G. apply Qabs_case; apply Qabs_case; apply Qabs_case; intros; lra. }
  split; [lra|]. intro E. right. apply T. lra.
Qed.

(** * The core of the argument *)
Lemma nearest_core f x t E M0 M : (1 <= f_prec f)%Z -> x == t * (2 # 1) ^ E -> inject_Z M0 <= t ->
  ((2 ^ (f_prec f - 1) <= M0)%Z \/ E = f_emin f) ->
  Qabs (t - inject_Z M) <= 1 # 2 -> (Qabs (t - inject_Z M) == 1 # 2 -> Z.even M = true) ->
  Qabs (t - inject_Z M) <= t - inject_Z M0 ->
  forall M' E', finite f M' E' ->
    Qabs (x - dyadic M E) <= Qabs (x - dyadic M' E') /\
    (Qabs (x - dyadic M E) == Qabs (x - dyadic M' E') -> dyadic M' E' == dyadic M E \/ Z.even M = true).
Proof.
  intros Hp Hx H0 HN Hh Ht Hd M' E' (HM' & HE' & HN').
  pose proof (two_pos E) as Hu. set (u := (2 # 1) ^ E) in *.
  assert (EL : Qabs (x - dyadic M E) == Qabs (t - inject_Z M) * u).
  { unfold dyadic. fold u. rewrite Hx. apply abs_scale, Hu. }
  destruct (Z.le_gt_cases E E') as [L|L].
  - assert (ER : Qabs (x - dyadic M' E') == Qabs (t - inject_Z (M' * 2 ^ (E' - E))) * u).
    { rewrite (dyadic_up M' E E' L). fold u. rewrite Hx. apply abs_scale, Hu. }
    destruct (nearest_integer t M (M' * 2 ^ (E' - E))%Z Hh Ht) as [A B]. split.
    + rewrite EL, ER. apply Qmult_le_compat_r; [exact A|lra].
    + rewrite EL, ER. intro Q0. apply Qmult_inj_r in Q0; [|lra]. destruct (B Q0) as [C|C]; [left|right; exact C].
      rewrite (dyadic_up M' E E' L), C. reflexivity.
  - destruct HN as [HN|HN]; [|lia].
    assert (Hz : dyadic M' E' < inject_Z M0 * u).
    { apply (dyadic_lt_diff M' M0 E' E); [lia|].
      assert (P : (2 ^ f_prec f = 2 * 2 ^ (f_prec f - 1))%Z) by (rewrite <- Z.pow_succ_r by lia; f_equal; lia).
      assert (2 <= 2 ^ (E - E'))%Z by (change 2%Z with (2 ^ 1)%Z at 1; apply Z.pow_le_mono_r; lia).
      assert (0 < 2 ^ (f_prec f - 1))%Z by (apply Z.pow_pos_nonneg; lia). nia. }
    assert (S : Qabs (x - dyadic M E) < Qabs (x - dyadic M' E')).
    { rewrite EL. apply Qle_lt_trans with ((t - inject_Z M0) * u); [apply Qmult_le_compat_r; [exact Hd|lra]|].
      assert (inject_Z M0 * u <= t * u) by (apply Qmult_le_compat_r; [exact H0|lra]).
      rewrite Qabs_pos by lra. rewrite Hx. lra. }
    split; [lra|]. intro Q0. lra.
Qed.

(** * [round_ratio] *)
Lemma scaled p q E : (0 < q)%Z ->
  inject_Z p / inject_Z q == inject_Z (p * 2 ^ Z.max 0 (- E)) / inject_Z (q * 2 ^ Z.max 0 E) * (2 # 1) ^ E.
Proof.
  intro Hq. rewrite !inject_Z_mult.
  assert (Q1 : ~ inject_Z q == 0) by (change 0 with (inject_Z 0); rewrite inject_Z_injective; lia).
  assert (Q2 : ~ inject_Z (2 ^ Z.max 0 E) == 0).
  { change 0 with (inject_Z 0). rewrite inject_Z_injective. pose proof (Z.pow_pos_nonneg 2 (Z.max 0 E)). lia. }
  pose proof (two_split E) as S. rewrite <- S in *.
  field. repeat split; try exact Q1; intro Z0; apply Q2; rewrite Z0; ring.
Qed.

Lemma div_pos_lt a b c : (0 < b)%Z -> inject_Z a / inject_Z b < inject_Z c <-> (a < c * b)%Z.
Proof.
  intro H. assert (P : 0 < inject_Z b) by (change 0 with (inject_Z 0); rewrite <- Zlt_Qlt; exact H).
  rewrite <- (Qmult_lt_r _ _ _ P). unfold Qdiv. rewrite <- Qmult_assoc, (Qmult_comm (/ _)), Qmult_inv_r, Qmult_1_r by lra.
  rewrite <- inject_Z_mult, <- Zlt_Qlt. reflexivity.
Qed.
Lemma div_pos_le a b c : (0 < b)%Z -> inject_Z c <= inject_Z a / inject_Z b <-> (c * b <= a)%Z.
Proof.
  intro H. assert (P : 0 < inject_Z b) by (change 0 with (inject_Z 0); rewrite <- Zlt_Qlt; exact H).
  rewrite <- (Qmult_le_r _ _ _ P). unfold Qdiv. rewrite <- Qmult_assoc, (Qmult_comm (/ _)), Qmult_inv_r, Qmult_1_r by lra.
  rewrite <- inject_Z_mult, <- Zle_Qle. reflexivity.
Qed.

(** [x < 2^E], decided on integers. *)
Lemma below_power p q E : (0 < q)%Z ->
  inject_Z p / inject_Z q < (2 # 1) ^ E <-> (p * 2 ^ Z.max 0 (- E) < q * 2 ^ Z.max 0 E)%Z.
Proof.
  intro Hq. rewrite (scaled p q E Hq). pose proof (two_pos E) as Hu.
  assert (Hd : (0 < q * 2 ^ Z.max 0 E)%Z) by (apply Z.mul_pos_pos; [exact Hq|apply Z.pow_pos_nonneg; lia]).
  rewrite <- (Qmult_1_l ((2 # 1) ^ E)) at 2. rewrite (Qmult_lt_r _ _ _ Hu). change 1 with (inject_Z 1).
  rewrite div_pos_lt by exact Hd. rewrite Z.mul_1_l. reflexivity.
Qed.

Lemma log_bounds p q : (0 < p)%Z -> (0 < q)%Z ->
  let l0 := (Z.log2 p - Z.log2 q)%Z in
  let l := if (p * 2 ^ Z.max 0 (- l0) <? q * 2 ^ Z.max 0 l0)%Z then (l0 - 1)%Z else l0 in
  (2 # 1) ^ l <= inject_Z p / inject_Z q /\ inject_Z p / inject_Z q < (2 # 1) ^ (l + 1).
Proof.
  intros Hp Hq. cbv zeta. set (l0 := (Z.log2 p - Z.log2 q)%Z).
  assert (U : inject_Z p / inject_Z q < (2 # 1) ^ (l0 + 1)).
  { rewrite below_power by exact Hq. pose proof (Z.log2_spec p Hp) as [A1 A2]. pose proof (Z.log2_spec q Hq) as [B1 B2].
    pose proof (Z.log2_nonneg p). pose proof (Z.log2_nonneg q).
    apply Z.lt_le_trans with (2 ^ Z.succ (Z.log2 p) * 2 ^ Z.max 0 (- (l0 + 1)))%Z.
    - apply Z.mul_lt_mono_pos_r; [apply Z.pow_pos_nonneg; lia|exact A2].
    - apply Z.le_trans with (2 ^ Z.log2 q * 2 ^ Z.max 0 (l0 + 1))%Z.
      + rewrite <- !Z.pow_add_r by lia. apply Z.pow_le_mono_r; lia.
      + apply Z.mul_le_mono_nonneg_r; [apply Z.pow_nonneg; lia|exact B1]. }
  assert (L : (2 # 1) ^ (l0 - 1) <= inject_Z p / inject_Z q).
  { apply Qnot_lt_le. rewrite below_power by exact Hq. pose proof (Z.log2_spec p Hp) as [A1 A2]. pose proof (Z.log2_spec q Hq) as [B1 B2].
    pose proof (Z.log2_nonneg p). pose proof (Z.log2_nonneg q). apply Z.le_ngt.
    apply Z.le_trans with (2 ^ Z.log2 p * 2 ^ Z.max 0 (- (l0 - 1)))%Z.
    - apply Z.le_trans with (2 ^ Z.succ (Z.log2 q) * 2 ^ Z.max 0 (l0 - 1))%Z.
      + apply Z.mul_le_mono_nonneg_r; [apply Z.pow_nonneg; lia|lia].
      + rewrite <- !Z.pow_add_r by lia. apply Z.pow_le_mono_r; lia.
    - apply Z.mul_le_mono_nonneg_r; [apply Z.pow_nonneg; lia|exact A1]. }
  destruct (Z.ltb_spec (p * 2 ^ Z.max 0 (- l0)) (q * 2 ^ Z.max 0 l0)) as [C|C].
  - replace (l0 - 1 + 1)%Z with l0 by lia. split; [exact L|]. rewrite below_power by exact Hq. exact C.
  - split; [|exact U]. apply Qnot_lt_le. rewrite below_power by exact Hq. lia.
Qed.

(** Rounding [num/den] to an integer. *)
Lemma round_integer num den : (0 <= num)%Z -> (0 < den)%Z ->
  let M0 := (num / den)%Z in let r := (num mod den)%Z in
  let M := if ((den <? 2 * r) || ((den =? 2 * r) && Z.odd M0))%Z then (M0 + 1)%Z else M0 in
  let t := inject_Z num / inject_Z den in
  inject_Z M0 <= t /\ t < inject_Z (M0 + 1) /\ (M = M0 \/ M = M0 + 1)%Z /\
  Qabs (t - inject_Z M) <= 1 # 2 /\ (Qabs (t - inject_Z M) == 1 # 2 -> Z.even M = true) /\
  Qabs (t - inject_Z M) <= t - inject_Z M0 /\ (M = (M0 + 1)%Z -> inject_Z M0 + (1 # 2) <= t) /\
  (M = M0 -> t <= inject_Z M0 + (1 # 2)).
Proof.
  intros Hn Hd. cbv zeta. set (M0 := (num / den)%Z). set (r := (num mod den)%Z). set (t := inject_Z num / inject_Z den).
  pose proof (Z.div_mod num den ltac:(lia)) as DM. fold M0 r in DM. pose proof (Z.mod_pos_bound num den Hd) as RB. fold r in RB.
  assert (T0 : inject_Z M0 <= t) by (apply div_pos_le; [exact Hd|nia]).
  assert (T1 : t < inject_Z (M0 + 1)) by (apply div_pos_lt; [exact Hd|nia]).
  (* doubling *)
  assert (Pd : 0 < inject_Z den) by (change 0 with (inject_Z 0); rewrite <- Zlt_Qlt; exact Hd).
  assert (DT : (t - inject_Z M0) * inject_Z den == inject_Z r).
  { unfold t. rewrite DM at 1. rewrite inject_Z_plus, inject_Z_mult. field. lra. }
  assert (HL : forall h, (2 * r <= den)%Z -> h == t - inject_Z M0 -> h <= 1 # 2).
  { intros h Hr Hh. rewrite Hh. rewrite <- (Qmult_le_r _ _ _ Pd), DT. rewrite Zle_Qle in Hr. rewrite inject_Z_mult in Hr.
    change (inject_Z 2) with 2 in Hr. lra. }
  assert (HG : (den <= 2 * r)%Z -> 1 # 2 <= t - inject_Z M0).
  { intros Hr. rewrite <- (Qmult_le_r _ _ _ Pd), DT. rewrite Zle_Qle in Hr. rewrite inject_Z_mult in Hr.
    change (inject_Z 2) with 2 in Hr. lra. }
  assert (HE : t - inject_Z M0 == 1 # 2 -> (den = 2 * r)%Z).
  { intro E. rewrite E in DT. apply inject_Z_injective. rewrite inject_Z_mult. change (inject_Z 2) with 2. lra. }
  rewrite inject_Z_plus in *. change (inject_Z 1) with 1 in *.
  destruct (Z.ltb_spec den (2 * r)) as [C|C]; cbn [orb].
  - specialize (HG ltac:(lia)). split; [exact T0|]. split; [exact T1|]. split; [right; reflexivity|].
    rewrite inject_Z_plus. change (inject_Z 1) with 1. rewrite Qabs_neg by lra.
    repeat split; try lra; try lia. intro E. exfalso. assert (t - inject_Z M0 == 1 # 2) as E' by lra. apply HE in E'. lia.
  - specialize (HL _ C (Qeq_refl _)). destruct (Z.eqb_spec den (2 * r)) as [D|D]; cbn [andb].
    + specialize (HG ltac:(lia)). destruct (Z.odd M0) eqn:O.
      * split; [exact T0|]. split; [exact T1|]. split; [right; reflexivity|].
        rewrite inject_Z_plus. change (inject_Z 1) with 1. rewrite Qabs_neg by lra.
        repeat split; try lra; try lia. intros _. rewrite Z.add_1_r, Z.even_succ. exact O.
      * split; [exact T0|]. split; [exact T1|]. split; [left; reflexivity|]. rewrite Qabs_pos by lra.
        repeat split; try lra; try lia. intros _. rewrite <- Z.negb_odd, O. reflexivity.
    + split; [exact T0|]. split; [exact T1|]. split; [left; reflexivity|]. rewrite Qabs_pos by lra.
      repeat split; try lra; try lia.
Qed.

Lemma dyadic_zero E : dyadic 0 E == 0.
Proof. unfold dyadic. change (inject_Z 0) with 0. ring. Qed.
Lemma dyadic_one E : dyadic 1 E == (2 # 1) ^ E.
Proof. unfold dyadic. change (inject_Z 1) with 1. ring. Qed.

(** Two exponents, compared. *)
Lemma dyadic_le_diff M M' E E' : (E <= E')%Z -> (M <= M' * 2 ^ (E' - E))%Z -> dyadic M E <= dyadic M' E'.
Proof. intros HE H. rewrite (dyadic_up M' E E' HE). apply Qmult_le_compat_r; [rewrite <- Zle_Qle; exact H|apply Qlt_le_weak, two_pos]. Qed.

Definition format_ok (f : format) : Prop := (2 <= f_prec f)%Z /\ (f_emin f <= f_emax f)%Z.

Lemma round_ratio_spec f p q neg : format_ok f -> (0 <= p)%Z -> (0 < q)%Z ->
  rounded f neg (inject_Z p / inject_Z q) (match round_ratio f p q with Some (M, E) => FFin neg M E | None => FInf neg end).
Proof.
  intros [Hprec Hem] Hp Hq.
  assert (P1 : (2 ^ f_prec f = 2 * 2 ^ (f_prec f - 1))%Z) by (rewrite <- Z.pow_succ_r by lia; f_equal; lia).
  assert (P2 : (2 ^ (f_prec f + 1) = 2 * 2 ^ f_prec f)%Z) by (rewrite <- Z.pow_succ_r by lia; f_equal; lia).
  assert (P3 : (2 ^ (f_prec f - 1) = 2 * 2 ^ (f_prec f - 2))%Z) by (rewrite <- Z.pow_succ_r by lia; f_equal; lia).
  assert (P0 : (0 < 2 ^ (f_prec f - 2))%Z) by (apply Z.pow_pos_nonneg; lia).
  unfold round_ratio. destruct (Z.eqb_spec p 0) as [->|Np].
  { assert (X0 : inject_Z 0 / inject_Z q == 0) by (change (inject_Z 0) with 0; unfold Qdiv; ring).
    assert (F0 : finite f 0 (f_emin f)) by (split; [lia|split; [lia|right; reflexivity]]).
    split; [reflexivity|]. split; [rewrite X0; rewrite <- (dyadic_zero (f_emin f)); apply finite_below; [lia|exact F0]|]. split; [exact F0|].
    intros M' E' _. rewrite X0, dyadic_zero. setoid_replace (0 - 0) with 0 by ring. split; [apply Qabs_nonneg|]. reflexivity. }
  pose proof (log_bounds p q ltac:(lia) Hq) as LB. cbv zeta in LB.
  set (l := if (p * 2 ^ Z.max 0 (- (Z.log2 p - Z.log2 q)) <? q * 2 ^ Z.max 0 (Z.log2 p - Z.log2 q))%Z
            then (Z.log2 p - Z.log2 q - 1)%Z else (Z.log2 p - Z.log2 q)%Z) in *. destruct LB as [LB1 LB2].
  set (x := inject_Z p / inject_Z q) in *. cbv zeta.
  set (E := Z.max (f_emin f) (l - (f_prec f - 1))) in *.
  set (num := (p * 2 ^ Z.max 0 (- E))%Z). set (den := (q * 2 ^ Z.max 0 E)%Z).
  assert (Hnum : (0 <= num)%Z) by (apply Z.mul_nonneg_nonneg; [lia|apply Z.pow_nonneg; lia]).
  assert (Hden : (0 < den)%Z) by (apply Z.mul_pos_pos; [lia|apply Z.pow_pos_nonneg; lia]).
  pose proof (round_integer num den Hnum Hden) as R. cbv zeta in R.
  set (M0 := (num / den)%Z) in *.
  set (M := if ((den <? 2 * (num mod den)) || ((den =? 2 * (num mod den)) && Z.odd M0))%Z then (M0 + 1)%Z else M0) in *.
  set (t := inject_Z num / inject_Z den) in *.
  destruct R as (T0 & T1 & RM & RH & RT & RD & RU & RL).
  assert (Hx : x == t * (2 # 1) ^ E) by (apply scaled; exact Hq).
  pose proof (two_pos E) as Hu.
  (* bounds on M0 *)
  assert (B1 : (M0 < 2 ^ f_prec f)%Z).
  { apply Z.lt_nge. intro C. assert (A : dyadic (2 ^ f_prec f) E <= x).
    { rewrite Hx. apply Qmult_le_compat_r; [|lra]. apply Qle_trans with (inject_Z M0); [rewrite <- Zle_Qle; exact C|exact T0]. }
    assert (A2 : x < dyadic (2 ^ f_prec f) E); [|lra].
    apply Qlt_le_trans with ((2 # 1) ^ (l + 1)); [exact LB2|]. unfold dyadic. rewrite two_nat by lia. rewrite <- two_plus.
    apply Qpower_le_compat_l; [unfold E; lia|discriminate]. }
  assert (B2 : (2 ^ (f_prec f - 1) <= M0)%Z \/ E = f_emin f).
  { destruct (Z.le_gt_cases (l - (f_prec f - 1)) (f_emin f)) as [C|C]; [right; unfold E; lia|left].
    assert (HEl : E = (l - (f_prec f - 1))%Z) by (unfold E; lia). apply Z.lt_succ_r, Z.lt_nge. intro D.
    assert (A : x < dyadic (2 ^ (f_prec f - 1)) E).
    { rewrite Hx. apply Qmult_lt_r; [exact Hu|]. apply Qlt_le_trans with (inject_Z (M0 + 1)); [exact T1|rewrite <- Zle_Qle; lia]. }
    assert (A2 : dyadic (2 ^ (f_prec f - 1)) E <= x); [|lra].
    apply Qle_trans with ((2 # 1) ^ l); [|exact LB1]. unfold dyadic. rewrite two_nat by lia. rewrite <- two_plus.
    apply Qpower_le_compat_l; [lia|discriminate]. }
  assert (B0 : (0 <= M0)%Z) by (apply Z.div_pos; lia).
  assert (HEm : (f_emin f <= E)%Z) by (unfold E; lia).
  pose proof (nearest_core f x t E M0 M ltac:(lia) Hx T0 B2 RH RT RD) as NC.
  assert (XB : (E < f_emax f)%Z -> x < overflow_bound f).
  { intro C. apply Qlt_trans with (dyadic (M0 + 1) E); [rewrite Hx; apply Qmult_lt_r; [exact Hu|exact T1]|]. unfold overflow_bound.
    apply dyadic_lt_diff; [lia|]. assert (1 <= 2 ^ (f_emax f - 1 - E))%Z by (apply (Z.pow_le_mono_r 2 0); lia). nia. }
  destruct (Z.eqb_spec M (2 ^ f_prec f)) as [EM|NM].
  - assert (HM0 : M0 = (2 ^ f_prec f - 1)%Z /\ M = (M0 + 1)%Z) by lia. destruct HM0 as [HM0 HM1].
    destruct (Z.ltb_spec (f_emax f) (E + 1)) as [O|O].
    + split; [reflexivity|]. specialize (RU HM1). rewrite Hx. unfold overflow_bound.
      assert (A : dyadic (2 ^ (f_prec f + 1) - 1) (E - 1) <= t * (2 # 1) ^ E).
      { replace E with (1 + (E - 1))%Z at 2 by lia. rewrite two_plus, Qmult_assoc. unfold dyadic.
        apply Qmult_le_compat_r; [|apply Qlt_le_weak, two_pos]. change ((2 # 1) ^ 1) with (2 # 1).
        replace (2 ^ (f_prec f + 1) - 1)%Z with (2 * M0 + 1)%Z by lia. rewrite inject_Z_plus, inject_Z_mult.
        change (inject_Z 2) with (2 # 1). change (inject_Z 1) with 1. lra. }
      eapply Qle_trans; [|exact A]. apply dyadic_le_diff; [lia|].
      assert (1 <= 2 ^ (E - 1 - (f_emax f - 1)))%Z by (apply (Z.pow_le_mono_r 2 0); lia). nia.
    + assert (DE : dyadic (2 ^ (f_prec f - 1)) (E + 1) == dyadic M E).
      { rewrite <- dyadic_shift by lia. rewrite EM, P1, Z.mul_comm. reflexivity. }
      assert (F1 : finite f (2 ^ (f_prec f - 1)) (E + 1)) by (split; [lia|split; [lia|left; lia]]).
      split; [reflexivity|]. split; [apply XB; lia|]. split; [exact F1|].
      intros M' E' F'. rewrite DE. destruct (NC M' E' F') as [N1 N2]. split; [exact N1|]. intros _ _.
      rewrite P3. rewrite Z.even_mul. reflexivity.
  - assert (HM : (M < 2 ^ f_prec f)%Z) by lia.
    destruct (Z.ltb_spec (f_emax f) E) as [O|O].
    + split; [reflexivity|]. destruct B2 as [B2|B2]; [|lia].
      apply Qle_trans with (dyadic M0 E); [|rewrite Hx; apply Qmult_le_compat_r; [exact T0|lra]].
      unfold overflow_bound. apply dyadic_le_diff; [lia|].
      assert (4 <= 2 ^ (E - (f_emax f - 1)))%Z by (change 4%Z with (2 ^ 2)%Z; apply Z.pow_le_mono_r; lia). nia.
    + assert (F1 : finite f M E).
      { split; [lia|]. split; [lia|]. destruct B2 as [B2|B2]; [left; lia|right; exact B2]. }
      split; [reflexivity|]. split.
      { destruct (Z.eq_dec E (f_emax f)) as [Em|Nm]; [|apply XB; lia].
        unfold overflow_bound. rewrite <- Em.
        assert (A : t * (2 # 1) ^ E < dyadic (2 ^ (f_prec f + 1) - 1) (E - 1)); [|rewrite Hx; exact A].
        replace E with (1 + (E - 1))%Z at 1 by lia. rewrite two_plus, Qmult_assoc. unfold dyadic.
        apply Qmult_lt_r; [apply two_pos|]. change ((2 # 1) ^ 1) with (2 # 1). rewrite P2.
        assert (TM : t <= inject_Z M + (1 # 2)) by (revert RH; apply Qabs_case; intros; lra).
        destruct (Z.eq_dec M (2 ^ f_prec f - 1)) as [EM|NM2].
        - assert (Od : Z.even M = false).
          { rewrite EM, P1, Z.even_sub, Z.even_mul. reflexivity. }
          assert (TS : ~ t == inject_Z M + (1 # 2)).
          { intro C. rewrite RT in Od; [discriminate|]. rewrite Qabs_pos; lra. }
          assert (t < inject_Z M + (1 # 2)) as TS' by (apply Qle_lteq in TM; tauto).
          replace (2 * 2 ^ f_prec f - 1)%Z with (2 * M + 1)%Z by lia. rewrite inject_Z_plus, inject_Z_mult.
          change (inject_Z 2) with (2 # 1). change (inject_Z 1) with 1. lra.
        - assert (M + 1 <= 2 ^ f_prec f - 1)%Z as HM2 by lia. rewrite Zle_Qle in HM2. rewrite inject_Z_plus in HM2.
          unfold Z.sub in *. rewrite inject_Z_plus, inject_Z_mult in *. change (inject_Z 2) with (2 # 1). change (inject_Z 1) with 1 in *.
          change (inject_Z (- (1))) with (- (1)) in *. lra. }
      split; [exact F1|]. intros M' E' F'. destruct (NC M' E' F') as [N1 N2]. split; [exact N1|].
      intros Q0 Ne. destruct (N2 Q0) as [V|V]; [|exact V]. exfalso. apply Ne.
      apply (finite_unique f); [lia|exact F'|exact F1|exact V].
Qed.

(** * Consequences of the specification *)
Lemma dist_lt (x a b : Q) : a < x -> x < b -> Qabs (x - a) == Qabs (x - b) -> forall c, a < c -> c < b -> Qabs (x - c) < Qabs (x - a).
Proof.
  intros H1 H2 E c H3 H4. rewrite (Qabs_pos (x - a)) in * by lra. rewrite (Qabs_neg (x - b)) in E by lra.
  apply Qabs_case; intros; lra.
Qed.

(** The next larger magnitude. *)
Lemma finite_next f M E : format_ok f -> finite f M E -> (M, E) <> ((2 ^ f_prec f - 1)%Z, f_emax f) ->
  exists M' E', finite f M' E' /\ dyadic M' E' == dyadic (M + 1) E /\ (Z.even M = true -> Z.even M' = false).
Proof.
  intros [Hp He] (HM & HE & HN) Ne.
  assert (P1 : (2 ^ f_prec f = 2 * 2 ^ (f_prec f - 1))%Z) by (rewrite <- Z.pow_succ_r by lia; f_equal; lia).
  assert (P0 : (0 < 2 ^ (f_prec f - 1))%Z) by (apply Z.pow_pos_nonneg; lia).
  destruct (Z.eq_dec M (2 ^ f_prec f - 1)) as [->|N].
  - exists (2 ^ (f_prec f - 1))%Z, (E + 1)%Z. split.
    + split; [lia|]. split; [|left; lia]. assert (E <> f_emax f) by congruence. lia.
    + split; [rewrite <- dyadic_shift by lia; replace (2 ^ f_prec f - 1 + 1)%Z with (2 ^ (f_prec f - 1) * 2 ^ 1)%Z by lia; reflexivity|].
      rewrite P1, Z.even_sub, Z.even_mul. discriminate.
  - exists (M + 1)%Z, E. split; [|split; [reflexivity|]].
    + split; [lia|]. split; [lia|]. lia.
    + intro H. rewrite Z.add_1_r, Z.even_succ, <- Z.negb_even, H. reflexivity.
Qed.

Lemma finite_max f M E : format_ok f -> finite f M E -> dyadic M E <= dyadic (2 ^ f_prec f - 1) (f_emax f).
Proof.
  intros [Hp He] (HM & HE & _). apply dyadic_le_diff; [lia|].
  assert (1 <= 2 ^ (f_emax f - E))%Z by (apply (Z.pow_le_mono_r 2 0); lia).
  assert (0 < 2 ^ f_prec f)%Z by (apply Z.pow_pos_nonneg; lia). nia.
Qed.

(** Of two neighbours one is odd. *)
Lemma tie_absurd f x M E M' E' : format_ok f -> finite f M E -> finite f M' E' -> Z.even M = true -> Z.even M' = true ->
  dyadic M E < x -> x < dyadic M' E' -> Qabs (x - dyadic M E) == Qabs (x - dyadic M' E') ->
  (forall M2 E2, finite f M2 E2 -> Qabs (x - dyadic M E) <= Qabs (x - dyadic M2 E2)) -> False.
Proof.
  intros Hf F F' Ev Ev' A B Eq Near.
  assert (Nm : (M, E) <> ((2 ^ f_prec f - 1)%Z, f_emax f)).
  { intro C. injection C as -> ->. pose proof (finite_max f M' E' Hf F'). lra. }
  destruct (finite_next f M E Hf F Nm) as (M2 & E2 & F2 & D2 & O2). specialize (O2 Ev).
  assert (Up : dyadic M E < dyadic M2 E2) by (rewrite D2; apply dyadic_lt; lia).
  destruct (Qlt_le_dec (dyadic M2 E2) (dyadic M' E')) as [C|C].
  - pose proof (dist_lt x _ _ A B Eq (dyadic M2 E2) Up C) as S. specialize (Near M2 E2 F2). lra.
  - assert (V : dyadic M' E' == dyadic M2 E2).
    { apply Qle_antisym; [exact C|].
      rewrite D2. destruct F as (HM & HE & HN). destruct F' as (HM' & HE' & HN').
      destruct (Z.le_gt_cases E E') as [L|L].
      - rewrite (dyadic_up M' E E' L). unfold dyadic. apply Qmult_le_compat_r; [|apply Qlt_le_weak, two_pos].
        rewrite <- Zle_Qle. assert (S : dyadic M E < dyadic M' E') by lra. rewrite (dyadic_up M' E E' L) in S.
        unfold dyadic in S. apply Qmult_lt_r in S; [|apply two_pos]. rewrite <- Zlt_Qlt in S. lia.
      - exfalso. destruct HN as [HN|HN]; [|lia]. assert (S : dyadic M' E' < dyadic M E); [|lra].
        apply dyadic_lt_diff; [lia|]. destruct Hf as [Hp He].
        assert (P : (2 ^ f_prec f = 2 * 2 ^ (f_prec f - 1))%Z) by (rewrite <- Z.pow_succ_r by lia; f_equal; lia).
        assert (2 <= 2 ^ (E - E'))%Z by (change 2%Z with (2 ^ 1)%Z at 1; apply Z.pow_le_mono_r; lia).
        assert (0 < 2 ^ (f_prec f - 1))%Z by (apply Z.pow_pos_nonneg; lia). nia. }
    assert (U : (M', E') = (M2, E2)) by (apply (finite_unique f); [destruct Hf; lia|exact F'|exact F2|exact V]).
    injection U as -> ->. congruence.
Qed.

(** Correct rounding leaves no choice. *)
Lemma rounded_unique f neg x x' y y' : format_ok f -> x == x' -> rounded f neg x y -> rounded f neg x' y' -> y = y'.
Proof.
  intros Hf Hx. destruct y as [|n|n M E], y' as [|n'|n' M' E']; cbn [rounded]; try tauto.
  - intros [-> _] [-> _]. reflexivity.
  - intros [_ A] (_ & B & _). lra.
  - intros (_ & B & _) [_ A]. lra.
  - intros (-> & _ & F & H) (-> & _ & F' & H').
    assert (D : (M, E) = (M', E') \/ (M, E) <> (M', E')).
    { destruct (Z.eq_dec M M'), (Z.eq_dec E E'); [left; congruence|right; congruence..]. }
    destruct D as [D|Ne]; [injection D as -> ->; reflexivity|exfalso].
    assert (Ne' : (M', E') <> (M, E)) by congruence.
    assert (HX : forall M2 E2, finite f M2 E2 -> Qabs (x - dyadic M' E') <= Qabs (x - dyadic M2 E2)).
    { intros M2 E2 F2. rewrite Hx. apply (H' M2 E2 F2). }
    destruct (H M' E' F') as [L T]. destruct (H' M E F) as [L' T']. rewrite <- Hx in L', T'.
    assert (Eq : Qabs (x - dyadic M E) == Qabs (x - dyadic M' E')) by lra.
    specialize (T Eq Ne'). specialize (T' (Qeq_sym _ _ Eq) Ne).
    assert (Dn : ~ dyadic M E == dyadic M' E') by (intro D; apply Ne; apply (finite_unique f); [destruct Hf; lia|exact F|exact F'|exact D]).
    destruct (Qlt_le_dec (dyadic M E) (dyadic M' E')) as [C|C].
    + assert (AB : dyadic M E < x /\ x < dyadic M' E') by (revert Eq; apply Qabs_case; apply Qabs_case; intros; lra).
      destruct AB as [A B]. apply (tie_absurd f x M E M' E' Hf F F' T T' A B Eq). intros M2 E2 F2. apply (H M2 E2 F2).
    + assert (C' : dyadic M' E' < dyadic M E) by (apply Qle_lteq in C; destruct C as [C|C]; [exact C|destruct Dn; symmetry; exact C]).
      assert (AB : dyadic M' E' < x /\ x < dyadic M E) by (revert Eq; apply Qabs_case; apply Qabs_case; intros; lra).
      destruct AB as [A B]. apply (tie_absurd f x M' E' M E Hf F' F T' T A B (Qeq_sym _ _ Eq) HX).
Qed.

(** Rounding is monotone. *)
Lemma rounded_monotone f n n' x x' y M' E' : format_ok f -> x <= x' -> rounded f n x y -> rounded f n' x' (FFin n' M' E') ->
  exists M E, y = FFin n M E /\ dyadic M E <= dyadic M' E'.
Proof.
  intros Hf Hx. destruct y as [|s|s M E]; cbn [rounded].
  - intros [].
  - intros [_ A] (_ & B & _). lra.
  - intros (-> & Bx & F & H) (_ & Bx' & F' & H'). exists M, E. split; [reflexivity|].
    apply Qnot_lt_le. intro C. destruct (H M' E' F') as [L T]. destruct (H' M E F) as [L' T'].
    assert (Eq : x == x').
    { apply Qle_antisym; [exact Hx|]. revert L L'. apply Qabs_case; apply Qabs_case; apply Qabs_case; apply Qabs_case; intros; lra. }
    assert (U : FFin n M E = FFin n M' E').
    { apply (rounded_unique f n x x'); [exact Hf|exact Eq|cbn; auto|cbn; auto]. }
    injection U as -> ->. lra.
Qed.

(** A number that is a float is rounded to itself. *)
Lemma rounded_exact f neg x M E : format_ok f -> finite f M E -> x == dyadic M E -> rounded f neg x (FFin neg M E).
Proof.
  intros Hf F Hx. split; [reflexivity|]. split; [rewrite Hx; apply finite_below; [destruct Hf; lia|exact F]|]. split; [exact F|].
  intros M' E' F'. assert (Z0 : Qabs (x - dyadic M E) == 0).
  { setoid_replace (x - dyadic M E) with 0 by (rewrite Hx; ring). reflexivity. }
  rewrite Z0. split; [apply Qabs_nonneg|]. intros C Ne. exfalso. apply Ne. apply (finite_unique f); [destruct Hf; lia|exact F'|exact F|].
  rewrite <- Hx. revert C. apply Qabs_case; intros; lra.
Qed.

(** Less than half the smallest positive float is rounded to zero. *)
Lemma rounded_zero f neg x : format_ok f -> 0 <= x -> x < dyadic 1 (f_emin f - 1) -> rounded f neg x (FFin neg 0 (f_emin f)).
Proof.
  intros [Hp He] H0 Hx.
  assert (P1 : (2 ^ f_prec f = 2 * 2 ^ (f_prec f - 1))%Z) by (rewrite <- Z.pow_succ_r by lia; f_equal; lia).
  assert (P0 : (0 < 2 ^ (f_prec f - 1))%Z) by (apply Z.pow_pos_nonneg; lia).
  assert (F0 : finite f 0 (f_emin f)) by (split; [lia|split; [lia|right; reflexivity]]).
  assert (D1 : dyadic 1 (f_emin f) == 2 * dyadic 1 (f_emin f - 1)).
  { replace (f_emin f) with (f_emin f - 1 + 1)%Z at 1 by lia. rewrite <- dyadic_shift by lia. unfold dyadic. rewrite inject_Z_mult.
    change (inject_Z (2 ^ 1)) with 2. change (inject_Z 1) with 1. ring. }
  split; [reflexivity|]. split.
  { apply Qlt_trans with (dyadic 1 (f_emin f)); [lra|]. apply finite_below; [lia|]. split; [lia|split; [lia|right; reflexivity]]. }
  split; [exact F0|]. intros M' E' (HM' & HE' & _). rewrite dyadic_zero.
  assert (Q1 : Qabs (x - 0) == x) by (setoid_replace (x - 0) with x by ring; apply Qabs_pos; exact H0). rewrite Q1.
  destruct (Z.eq_dec M' 0) as [->|N].
  - rewrite dyadic_zero, Q1. split; [lra|]. reflexivity.
  - assert (G : dyadic 1 (f_emin f) <= dyadic M' E').
    { apply dyadic_le_diff; [lia|]. assert (1 <= 2 ^ (E' - f_emin f))%Z by (apply (Z.pow_le_mono_r 2 0); lia). nia. }
    rewrite Qabs_neg by lra. split; [lra|reflexivity].
Qed.

Lemma binary32_ok : format_ok binary32. Proof. split; cbn; lia. Qed.
Lemma binary64_ok : format_ok binary64. Proof. split; cbn; lia. Qed.
