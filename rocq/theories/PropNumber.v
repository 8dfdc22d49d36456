(** Property theorems about JsonNumber conversions (C42, C43). *)
From Verif Require Import Base Utf8 Utf8Facts StrModel ErrorModel Tokenizer Parser ValueModel DocModel NumModel Spec SpecNum
  TokBase TokStr TokNum TokFacts Trace ParserGen ParserSound ParserComplete Sim SimInst StrSpec View ParseMain DocFacts PropTok PropEntry.
Local Open Scope N_scope.

(** * Where JsonNumbers come from *)
Inductive number_in (x : json_number) : value -> Prop :=
| number_here : number_in x (VNumber x)
| number_elem l v : In v l -> number_in x v -> number_in x (VArray l)
| number_member o k v : In (k, v) o -> number_in x v -> number_in x (VObject o).

(** Any JsonNumber a program can have: there is no other way to make one. *)
Inductive number_obtainable (pw : pwidth) (x : json_number) : Prop :=
| number_of_bytes s cfg v : rust_slice pw s ->
    value_from_json_bytes_with_config pw s cfg = Ok v -> number_in x v -> number_obtainable pw x
| number_of_str s cfg v : rust_str pw s ->
    value_from_json_with_config pw s cfg = Ok v -> number_in x v -> number_obtainable pw x
| number_of_document s cfg cap doc : rust_slice pw s ->
    document_from_json_bytes_with_config pw cap s cfg = Ok doc -> In (NNumber x) doc -> number_obtainable pw x
| number_of_token utf8 s it it' : input_ok utf8 pw s -> reachable utf8 pw s it ->
    tokenizer_next utf8 pw it = (Some (Ok (TkNumber x)), it') -> number_obtainable pw x
| number_of_number s : rust_str pw s -> number_from_json pw s = Ok x -> number_obtainable pw x.

Definition number_shape (x : json_number) : Prop := exists n, number n /\ x = JNum (Borrowed n).

Lemma number_in_all P x v : all_numbers P v -> number_in x v -> P x.
Proof.
  intros H Hin. induction Hin; inversion H; subst; auto; apply IHHin; rewrite Forall_forall in *; auto.
  match goal with H : forall e, _ |- _ => apply (H (k, v)) end. assumption.
Qed.

Lemma repr_numbers pw t v s tc : json_text tc t s -> value_repr pw t v -> all_numbers number_shape v.
Proof.
  intros Ht Hr.
  refine (proj2 (repr_all pw (fun _ => True) number_shape _ _ _ _ t v Hr (json_text_parts _ _ _ Ht))); [auto|].
  intros n [Hn _]. exists n. auto.
Qed.

Lemma preorder_number x : forall v, In (NNumber x) (preorder v) -> number_in x v.
Proof.
  induction v as [n|s|b|o IH|l IH|] using value_ind'; cbn [preorder]; intro H.
  - destruct H as [H|[]]. injection H as ->. constructor.
  - destruct H as [H|[]]; discriminate.
  - destruct H as [H|[]]; discriminate.
  - destruct H as [H|H]; [discriminate|]. apply in_flat_map in H as ([k v] & Hin & H). cbn [fst snd In] in H.
    destruct H as [H|H]; [discriminate|]. rewrite Forall_forall in IH. eapply number_member; [exact Hin|]. apply (IH _ Hin). exact H.
  - destruct H as [H|H]; [discriminate|]. apply in_flat_map in H as (v & Hin & H).
    rewrite Forall_forall in IH. eapply number_elem; [exact Hin|]. apply (IH _ Hin). exact H.
  - destruct H as [H|[]]; discriminate.
Qed.

Theorem number_obtainable_shape pw x : number_obtainable pw x -> number_shape x.
Proof.
  intros [s cfg v Hs E Hin|s cfg v Hs E Hin|s cfg cap doc Hs E Hin|utf8 s it it' Hs Hre E|s Hs E].
  - apply value_bytes_iff in E as (t & Ha & Hr); [|exact Hs]. eapply number_in_all; [|exact Hin].
    eapply repr_numbers; [apply Ha|exact Hr].
  - apply value_str_iff in E as (t & Ha & Hr); [|exact Hs]. eapply number_in_all; [|exact Hin].
    eapply repr_numbers; [apply Ha|exact Hr].
  - assert (En : document_from_json_bytes_with_config pw None s cfg = Ok doc).
    { destruct cap as [n|]; [|exact E]. apply C14_bounded_capacity in E as [E _]; assumption. }
    rewrite C09_C12_document_bytes in En by exact Hs.
    destruct (value_from_json_bytes_with_config pw s cfg) as [v|e|f] eqn:Ev; cbn in En; try discriminate.
    injection En as <-. apply value_bytes_iff in Ev as (t & Ha & Hr); [|exact Hs].
    eapply number_in_all; [|apply preorder_number; exact Hin]. eapply repr_numbers; [apply Ha|exact Hr].
  - destruct (reachable_pos _ _ _ _ Hs Hre) as (pre & r & -> & -> & Hg).
    pose proof (tokenizer_next_spec utf8 pw pre r Hg) as G. rewrite E in G.
    destruct G as (w & y & r' & -> & Hw & Ht & -> & Hst). inversion Ht; subst. eexists. split; [eassumption|reflexivity].
  - apply C46_number_from_json in E; [|exact Hs]. apply value_str_iff in E as (t & Ha & Hr); [|exact Hs].
    assert (Hx : all_numbers number_shape (VNumber x)) by (eapply repr_numbers; [apply Ha|exact Hr]).
    inversion Hx. assumption.
Qed.

(** * C42: integers *)
Section Ints.
  Variable pw : pwidth.
  Variable t : int_type.
  Definition in_range (z : Z) : Prop := (int_min pw t <= z <= int_max pw t)%Z.

  Lemma fit_some z y : fit pw t z = Some y <-> in_range z /\ y = z.
  Proof.
    unfold fit, in_range. destruct ((int_min pw t <=? z)%Z && (z <=? int_max pw t)%Z) eqn:E.
    - apply andb_true_iff in E as [H1 H2]. apply Z.leb_le in H1, H2. split; [intro K; injection K as <-; auto|intros [_ ->]; reflexivity].
    - split; [discriminate|]. intros [[H1 H2] _]. apply Z.leb_le in H1, H2. rewrite H1, H2 in E. discriminate.
  Qed.
  Lemma fit_none z : fit pw t z = None <-> ~ in_range z.
  Proof.
    split.
    - intros E H. assert (fit pw t z = Some z) by (apply fit_some; auto). congruence.
    - intro H. destruct (fit pw t z) as [y|] eqn:E; [|reflexivity]. apply fit_some in E as [E _]. contradiction.
  Qed.
  Lemma zero_in_range : in_range 0.
  Proof.
    unfold in_range, int_min, int_max. assert (0 < int_bits pw t)%Z by (destruct t; cbn; try lia; destruct pw; lia).
    destruct (int_signed t).
    - pose proof (Z.pow_pos_nonneg 2 (int_bits pw t - 1)). lia.
    - pose proof (Z.pow_pos_nonneg 2 (int_bits pw t)). lia.
  Qed.

  Lemma decimal_bound ds : Forall digit ds -> decimal ds < 10 ^ N.of_nat (length ds).
  Proof.
    induction 1 as [|d ds Hd Hds IH]; [cbn; lia|]. cbn [decimal length]. unfold digit in Hd.
    rewrite Nat2N.inj_succ, N.pow_succ_r'. nia.
  Qed.

  (** The value read so far is never larger in magnitude than the whole. *)
  Lemma int_digits_value (sign : Z) : sign = 1%Z \/ sign = (-1)%Z -> forall ds acc, Forall digit ds -> (0 <= acc)%Z ->
    in_range (sign * acc) ->
    int_digits pw t sign (sign * acc) ds = fit pw t (sign * (acc * 10 ^ Z.of_nat (length ds) + Z.of_N (decimal ds))).
  Proof.
    intro Hs. induction ds as [|d ds IH]; intros acc Hd Hacc Hr.
    - cbn [int_digits length decimal]. symmetry. rewrite fit_some. change (Z.of_nat 0) with 0%Z. rewrite Z.pow_0_r.
      rewrite Z.mul_1_r. cbn. rewrite Z.add_0_r. auto.
    - inversion Hd as [|? ? H1 H2]; subst. cbn [int_digits]. unfold digit in H1.
      assert (Ed : is_digit d = true) by (unfold is_digit; lia). rewrite Ed.
      assert (Ew : (acc * 10 ^ Z.of_nat (length (d :: ds)) + Z.of_N (decimal (d :: ds)) =
                    (acc * 10 + Z.of_N (d - 48)) * 10 ^ Z.of_nat (length ds) + Z.of_N (decimal ds))%Z).
      { cbn [decimal length]. rewrite N2Z.inj_add, N2Z.inj_mul, N2Z.inj_pow, nat_N_Z. change (Z.of_N 10) with 10%Z.
        rewrite Nat2Z.inj_succ, Z.pow_succ_r by lia. ring. }
      rewrite Ew. set (acc' := (acc * 10 + Z.of_N (d - 48))%Z) in *.
      assert (Hacc' : (0 <= acc')%Z) by lia.
      set (P := (10 ^ Z.of_nat (length ds))%Z).
      assert (HP : (1 <= P)%Z) by (unfold P; pose proof (Z.pow_pos_nonneg 10 (Z.of_nat (length ds))); lia).
      pose proof zero_in_range as H0. set (W := (acc' * P + Z.of_N (decimal ds))%Z).
      assert (HW : (acc' <= W)%Z) by (unfold W; pose proof (N2Z.is_nonneg (decimal ds)); nia).
      assert (Big : forall x, (0 <= x <= W)%Z -> in_range (sign * W) -> in_range (sign * x)).
      { intros x Hx HRW. unfold in_range in *. destruct Hs as [-> | ->]; lia. }
      destruct (fit pw t (sign * acc * 10)) as [m|] eqn:E1.
      + apply fit_some in E1 as [R1 ->]. replace (sign * acc * 10 + sign * Z.of_N (d - 48))%Z with (sign * acc')%Z by (unfold acc'; ring).
        destruct (fit pw t (sign * acc')) as [a|] eqn:E2.
        * apply fit_some in E2 as [R2 ->]. apply IH; assumption.
        * apply fit_none in E2. symmetry. apply fit_none. intro K. apply E2, Big; [lia|exact K].
      + apply fit_none in E1. symmetry. apply fit_none. intro K. apply E1.
        replace (sign * acc * 10)%Z with (sign * (acc * 10))%Z by ring. apply Big; [|exact K]. unfold acc' in HW. lia.
  Qed.

  Lemma int_digits_some sign : forall ds acc z, int_digits pw t sign acc ds = Some z -> Forall digit ds.
  Proof.
    induction ds as [|d ds IH]; intros acc z E; [constructor|]. cbn [int_digits] in E.
    destruct (is_digit d) eqn:Ed; [|discriminate]. destruct (fit pw t (acc * 10)); [|discriminate].
    destruct (fit pw t (z0 + sign * Z.of_N (d - 48))); [|discriminate]. constructor; [unfold is_digit in Ed; unfold digit; lia|].
    eapply IH. exact E.
  Qed.
End Ints.

Lemma num_int_digits i : num_int i -> Forall digit i /\ i <> [].
Proof.
  intros [->|(d & r & Hd & Hr & ->)]; (split; [|discriminate]); [repeat constructor; unfold digit; lia|].
  constructor; [unfold digit; lia|exact Hr].
Qed.
Lemma num_int_first i : num_int i -> exists d r, i = d :: r /\ digit d.
Proof. intro H. apply num_int_digits in H as [H Hn]. destruct H; [congruence|eauto]. Qed.

(** A number literal consisting of digits only (after the sign) is an integer literal. *)
Lemma number_digits n : number n -> Forall digit n -> num_int n.
Proof.
  intros (m & i & f & e & Hm & Hi & Hf & He & ->) H. apply Forall_app in H as [H1 H]. apply Forall_app in H as [H2 H]. apply Forall_app in H as [H3 H4].
  destruct Hm as [->| ->]; [|inversion H1; unfold digit in *; lia].
  destruct Hf as [->|(ds & _ & ->)]; [|inversion H3; unfold digit in *; lia].
  destruct He as [->|(c & sg & ds & Hc & _ & _ & ->)]; [|inversion H4; unfold digit in *; lia].
  rewrite !app_nil_r. exact Hi.
Qed.
Lemma number_neg n : number (45 :: n) -> Forall digit n -> num_int n.
Proof.
  intros (m & i & f & e & Hm & Hi & Hf & He & E) H. apply num_int_first in Hi as Hi'. destruct Hi' as (d & r & -> & Hd).
  destruct Hm as [->| ->]; cbn [app] in E; [injection E as E1 _; unfold digit in Hd; lia|]. injection E as ->.
  change (d :: r ++ f ++ e) with ((d :: r) ++ f ++ e) in H.
  apply number_digits; [|exact H]. exists [], (d :: r), f, e. repeat split; auto. left. reflexivity.
Qed.

Theorem int_exact pw t n z : number n -> (int_from_str pw t n = Some z <->
  integer_literal n z /\ (hd 0 n = 45 -> int_signed t = true) /\ (int_min pw t <= z <= int_max pw t)%Z).
Proof.
  intro Hn. pose proof (zero_in_range pw t) as H0.
  assert (Pos : forall ds, Forall digit ds -> int_digits pw t 1 0 ds = fit pw t (Z.of_N (decimal ds))).
  { intros ds Hd. pose proof (int_digits_value pw t 1 (or_introl eq_refl) ds 0 Hd (Z.le_refl 0) H0) as E.
    change (1 * 0)%Z with 0%Z in E. rewrite E. f_equal; lia. }
  assert (Neg : forall ds, Forall digit ds -> int_digits pw t (-1) 0 ds = fit pw t (- Z.of_N (decimal ds))).
  { intros ds Hd. pose proof (int_digits_value pw t (-1) (or_intror eq_refl) ds 0 Hd (Z.le_refl 0) H0) as E.
    change (-1 * 0)%Z with 0%Z in E. rewrite E. f_equal; lia. }
  destruct n as [|b r].
  { split; [discriminate|]. intros [H _]. inversion H; subst. match goal with K : num_int [] |- _ => apply num_int_first in K as (? & ? & ? & _) end. discriminate. }
  cbn [int_from_str hd]. destruct (N.eqb_spec b 45) as [->|Hb].
  - assert (Hr : r <> []).
    { intros ->. destruct Hn as (m & i & f & e & Hm & Hi & _ & _ & E). apply num_int_first in Hi as (d & i' & -> & Hd).
      destruct Hm as [->| ->]; cbn in E; [injection E as <- _; unfold digit in Hd; lia|]. discriminate. }
    destruct r as [|c r]; [congruence|]. cbn [orb andb]. rewrite andb_false_r. destruct (int_signed t) eqn:Es.
    + cbn [N.eqb Pos.eqb andb]. split.
      * intro E. pose proof (int_digits_some _ _ _ _ _ _ E) as Hd. rewrite Neg in E by exact Hd. apply fit_some in E as [Hr1 ->].
        split; [|split; [reflexivity|exact Hr1]]. constructor. apply number_neg; assumption.
      * intros (H & _ & Hr1). inversion H as [i Hi|i Hi]; subst.
        { apply num_int_first in Hi as (d & i' & E & Hd). injection E as <- _. unfold digit in Hd. lia. }
        rewrite Neg by (apply num_int_digits; exact Hi). apply fit_some. auto.
    + cbn [N.eqb Pos.eqb andb]. split.
      * intro E. apply int_digits_some in E. inversion E as [|? ? K]. unfold digit in K. lia.
      * intros (_ & K & _). specialize (K eq_refl). discriminate.
  - assert (Hb2 : b =? 43 = false).
    { apply N.eqb_neq. intros ->. destruct Hn as (m & i & f & e & Hm & Hi & _ & _ & E). apply num_int_first in Hi as (d & i' & -> & Hd).
      destruct Hm as [->| ->]; cbn in E; [injection E as <- _; unfold digit in Hd; lia|discriminate]. }
    rewrite Hb2. cbn [orb andb].
    split.
    + intro E. pose proof (int_digits_some _ _ _ _ _ _ E) as Hd. rewrite Pos in E by exact Hd. apply fit_some in E as [Hr1 ->].
      split; [|split; [congruence|exact Hr1]]. constructor. apply number_digits; assumption.
    + intros (H & _ & Hr1). inversion H as [i Hi|i Hi]; subst; [|congruence].
      rewrite Pos by (apply num_int_digits; exact Hi). apply fit_some. auto.
Qed.

(** [as_u8()] ... [as_isize()] return [Some(z)] exactly for the integer literals of value [z] in the
    range of the type; unsigned types do not accept a minus sign (not even [-0]). *)
Theorem C42_integers_exact pw t x z : number_obtainable pw x ->
  (as_int pw t x = Some z <->
   integer_literal (jn_str x) z /\ (hd 0 (jn_str x) = 45 -> int_signed t = true) /\ (int_min pw t <= z <= int_max pw t)%Z).
Proof. intro H. apply number_obtainable_shape in H as (n & Hn & ->). apply int_exact. exact Hn. Qed.

(** The value of a literal is unique and literals with a fraction or an exponent have none. *)
Theorem C42_integer_literal_value s z z' : integer_literal s z -> integer_literal s z' -> z = z' /\ number s /\ ~ In 46 s /\ ~ In 101 s /\ ~ In 69 s.
Proof.
  assert (K : forall i, num_int i -> ~ In 46 i /\ ~ In 101 i /\ ~ In 69 i /\ ~ In 45 i).
  { intros i Hi. apply num_int_digits in Hi as [Hi _]. rewrite Forall_forall in Hi. unfold digit in Hi.
    repeat split; intro H; apply Hi in H; lia. }
  intros H1 H2. destruct H1 as [i Hi|i Hi].
  - inversion H2 as [j Hj|j Hj]; subst; [|destruct (K _ Hi) as (_ & _ & _ & H); destruct H; left; reflexivity].
    split; [reflexivity|]. split; [|destruct (K _ Hi) as (? & ? & ? & _); auto].
    exists [], i, [], []. rewrite !app_nil_r. repeat split; auto; left; reflexivity.
  - inversion H2 as [j Hj|j Hj]; subst; [destruct (K _ Hj) as (_ & _ & _ & H); destruct H; left; reflexivity|].
    split; [reflexivity|]. split.
    + exists [45], i, [], []. rewrite !app_nil_r. repeat split; auto; [right|left|left]; reflexivity.
    + destruct (K _ Hi) as (A & B & C & _). cbn. repeat split; intros [H|H]; try discriminate; auto.
Qed.

(** The ranges, spelled out. *)
Theorem C42_ranges :
  map (fun t => (int_signed t, int_min W64 t, int_max W64 t)) [U8; U16; U32; U64; U128; Usize; I8; I16; I32; I64; I128; Isize] =
  [(false, 0, 255); (false, 0, 65535); (false, 0, 4294967295); (false, 0, 18446744073709551615);
   (false, 0, 340282366920938463463374607431768211455); (false, 0, 18446744073709551615);
   (true, -128, 127); (true, -32768, 32767); (true, -2147483648, 2147483647); (true, -9223372036854775808, 9223372036854775807);
   (true, -170141183460469231731687303715884105728, 170141183460469231731687303715884105727);
   (true, -9223372036854775808, 9223372036854775807)]%Z /\
  (int_min W32 Usize, int_max W32 Usize, int_min W32 Isize, int_max W32 Isize) = (0, 4294967295, -2147483648, 2147483647)%Z /\
  (forall t, t <> Usize -> t <> Isize -> int_min W32 t = int_min W64 t /\ int_max W32 t = int_max W64 t).
Proof. split; [vm_compute; reflexivity|]. split; [vm_compute; reflexivity|]. intros []; intros; try congruence; split; reflexivity. Qed.

(** [Value::as_*]. *)
Theorem C42_values pw t v : value_as_int pw t v = match v with VNumber n => as_int pw t n | _ => None end.
Proof. destruct v; reflexivity. Qed.

(** * C43: floats *)
Lemma take_digits_app ds r : Forall digit ds -> match r with b :: _ => ~ digit b | [] => True end -> take_digits (ds ++ r) = (ds, r).
Proof.
  intros H Hr. induction H as [|d ds Hd H IH]; cbn [app take_digits].
  - destruct r as [|b r]; [reflexivity|]. cbn [take_digits]. assert (is_digit b = false) as -> by (unfold is_digit, digit in *; lia). reflexivity.
  - assert (is_digit d = true) as -> by (unfold is_digit, digit in *; lia). rewrite IH. reflexivity.
Qed.

Lemma digits_value_eq ds : Forall digit ds -> digits_value ds = decimal ds.
Proof.
  intro H. unfold digits_value. assert (G : forall a, fold_left (fun a b => 10 * a + (b - 48)) ds a = a * 10 ^ N.of_nat (length ds) + decimal ds).
  { induction H as [|d ds Hd H IH]; intro a; cbn [fold_left length decimal]; [cbn; lia|].
    rewrite IH, Nat2N.inj_succ, N.pow_succ_r'. ring. }
  rewrite G. lia.
Qed.

Lemma exp_first x ex : exponent_value x ex -> match x with b :: _ => ~ digit b /\ b <> 46 | [] => True end.
Proof. intros [|c ds Hc _|c ds Hc _|c ds Hc _]; [exact I|..]; unfold digit; lia. Qed.

(** What std makes of a written exponent: it stops reading digits once it has reached 65536. *)
Definition exponent_read (ex ex' : Z) : Prop :=
  (Z.abs ex < 655360 /\ ex' = ex)%Z \/
  (655360 <= Z.abs ex /\ 65536 <= Z.abs ex' <= Z.abs ex /\ 0 <= ex * ex')%Z.

Lemma exponent_digits_eq ds : Forall digit ds ->
  (decimal ds < 655360 /\ exponent_digits ds = decimal ds) \/
  (655360 <= decimal ds /\ 65536 <= exponent_digits ds <= decimal ds).
Proof.
  intro H. unfold exponent_digits.
  set (stp := fun a b : N => if a <? 65536 then 10 * a + (b - 48) else a).
  assert (K : forall ds a, 65536 <= a -> fold_left stp ds a = a).
  { clear. induction ds as [|d ds IH]; intros a Ha; cbn [fold_left]; [reflexivity|].
    assert (E : stp a d = a) by (unfold stp; destruct (N.ltb_spec a 65536); [lia|reflexivity]). rewrite E. apply IH, Ha. }
  assert (G : forall a, a < 655360 ->
    let v := a * 10 ^ N.of_nat (length ds) + decimal ds in
    (v < 655360 /\ fold_left stp ds a = v) \/ (655360 <= v /\ 65536 <= fold_left stp ds a <= v)).
  { induction H as [|d ds Hd H IH]; intros a Ha; cbn [fold_left length decimal]; [cbn; lia|]. cbv zeta.
    rewrite Nat2N.inj_succ, N.pow_succ_r'. set (P := 10 ^ N.of_nat (length ds)) in *. cbv zeta in IH.
    assert (HP : 1 <= P) by (unfold P; apply N.lt_pred_le, N.neq_0_lt_0, N.pow_nonzero; discriminate).
    unfold digit in Hd.
    replace (a * (10 * P) + ((d - 48) * P + decimal ds)) with ((10 * a + (d - 48)) * P + decimal ds) by ring.
    destruct (N.lt_ge_cases a 65536) as [L|L].
    - assert (E : stp a d = 10 * a + (d - 48)) by (unfold stp; destruct (N.ltb_spec a 65536); [reflexivity|lia]).
      rewrite E. apply IH. lia.
    - rewrite K; [|unfold stp; destruct (N.ltb_spec a 65536); lia].
      assert (E : stp a d = a) by (unfold stp; destruct (N.ltb_spec a 65536); [lia|reflexivity]). rewrite E.
      right. assert (655360 <= (10 * a + (d - 48)) * P) by nia. nia. }
  specialize (G 0 ltac:(lia)). cbv zeta in G. rewrite N.mul_0_l, N.add_0_l in G. exact G.
Qed.

Lemma float_exp x ex : exponent_value x ex -> exists ex', exponent_read ex ex' /\ forall ds (f : list N), ds <> [] ->
  match ds with
  | [] => None
  | ds =>
    match x with
    | [] => Some (digits_value ds, (- Z.of_nat (length f))%Z)
    | b :: r' =>
      if (b =? 101)%N || (b =? 69)%N then
        let '(neg, r') := take_sign r' in
        let '(x, rest) := take_digits r' in
        match x, rest with
        | _ :: _, [] =>
          let e := Z.of_N (exponent_digits x) in
          Some (digits_value ds, ((if neg then - e else e) - Z.of_nat (length f))%Z)
        | _, _ => None
        end
      else None
    end
  end = Some (digits_value ds, (ex' - Z.of_nat (length f))%Z).
Proof.
  assert (TD : forall ds, digits ds -> take_digits ds = (ds, [])).
  { intros ds [_ H]. rewrite <- (app_nil_r ds) at 1. apply take_digits_app; [exact H|exact I]. }
  intros [|c xs Hc Hx|c xs Hc Hx|c xs Hc Hx].
  - exists 0%Z. split; [left; lia|]. intros [|d ds] f Hds; [congruence|]. reflexivity.
  - exists (Z.of_N (exponent_digits xs)). destruct Hx as [Hn Hx]. split.
    { unfold exponent_read. destruct (exponent_digits_eq xs Hx); [left; lia|right; nia]. }
    intros [|d ds] f Hds; [congruence|].
    assert ((c =? 101) || (c =? 69) = true) as -> by lia. destruct xs as [|y xs]; [congruence|].
    assert (Hy : digit y) by (inversion Hx; assumption). unfold digit in Hy. cbn [take_sign].
    destruct (N.eqb_spec y 45); [lia|]. destruct (N.eqb_spec y 43); [lia|]. rewrite TD by (split; assumption). reflexivity.
  - exists (Z.of_N (exponent_digits xs)). split.
    { destruct Hx as [Hn Hx]. unfold exponent_read. destruct (exponent_digits_eq xs Hx); [left; lia|right; nia]. }
    intros [|d ds] f Hds; [congruence|].
    assert ((c =? 101) || (c =? 69) = true) as -> by lia. cbn [take_sign N.eqb Pos.eqb]. rewrite TD by exact Hx. destruct Hx as [Hn Hx].
    destruct xs as [|y xs]; [congruence|]. reflexivity.
  - exists (- Z.of_N (exponent_digits xs))%Z. split.
    { destruct Hx as [Hn Hx]. unfold exponent_read. destruct (exponent_digits_eq xs Hx); [left; lia|right; nia]. }
    intros [|d ds] f Hds; [congruence|].
    assert ((c =? 101) || (c =? 69) = true) as -> by lia. cbn [take_sign N.eqb Pos.eqb]. rewrite TD by exact Hx. destruct Hx as [Hn Hx].
    destruct xs as [|y xs]; [congruence|]. reflexivity.
Qed.

Lemma float_number_no_frac i x ex : num_int i -> exponent_value x ex ->
  exists ex', exponent_read ex ex' /\ float_number (i ++ x) = Some (decimal i, ex').
Proof.
  intros Hi Hx. destruct (num_int_digits i Hi) as [Hd Hn]. pose proof (exp_first x ex Hx) as Hf. unfold float_number.
  rewrite take_digits_app; [|exact Hd|destruct x; [exact I|apply Hf]].
  assert (E : (match x with b :: r' => if b =? 46 then take_digits r' else ([], x) | [] => ([], []) end) = ([], x)).
  { destruct x as [|b x]; [reflexivity|]. destruct (N.eqb_spec b 46); [destruct Hf; congruence|reflexivity]. }
  destruct (float_exp x ex Hx) as (ex' & Hr & G). exists ex'. split; [exact Hr|].
  rewrite E, app_nil_r, <- (digits_value_eq i Hd), <- (Z.sub_0_r ex'). specialize (G i [] Hn). destruct i; [congruence|exact G].
Qed.

Lemma float_number_frac i f x ex : num_int i -> digits f -> exponent_value x ex ->
  exists ex', exponent_read ex ex' /\ float_number (i ++ 46 :: f ++ x) = Some (decimal (i ++ f), (ex' - Z.of_nat (length f))%Z).
Proof.
  intros Hi [Hfn Hf] Hx. destruct (num_int_digits i Hi) as [Hd Hn]. pose proof (exp_first x ex Hx) as Hfx. unfold float_number.
  rewrite take_digits_app; [|exact Hd|unfold digit; lia]. rewrite N.eqb_refl.
  rewrite take_digits_app; [|exact Hf|destruct x; [exact I|apply Hfx]].
  assert (Hne : i ++ f <> []) by (destruct i; [congruence|discriminate]).
  destruct (float_exp x ex Hx) as (ex' & Hr & G). exists ex'. split; [exact Hr|].
  specialize (G (i ++ f) f Hne). rewrite <- (digits_value_eq (i ++ f)) by (apply Forall_app; auto). destruct (i ++ f); [congruence|exact G].
Qed.

Lemma exponent_value_fun x ex ex2 : exponent_value x ex -> exponent_value x ex2 -> ex = ex2.
Proof.
  assert (D : forall ds, digits ds -> match ds with b :: _ => b <> 43 /\ b <> 45 | [] => True end).
  { intros ds [_ H]. destruct H as [|b ds Hb _]; [exact I|]. unfold digit in Hb. lia. }
  intros H1 H2. inversion H1; subst; inversion H2; subst; try reflexivity;
    match goal with H : digits (_ :: _) |- _ => apply D in H; destruct H; congruence end.
Qed.
Lemma written_exponent_fun s ex ex2 : written_exponent s ex -> written_exponent s ex2 -> ex = ex2.
Proof.
  intros (a & x & -> & Ha & Hx) (a2 & x2 & E & Ha2 & Hx2).
  assert (F : forall x ex, exponent_value x ex -> match x with b :: _ => b = 101 \/ b = 69 | [] => True end)
    by (intros ? ? []; auto).
  pose proof (F _ _ Hx) as Fx. pose proof (F _ _ Hx2) as Fx2.
  assert (x = x2); [|subst; eapply exponent_value_fun; eassumption].
  clear Hx Hx2 F. revert a2 E Ha2. induction Ha as [|b a Hb Ha IH]; intros [|b2 a2] E Ha2; cbn [app] in E.
  - exact E.
  - subst x. inversion Ha2; subst. tauto.
  - subst x2. tauto.
  - injection E as -> E. inversion Ha2; subst. eapply IH; eassumption.
Qed.
Lemma digits_no_e ds : Forall digit ds -> Forall (fun b => b <> 101 /\ b <> 69) ds.
Proof. apply Forall_impl. unfold digit. intros. lia. Qed.

(** What std reads: the sign, all the digits, and the exponent up to its cap. *)
Theorem float_exact n neg m e : literal_value n neg m e -> exists e' ex ex',
  float_from_str n = Some (FrDec neg m e') /\ written_exponent n ex /\ exponent_read ex ex' /\ (e' - ex' = e - ex)%Z /\
  (0 <= ex - e <= Z.of_nat (length n))%Z.
Proof.
  assert (K : forall (neg : bool) i r, num_int i -> take_sign ((if neg then [45] else []) ++ i ++ r) = (neg, i ++ r) /\ i ++ r <> []).
  { intros [] i r Hi; apply num_int_first in Hi as (d & i' & -> & Hd); cbn [app take_sign N.eqb Pos.eqb]; (split; [|discriminate]); [reflexivity|].
    unfold digit in Hd. destruct (N.eqb_spec d 45); [lia|]. destruct (N.eqb_spec d 43); [lia|]. reflexivity. }
  assert (S : forall neg : bool, Forall (fun b => b <> 101 /\ b <> 69) (if neg then [45] else [])).
  { intros []; [|constructor]. constructor; [lia|constructor]. }
  intros [neg' i x ex Hi Hx|neg' i f x ex Hi Hf Hx]; unfold float_from_str.
  - destruct (K neg' i x Hi) as [-> Hne]. destruct (float_number_no_frac i x ex Hi Hx) as (ex' & Hr & ->).
    exists ex', ex, ex'. split; [destruct (i ++ x); [congruence|reflexivity]|]. split; [|split; [exact Hr|split; lia]].
    exists ((if neg' then [45] else []) ++ i), x. rewrite <- app_assoc. split; [reflexivity|]. split; [|exact Hx].
    apply Forall_app. split; [apply S|]. apply digits_no_e, num_int_digits, Hi.
  - destruct (K neg' i (46 :: f ++ x) Hi) as [-> Hne]. destruct (float_number_frac i f x ex Hi Hf Hx) as (ex' & Hr & ->).
    exists (ex' - Z.of_nat (length f))%Z, ex, ex'.
    split; [destruct (i ++ 46 :: f ++ x); [congruence|reflexivity]|]. split; [|split; [exact Hr|split; [lia|]]].
    + exists ((if neg' then [45] else []) ++ i ++ 46 :: f), x. rewrite <- !app_assoc. split; [reflexivity|]. split; [|exact Hx].
      apply Forall_app. split; [apply S|]. apply Forall_app. split; [apply digits_no_e, num_int_digits, Hi|].
      constructor; [lia|]. apply digits_no_e, Hf.
    + rewrite !app_length. cbn [length]. rewrite app_length. lia.
Qed.

Lemma number_literal n : number n -> exists neg m e, literal_value n neg m e.
Proof.
  intros (m & i & f & e & Hm & Hi & Hf & He & ->).
  assert (Hx : exists ex, exponent_value e ex).
  { destruct He as [->|(c & sg & ds & Hc & [->|[->| ->]] & Hds & ->)]; eexists; [constructor|apply exp_pos|apply exp_plus|apply exp_minus]; eassumption. }
  destruct Hx as (ex & Hx). destruct Hm as [->| ->]; destruct Hf as [->|(ds & Hds & ->)].
  - eexists false, _, _. apply (lv_no_frac false); eassumption.
  - eexists false, _, _. apply (lv_frac false); eassumption.
  - eexists true, _, _. apply (lv_no_frac true); eassumption.
  - eexists true, _, _. apply (lv_frac true); eassumption.
Qed.

(** [as_f32()]/[as_f64()] return [Some] for every JsonNumber, and never one of the special names NaN or
    infinity: sign and digits are those of the literal. *)
Theorem C43_floats_accept pw x : number_obtainable pw x ->
  exists neg m e e', literal_value (jn_str x) neg m e /\ as_float x = Some (FrDec neg m e').
Proof.
  intro H. apply number_obtainable_shape in H as (n & Hn & ->). cbn [jn_str jn_source any_str].
  destruct (number_literal n Hn) as (neg & m & e & Hl). destruct (float_exact _ _ _ _ Hl) as (e' & ex & ex' & E & _).
  exists neg, m, e, e'. auto.
Qed.

(** Unless the written exponent has 655360 or more, what std rounds is exactly the number the literal denotes. *)
Theorem C43_floats_exact pw x neg m e ex : number_obtainable pw x -> literal_value (jn_str x) neg m e ->
  written_exponent (jn_str x) ex -> (Z.abs ex < 655360)%Z ->
  as_float x = Some (FrDec neg m e) /\ value_as_float (VNumber x) = Some (FrDec neg m e).
Proof.
  intros _ Hl Hw Hex. unfold value_as_float, as_number, as_float, number_parse.
  destruct (float_exact _ _ _ _ Hl) as (e' & ex0 & ex' & E & Hw' & Hr & Hd & _). rewrite E.
  rewrite (written_exponent_fun _ _ _ Hw' Hw) in *. destruct Hr as [[_ ->]|[Hr _]]; [|lia].
  replace e' with e by lia. auto.
Qed.

(** * Concrete cases *)
Example sample_number : exists x, number_obtainable W64 x /\ jn_str x = bs "-128" /\
  as_int W64 I8 x = Some (-128)%Z /\ as_int W64 U8 x = None /\ as_float x = Some (FrDec true 128 0).
Proof.
  eexists. split.
  - apply (number_of_number W64 _ (bs " -128 ")); [split; [apply utf8_valid_iff; reflexivity|cbn; lia]|vm_compute; reflexivity].
  - repeat split; vm_compute; reflexivity.
Qed.
Example sample_number_2 : exists x, number_obtainable W32 x /\ jn_str x = bs "12.50e-3" /\
  as_int W32 I8 x = None /\ as_float x = Some (FrDec false 1250 (-5)).
Proof.
  eexists. split.
  - apply (number_of_bytes W32 _ (bs "[0,{""a"":12.50e-3}]") config_default (VArray [VNumber (JNum (Borrowed (bs "0")));
      VObject [(JStr (CJson (Borrowed (bs "a"))) (info_new W32 false 1), VNumber (JNum (Borrowed (bs "12.50e-3"))))]])).
    + split; [repeat constructor|cbn; lia].
    + vm_compute. reflexivity.
    + eapply number_elem; [right; left; reflexivity|]. eapply number_member; [left; reflexivity|]. constructor.
  - repeat split; vm_compute; reflexivity.
Qed.
