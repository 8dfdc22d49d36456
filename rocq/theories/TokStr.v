(** String tokens: the scanning loop against the RFC 8259 string grammar. *)
From Verif Require Import Base Utf8 Utf8Facts StrModel ErrorModel Tokenizer Spec TokBase.
Local Open Scope N_scope.

(** Error kinds that report the end of the input. *)
Definition eof_kind {D} (k : error_kind D) : bool :=
  match k with
  | KUnexpectedEof | KUnclosedObject | KUnclosedArray | KUnclosedString => true
  | _ => false
  end.

(** An error raised between the positions [pre | r] and [it']. *)
Definition err_ok (pre r : list N) (e : error infallible) (it' : byte_iter) : Prop :=
  exists x r', r = x ++ r' /\ it' = mk (pre ++ x) r' /\
    (length pre <= err_offset e <= length pre + length x)%nat /\
    (eof_kind (err_kind e) = true -> r' = [] /\ err_offset e = (length pre + length x)%nat).

Lemma err_ok_app pre y r e it' : err_ok (pre ++ y) r e it' -> err_ok pre (y ++ r) e it'.
Proof.
  intros (x & r' & -> & -> & Ho & Hk). exists (y ++ x), r'. rewrite app_length in *.
  split; [apply app_assoc|]. split; [rewrite app_assoc; reflexivity|]. split; [lia|].
  intro K. destruct (Hk K) as [-> E]. split; [reflexivity|lia].
Qed.

Lemma err_ok_cons pre b r e it' : err_ok (pre ++ [b]) r e it' -> err_ok pre (b :: r) e it'.
Proof. apply (err_ok_app pre [b]). Qed.

(** An error at an offset already passed. *)
Lemma err_ok_back pre x r o k :
  (length pre <= o <= length pre + length x)%nat -> eof_kind k = false ->
  err_ok pre (x ++ r) (Error o k) (mk (pre ++ x) r).
Proof.
  intros Ho Hk. exists x, r. split; [reflexivity|]. split; [reflexivity|]. split; [exact Ho|].
  cbn. rewrite Hk. discriminate.
Qed.

Lemma err_ok_here pre r k : eof_kind k = false -> err_ok pre r (Error (length pre) k) (mk pre r).
Proof.
  intro Hk. pose proof (err_ok_back pre [] r (length pre) k) as H. cbn [app length] in H.
  rewrite app_nil_r in H. apply H; [lia|exact Hk].
Qed.

Lemma err_ok_eof pre x k : err_ok pre x (Error (length pre + length x) k) (mk (pre ++ x) []).
Proof.
  exists x, []. rewrite app_nil_r. split; [reflexivity|]. split; [reflexivity|]. cbn. split; [lia|]. auto.
Qed.

Lemma err_ok_eof0 pre k : err_ok pre [] (Error (length pre) k) (mk pre []).
Proof.
  exists [], []. rewrite !app_nil_r. split; [reflexivity|]. split; [reflexivity|]. cbn. split; [lia|].
  intros _. split; [reflexivity|lia].
Qed.

(** * Hexadecimal digits *)
Fixpoint hex_fold (acc : N) (h : list N) : option N :=
  match h with
  | [] => Some acc
  | b :: h' => match hex_digit b with Some d => hex_fold (acc * 16 + d) h' | None => None end
  end.

Lemma lor_shift acc d : d < 16 -> N.lor (N.shiftl acc 4) d = acc * 16 + d.
Proof.
  intro H. rewrite N.shiftl_mul_pow2. change (2 ^ 4) with 16.
  assert (E : N.land (acc * 16) d = 0).
  { apply N.bits_inj. intro i. rewrite N.land_spec, N.bits_0. change 16 with (2 ^ 4).
    destruct (N.ltb_spec i 4).
    - rewrite N.mul_pow2_bits_low by assumption. reflexivity.
    - destruct (N.eq_dec d 0) as [->|]; [rewrite N.bits_0; apply andb_false_r|].
      rewrite (N.bits_above_log2 d); [apply andb_false_r|].
      assert (N.log2 d < 4) by (apply N.log2_lt_pow2; [lia|exact H]). lia. }
  rewrite <- N.lxor_lor by exact E. symmetry. apply N.add_nocarry_lxor. exact E.
Qed.

Lemma read_hex_spec n : forall acc pre r,
  match read_hex n acc (mk pre r) with
  | (Ok v, it') => exists h r', r = h ++ r' /\ length h = n /\ it' = mk (pre ++ h) r' /\ hex_fold acc h = Some v
  | (Err e, it') => err_ok pre r e it'
  | (Fault _, _) => False
  end.
Proof.
  induction n as [|n IH]; intros acc pre r.
  - cbn [read_hex tret]. exists [], r. rewrite app_nil_r. auto.
  - cbn [read_hex]. unfold tbind. rewrite bi_read_mk.
    destruct r as [|b r].
    { apply err_ok_eof0. }
    rewrite hex_table. unfold hex_val. destruct (hex_digit b) as [d|] eqn:Hd.
    + pose proof (hex_digit_bound b d Hd) as Hd16.
      destruct (N.eqb_spec d 255); [lia|]. rewrite lor_shift by exact Hd16.
      specialize (IH (acc * 16 + d) (pre ++ [b]) r).
      destruct (read_hex n (acc * 16 + d) (mk (pre ++ [b]) r)) as [[v|e|f] it'].
      * destruct IH as (h & r' & -> & <- & -> & Hf). exists (b :: h), r'.
        split; [reflexivity|]. split; [reflexivity|]. split; [rewrite <- app_assoc; reflexivity|].
        cbn. rewrite Hd. exact Hf.
      * apply err_ok_cons. exact IH.
      * exact IH.
    + cbn. apply (err_ok_back pre [b] r); cbn; [lia|reflexivity].
Qed.

Lemma read_hex_complete h : forall acc pre r v, hex_fold acc h = Some v ->
  read_hex (length h) acc (mk pre (h ++ r)) = (Ok v, mk (pre ++ h) r).
Proof.
  induction h as [|b h IH]; intros acc pre r v H; cbn [length read_hex app].
  - cbn in H. injection H as ->. rewrite app_nil_r. reflexivity.
  - cbn [hex_fold] in H. unfold tbind. rewrite bi_read_mk, hex_table. unfold hex_val.
    destruct (hex_digit b) as [d|] eqn:Hd; [|discriminate].
    pose proof (hex_digit_bound b d Hd). destruct (N.eqb_spec d 255); [lia|].
    rewrite lor_shift by assumption. rewrite (IH _ (pre ++ [b]) r v H), <- app_assoc. reflexivity.
Qed.

Lemma hex4_iff h v : hex4 h v <-> length h = 4%nat /\ hex_fold 0 h = Some v.
Proof.
  split.
  - intros [a b c d x y z w Ha Hb Hc Hd]. split; [reflexivity|].
    apply hex_digit_iff in Ha, Hb, Hc, Hd. cbn [hex_fold]. rewrite Ha, Hb, Hc, Hd. f_equal. lia.
  - destruct h as [|a [|b [|c [|d [|e h]]]]]; cbn [length]; intros [L H]; try discriminate.
    cbn [hex_fold] in H.
    destruct (hex_digit a) as [x|] eqn:Ha; [|discriminate].
    destruct (hex_digit b) as [y|] eqn:Hb; [|discriminate].
    destruct (hex_digit c) as [z|] eqn:Hc; [|discriminate].
    destruct (hex_digit d) as [w|] eqn:Hd; [|discriminate].
    apply (f_equal (fun o => match o with Some n => n | None => 0 end)) in H. cbv beta iota in H.
    replace v with (x * 4096 + y * 256 + z * 16 + w) by lia.
    constructor; apply hex_digit_iff; assumption.
Qed.

Lemma hex4_bound h v : hex4 h v -> v < 65536.
Proof.
  intros [a b c d x y z w Ha Hb Hc Hd]. apply hex_digit_iff, hex_digit_bound in Ha, Hb, Hc, Hd. lia.
Qed.

Lemma hex_fold_ascii h : forall acc v, hex_fold acc h = Some v -> Forall (fun b => b < 128) h.
Proof.
  induction h as [|b h IH]; intros acc v H; [constructor|]. cbn in H.
  destruct (hex_digit b) as [d|] eqn:Hd; [|discriminate].
  apply hex_digit_ascii in Hd. constructor; [lia|]. eapply IH. exact H.
Qed.

Lemma hex4_ascii h v : hex4 h v -> Forall (fun b => b < 128) h.
Proof. intro H. apply hex4_iff in H as [_ H]. eapply hex_fold_ascii. exact H. Qed.

Lemma hex4_length h v : hex4 h v -> length h = 4%nat.
Proof. intro H. apply hex4_iff in H as [H _]. exact H. Qed.

(** * Surrogate pairs *)
Lemma lor_lt_pow2 a b k : a < 2 ^ k -> b < 2 ^ k -> N.lor a b < 2 ^ k.
Proof.
  intros Ha Hb. destruct (N.eq_dec (N.lor a b) 0) as [E|E]; [rewrite E; lia|].
  apply N.log2_lt_pow2; [lia|]. rewrite N.log2_lor.
  assert (0 < k).
  { destruct (N.eq_dec k 0) as [->|]; [|lia]. change (2 ^ 0) with 1 in *.
    replace a with 0 in E by lia. replace b with 0 in E by lia. cbn in E. lia. }
  apply N.max_lub_lt.
  - destruct (N.eq_dec a 0) as [->|]; [cbn; lia|apply N.log2_lt_pow2; lia].
  - destruct (N.eq_dec b 0) as [->|]; [cbn; lia|apply N.log2_lt_pow2; lia].
Qed.

Lemma lor_ge a b : a <= N.lor a b.
Proof.
  assert (E : N.land a (N.ldiff b a) = 0).
  { apply N.bits_inj. intro i. rewrite N.land_spec, N.ldiff_spec, N.bits_0.
    destruct (N.testbit a i), (N.testbit b i); reflexivity. }
  assert (E2 : N.lor a b = N.lor a (N.ldiff b a)).
  { apply N.bits_inj. intro i. rewrite !N.lor_spec, N.ldiff_spec.
    destruct (N.testbit a i), (N.testbit b i); reflexivity. }
  rewrite E2, <- N.lxor_lor, <- N.add_nocarry_lxor by exact E. lia.
Qed.

(** What the crate computes for a surrogate pair. *)
Definition merged (hi lo : N) : N := N.lor (N.lor 0x10000 ((hi - 0xD800) * 0x400)) (lo - 0xDC00).

Lemma merge_ok {E} hi lo : 0xD800 <= hi -> 0xDC00 <= lo ->
  @merge_surrogate_pair E hi lo = Ok (merged hi lo).
Proof.
  intros H1 H2. unfold merge_surrogate_pair, u32_sub, HIGH_SURROGATE_MIN, LOW_SURROGATE_MIN.
  destruct (N.leb_spec 0xD800 hi); [|lia]. destruct (N.leb_spec 0xDC00 lo); [|lia]. reflexivity.
Qed.

Lemma merged_bounds hi lo : 0xD800 <= hi <= 0xDBFF -> 0xDC00 <= lo <= 0xDFFF ->
  0x10000 <= merged hi lo < 0x100000.
Proof.
  intros H1 H2. unfold merged. split.
  - eapply N.le_trans; [|apply lor_ge]. apply lor_ge.
  - change 0x100000 with (2 ^ 20). apply lor_lt_pow2; [apply lor_lt_pow2|]; change (2 ^ 20) with 0x100000; lia.
Qed.

Lemma merged_scalar hi lo : 0xD800 <= hi <= 0xDBFF -> 0xDC00 <= lo <= 0xDFFF ->
  is_scalar (merged hi lo) = true.
Proof. intros H1 H2. pose proof (merged_bounds hi lo H1 H2). apply is_scalar_spec. lia. Qed.

Lemma merged_len hi lo : 0xD800 <= hi <= 0xDBFF -> 0xDC00 <= lo <= 0xDFFF -> len_utf8 (merged hi lo) = 4%nat.
Proof. intros H1 H2. pose proof (merged_bounds hi lo H1 H2). unfold len_utf8. ifs; reflexivity. Qed.

(** * Items *)
Lemma str_item_scalar a c : str_item a c -> is_scalar c = true.
Proof.
  intros [x Hs Hx H1 H2|b x Hin|h u Hh Hu|h1 hi h2 lo Hh1 Hhi Hh2 Hlo]; auto.
  - cbn in Hin. repeat (destruct Hin as [E|Hin]; [injection E as <- <-; reflexivity|]). contradiction.
  - apply is_scalar_spec. lia.
Qed.

Lemma str_body_scalar t cs : str_body t cs -> Forall (fun c => is_scalar c = true) cs.
Proof. induction 1; constructor; auto. eapply str_item_scalar; eassumption. Qed.

Lemma str_body_app t1 c1 t2 c2 : str_body t1 c1 -> str_body t2 c2 -> str_body (t1 ++ t2) (c1 ++ c2).
Proof. induction 1; intro H2; [exact H2|]. rewrite <- app_assoc. cbn. constructor; auto. Qed.

Lemma str_body_one a c : str_item a c -> str_body a [c].
Proof. intro H. rewrite <- (app_nil_r a). constructor; [exact H|constructor]. Qed.

(** Items starting with a backslash are ASCII, at least as long as what they denote in UTF-8. *)
Lemma esc_item x c : str_item (92 :: x) c ->
  Forall (fun b => b < 128) x /\ (1 <= len_utf8 c <= length x)%nat /\ x <> [].
Proof.
  intro H. inversion H as [y Hs Hy H1 H2 Ey|b y Hin|h u Hh Hu|h1 hi h2 lo Hh1 Hhi Hh2 Hlo]; subst.
  - exfalso. destruct (N.ltb_spec c 128).
    + rewrite utf8_encode_ascii in Ey by assumption. injection Ey as -> _. lia.
    + pose proof (utf8_encode_high c H0) as F. rewrite Ey in F. inversion F. lia.
  - cbn in Hin. repeat (destruct Hin as [E|Hin]; [injection E as <- <-; repeat split; repeat constructor; discriminate|]).
    contradiction.
  - pose proof (hex4_ascii _ _ Hh). pose proof (hex4_length _ _ Hh) as L. pose proof (hex4_bound _ _ Hh).
    split; [constructor; [lia|assumption]|]. split; [|discriminate]. cbn. rewrite L.
    unfold len_utf8. ifs.
  - pose proof (hex4_ascii _ _ Hh1). pose proof (hex4_length _ _ Hh1) as L1.
    pose proof (hex4_ascii _ _ Hh2). pose proof (hex4_length _ _ Hh2) as L2.
    split; [constructor; [lia|]; apply Forall_app; split; [assumption|]; repeat (constructor; [lia|]); assumption|].
    split; [|discriminate]. cbn [length]. rewrite app_length. cbn [length]. unfold len_utf8. ifs.
Qed.

(** * The escape reader *)
Lemma read_string_escape_spec pw esc len pre r :
  len + N.of_nat (length r) <= isize_max pw ->
  match read_string_escape pw (info_new pw esc len) (mk pre r) with
  | (Ok i, it') => exists x c r', r = x ++ r' /\ str_item (92 :: x) c /\ it' = mk (pre ++ x) r' /\
                     i = info_new pw true (len + N.of_nat (len_utf8 c))
  | (Err e, it') => err_ok pre r e it'
  | (Fault _, _) => False
  end.
Proof.
  intro Hlen. unfold read_string_escape, tbind at 1. rewrite bi_read_mk.
  destruct r as [|b r].
  { apply err_ok_eof0. }
  destruct ((b =? 34) || (b =? 92) || (b =? 47) || (b =? 98) || (b =? 102) || (b =? 114) ||
            (b =? 110) || (b =? 116)) eqn:Hs.
  { unfold tlift. cbn [length] in Hlen. rewrite add_bytes_from_escape_info by lia.
    assert (Hc : exists c, In (b, c) simple_escapes /\ len_utf8 c = 1%nat).
    { assert (Hb : b = 34 \/ b = 92 \/ b = 47 \/ b = 98 \/ b = 102 \/ b = 114 \/ b = 110 \/ b = 116) by lia.
      unfold simple_escapes.
      destruct Hb as [->|[->|[->|[->|[->|[->|[->| ->]]]]]]];
        [exists 34|exists 92|exists 47|exists 8|exists 12|exists 13|exists 10|exists 9];
        (split; [cbn [In]; auto 10|reflexivity]). }
    destruct Hc as (c & Hin & Hl). exists [b], c, r. rewrite Hl.
    repeat split; auto. apply si_simple. exact Hin. }
  destruct (N.eqb_spec b 117) as [->|Hb].
  2:{ unfold terr. apply (err_ok_back pre [b] r); cbn; [lia|reflexivity]. }
  unfold tbind at 1. pose proof (read_hex_spec 4 0 (pre ++ [117]) r) as Hh.
  destruct (read_hex 4 0 (mk (pre ++ [117]) r)) as [[v|e|f] it'].
  2:{ apply err_ok_cons. exact Hh. }
  2:{ exact Hh. }
  destruct Hh as (h & r1 & -> & Lh & -> & Hv).
  assert (H4 : hex4 h v) by (apply hex4_iff; auto). pose proof (hex4_bound _ _ H4) as Hvb.
  rewrite <- app_assoc. cbn [app].
  unfold char_from_u32. destruct (is_scalar v) eqn:Hsc.
  { unfold tbind, tret, tlift.
    assert (Hl3 : (len_utf8 v <= 3)%nat) by (unfold len_utf8; ifs).
    cbn [length] in Hlen. rewrite app_length in Hlen.
    rewrite add_bytes_from_escape_info by lia.
    exists (117 :: h), v, r1. repeat split. apply si_unicode; assumption. }
  unfold tbind at 1 2. unfold read_second_half, HIGH_SURROGATE_MIN, HIGH_SURROGATE_MAX.
  destruct ((0xD800 <=? v) && (v <=? 0xDBFF)) eqn:Hhi.
  2:{ unfold tret, terr. replace (117 :: h ++ r1) with ((117 :: h) ++ r1) by reflexivity.
      apply err_ok_back; cbn; [lia|reflexivity]. }
  replace (117 :: h ++ r1) with ((117 :: h) ++ r1) in * by reflexivity.
  set (pre1 := pre ++ 117 :: h) in *.
  unfold tbind at 1. rewrite bi_read_mk. destruct r1 as [|b1 r1].
  { apply (err_ok_app pre (117 :: h)). fold pre1. apply err_ok_eof0. }
  assert (Hback : forall y z k, eof_kind k = false ->
     err_ok pre ((117 :: h) ++ y ++ z) (Error (length pre) k) (mk (pre1 ++ y) z)).
  { intros y z k Hk. unfold pre1. rewrite (app_assoc (117 :: h) y z).
    replace ((pre ++ 117 :: h) ++ y) with (pre ++ (117 :: h) ++ y) by (rewrite <- app_assoc; reflexivity).
    apply err_ok_back; [cbn; lia|exact Hk]. }
  destruct (N.eqb_spec b1 92) as [->|Hb1].
  2:{ unfold tret, terr. apply (Hback [b1] r1). reflexivity. }
  unfold tbind at 1. rewrite bi_read_mk. destruct r1 as [|b2 r1].
  { apply (err_ok_app pre (117 :: h)). fold pre1. apply err_ok_cons. apply err_ok_eof0. }
  rewrite <- app_assoc. cbn [app].
  destruct (N.eqb_spec b2 117) as [->|Hb2].
  2:{ unfold tret, terr. apply (Hback [92; b2] r1). reflexivity. }
  unfold tbind at 1. pose proof (read_hex_spec 4 0 (pre1 ++ [92; 117]) r1) as Hh.
  destruct (read_hex 4 0 (mk (pre1 ++ [92; 117]) r1)) as [[v2|e|f] it'].
  2:{ apply (err_ok_app pre (117 :: h)). fold pre1. apply (err_ok_app pre1 [92; 117]). exact Hh. }
  2:{ exact Hh. }
  destruct Hh as (h2 & r2 & -> & Lh2 & -> & Hv2).
  assert (H42 : hex4 h2 v2) by (apply hex4_iff; auto).
  rewrite <- app_assoc. cbn [app]. unfold LOW_SURROGATE_MIN, LOW_SURROGATE_MAX.
  destruct ((0xDC00 <=? v2) && (v2 <=? 0xDFFF)) eqn:Hlo.
  2:{ unfold tret, terr. apply (Hback (92 :: 117 :: h2) r2). reflexivity. }
  unfold tbind, tlift, tret. rewrite merge_ok by lia.
  unfold char_from_u32_unchecked. rewrite merged_scalar by lia. rewrite merged_len by lia.
  cbn [length app] in Hlen. rewrite !app_length in Hlen. cbn [length] in Hlen. rewrite app_length in Hlen.
  rewrite add_bytes_from_escape_info by lia.
  exists (117 :: h ++ 92 :: 117 :: h2), (0x10000 + (v - 0xD800) * 0x400 + (v2 - 0xDC00)), r2.
  split; [cbn; f_equal; rewrite <- app_assoc; reflexivity|].
  split; [apply si_pair; auto; lia|].
  split; [unfold pre1; rewrite <- app_assoc; reflexivity|].
  f_equal. f_equal. f_equal. unfold len_utf8. ifs; reflexivity.
Qed.

Lemma read_string_escape_complete pw esc len pre x c r :
  str_item (92 :: x) c -> len + N.of_nat (length x) <= isize_max pw ->
  read_string_escape pw (info_new pw esc len) (mk pre (x ++ r)) =
  (Ok (info_new pw true (len + N.of_nat (len_utf8 c))), mk (pre ++ x) r).
Proof.
  intros H Hlen.
  inversion H as [y Hs Hy H1 H2 Ey|b y Hin|h u Hh Hu|h1 hi h2 lo Hh1 Hhi Hh2 Hlo]; subst.
  - exfalso. destruct (N.ltb_spec c 128).
    + rewrite utf8_encode_ascii in Ey by assumption. injection Ey as -> _. lia.
    + pose proof (utf8_encode_high c H0) as F. rewrite Ey in F. inversion F. lia.
  - unfold read_string_escape, tbind. cbn [app]. rewrite bi_read_mk. cbn [length] in Hlen.
    cbn in Hin. repeat (destruct Hin as [E|Hin];
      [injection E as <- <-; cbn [N.eqb Pos.eqb orb]; unfold tlift; rewrite add_bytes_from_escape_info by lia; reflexivity|]).
    contradiction.
  - apply hex4_iff in Hh as Hh'. destruct Hh' as [L Hf]. pose proof (hex4_bound _ _ Hh).
    unfold read_string_escape, tbind at 1. cbn [app]. rewrite bi_read_mk. cbn [N.eqb Pos.eqb orb].
    unfold tbind. rewrite <- L, (read_hex_complete h 0 _ r c Hf). unfold char_from_u32. rewrite Hu.
    unfold tret, tlift. rewrite add_bytes_from_escape_info.
    + rewrite <- app_assoc. reflexivity.
    + cbn [length] in Hlen. assert ((len_utf8 c <= 3)%nat) by (unfold len_utf8; ifs). lia.
  - apply hex4_iff in Hh1 as Hh1'. destruct Hh1' as [L1 Hf1].
    apply hex4_iff in Hh2 as Hh2'. destruct Hh2' as [L2 Hf2].
    cbn [length app] in Hlen. rewrite app_length in Hlen. cbn [length] in Hlen.
    unfold read_string_escape, tbind at 1. cbn [app]. rewrite bi_read_mk. cbn [N.eqb Pos.eqb orb].
    unfold tbind at 1. rewrite <- app_assoc. rewrite <- L1 at 1. rewrite (read_hex_complete h1 0 _ _ hi Hf1).
    unfold char_from_u32. assert (Hns : is_scalar hi = false).
    { unfold is_scalar. lia. }
    rewrite Hns. unfold tbind at 1 2. unfold read_second_half, HIGH_SURROGATE_MIN, HIGH_SURROGATE_MAX.
    destruct ((0xD800 <=? hi) && (hi <=? 0xDBFF)) eqn:E; [|lia].
    unfold tbind at 1. cbn [app]. rewrite bi_read_mk. cbn [N.eqb Pos.eqb].
    unfold tbind at 1. rewrite bi_read_mk. cbn [N.eqb Pos.eqb].
    unfold tbind at 1. rewrite <- L2 at 1. rewrite (read_hex_complete h2 0 _ _ lo Hf2).
    unfold LOW_SURROGATE_MIN, LOW_SURROGATE_MAX.
    destruct ((0xDC00 <=? lo) && (lo <=? 0xDFFF)) eqn:E2; [|lia].
    unfold tbind, tlift, tret. rewrite merge_ok by lia. unfold char_from_u32_unchecked.
    rewrite merged_scalar, merged_len by lia. rewrite add_bytes_from_escape_info by lia.
    rewrite <- !app_assoc. cbn [app].
    do 4 f_equal. unfold len_utf8. ifs; reflexivity.
Qed.

(** * Runs of non-ASCII bytes *)
Definition high (b : N) : bool := negb (b <? 128).

Lemma skip_high_mk pre r : skip_high (mk pre r) = mk (pre ++ take_while high r) (drop_while high r).
Proof.
  assert (E : forall r o, skip_high_loop r o = (o + length (take_while high r))%nat).
  { clear. induction r as [|b r IH]; intro o; cbn; [lia|]. unfold high at 1.
    destruct (b <? 128); cbn; [lia|]. rewrite IH. lia. }
  unfold skip_high. rewrite bi_rest_mk, E. unfold mk at 1 2. cbn [bi_bytes bi_offset].
  rewrite <- (take_drop high r) at 1. apply mk_eq.
Qed.

Lemma high_run_body h : Forall (fun b => high b = true) h -> utf8_valid h = true ->
  exists cs, str_body h cs /\ h = utf8_string cs.
Proof.
  intros Hh Hv. apply utf8_valid_iff in Hv as (cs & Hcs & ->). exists cs. split; [|reflexivity].
  induction Hcs as [|c cs Hc Hcs IH]; [constructor|].
  rewrite utf8_string_cons in *. apply Forall_app in Hh as [H1 H2].
  constructor; [|apply IH; exact H2].
  assert (128 <= c).
  { destruct (N.ltb_spec c 128); [|assumption]. rewrite utf8_encode_ascii in H1 by assumption.
    inversion H1 as [|? ? Hb _]. unfold high in Hb. lia. }
  apply si_plain; [assumption|lia..].
Qed.

(** * The scanning loop *)
Definition has_bs (t : list N) : bool := existsb (fun b => b =? 92) t.

Lemma has_bs_app a b : has_bs (a ++ b) = has_bs a || has_bs b.
Proof. apply existsb_app. Qed.

Lemma high_no_bs h : Forall (fun b => high b = true) h -> has_bs h = false.
Proof.
  induction 1 as [|b h Hb Hh IH]; [reflexivity|]. cbn. fold (has_bs h). rewrite IH, orb_false_r.
  unfold high in Hb. lia.
Qed.

Lemma slice_mid {A} (x y z : list A) n m : n = length x -> m = (length x + length y)%nat ->
  slice (x ++ y ++ z) n m = Some y.
Proof. intros -> ->. apply slice_app. Qed.

Lemma str_body_valid t cs : str_body t cs -> utf8_valid t = true.
Proof.
  induction 1 as [|a c r cs Ha Hr IH]; [reflexivity|].
  destruct Ha as [x Hs Hx H1 H2|b x Hin|h u Hh Hu|h1 hi h2 lo Hh1 Hhi Hh2 Hlo].
  - rewrite utf8_valid_encode; assumption.
  - pose proof (si_simple _ _ Hin) as Hi. apply esc_item in Hi as (Hx & _).
    rewrite utf8_valid_app; [exact IH|]. apply utf8_valid_ascii. constructor; [lia|exact Hx].
  - pose proof (si_unicode _ _ Hh Hu) as Hi. apply esc_item in Hi as (Hx & _).
    rewrite utf8_valid_app; [exact IH|]. apply utf8_valid_ascii. constructor; [lia|exact Hx].
  - pose proof (si_pair _ _ _ _ Hh1 Hhi Hh2 Hlo) as Hi. apply esc_item in Hi as (Hx & _).
    rewrite utf8_valid_app; [exact IH|]. apply utf8_valid_ascii. constructor; [lia|exact Hx].
Qed.

Lemma string_loop_spec pw pre0 : forall fuel b0 r esc len,
  (length r < fuel)%nat -> len + N.of_nat (length r) <= isize_max pw -> utf8_valid b0 = true ->
  match read_string_loop false pw fuel (length pre0) (info_new pw esc len) (mk (pre0 ++ 34 :: b0) r) with
  | (Ok s, it') =>
    exists t cs r', r = t ++ 34 :: r' /\ str_body t cs /\ it' = mk (pre0 ++ 34 :: b0 ++ t ++ [34]) r' /\
      s = JStr (CJson (Borrowed (b0 ++ t)))
            (info_new pw (esc || has_bs t) (len + N.of_nat (length (utf8_string cs))))
  | (Err e, it') => err_ok (pre0 ++ 34 :: b0) r e it'
  | (Fault _, _) => False
  end.
Proof.
  induction fuel as [|fuel IH]; intros b0 r esc len Hf Hlen Hv; [lia|].
  cbn [read_string_loop]. rewrite bi_next_mk. destruct r as [|b r]; [apply err_ok_eof0|].
  cbn [length] in Hf, Hlen.
  unfold safe_string_bytes_verify_utf8. rewrite safe_table_spec, andb_false_r, orb_false_r.
  assert (Eapp : forall y, (pre0 ++ 34 :: b0) ++ y = pre0 ++ 34 :: (b0 ++ y)).
  { intro y. rewrite <- app_assoc. reflexivity. }
  destruct ((32 <=? b) && negb (b =? 34) && negb (b =? 92) && (b <? 128)) eqn:Hsafe.
  { (* a safe ASCII byte *)
    unfold tbind, tlift. rewrite add_bytes_info by lia. rewrite Eapp.
    specialize (IH (b0 ++ [b]) r esc (len + 1)). specialize (IH ltac:(lia) ltac:(lia)).
    assert (Hv' : utf8_valid (b0 ++ [b]) = true).
    { rewrite utf8_valid_app by exact Hv. apply utf8_valid_ascii. repeat constructor. lia. }
    specialize (IH Hv').
    destruct (read_string_loop false pw fuel (length pre0) (info_new pw esc (len + 1))
                (mk (pre0 ++ 34 :: b0 ++ [b]) r)) as [[s|e|f] it'].
    - destruct IH as (t & cs & r' & -> & Hb & -> & ->). exists (b :: t), (b :: cs), r'.
      split; [reflexivity|]. split.
      { apply (sb_cons [b] b t cs); [|exact Hb]. rewrite <- (utf8_encode_ascii b) by lia.
        apply si_plain; [apply is_scalar_spec|..]; lia. }
      split; [f_equal; f_equal; f_equal; rewrite <- app_assoc; reflexivity|].
      f_equal; [do 2 f_equal; rewrite <- app_assoc; reflexivity|].
      f_equal.
      + cbn [has_bs existsb]. destruct (N.eqb_spec b 92); [lia|]. reflexivity.
      + rewrite utf8_string_cons, app_length, utf8_encode_length. unfold len_utf8. ifs; lia.
    - apply err_ok_cons. rewrite Eapp. exact IH.
    - exact IH. }
  destruct (N.eqb_spec b 34) as [->|Hq].
  { (* the closing quote *)
    unfold tbind, tlift, str_unchecked. rewrite mk_bytes.
    replace ((pre0 ++ 34 :: b0) ++ [34] ++ r) with ((pre0 ++ [34]) ++ b0 ++ [34] ++ r)
      by (rewrite <- !app_assoc; reflexivity).
    rewrite (slice_mid (pre0 ++ [34]) b0 ([34] ++ r)).
    - rewrite Hv. unfold tret. exists [], [], r. split; [reflexivity|]. split; [constructor|].
      split; [rewrite Eapp; reflexivity|]. rewrite app_nil_r, orb_false_r. cbn [utf8_string flat_map length].
      rewrite N.add_0_r. reflexivity.
    - rewrite app_length. cbn. lia.
    - rewrite !app_length. cbn. lia. }
  destruct (N.eqb_spec b 92) as [->|Hbs].
  { (* an escape *)
    unfold tbind.
    pose proof (read_string_escape_spec pw esc len ((pre0 ++ 34 :: b0) ++ [92]) r ltac:(lia)) as He.
    destruct (read_string_escape pw (info_new pw esc len) (mk ((pre0 ++ 34 :: b0) ++ [92]) r))
      as [[i|e|f] it'].
    2:{ apply err_ok_cons. exact He. }
    2:{ exact He. }
    destruct He as (x & c & r1 & -> & Hi & -> & ->).
    pose proof (esc_item x c Hi) as (Hx & Hcl & _). rewrite app_length in Hf, Hlen.
    replace (((pre0 ++ 34 :: b0) ++ [92]) ++ x) with (pre0 ++ 34 :: (b0 ++ 92 :: x))
      by (rewrite <- !app_assoc; reflexivity).
    specialize (IH (b0 ++ 92 :: x) r1 true (len + N.of_nat (len_utf8 c)) ltac:(lia) ltac:(lia)).
    assert (Hv' : utf8_valid (b0 ++ 92 :: x) = true).
    { rewrite utf8_valid_app by exact Hv. apply utf8_valid_ascii. constructor; [lia|exact Hx]. }
    specialize (IH Hv').
    destruct (read_string_loop false pw fuel (length pre0) (info_new pw true (len + N.of_nat (len_utf8 c)))
                (mk (pre0 ++ 34 :: b0 ++ 92 :: x) r1)) as [[s|e|f] it'].
    - destruct IH as (t & cs & r' & -> & Hb & -> & ->). exists ((92 :: x) ++ t), (c :: cs), r'.
      split; [cbn; rewrite <- app_assoc; reflexivity|]. split; [constructor; assumption|].
      split; [f_equal; f_equal; f_equal; rewrite <- !app_assoc; reflexivity|].
      f_equal; [do 2 f_equal; rewrite <- app_assoc; reflexivity|].
      f_equal.
      + cbn. rewrite orb_true_r. reflexivity.
      + rewrite utf8_string_cons, app_length, utf8_encode_length. lia.
    - apply (err_ok_app _ (92 :: x)). replace ((pre0 ++ 34 :: b0) ++ 92 :: x) with (pre0 ++ 34 :: b0 ++ 92 :: x)
        by (rewrite <- !app_assoc; reflexivity). exact IH.
    - exact IH. }
  destruct (N.leb_spec 128 b) as [Hhi|Hlo].
  { (* a run of non-ASCII bytes *)
    rewrite skip_high_mk. rewrite mk_offset, <- app_assoc.
    pose proof (take_while_all high r) as Hall. pose proof (take_drop high r) as Hr.
    set (h := take_while high r) in *. set (r1 := drop_while high r) in *. clearbody h r1. subst r.
    rewrite app_length in Hf, Hlen. cbn [app].
    replace (length ((pre0 ++ 34%N :: b0) ++ b :: h) - length (pre0 ++ 34%N :: b0))%nat with (S (length h))
      by (rewrite (app_length (pre0 ++ 34 :: b0)); cbn [length]; lia).
    unfold tbind, tlift. rewrite add_bytes_info by lia. rewrite mk_bytes.
    rewrite slice_mid by (rewrite ?app_length; cbn; lia).
    destruct (utf8_valid (b :: h)) eqn:Hvh.
    2:{ unfold terr. apply (err_ok_back _ (b :: h)); [lia|reflexivity]. }
    assert (Hall' : Forall (fun b => high b = true) (b :: h)).
    { constructor; [unfold high; lia|exact Hall]. }
    destruct (high_run_body _ Hall' Hvh) as (ch & Hbh & Hch).
    rewrite Eapp. specialize (IH (b0 ++ b :: h) r1 esc (len + N.of_nat (S (length h))) ltac:(lia) ltac:(lia)).
    assert (Hv' : utf8_valid (b0 ++ b :: h) = true).
    { rewrite utf8_valid_app by exact Hv. exact Hvh. }
    specialize (IH Hv').
    destruct (read_string_loop false pw fuel (length pre0) (info_new pw esc (len + N.of_nat (S (length h))))
                (mk (pre0 ++ 34 :: b0 ++ b :: h) r1)) as [[s|e|f] it'].
    - destruct IH as (t & cs & r' & -> & Hb & -> & ->). exists ((b :: h) ++ t), (ch ++ cs), r'.
      split; [cbn; rewrite <- app_assoc; reflexivity|]. split; [apply str_body_app; assumption|].
      split; [f_equal; f_equal; f_equal; rewrite <- !app_assoc; reflexivity|].
      f_equal; [do 2 f_equal; rewrite <- app_assoc; reflexivity|].
      f_equal.
      + rewrite has_bs_app, (high_no_bs _ Hall'). reflexivity.
      + rewrite utf8_string_app, app_length, <- Hch. cbn [length]. lia.
    - apply (err_ok_app _ (b :: h)). rewrite Eapp. exact IH.
    - exact IH. }
  destruct (N.leb_spec b 31) as [Hc|Hc].
  - apply (err_ok_back _ [b] r); [cbn; lia|reflexivity].
  - lia.
Qed.

(** GUARANTEED_UTF8 makes no difference when the rest of the input is valid UTF-8. *)
Lemma loop_true_run pw start : forall h fuel esc len pre r,
  Forall (fun b => high b = true) h -> is_bytes h -> len + N.of_nat (length h) <= isize_max pw ->
  read_string_loop true pw (length h + fuel) start (info_new pw esc len) (mk pre (h ++ r)) =
  read_string_loop true pw fuel start (info_new pw esc (len + N.of_nat (length h))) (mk (pre ++ h) r).
Proof.
  induction h as [|b h IH]; intros fuel esc len pre r Hh Hb Hlen.
  - cbn [length app Nat.add]. rewrite app_nil_r. f_equal. f_equal. lia.
  - inversion Hh as [|? ? Hhb Hh']. inversion Hb as [|? ? Hbb Hb']. subst. cbn [length] in Hlen.
    cbn [length app Nat.add read_string_loop]. rewrite bi_next_mk. unfold safe_string_bytes. rewrite safe_table_spec.
    unfold high in Hhb.
    destruct ((32 <=? b) && negb (b =? 34) && negb (b =? 92) && ((b <? 128) || (b <? 256) && true)) eqn:E; [|lia].
    unfold tbind, tlift. rewrite add_bytes_info by lia. rewrite IH by (assumption || lia).
    rewrite <- app_assoc. cbn [app]. do 2 f_equal. lia.
Qed.

Lemma string_loop_agree pw start : forall n r fuel1 fuel2 esc len pre,
  (length r <= n)%nat -> (length r < fuel1)%nat -> (length r < fuel2)%nat ->
  len + N.of_nat (length r) <= isize_max pw -> utf8_valid r = true ->
  read_string_loop true pw fuel1 start (info_new pw esc len) (mk pre r) =
  read_string_loop false pw fuel2 start (info_new pw esc len) (mk pre r).
Proof.
  induction n as [|n IH]; intros r fuel1 fuel2 esc len pre Hn H1 H2 Hlen Hv.
  { destruct r; [|cbn in Hn; lia]. destruct fuel1, fuel2; try lia. cbn [read_string_loop].
    rewrite bi_next_mk. reflexivity. }
  destruct fuel1 as [|fuel1], fuel2 as [|fuel2]; try lia.
  destruct r as [|b r]; [cbn [read_string_loop]; rewrite bi_next_mk; reflexivity|].
  cbn [length] in *.
  destruct (N.ltb_spec b 128) as [Hlo|Hhi].
  - (* ASCII *)
    rewrite utf8_valid_ascii_cons in Hv by assumption.
    cbn [read_string_loop]. rewrite bi_next_mk. unfold safe_string_bytes, safe_string_bytes_verify_utf8.
    rewrite !safe_table_spec.
    destruct ((32 <=? b) && negb (b =? 34) && negb (b =? 92)) eqn:Es; cbn [andb].
    + destruct (N.ltb_spec b 128); [|lia]. cbn [orb]. unfold tbind, tlift. rewrite add_bytes_info by lia.
      apply IH; (assumption || lia).
    + destruct (b =? 34); [reflexivity|]. destruct (N.eqb_spec b 92) as [->|].
      * unfold tbind.
        pose proof (read_string_escape_spec pw esc len (pre ++ [92]) r ltac:(lia)) as He.
        destruct (read_string_escape pw (info_new pw esc len) (mk (pre ++ [92]) r)) as [[i|e|f] it'];
          [|reflexivity|reflexivity].
        destruct He as (x & c & r1 & -> & Hi & -> & ->). apply esc_item in Hi as (Hx & Hcl & _).
        rewrite app_length in *. rewrite utf8_valid_app in Hv by (apply utf8_valid_ascii; exact Hx).
        apply IH; (assumption || lia).
      * destruct (N.leb_spec 128 b); [lia|]. reflexivity.
  - (* a run of non-ASCII bytes *)
    pose proof (take_while_all high r) as Hall. pose proof (take_drop high r) as Hr.
    pose proof (drop_while_head high r) as Hd.
    pose proof (skip_high_mk (pre ++ [b]) r) as Hskip.
    set (h := take_while high r) in *. set (r1 := drop_while high r) in *. clearbody h r1. subst r.
    rewrite app_length in *.
    assert (Hall' : Forall (fun b => high b = true) (b :: h)).
    { constructor; [unfold high; lia|exact Hall]. }
    pose proof (utf8_valid_bytes _ Hv) as Hbytes.
    change (b :: h ++ r1) with ((b :: h) ++ r1) in Hv, Hbytes |- *.
    apply is_bytes_app in Hbytes as [Hbytes _].
    apply utf8_valid_split in Hv as [Hvh Hv1].
    2:{ destruct r1 as [|b1 r1]; [exact I|]. unfold high in Hd. lia. }
    replace (S fuel1) with (length (b :: h) + (fuel1 - length h))%nat by (cbn; lia).
    rewrite loop_true_run by (assumption || (cbn [length]; lia)).
    cbn [length app].
    cbn [read_string_loop]. rewrite bi_next_mk. unfold safe_string_bytes_verify_utf8.
    rewrite safe_table_spec, andb_false_r, orb_false_r.
    destruct (N.ltb_spec b 128); [lia|]. rewrite andb_false_r.
    destruct (N.eqb_spec b 34); [lia|]. destruct (N.eqb_spec b 92); [lia|].
    destruct (N.leb_spec 128 b); [|lia].
    rewrite Hskip, mk_offset, <- app_assoc. cbn [app].
    replace (length (pre ++ b :: h) - length pre)%nat with (S (length h))
      by (rewrite app_length; cbn [length]; lia).
    unfold tbind, tlift. rewrite add_bytes_info by lia. rewrite mk_bytes.
    rewrite slice_mid by (rewrite ?app_length; cbn; lia).
    rewrite Hvh. apply IH; (assumption || lia).
Qed.

(** Splitting off the maximal run of non-ASCII bytes of a string body. *)
Lemma str_body_run t cs : str_body t cs ->
  exists h ch t2 cs2, t = h ++ t2 /\ cs = ch ++ cs2 /\ Forall (fun b => high b = true) h /\
    utf8_valid h = true /\ h = utf8_string ch /\ str_body t2 cs2 /\
    match t2 with [] => True | b :: _ => high b = false end.
Proof.
  induction 1 as [|a c r cs Ha Hr IH].
  { exists [], [], [], []. repeat split; auto; constructor. }
  assert (Hesc : forall x, a = 92 :: x ->
    exists h ch t2 cs2, a ++ r = h ++ t2 /\ c :: cs = ch ++ cs2 /\ Forall (fun b => high b = true) h /\
    utf8_valid h = true /\ h = utf8_string ch /\ str_body t2 cs2 /\
    match t2 with [] => True | b :: _ => high b = false end).
  { intros x ->. exists [], [], ((92 :: x) ++ r), (c :: cs). repeat split; auto; constructor; assumption. }
  inversion Ha as [y Hs Hy H1 H2 Ey|b y Hin Eb|h u Hh Hu Eh|h1 hi h2 lo Hh1 Hhi Hh2 Hlo Ep]; subst;
    try (eapply Hesc; reflexivity). clear Hesc.
  destruct (N.ltb_spec c 128) as [Hlo|Hhi].
  - exists [], [], (utf8_encode c ++ r), (c :: cs).
    split; [reflexivity|]. split; [reflexivity|]. split; [constructor|]. split; [reflexivity|].
    split; [reflexivity|]. split; [constructor; assumption|].
    rewrite utf8_encode_ascii by assumption. cbn. unfold high. lia.
  - destruct IH as (h & ch & t2 & cs2 & -> & -> & Hh & Hv & Eh & Hb & Ht2).
    exists (utf8_encode c ++ h), (c :: ch), t2, cs2.
    split; [apply app_assoc|]. split; [reflexivity|].
    split. { apply Forall_app. split; [|exact Hh]. eapply Forall_impl; [|apply utf8_encode_high; exact Hhi].
             cbn. intros b Hb'. unfold high. lia. }
    split; [rewrite utf8_valid_encode; assumption|].
    split; [rewrite utf8_string_cons, Eh; reflexivity|]. auto.
Qed.

(** Completeness of the loop. *)
Lemma string_loop_complete pw pre0 : forall n fuel b0 t cs r esc len,
  (length t <= n)%nat -> (length t < fuel)%nat -> len + N.of_nat (length t) <= isize_max pw ->
  utf8_valid b0 = true -> str_body t cs ->
  read_string_loop false pw fuel (length pre0) (info_new pw esc len) (mk (pre0 ++ 34 :: b0) (t ++ 34 :: r)) =
  (Ok (JStr (CJson (Borrowed (b0 ++ t))) (info_new pw (esc || has_bs t) (len + N.of_nat (length (utf8_string cs))))),
   mk (pre0 ++ 34 :: b0 ++ t ++ [34]) r).
Proof.
  induction n as [|n IH]; intros fuel b0 t cs r esc len Hn Hf Hlen Hv Hb;
    (destruct fuel as [|fuel]; [lia|]);
    assert (Eapp : forall y, (pre0 ++ 34 :: b0) ++ y = pre0 ++ 34 :: (b0 ++ y))
      by (intro y; rewrite <- app_assoc; reflexivity);
    assert (Hquote : read_string_loop false pw (S fuel) (length pre0) (info_new pw esc len)
              (mk (pre0 ++ 34 :: b0) (34 :: r)) =
            (Ok (JStr (CJson (Borrowed b0)) (info_new pw esc len)), mk (pre0 ++ 34 :: b0 ++ [34]) r))
      by (cbn [read_string_loop]; rewrite bi_next_mk; unfold safe_string_bytes_verify_utf8; rewrite safe_table_spec;
          cbn [N.leb N.compare Pos.compare Pos.compare_cont N.eqb Pos.eqb andb negb];
          unfold tbind, tlift, str_unchecked; rewrite mk_bytes;
          replace ((pre0 ++ 34 :: b0) ++ [34] ++ r) with ((pre0 ++ [34]) ++ b0 ++ [34] ++ r)
            by (rewrite <- !app_assoc; reflexivity);
          rewrite (slice_mid (pre0 ++ [34]) b0 ([34] ++ r)) by (rewrite !app_length; cbn; lia);
          rewrite Hv; unfold tret; rewrite Eapp; reflexivity).
  { destruct t; [|cbn in Hn; lia]. inversion Hb as [|a c r' cs' Ha Hr E1 E2].
    - cbn [app]. rewrite Hquote, app_nil_r, orb_false_r. cbn [utf8_string flat_map length].
      rewrite N.add_0_r. reflexivity.
    - exfalso. apply app_eq_nil in E1 as [-> ->].
      inversion Ha as [y Hs Hy H1 H2 Ey|b y Hin Eb|h u Hh Hu Eh|h1 hi h2 lo Hh1 Hhi Hh2 Hlo Ep].
      exact (utf8_encode_nonnil _ Ey). }
  destruct (str_body_run t cs Hb) as (h & ch & t2 & cs2 & -> & -> & Hh & Hvh & Eh & Hb2 & Ht2).
  destruct h as [|b h].
  - assert (ch = []) as ->.
    { destruct ch as [|c ch]; [reflexivity|]. rewrite utf8_string_cons in Eh. symmetry in Eh.
      apply app_eq_nil in Eh as [E _]. exfalso. exact (utf8_encode_nonnil _ E). }
    cbn [app] in *. clear Hb. inversion Hb2 as [|a c r' cs' Ha Hr E1 E2]; subst.
    + cbn [app]. rewrite Hquote, app_nil_r, orb_false_r. cbn [utf8_string flat_map length].
      rewrite N.add_0_r. reflexivity.
    + assert (Hesc : forall x, a = 92 :: x -> str_item (92 :: x) c ->
        read_string_loop false pw (S fuel) (length pre0) (info_new pw esc len)
          (mk (pre0 ++ 34 :: b0) ((a ++ r') ++ 34 :: r)) =
        (Ok (JStr (CJson (Borrowed (b0 ++ a ++ r')))
           (info_new pw (esc || has_bs (a ++ r')) (len + N.of_nat (length (utf8_string (c :: cs')))))),
         mk (pre0 ++ 34 :: b0 ++ (a ++ r') ++ [34]) r)).
      { intros x -> Hi. cbn [app]. cbn [read_string_loop]. rewrite bi_next_mk.
        unfold safe_string_bytes_verify_utf8. rewrite safe_table_spec.
        cbn [N.leb N.compare Pos.compare Pos.compare_cont N.eqb Pos.eqb andb negb].
        pose proof (esc_item x c Hi) as (Hx & Hcl & _).
        cbn [app length] in Hlen, Hf, Hn. rewrite app_length in Hlen, Hf, Hn.
        unfold tbind. rewrite <- (app_assoc x), (read_string_escape_complete pw esc len _ x c) by (assumption || lia).
        replace (((pre0 ++ 34 :: b0) ++ [92]) ++ x) with (pre0 ++ 34 :: (b0 ++ 92 :: x))
          by (rewrite <- !app_assoc; reflexivity).
        rewrite (IH fuel (b0 ++ 92 :: x) r' cs' r); try (assumption || lia).
        - rewrite <- !app_assoc. cbn [app]. do 4 f_equal.
          + cbn. rewrite orb_true_r. reflexivity.
          + rewrite utf8_string_cons, app_length, utf8_encode_length. lia.
        - rewrite utf8_valid_app by exact Hv. apply utf8_valid_ascii. constructor; [lia|exact Hx]. }
      inversion Ha as [y Hs Hy H1 H2 Ey|b y Hin Eb|h u Hhx Hu Ehx|h1 hi h2 lo Hh1 Hhi Hh2 Hlo Ep]; subst;
        try (eapply Hesc; [reflexivity|assumption]). clear Hesc.
      assert (Hc : c < 128).
      { destruct (N.ltb_spec c 128); [assumption|]. exfalso.
        pose proof (utf8_encode_high c H) as F. pose proof (utf8_encode_nonnil c).
        destruct (utf8_encode c) as [|b0' bs']; [congruence|]. cbn in Ht2. inversion F. unfold high in Ht2. lia. }
      rewrite (utf8_encode_ascii c) in * by exact Hc. cbn [app length] in *.
      cbn [read_string_loop]. rewrite bi_next_mk. unfold safe_string_bytes_verify_utf8. rewrite safe_table_spec.
      destruct ((32 <=? c) && negb (c =? 34) && negb (c =? 92) && ((c <? 128) || (c <? 256) && false)) eqn:E; [|lia].
      unfold tbind, tlift. rewrite add_bytes_info by lia. rewrite Eapp.
      rewrite (IH fuel (b0 ++ [c]) r' cs' r); try (assumption || lia).
      * rewrite <- !app_assoc. cbn [app]. do 4 f_equal.
        -- cbn [has_bs existsb]. destruct (N.eqb_spec c 92); [lia|]. reflexivity.
        -- rewrite utf8_string_cons, app_length, utf8_encode_length. unfold len_utf8. ifs; lia.
      * rewrite utf8_valid_app by exact Hv. apply utf8_valid_ascii. repeat constructor. exact Hc.
  - inversion Hh as [|? ? Hb1 Hh']. subst x l. rewrite <- app_assoc. cbn [app].
    rewrite app_length in *. cbn [length] in *.
    cbn [read_string_loop]. rewrite bi_next_mk. unfold safe_string_bytes_verify_utf8. rewrite safe_table_spec.
    unfold high in Hb1. rewrite andb_false_r, orb_false_r.
    destruct (N.ltb_spec b 128); [discriminate|]. rewrite andb_false_r.
    destruct (N.eqb_spec b 34); [lia|]. destruct (N.eqb_spec b 92); [lia|].
    destruct (N.leb_spec 128 b); [|lia].
    rewrite skip_high_mk.
    destruct (take_while_app high h (t2 ++ 34 :: r)) as [-> ->]; [exact Hh'| |].
    { destruct t2 as [|b2 t2]; [reflexivity|exact Ht2]. }
    rewrite mk_offset, <- app_assoc. cbn [app].
    replace (length ((pre0 ++ 34%N :: b0) ++ b :: h) - length (pre0 ++ 34%N :: b0))%nat with (S (length h))
      by (rewrite (app_length (pre0 ++ 34%N :: b0)); cbn [length]; lia).
    unfold tbind, tlift. rewrite add_bytes_info by lia. rewrite mk_bytes.
    rewrite slice_mid by (rewrite ?app_length; cbn; lia).
    rewrite Hvh, Eapp.
    rewrite (IH fuel (b0 ++ b :: h) t2 cs2 r); try (assumption || lia).
    + rewrite <- !app_assoc. cbn [app]. do 4 f_equal.
      * change (b :: h ++ t2) with ((b :: h) ++ t2). rewrite has_bs_app, (high_no_bs _ Hh). reflexivity.
      * rewrite utf8_string_app, app_length, <- Eh. cbn [length]. lia.
    + rewrite utf8_valid_app by exact Hv. exact Hvh.
Qed.
