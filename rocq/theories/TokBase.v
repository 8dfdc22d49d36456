(** Facts about the byte iterator, the lookup tables and the info word. *)
From Verif Require Import Base Utf8 Utf8Facts StrModel ErrorModel Tokenizer Spec.
Local Open Scope N_scope.

Ltac ifb :=
  repeat match goal with
  | |- context [if ?c then _ else _] => let E := fresh "E" in destruct c eqn:E; try (exfalso; lia)
  end.

(** * Positions: [mk pre r] is the iterator that has consumed [pre] and has [r] left. *)
Definition mk (pre r : list N) : byte_iter := BI (pre ++ r) (length pre).

Lemma bi_new_mk s : bi_new s = mk [] s.
Proof. reflexivity. Qed.

Lemma mk_eq pre x r : BI (pre ++ x ++ r) (length pre + length x) = mk (pre ++ x) r.
Proof. unfold mk. rewrite app_length, app_assoc. reflexivity. Qed.

Lemma mk_eq1 pre b r : BI (pre ++ b :: r) (length pre + 1) = mk (pre ++ [b]) r.
Proof. apply (mk_eq pre [b] r). Qed.

Lemma mk_bytes pre x r : bi_bytes (mk (pre ++ x) r) = pre ++ x ++ r.
Proof. cbn. rewrite app_assoc. reflexivity. Qed.

Lemma mk_offset pre r : bi_offset (mk pre r) = length pre.
Proof. reflexivity. Qed.

Lemma bi_rest_mk pre r : bi_rest (mk pre r) = r.
Proof. unfold bi_rest, mk. cbn. rewrite skipn_app, skipn_all, Nat.sub_diag. reflexivity. Qed.

Lemma nth_mk (pre r : list N) : nth_error (pre ++ r) (length pre) = match r with [] => None | b :: _ => Some b end.
Proof.
  rewrite nth_error_app2 by lia. rewrite Nat.sub_diag. destruct r; reflexivity.
Qed.

Lemma bi_peek_mk pre r : bi_peek (mk pre r) = match r with [] => None | b :: _ => Some b end.
Proof. apply nth_mk. Qed.

Lemma bi_next_mk pre r :
  bi_next (mk pre r) =
  match r with
  | [] => (None, mk pre [])
  | b :: r' => (Some (length pre, b), mk (pre ++ [b]) r')
  end.
Proof.
  unfold bi_next. unfold mk at 1. cbn [bi_bytes bi_offset]. rewrite nth_mk.
  destruct r as [|b r]; [reflexivity|]. unfold mk at 1 2. cbn [bi_bytes bi_offset].
  rewrite mk_eq1. reflexivity.
Qed.

Lemma bi_read_mk pre r :
  bi_read (mk pre r) =
  match r with
  | [] => (Err (Error (length pre) KUnexpectedEof), mk pre [])
  | b :: r' => (Ok (length pre, b), mk (pre ++ [b]) r')
  end.
Proof. unfold bi_read. rewrite bi_next_mk. destruct r; reflexivity. Qed.

Lemma mk_inj_r pre r pre' r' : mk pre r = mk pre' r' -> pre = pre' /\ r = r'.
Proof.
  unfold mk. intro H. injection H as H1 H2.
  assert (pre = pre').
  { rewrite <- (firstn_all2 pre (n:=length pre)) by lia.
    rewrite <- (firstn_all2 pre' (n:=length pre')) by lia.
    pose proof (f_equal (firstn (length pre)) H1) as E.
    rewrite firstn_app, Nat.sub_diag in E. rewrite H2 in E at 2.
    rewrite firstn_app, Nat.sub_diag in E. cbn in E. rewrite !app_nil_r in E. exact E. }
  subst. apply app_inv_head in H1. auto.
Qed.

(** * Longest prefix satisfying a predicate *)
Fixpoint take_while (f : N -> bool) (r : list N) : list N :=
  match r with b :: r' => if f b then b :: take_while f r' else [] | [] => [] end.
Fixpoint drop_while (f : N -> bool) (r : list N) : list N :=
  match r with b :: r' => if f b then drop_while f r' else r | [] => [] end.

Lemma take_drop f r : take_while f r ++ drop_while f r = r.
Proof. induction r as [|b r IH]; cbn; [reflexivity|]. destruct (f b); cbn; [f_equal; exact IH|reflexivity]. Qed.

Lemma take_while_all f r : Forall (fun b => f b = true) (take_while f r).
Proof. induction r as [|b r IH]; cbn; [constructor|]. destruct (f b) eqn:E; constructor; auto. Qed.

Lemma drop_while_head f r : match drop_while f r with [] => True | b :: _ => f b = false end.
Proof. induction r as [|b r IH]; cbn; [exact I|]. destruct (f b) eqn:E; [exact IH|exact E]. Qed.

Lemma take_while_app f x r : Forall (fun b => f b = true) x ->
  match r with [] => True | b :: _ => f b = false end ->
  take_while f (x ++ r) = x /\ drop_while f (x ++ r) = r.
Proof.
  intros Hx Hr. induction Hx as [|b x Hb Hx IH]; cbn.
  - destruct r as [|b r]; cbn; [auto|]. rewrite Hr. auto.
  - rewrite Hb. destruct IH as [-> ->]. auto.
Qed.

Lemma is_ws_spec b : is_ws b = true <-> ws_byte b.
Proof. unfold is_ws, ws_byte. lia. Qed.

Lemma ws_take r : ws (take_while is_ws r).
Proof. eapply Forall_impl; [|apply take_while_all]. intros b. apply is_ws_spec. Qed.

Lemma skip_ws_loop_spec r o : skip_ws_loop r o = (o + length (take_while is_ws r))%nat.
Proof.
  revert o. induction r as [|b r IH]; intro o; cbn; [lia|].
  destruct (is_ws b); [rewrite IH; cbn; lia | cbn; lia].
Qed.

Lemma skip_ws_mk pre r : skip_ws (mk pre r) = mk (pre ++ take_while is_ws r) (drop_while is_ws r).
Proof.
  unfold skip_ws. rewrite bi_rest_mk, skip_ws_loop_spec. unfold mk at 1 2. cbn [bi_bytes bi_offset].
  rewrite <- (take_drop is_ws r) at 1. apply mk_eq.
Qed.

Lemma skip_ws_mk_app pre w r : ws w ->
  match r with [] => True | b :: _ => ~ ws_byte b end ->
  skip_ws (mk pre (w ++ r)) = mk (pre ++ w) r.
Proof.
  intros Hw Hr. rewrite skip_ws_mk.
  destruct (take_while_app is_ws w r) as [-> ->]; [| |reflexivity].
  - eapply Forall_impl; [|exact Hw]. intro b. apply is_ws_spec.
  - destruct r as [|b r]; [exact I|]. destruct (is_ws b) eqn:E; [|reflexivity].
    apply is_ws_spec in E. contradiction.
Qed.

(** * Tables *)
Lemma N_lt_256_forall (P : N -> bool) :
  forallb P (map N.of_nat (seq 0 256)) = true -> forall b, b < 256 -> P b = true.
Proof.
  intros H b Hb. rewrite forallb_forall in H. apply H.
  replace b with (N.of_nat (N.to_nat b)) by lia. apply in_map. apply in_seq. lia.
Qed.

Definition hex_val (b : N) : N := match hex_digit b with Some d => d | None => 255 end.

Lemma hex_table b : table_get 255 hex_offset_table b = hex_val b.
Proof.
  destruct (N.ltb_spec b 256) as [H|H].
  - apply N.eqb_eq. revert b H. apply (N_lt_256_forall (fun b => table_get 255 hex_offset_table b =? hex_val b)).
    vm_compute. reflexivity.
  - unfold table_get. rewrite nth_overflow.
    + unfold hex_val, hex_digit. ifb; (reflexivity || lia).
    + change (length hex_offset_table) with 256%nat. lia.
Qed.

Lemma hex_digit_iff b d : hex_digit b = Some d <-> hex_digit_val b d.
Proof.
  unfold hex_digit. split.
  - ifb; intro Eh; try discriminate; injection Eh as <-.
    + apply hex_09. lia.
    + replace (b - 55) with (b - 65 + 10) by lia. apply hex_AF. lia.
    + replace (b - 87) with (b - 97 + 10) by lia. apply hex_af. lia.
  - intros [x Hx|x Hx|x Hx]; ifb; try lia; f_equal; lia.
Qed.

Lemma hex_digit_bound b d : hex_digit b = Some d -> d < 16.
Proof. unfold hex_digit. ifb; intro Eh; try discriminate; injection Eh as <-; lia. Qed.

Lemma hex_digit_ascii b d : hex_digit b = Some d -> 48 <= b < 103.
Proof. unfold hex_digit. ifb; intro Eh; try discriminate; lia. Qed.

Lemma safe_table_spec uc b :
  table_get false (safe_table uc) b =
  (32 <=? b) && negb (b =? 34) && negb (b =? 92) && ((b <? 128) || ((b <? 256) && uc)).
Proof.
  assert (Hc : b < 256 \/ 256 <= b) by lia. destruct Hc as [H|H].
  - apply eqb_true_iff. revert b H.
    refine (N_lt_256_forall (fun b => Bool.eqb (table_get false (safe_table uc) b)
      ((32 <=? b) && negb (b =? 34) && negb (b =? 92) && ((b <? 128) || ((b <? 256) && uc)))) _).
    destruct uc; vm_compute; reflexivity.
  - unfold table_get. rewrite nth_overflow.
    + destruct (N.ltb_spec b 256); [lia|]. destruct (N.ltb_spec b 128); [lia|]. cbn. rewrite andb_false_r. reflexivity.
    + destruct uc; (change (length (safe_table _)) with 256%nat; lia).
Qed.

(** * The info word *)
Lemma mask_pow pw : has_escapes_mask pw = 2 ^ (match pw with W32 => 31 | W64 => 63 end).
Proof. destruct pw; reflexivity. Qed.

Lemma isize_max_mask pw : isize_max pw + 1 = has_escapes_mask pw.
Proof. destruct pw; reflexivity. Qed.

Lemma usize_max_mask pw : usize_max pw + 1 = 2 * has_escapes_mask pw.
Proof. destruct pw; reflexivity. Qed.

Lemma land_pow2_small k n : n < 2 ^ k -> N.land (2 ^ k) n = 0.
Proof.
  intro H. apply N.bits_inj. intro i. rewrite N.land_spec, N.bits_0, N.pow2_bits_eqb.
  destruct (N.eqb_spec k i) as [->|]; [|reflexivity]. cbn.
  destruct (N.eq_dec n 0) as [->|Hn]; [apply N.bits_0|].
  apply N.bits_above_log2. apply N.log2_lt_pow2; lia.
Qed.

Lemma lor_pow2_small k n : n < 2 ^ k -> N.lor (2 ^ k) n = 2 ^ k + n.
Proof.
  intro H. pose proof (land_pow2_small k n H) as E.
  rewrite <- N.lxor_lor by exact E. symmetry. apply N.add_nocarry_lxor. exact E.
Qed.

Lemma mask_lor pw n : n <= isize_max pw -> N.lor (has_escapes_mask pw) n = has_escapes_mask pw + n.
Proof.
  intro H. pose proof (isize_max_mask pw). rewrite mask_pow in *. apply lor_pow2_small. lia.
Qed.

Lemma info_new_val pw esc n : n <= isize_max pw ->
  info_new pw esc n = (if esc then has_escapes_mask pw else 0) + n.
Proof. intro H. unfold info_new. destruct esc; [apply mask_lor; exact H|reflexivity]. Qed.

Lemma info_none_new pw : info_none pw = info_new pw false 0.
Proof. reflexivity. Qed.

Lemma add_bytes_info {E} pw esc n k : n + k <= isize_max pw ->
  @add_bytes E pw (info_new pw esc n) k = Ok (info_new pw esc (n + k)).
Proof.
  intro H. unfold add_bytes, checked_add. rewrite !info_new_val by lia.
  pose proof (isize_max_mask pw). pose proof (usize_max_mask pw).
  destruct (N.leb_spec ((if esc then has_escapes_mask pw else 0) + n + k) (usize_max pw)).
  - f_equal. lia.
  - destruct esc; lia.
Qed.

Lemma add_bytes_from_escape_info {E} pw esc n k : n + k <= isize_max pw ->
  @add_bytes_from_escape E pw (info_new pw esc n) k = Ok (info_new pw true (n + k)).
Proof.
  intro H. unfold add_bytes_from_escape, checked_add.
  assert (E1 : N.lor (has_escapes_mask pw) (info_new pw esc n) = has_escapes_mask pw + n).
  { unfold info_new. destruct esc; [rewrite N.lor_assoc, N.lor_diag|]; apply mask_lor; lia. }
  rewrite E1, info_new_val by lia.
  pose proof (isize_max_mask pw). pose proof (usize_max_mask pw).
  destruct (N.leb_spec (has_escapes_mask pw + n + k) (usize_max pw)); [f_equal; lia|lia].
Qed.

Lemma has_escapes_info pw esc n : n <= isize_max pw -> has_escapes pw (info_new pw esc n) = esc.
Proof.
  intro H. unfold has_escapes, info_new. pose proof (isize_max_mask pw). rewrite mask_pow in *.
  destruct esc.
  - rewrite N.land_lor_distr_l, N.land_diag, (N.land_comm n), land_pow2_small by lia. rewrite N.lor_0_r.
    destruct pw; reflexivity.
  - rewrite N.land_comm, land_pow2_small by lia. reflexivity.
Qed.

Lemma umask_ones pw : unescaped_bytes_mask pw = N.ones (match pw with W32 => 31 | W64 => 63 end).
Proof. destruct pw; reflexivity. Qed.

Lemma expected_length_info pw esc n : n <= isize_max pw -> expected_length pw (info_new pw esc n) = n.
Proof.
  intro H. unfold expected_length. rewrite umask_ones, N.land_ones, info_new_val by exact H.
  pose proof (isize_max_mask pw) as E. rewrite mask_pow in *.
  set (k := match pw with W32 => 31 | W64 => 63 end) in *.
  assert (2 ^ k <> 0) by (subst k; destruct pw; cbn; lia).
  destruct esc.
  - replace (2 ^ k + n) with (n + 1 * 2 ^ k) by lia. rewrite N.mod_add by assumption. apply N.mod_small. lia.
  - apply N.mod_small. lia.
Qed.
