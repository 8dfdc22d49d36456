(** C77: what every tokenizer call returns, and where it leaves the tokenizer, is determined by the bytes that follow
    its position; also after errors. *)
From Verif Require Import Base Utf8 Utf8Facts StrModel ErrorModel Tokenizer Parser Spec SpecError
  TokBase TokStr TokNum TokFacts ErrTok ParserGen View PropTok.
Local Open Scope N_scope.

(** * Specification *)

(** How far the tokenizer reads a string that it refuses as not being UTF-8 ([KUtf8]); from the opening quote.
    - a run of bytes above 127 that is not UTF-8: to the end of the run;
    - a lone low surrogate [\uDC00]..[\uDFFF]: to the end of the escape;
    - a high surrogate that is not followed by a second half: past the byte, the two bytes, or the whole
      escape that should have been the second half. *)
Inductive gives_up : list N -> nat -> Prop :=
| gu_run b cs h x : str_body b cs -> (forall y c, b = y ++ [c] -> c < 128) ->
    h <> [] -> Forall (fun c => 128 <= c) h -> ~ starts (fun c => 128 <= c) x -> ~ is_utf8 h ->
    gives_up (34 :: b ++ h ++ x) (1 + length b + length h)
| gu_low b cs h v x : str_body b cs -> hex4 h v -> low_surrogate v ->
    gives_up (34 :: b ++ 92 :: 117 :: h ++ x) (1 + length b + 6)
| gu_no_escape b cs h v c x : str_body b cs -> hex4 h v -> high_surrogate v -> c <> 92 ->
    gives_up (34 :: b ++ 92 :: 117 :: h ++ c :: x) (1 + length b + 6 + 1)
| gu_no_unicode b cs h v c x : str_body b cs -> hex4 h v -> high_surrogate v -> c <> 117 ->
    gives_up (34 :: b ++ 92 :: 117 :: h ++ 92 :: c :: x) (1 + length b + 6 + 2)
| gu_not_low b cs h v h2 v2 x : str_body b cs -> hex4 h v -> high_surrogate v -> hex4 h2 v2 -> ~ low_surrogate v2 ->
    gives_up (34 :: b ++ 92 :: 117 :: h ++ 92 :: 117 :: h2 ++ x) (1 + length b + 6 + 6).

(** After the error [k] at offset [n] of the token starting [x], the tokenizer stands at offset [m] of [x]: after the
    byte that was refused if the error is about that byte; at the error if the error is about something missing. *)
Definition resumes (x : list N) (n : nat) (k : kind) (m : nat) : Prop :=
  match k with
  | KUtf8 => gives_up x m
  | KUnexpected _ | KInvalidEscape | KInvalidHexadecimal => m = (n + 1)%nat
  | _ => m = n
  end.

(** What [peek] says of the first byte of a token. *)
Definition peek_table : list (N * peek_kind) :=
  [(123, PkObject); (125, PkObjectEnd); (91, PkArray); (93, PkArrayEnd); (44, PkComma); (58, PkColon);
   (34, PkString); (116, PkTrue); (102, PkFalse); (110, PkNull)].
Inductive peeked : N -> peek_kind -> Prop :=
| pk_table b k : In (b, k) peek_table -> peeked b k
| pk_number b : b = 45 \/ digit b -> peeked b PkNumber
| pk_other b : ~ token_start b -> peeked b PkUnrecognized.

(** * Where an error leaves the tokenizer: errors other than [KUtf8] *)
Definition after_error (e : error infallible) : nat :=
  match err_kind e with
  | KUnexpected _ | KInvalidEscape | KInvalidHexadecimal => (err_offset e + 1)%nat
  | _ => err_offset e
  end.
Definition leaves {A} (m : tok A) : Prop := forall it e it', m it = (Err e, it') ->
  err_kind e <> KUtf8 -> bi_offset it' = after_error e.

Lemma leaves_bind {A B} (m : tok A) (f : A -> tok B) : leaves m -> (forall a, leaves (f a)) -> leaves (tbind m f).
Proof.
  intros Hm Hf it e it' H. apply tbind_err in H as [H|(a & it1 & _ & H)]; [exact (Hm _ _ _ H)|exact (Hf a _ _ _ H)].
Qed.
Lemma leaves_ok {A} (m : tok A) : (forall it e it', m it <> (Err e, it')) -> leaves m.
Proof. intros H it e it' E. destruct (H _ _ _ E). Qed.
Lemma leaves_ret {A} (a : A) : leaves (tret a).
Proof. apply leaves_ok. discriminate. Qed.
Lemma leaves_read : leaves bi_read.
Proof.
  intros it e it'. unfold bi_read, bi_next. destruct (nth_error _ _); [discriminate|]. intros H _. injection H as <- <-. reflexivity.
Qed.

(** [let! (o, c) := bi_read in f o c] where [f] may complain about the byte just read. *)
Definition leaves_at {A} (o : nat) (m : tok A) : Prop := forall it e it', bi_offset it = (o + 1)%nat -> m it = (Err e, it') ->
  err_kind e <> KUtf8 -> bi_offset it' = after_error e.
Lemma leaves_read_bind {A} (f : nat * N -> tok A) : (forall o c, leaves_at o (f (o, c))) -> leaves (tbind bi_read f).
Proof.
  intros Hf it e it' H. apply tbind_err in H as [H|([o c] & it1 & H1 & H)]; [exact (leaves_read _ _ _ H)|].
  unfold bi_read, bi_next in H1. destruct (nth_error _ _); [|discriminate]. injection H1 as <- <- <-.
  eapply (Hf (bi_offset it) n); [|exact H]. reflexivity.
Qed.
Lemma leaves_weak {A} o (m : tok A) : leaves m -> leaves_at o m.
Proof. intros H it e it' _. apply H. Qed.

Lemma leaves_add pw i n : leaves (tlift (add_bytes_from_escape pw i n)).
Proof. apply leaves_ok. intros it e it'. apply add_escape_no_err. Qed.

Lemma leaves_hex n : forall acc, leaves (read_hex n acc).
Proof.
  induction n as [|n IH]; intro acc; cbn [read_hex]; [apply leaves_ret|].
  apply leaves_read_bind. intros o c. destruct (_ =? 255).
  - intros it e it' Ho H _. injection H as <- <-. exact Ho.
  - apply leaves_weak, IH.
Qed.

Lemma leaves_second v : leaves (read_second_half v).
Proof.
  unfold read_second_half. destruct (_ && _); [|apply leaves_ret].
  apply leaves_read_bind. intros o c. apply leaves_weak. destruct (c =? 92); [|apply leaves_ret].
  apply leaves_read_bind. intros o2 c2. apply leaves_weak. destruct (c2 =? 117); [|apply leaves_ret].
  apply leaves_bind; [apply leaves_hex|]. intro v2. destruct (_ && _); [|apply leaves_ret].
  apply leaves_bind; [|intro; apply leaves_ret]. apply leaves_ok. intros it e it'. unfold tlift, merge_surrogate_pair, u32_sub.
  destruct (_ <=? v); [|discriminate]. destruct (_ <=? v2); discriminate.
Qed.

Lemma leaves_escape pw i : leaves (read_string_escape pw i).
Proof.
  unfold read_string_escape. apply leaves_read_bind. intros o c.
  destruct ((c =? 34) || (c =? 92) || (c =? 47) || (c =? 98) || (c =? 102) || (c =? 114) ||
            (c =? 110) || (c =? 116)); [apply leaves_weak, leaves_add|].
  destruct (c =? 117).
  - apply leaves_weak, leaves_bind; [apply leaves_hex|]. intro v. apply leaves_bind; [|intro; apply leaves_add].
    destruct (char_from_u32 v); [apply leaves_ret|]. apply leaves_bind; [apply leaves_second|].
    intros [m|].
    + apply leaves_ok. intros it e it'. unfold tlift, char_from_u32_unchecked. destruct (is_scalar m); discriminate.
    + intros it e it' H K. injection H as <- <-. cbn in K. congruence.
  - intros it e it' Ho H _. injection H as <- <-. exact Ho.
Qed.

Lemma leaves_string g pw start : forall fuel i, leaves (read_string_loop g pw fuel start i).
Proof.
  induction fuel as [|fuel IH]; intro i; [apply leaves_ok; discriminate|].
  intros it e it'. cbn [read_string_loop]. unfold bi_next. destruct (nth_error (bi_bytes it) (bi_offset it)) as [b|].
  2:{ intros H _. injection H as <- <-. reflexivity. }
  assert (Hadd : forall n, leaves (tlift (add_bytes pw i n))).
  { intro n. apply leaves_ok. intros it0 e0 it0' H. unfold tlift in H. injection H as H _. exact (add_bytes_no_err _ _ _ _ H). }
  destruct (table_get _ _ b).
  { apply (leaves_bind (tlift (add_bytes pw i 1))); [apply Hadd|intro; apply IH]. }
  destruct (b =? 34).
  { intros H _. exfalso. revert H. unfold tbind, tlift, str_unchecked. destruct (slice _ _ _) as [s|]; [|discriminate].
    destruct (utf8_valid s); discriminate. }
  destruct (b =? 92).
  { apply (leaves_bind (read_string_escape pw i)); [apply leaves_escape|intro; apply IH]. }
  destruct (128 <=? b).
  - match goal with |- (tbind ?m ?f) ?it2 = _ -> _ => apply (leaves_bind m f) end; [apply Hadd|]. intro i'.
    destruct (slice _ _ _) as [run|]; [|apply leaves_ok; discriminate].
    destruct (utf8_valid run); [apply IH|]. intros it1 e1 it1' H K. injection H as <- <-. cbn in K. congruence.
  - destruct (b <=? 31); [|discriminate]. intros H _. injection H as <- <-. reflexivity.
Qed.

Lemma leaves_get {A} (f : byte_iter -> tok A) : (forall it e it', f it it = (Err e, it') -> err_kind e <> KUtf8 -> bi_offset it' = after_error e) ->
  leaves (tbind get_iter f).
Proof. intros H it e it' E. exact (H it e it' E). Qed.

Lemma leaves_missing (f : bool) k : (forall o, after_error (Error o k) = o) ->
  leaves (let! it := get_iter in if f then tret tt else terr (Error (bi_offset it) k)).
Proof.
  intro Hk. apply leaves_get. intros it e it' H _. destruct f; [discriminate|]. injection H as <- <-. symmetry. apply Hk.
Qed.

Lemma leaves_number st start : leaves (read_number_from_source st start).
Proof.
  unfold read_number_from_source.
  assert (Hi : forall b, leaves (read_int b)).
  { intro b. apply leaves_ok. intros it e it'. unfold read_int. destruct (int_loop _ _ _); discriminate. }
  assert (Hd : leaves read_digits).
  { apply leaves_ok. intros it e it'. unfold read_digits. destruct (digits_loop _ _ _); discriminate. }
  assert (Hb : leaves bump) by (apply leaves_ok; discriminate).
  apply leaves_bind.
  { unfold read_number_int. destruct st; [apply leaves_ret|..]; (apply leaves_bind; [apply Hi|]); intro f; apply leaves_missing; reflexivity. }
  intros _. apply leaves_bind.
  { unfold read_number_frac. apply leaves_get. intros it e it'. destruct (bi_peek it) as [b|]; [|discriminate].
    destruct (b =? 46); [|discriminate]. revert it e it'.
    change (leaves (let! _ := bump in let! f := read_digits in let! it := get_iter in
      if f then tret tt else terr (Error (bi_offset it) KExpectedDecimalDigit))).
    apply leaves_bind; [exact Hb|]. intros _. apply leaves_bind; [exact Hd|]. intro f. apply leaves_missing. reflexivity. }
  intros _. apply leaves_bind.
  { unfold read_number_exp. apply leaves_get. intros it e it'. destruct (bi_peek it) as [b|]; [|discriminate].
    destruct ((b =? 101) || (b =? 69)); [|discriminate].
    match goal with |- ?m _ = _ -> _ => revert it e it'; change (leaves m) end.
    apply leaves_bind; [exact Hb|]. intros _. apply leaves_bind; [apply leaves_ok; discriminate|]. intro it1.
    apply leaves_bind; [destruct (bi_peek it1) as [s|]; [destruct ((s =? 45) || (s =? 43))|]; [exact Hb|apply leaves_ret..]|].
    intros _. apply leaves_bind; [exact Hd|]. intro f. apply leaves_missing. reflexivity. }
  intros _. apply leaves_bind; [apply leaves_ok; discriminate|]. intro it. apply leaves_bind; [|intro; apply leaves_ret].
  apply leaves_ok. intros it1 e it'. unfold tlift, str_unchecked. destruct (slice _ _ _) as [s|]; [|discriminate].
  destruct (utf8_valid s); discriminate.
Qed.

Lemma leaves_literal ls : leaves (read_literal ls).
Proof.
  induction ls as [|l ls IH]; [apply leaves_ret|]. intros it e it'. cbn [read_literal]. unfold bi_next.
  destruct (nth_error _ _) as [b|]; [|intros H _; injection H as <- <-; reflexivity].
  destruct (negb (b =? l)); [intros H _; injection H as <- <-; reflexivity|apply IH].
Qed.

Lemma leaves_peek g pw b it e it' : read_peek g pw (bi_offset it) b (BI (bi_bytes it) (bi_offset it + 1)) = (Err e, it') ->
  err_kind e <> KUtf8 -> bi_offset it' = after_error e.
Proof.
  intro H. unfold read_peek in H.
  repeat match type of H with context [if ?c then _ else _] =>
    lazymatch c with context [b] => destruct c; [try discriminate|] end end.
  all: try (revert H; match goal with |- tbind ?m ?f _ = _ -> _ => apply (leaves_bind m f) end; intros; auto using leaves_ret, leaves_number, leaves_literal).
  - intros it1 e1 it1'. apply leaves_string.
  - injection H as <- <-. intros _. reflexivity.
Qed.

(** * Where [KUtf8] leaves it *)
Definition left_at {A} (x : res (error infallible) A * byte_iter) (o : nat) (k : kind) (m : nat) : Prop :=
  exists it', x = (Err (Error o k), it') /\ bi_offset it' = m.

Lemma left_bind {A B} (m : tok A) (f : A -> tok B) it o k n : left_at (m it) o k n -> left_at (tbind m f it) o k n.
Proof. intros (it' & E & H). unfold tbind. rewrite E. exists it'. auto. Qed.

Lemma string_loop_gives_up pw start r m : gives_up (34 :: r) m -> forall fuel esc len pre,
  (length r < fuel)%nat -> len + N.of_nat (length r) <= isize_max pw ->
  exists n, string_error r n KUtf8 /\
  left_at (read_string_loop false pw fuel start (info_new pw esc len) (mk pre r)) (length pre + n) KUtf8 (length pre + (m - 1)).
Proof.
  intros Hs fuel esc len pre Hf Hlen.
  assert (Hesc : forall b cs y, r = b ++ 92 :: y -> str_body b cs ->
    (forall i, left_at (read_string_escape pw i (mk ((pre ++ b) ++ [92]) y)) (length pre + (length b + 1)) KUtf8 (length pre + (m - 1))) ->
    left_at (read_string_loop false pw fuel start (info_new pw esc len) (mk pre r)) (length pre + (length b + 1)) KUtf8 (length pre + (m - 1))).
  { intros b cs y -> Hb Hy. rewrite app_length in *. cbn [length] in *.
    destruct (string_loop_run pw start (length b) fuel b cs (92 :: y) esc len pre) as (f2 & e2 & l2 & H1 & H2 & H3);
      auto; try lia; try (right; cbn; lia).
    rewrite H3. destruct f2 as [|f2]; [lia|]. cbn [read_string_loop]. rewrite bi_next_mk.
    unfold safe_string_bytes_verify_utf8. rewrite safe_table_spec.
    cbn [N.leb N.compare Pos.compare Pos.compare_cont N.eqb Pos.eqb andb negb]. apply left_bind, Hy. }
  assert (Hrd : forall i p h v y (G : byte_iter -> Prop), hex4 h v -> char_from_u32 v = None ->
    (forall it', G it' -> bi_offset it' = (length pre + (m - 1))%nat) ->
    (exists it', read_second_half v (mk (((p ++ [117])) ++ h) y) = (Ok None, it') /\ G it') ->
    left_at (read_string_escape pw i (mk p (117 :: h ++ y))) (length p) KUtf8 (length pre + (m - 1))).
  { intros i p h v y G Hh Hc HG (it' & E & Hit). apply hex4_iff in Hh as [Lh Hh]. unfold read_string_escape. unfold tbind at 1.
    rewrite bi_read_mk. cbn [N.eqb Pos.eqb orb]. unfold tbind at 1. rewrite <- Lh at 1. rewrite (read_hex_complete h 0 _ y v Hh).
    rewrite Hc. apply left_bind. unfold tbind. rewrite E. exists it'. split; [reflexivity|apply HG, Hit]. }
  assert (Hlo : forall v, low_surrogate v \/ high_surrogate v -> char_from_u32 v = None).
  { intros v Hv. unfold char_from_u32. assert (is_scalar v = false) as ->; [|reflexivity].
    unfold is_scalar, low_surrogate, high_surrogate in *. lia. }
  inversion Hs as [b cs h x Hb Hlast Hne Hh Hx Hu|b cs h v x Hb Hh Hv|b cs h v c x Hb Hh Hv Hc|b cs h v c x Hb Hh Hv Hc|
                   b cs h v h2 v2 x Hb Hh Hv Hh2 Hv2]; subst.
  - exists (length b). split; [eapply se_utf8; eassumption|]. rewrite !app_length in *.
    destruct (string_loop_run pw start (length b) fuel b cs (h ++ x) esc len pre) as (f2 & e2 & l2 & H1 & H2 & H3);
      auto; try lia.
    rewrite H3. destruct f2 as [|f2]; [lia|]. destruct h as [|h0 h]; [congruence|]. inversion Hh as [|? ? H0 Hh']. subst.
    cbn [app read_string_loop]. rewrite bi_next_mk.
    unfold safe_string_bytes_verify_utf8. rewrite safe_table_spec, andb_false_r, orb_false_r.
    destruct (N.ltb_spec h0 128); [lia|]. rewrite andb_false_r. destruct (N.eqb_spec h0 34); [lia|]. destruct (N.eqb_spec h0 92); [lia|].
    destruct (N.leb_spec 128 h0); [|lia]. rewrite skip_high_mk.
    destruct (take_while_app high h x) as [-> ->].
    { eapply Forall_impl; [|exact Hh']. intros c Hc. cbv beta in Hc. unfold high. lia. }
    { destruct x as [|x0 x]; [exact I|]. cbn in Hx. unfold high. lia. }
    rewrite mk_offset, <- app_assoc. cbn [app length] in *.
    replace (length ((pre ++ b) ++ h0 :: h) - length (pre ++ b))%nat with (S (length h)) by (rewrite !app_length; cbn [length]; lia).
    unfold tbind, tlift. rewrite add_bytes_info by lia. rewrite mk_bytes.
    rewrite slice_mid by (rewrite ?app_length; cbn; lia).
    destruct (utf8_valid (h0 :: h)) eqn:Ev; [apply utf8_valid_iff in Ev; contradiction|].
    rewrite app_length. eexists. split; [reflexivity|]. rewrite mk_offset, !app_length. cbn [length]. lia.
  - exists (length b + 1)%nat. split; [rewrite <- (Nat.add_0_r (length b + 1)); eapply se_escape; [eassumption|eapply ee_low; eassumption]|].
    eapply Hesc; [reflexivity|eassumption|]. intro i.
    replace (length pre + (length b + 1))%nat with (length ((pre ++ b) ++ [92%N])) by (rewrite !app_length; cbn; lia).
    eapply (Hrd i _ h v x (fun it => it = _)); [exact Hh|apply Hlo; left; exact Hv| |].
    2:{ eexists. split; [|reflexivity]. unfold read_second_half, HIGH_SURROGATE_MIN, HIGH_SURROGATE_MAX.
        unfold low_surrogate in Hv. destruct ((0xD800 <=? v) && (v <=? 0xDBFF)) eqn:E; [lia|]. reflexivity. }
    intros it' ->. rewrite mk_offset, !app_length, (hex4_length _ _ Hh). cbn [length]. lia.
  - exists (length b + 1)%nat. split; [rewrite <- (Nat.add_0_r (length b + 1)); eapply se_escape; [eassumption|eapply ee_high; try eassumption; constructor; exact Hc]|].
    eapply Hesc; [reflexivity|eassumption|]. intro i.
    replace (length pre + (length b + 1))%nat with (length ((pre ++ b) ++ [92%N])) by (rewrite !app_length; cbn; lia).
    eapply (Hrd i _ h v (c :: x) (fun it => it = _)); [exact Hh|apply Hlo; right; exact Hv| |].
    2:{ eexists. split; [|reflexivity]. unfold read_second_half, HIGH_SURROGATE_MIN, HIGH_SURROGATE_MAX.
        unfold high_surrogate in Hv. destruct ((0xD800 <=? v) && (v <=? 0xDBFF)) eqn:E; [|lia]. unfold tbind. rewrite bi_read_mk.
        destruct (N.eqb_spec c 92); [congruence|]. reflexivity. }
    intros it' ->. rewrite mk_offset, !app_length, (hex4_length _ _ Hh). cbn [length]. lia.
  - exists (length b + 1)%nat. split; [rewrite <- (Nat.add_0_r (length b + 1)); eapply se_escape; [eassumption|eapply ee_high; try eassumption; constructor; exact Hc]|].
    eapply Hesc; [reflexivity|eassumption|]. intro i.
    replace (length pre + (length b + 1))%nat with (length ((pre ++ b) ++ [92%N])) by (rewrite !app_length; cbn; lia).
    eapply (Hrd i _ h v (92 :: c :: x) (fun it => it = _)); [exact Hh|apply Hlo; right; exact Hv| |].
    2:{ eexists. split; [|reflexivity]. unfold read_second_half, HIGH_SURROGATE_MIN, HIGH_SURROGATE_MAX.
        unfold high_surrogate in Hv. destruct ((0xD800 <=? v) && (v <=? 0xDBFF)) eqn:E; [|lia]. unfold tbind. rewrite bi_read_mk.
        cbn [N.eqb Pos.eqb]. rewrite bi_read_mk. destruct (N.eqb_spec c 117); [congruence|]. reflexivity. }
    intros it' ->. rewrite mk_offset, !app_length, (hex4_length _ _ Hh). cbn [length]. lia.
  - exists (length b + 1)%nat. split; [rewrite <- (Nat.add_0_r (length b + 1)); eapply se_escape; [eassumption|eapply ee_high; try eassumption; econstructor; eassumption]|].
    eapply Hesc; [reflexivity|eassumption|]. intro i.
    replace (length pre + (length b + 1))%nat with (length ((pre ++ b) ++ [92%N])) by (rewrite !app_length; cbn; lia).
    eapply (Hrd i _ h v (92 :: 117 :: h2 ++ x) (fun it => it = _)); [exact Hh|apply Hlo; right; exact Hv| |].
    2:{ eexists. split; [|reflexivity]. unfold read_second_half, HIGH_SURROGATE_MIN, HIGH_SURROGATE_MAX.
        unfold high_surrogate in Hv. destruct ((0xD800 <=? v) && (v <=? 0xDBFF)) eqn:E; [|lia]. unfold tbind. rewrite bi_read_mk.
        cbn [N.eqb Pos.eqb]. rewrite bi_read_mk. cbn [N.eqb Pos.eqb]. pose proof Hh2 as Hh2'. apply hex4_iff in Hh2' as [Lh2 Hh2'].
        rewrite <- Lh2 at 1. rewrite (read_hex_complete h2 0 _ x v2 Hh2'). unfold low_surrogate in Hv2. unfold LOW_SURROGATE_MIN, LOW_SURROGATE_MAX.
        destruct ((0xDC00 <=? v2) && (v2 <=? 0xDFFF)) eqn:E2; [lia|]. reflexivity. }
    intros it' ->. rewrite mk_offset, !app_length, (hex4_length _ _ Hh), (hex4_length _ _ Hh2). cbn [length]. lia.
Qed.

(** Every [KUtf8] error has such a description. *)
Lemma utf8_gives_up x n : token_error x n KUtf8 -> exists m, gives_up x m.
Proof.
  intro H. inversion H as [y m k He E|y m k He E|lit y m k Hin He E|]; subst.
  - inversion He as [|b cs c x Hb Hc|b cs x m' k Hb He'|b cs h x Hb Hlast Hne Hh Hx Hu]; subst.
    + inversion He' as [| |x0 n k Hh|h v x0 Hh Hlo|h v x0 n k Hh Hhi Hs]; subst.
      * inversion Hh.
      * eexists. eapply gu_low; eassumption.
      * inversion Hs as [|c y Hc| |c y Hc|y m k Hm|h2 v2 y Hh2 Hlo]; subst.
        -- eexists. eapply gu_no_escape; eassumption.
        -- eexists. eapply gu_no_unicode; eassumption.
        -- inversion Hm.
        -- eexists. eapply gu_not_low; eassumption.
    + eexists. eapply gu_run; eassumption.
  - inversion He.
  - inversion He.
Qed.

(** * One call *)
Lemma next_left g pw pre w x n k m : good g pw (pre ++ w ++ x) -> ws w -> token_error x n k -> resumes x n k m ->
  next_or_eof g pw (mk pre (w ++ x)) = (Err (Error (length (pre ++ w) + n) k), BI (pre ++ w ++ x) (length (pre ++ w) + m)).
Proof.
  intros Hg Hw Hx Hm.
  destruct (next_raised g pw pre (w ++ x) _ k Hg (xn_token w x n k Hw Hx)) as (it' & E).
  pose proof (next_or_eof_spec g pw pre (w ++ x) Hg) as Hs. rewrite E in Hs. destruct Hs as (y & r' & Ey & Eit & _).
  rewrite E. rewrite app_length. f_equal; [f_equal; f_equal; lia|].
  enough (Ho : bi_offset it' = (length pre + length w + m)%nat).
  { subst it'. unfold mk in *. cbn [bi_offset] in Ho. rewrite Ho. f_equal. rewrite <- app_assoc, <- Ey. reflexivity. }
  clear y r' Ey Eit.
  destruct (token_error_raised pw _ _ _ Hx) as (b & y & -> & Hb & _).
  rewrite (next_or_eof_false g) in E by exact Hg. destruct Hg as [Hs _].
  unfold next_or_eof, read_non_ws in E. rewrite skip_ws_mk_app, bi_read_mk in E by assumption.
  assert (Hk : k = KUtf8 \/ k <> KUtf8) by (destruct k; (left; reflexivity) || (right; discriminate)).
  destruct Hk as [->|Hk].
  - cbn [resumes] in Hm. assert (b = 34) as -> by (inversion Hm; reflexivity).
    unfold read_peek in E. cbn [N.eqb Pos.eqb] in E. unfold read_string_from_source in E. rewrite info_none_new in E.
    assert (Hsm : 0 + N.of_nat (length y) <= isize_max pw).
    { unfold small in Hs. rewrite !app_length in Hs. cbn [length] in Hs. lia. }
    destruct (string_loop_gives_up pw (length (pre ++ w)) y m Hm (S (length (bi_bytes (mk ((pre ++ w) ++ [34]) y)))) false 0 ((pre ++ w) ++ [34]))
      as (n2 & _ & it2 & E2 & Ho); [cbn; rewrite !app_length; lia|exact Hsm|].
    unfold tbind in E. rewrite E2 in E. injection E as _ <-. rewrite Ho, !app_length. cbn [length].
    assert (m <> 0)%nat by (inversion Hm; lia). lia.
  - assert (Hoff : bi_offset it' = after_error (Error (length pre + (length w + n)) k)).
    { eapply (leaves_peek false pw b (BI ((pre ++ w) ++ b :: y) (length (pre ++ w)))); [|exact Hk].
      cbn [bi_offset bi_bytes]. rewrite mk_eq1. exact E. }
    rewrite Hoff. unfold after_error. cbn [err_kind err_offset].
    destruct k; cbn [resumes] in Hm; (congruence || (subst m; lia)).
Qed.

Lemma resumes_some x n k : token_error x n k -> exists m, resumes x n k m.
Proof. intro H. destruct k; cbn [resumes]; eauto. eapply utf8_gives_up. exact H. Qed.

Lemma reachable_at utf8 pw pre r it : input_ok utf8 pw (pre ++ r) -> reachable utf8 pw (pre ++ r) it ->
  tokenizer_offset it = length pre -> it = mk pre r /\ good utf8 pw (pre ++ r).
Proof.
  intros Hi Hr Ho. destruct (reachable_pos _ _ _ _ Hi Hr) as (p & q & E & -> & Hg). unfold tokenizer_offset in Ho.
  rewrite mk_offset in Ho. unfold mk. rewrite <- E, Ho. split; [reflexivity|]. exact (input_good _ _ _ Hi).
Qed.

(** The state of a tokenizer is its offset: two histories that lead to the same offset have the same future. *)
Theorem C77_offset_is_state utf8 pw s it1 it2 calls : input_ok utf8 pw s -> reachable utf8 pw s it1 -> reachable utf8 pw s it2 ->
  tokenizer_offset it1 = tokenizer_offset it2 -> fst (tok_run utf8 pw it1 calls) = fst (tok_run utf8 pw it2 calls).
Proof.
  intros Hi H1 H2 Ho. destruct (reachable_pos _ _ _ _ Hi H1) as (p & q & E & -> & _).
  rewrite E in Hi, H2. destruct (reachable_at utf8 pw p q it2 Hi H2) as [-> _]; [|reflexivity].
  rewrite <- Ho. reflexivity.
Qed.

(** At a position with the bytes [r] ahead: only whitespace ahead, or a token ahead, or something wrong ahead; one of
    them always is the case, and each of them determines what [next] returns and where it stops. *)
Theorem C77_next_exactly utf8 pw pre r it : input_ok utf8 pw (pre ++ r) -> reachable utf8 pw (pre ++ r) it ->
  tokenizer_offset it = length pre ->
  (ws r -> exists it', tokenizer_next utf8 pw it = (None, it') /\ tokenizer_offset it' = length (pre ++ r)) /\
  (forall w x r', r = w ++ x ++ r' -> ws w -> token_then x r' ->
     exists tk it', tokenizer_next utf8 pw it = (Some (Ok tk), it') /\ spelled tk x /\
       tokenizer_offset it' = length (pre ++ w ++ x)) /\
  (forall w x n k m, r = w ++ x -> ws w -> token_error x n k -> resumes x n k m ->
     exists it', tokenizer_next utf8 pw it = (Some (Err (Error (length (pre ++ w) + n) k)), it') /\
       tokenizer_offset it' = (length (pre ++ w) + m)%nat) /\
  (ws r \/ (exists w x r', r = w ++ x ++ r' /\ ws w /\ token_then x r') \/
   (exists w x n k m, r = w ++ x /\ ws w /\ token_error x n k /\ resumes x n k m)).
Proof.
  intros Hi Hr Ho. pose proof (C19_next_or_eof_agrees utf8 pw _ _ Hi Hr) as HA.
  pose proof (C18_peek_is_transparent utf8 pw _ _ Hi Hr) as [HP _].
  destruct (reachable_at utf8 pw pre r it Hi Hr Ho) as [-> Hg]. clear Ho Hr.
  assert (Hsome : (exists w b y, r = w ++ b :: y /\ ws w /\ ~ ws_byte b) -> forall x it', next_or_eof utf8 pw (mk pre r) = (x, it') ->
            tokenizer_next utf8 pw (mk pre r) = (Some x, it')).
  { intros (w & b & y & -> & Hw & Hb) x it' E.
    destruct (tokenizer_next utf8 pw (mk pre (w ++ b :: y))) as [[o|] it2] eqn:En; [congruence|].
    exfalso. destruct HP as [_ HP]. specialize (HP eq_refl). rewrite tokenizer_peek_mk in HP. cbn [fst] in HP.
    pose proof (take_while_app is_ws w (b :: y)) as HT. destruct HT as [_ HT].
    { eapply Forall_impl; [|exact Hw]. intros c Hc. apply is_ws_spec. exact Hc. }
    { cbn. destruct (is_ws b) eqn:Ew; [apply is_ws_spec in Ew; contradiction|reflexivity]. }
    cbn zeta in HP. rewrite HT in HP. discriminate. }
  split; [|split; [|split]].
  - intro Hw. pose proof (tokenizer_next_spec utf8 pw pre r Hg) as G.
    rewrite tokenizer_next_mk in *. cbn zeta in *.
    pose proof (take_while_app is_ws r []) as HT. rewrite app_nil_r in HT. destruct HT as [-> ->].
    { eapply Forall_impl; [|exact Hw]. intros c Hc. apply is_ws_spec. exact Hc. }
    { exact I. }
    eexists. split; [reflexivity|]. unfold tokenizer_offset. rewrite mk_offset. reflexivity.
  - intros w x r' -> Hw Hx. apply (token_then_text pw) in Hx as (tk & Ht & Hst).
    exists tk. eexists. split; [|split; [eapply token_text_spelled; exact Ht|]].
    + apply Hsome; [|apply (next_or_eof_complete utf8 pw pre w x tk r'); assumption].
      destruct (token_text_head _ _ _ Ht) as (b & y & -> & Hb & _). exists w, b, (y ++ r'). auto.
    + unfold tokenizer_offset. rewrite mk_offset. reflexivity.
  - intros w x n k m -> Hw Hx Hm. eexists. split.
    + apply Hsome; [|apply next_left; eassumption].
      destruct (token_error_raised pw _ _ _ Hx) as (b & y & -> & Hb & _). exists w, b, y. auto.
    + reflexivity.
  - pose proof (next_or_eof_spec utf8 pw pre r Hg) as G.
    destruct (next_or_eof utf8 pw (mk pre r)) as [[tk|e|f] it'] eqn:E; [| |destruct G].
    + right. left. destruct G as (w & x & r' & -> & Hw & Ht & _ & Hst). exists w, x, r'. split; [reflexivity|]. split; [exact Hw|].
      apply (token_then_text pw). eauto.
    + destruct (next_raises utf8 pw pre r Hg _ _ E) as (n & k & Hn & _). destruct Hn as [w Hw|w x n k Hw Hx]; [left; exact Hw|].
      right. right. destruct (resumes_some _ _ _ Hx) as (m & Hm). exists w, x, n, k, m. auto.
Qed.

(** Hence the three cases exclude each other, and errors, their offsets and the resumption offsets are unique. *)
Theorem C77_descriptions_unique r : Forall (fun b => b < 256) r -> (N.of_nat (length r) <= isize_max W64) ->
  (forall w x r', r = w ++ x ++ r' -> ws w -> token_then x r' -> ~ ws r) /\
  (forall w x n k, r = w ++ x -> ws w -> token_error x n k -> ~ ws r) /\
  (forall w x r' w2 x2 n k, r = w ++ x ++ r' -> ws w -> token_then x r' -> r = w2 ++ x2 -> ws w2 -> ~ token_error x2 n k) /\
  (forall w x r' w2 x2 r2, r = w ++ x ++ r' -> ws w -> token_then x r' -> r = w2 ++ x2 ++ r2 -> ws w2 -> token_then x2 r2 ->
     length (w ++ x) = length (w2 ++ x2)) /\
  (forall w x n k m w2 x2 n2 k2 m2, r = w ++ x -> ws w -> token_error x n k -> resumes x n k m ->
     r = w2 ++ x2 -> ws w2 -> token_error x2 n2 k2 -> resumes x2 n2 k2 m2 ->
     (length w + n = length w2 + n2)%nat /\ k = k2 /\ (length w + m = length w2 + m2)%nat).
Proof.
  intros Hb Hl.
  assert (Hi : input_ok false W64 ([] ++ r)) by (split; assumption).
  assert (Hr : reachable false W64 ([] ++ r) (BI r 0)) by (exists []; reflexivity).
  destruct (C77_next_exactly false W64 [] r (BI r 0) Hi Hr eq_refl) as (H1 & H2 & H3 & _). cbn [app] in *.
  split; [|split; [|split; [|split]]].
  - intros w x r' E Hw Hx Hws. destruct (H1 Hws) as (it' & E1 & _). destruct (H2 _ _ _ E Hw Hx) as (tk & it2 & E2 & _). congruence.
  - intros w x n k E Hw Hx Hws. destruct (H1 Hws) as (it' & E1 & _). destruct (resumes_some _ _ _ Hx) as (m & Hm).
    destruct (H3 _ _ _ _ _ E Hw Hx Hm) as (it2 & E2 & _). congruence.
  - intros w x r' w2 x2 n k E Hw Hx E' Hw2 Hx2. destruct (H2 _ _ _ E Hw Hx) as (tk & it2 & E2 & _).
    destruct (resumes_some _ _ _ Hx2) as (m & Hm). destruct (H3 _ _ _ _ _ E' Hw2 Hx2 Hm) as (it3 & E3 & _). congruence.
  - intros w x r' w2 x2 r2 E Hw Hx E' Hw2 Hx2. destruct (H2 _ _ _ E Hw Hx) as (tk & it2 & E2 & _ & O2).
    destruct (H2 _ _ _ E' Hw2 Hx2) as (tk3 & it3 & E3 & _ & O3). rewrite E2 in E3. injection E3 as <- <-. congruence.
  - intros w x n k m w2 x2 n2 k2 m2 E Hw Hx Hm E' Hw2 Hx2 Hm2.
    destruct (H3 _ _ _ _ _ E Hw Hx Hm) as (it2 & E2 & O2). destruct (H3 _ _ _ _ _ E' Hw2 Hx2 Hm2) as (it3 & E3 & O3).
    rewrite E2 in E3. injection E3 as -> <- <-. subst. split; [lia|]. split; [reflexivity|congruence].
Qed.

Lemma peeked_total b : exists k, peeked b k.
Proof.
  destruct (in_dec N.eq_dec b (map fst peek_table)) as [H|H].
  - apply in_map_iff in H as ([c k] & <- & H). exists k. constructor. exact H.
  - destruct (N.eq_dec b 45) as [->|H45]; [eexists; apply pk_number; left; reflexivity|].
    destruct (N.leb 48 b && N.leb b 57)%bool eqn:E; [exists PkNumber; apply pk_number; right; unfold digit; lia|].
    exists PkUnrecognized. apply pk_other. unfold token_start, digit. cbn in H |- *. lia.
Qed.
Lemma peek_described r : ws r \/ exists w b y k, r = w ++ b :: y /\ ws w /\ ~ ws_byte b /\ peeked b k.
Proof.
  induction r as [|b r IH]; [left; constructor|].
  destruct (is_ws b) eqn:E.
  - apply is_ws_spec in E. destruct IH as [IH|(w & c & y & k & -> & Hw & Hc & Hk)]; [left; constructor; assumption|].
    right. exists (b :: w), c, y, k. repeat split; auto. constructor; assumption.
  - right. destruct (peeked_total b) as [k Hk]. exists [], b, r, k. repeat split; [constructor| |exact Hk].
    intro Hb. apply is_ws_spec in Hb. congruence.
Qed.

(** [peek]: the table, applied to the first byte that is not whitespace. *)
Theorem C77_peek_exactly utf8 pw pre r it : input_ok utf8 pw (pre ++ r) -> reachable utf8 pw (pre ++ r) it ->
  tokenizer_offset it = length pre ->
  (ws r -> exists it', tokenizer_peek it = (None, it') /\ tokenizer_offset it' = length (pre ++ r)) /\
  (forall w b y k, r = w ++ b :: y -> ws w -> ~ ws_byte b -> peeked b k ->
     exists it', tokenizer_peek it = (Some k, it') /\ tokenizer_offset it' = length (pre ++ w)) /\
  (ws r \/ exists w b y k, r = w ++ b :: y /\ ws w /\ ~ ws_byte b /\ peeked b k).
Proof.
  intros Hi Hr Ho. destruct (reachable_at utf8 pw pre r it Hi Hr Ho) as [-> Hg]. rewrite tokenizer_peek_mk. cbn zeta.
  assert (Hall : forall w, ws w -> Forall (fun b => is_ws b = true) w).
  { intros w Hw. eapply Forall_impl; [|exact Hw]. intros c Hc. apply is_ws_spec. exact Hc. }
  split; [|split; [|apply peek_described]].
  - intro Hw. pose proof (take_while_app is_ws r [] (Hall r Hw) I) as HT. rewrite app_nil_r in HT. destruct HT as [-> ->].
    eexists. split; reflexivity.
  - intros w b y k -> Hw Hb Hk. destruct (take_while_app is_ws w (b :: y) (Hall w Hw)) as [-> ->].
    { cbn. destruct (is_ws b) eqn:Ew; [apply is_ws_spec in Ew; contradiction|reflexivity]. }
    exists (mk (pre ++ w) (b :: y)). split; [|reflexivity]. do 2 f_equal. destruct Hk as [b k Hin|b Hn|b Ho'].
    + cbn [In peek_table] in Hin. repeat (destruct Hin as [Hin|Hin]; [injection Hin as <- <-; reflexivity|]). destruct Hin.
    + unfold digit in Hn. unfold peek_kind_of.
      repeat match goal with |- context [if b =? ?c then _ else _] => destruct (N.eqb_spec b c); [lia|] end.
      destruct ((b =? 45) || ((48 <=? b) && (b <=? 57))) eqn:E; [reflexivity|lia].
    + assert (Hd : ~ digit b) by (intro H; apply Ho'; right; exact H).
      assert (Hin : forall c, In c [123; 125; 91; 93; 44; 58; 34; 45; 116; 102; 110] -> b <> c).
      { intros c Hc ->. apply Ho'. left. exact Hc. }
      unfold digit in Hd. unfold peek_kind_of.
      repeat match goal with |- context [if b =? ?d then _ else _] =>
        destruct (N.eqb_spec b d) as [Eb|_]; [exfalso; apply (Hin d); [cbn [In]; auto 20|exact Eb]|] end.
      destruct ((b =? 45) || ((48 <=? b) && (b <=? 57))) eqn:E.
      { exfalso. apply (Hin 45); [cbn [In]; auto 20|lia]. }
      repeat match goal with |- context [if b =? ?d then _ else _] =>
        destruct (N.eqb_spec b d) as [Eb|_]; [exfalso; apply (Hin d); [cbn [In]; auto 20|exact Eb]|] end.
      reflexivity.
Qed.

(** * Concrete cases *)
Definition resume_sample : list N := bs " ""\ud83dx"" ,nulx-""\q".
Example resume_sample_ok : input_ok true W64 resume_sample.
Proof. split; [apply utf8_valid_iff; vm_compute; reflexivity|vm_compute; discriminate]. Qed.
(** The string is given up after the byte that follows the high surrogate, so its closing quote opens a new string. *)
Example resume_sample_run : exists str,
  fst (tok_run true W64 (tokenizer_new resume_sample) [CallNext; CallPeek; CallNext; CallNextOrEof; CallNext; CallNext]) =
  [ObsNext (Some (Err (Error 3 KUtf8))) 9; ObsPeek (Some PkString) 9; ObsNext (Some (Ok (TkString str))) 18;
   ObsNextOrEof (Err (Error 18 (KUnexpected 92))) 19; ObsNext (Some (Err (Error 19 (KUnexpected 113)))) 20;
   ObsNext None 20] /\ stored str = bs " ,nulx-".
Proof. eexists. split; [vm_compute; reflexivity|vm_compute; reflexivity]. Qed.
Example resume_sample_described : resumes (bs """\ud83dx"" ,nulx-""\q") 2 KUtf8 8 /\
  token_error (bs """\ud83dx"" ,nulx-""\q") 2 KUtf8.
Proof.
  assert (Hh : hex4 (bs "d83d") 0xD83D) by (apply hex4_iff; split; reflexivity).
  assert (Hv : high_surrogate 0xD83D) by (unfold high_surrogate; lia).
  split.
  - apply (gu_no_escape [] [] (bs "d83d") 0xD83D 120 (bs """ ,nulx-""\q")); [constructor|exact Hh|exact Hv|discriminate].
  - apply (te_string _ 1), (se_escape [] [] _ 0); [constructor|].
    apply (ee_high (bs "d83d") 0xD83D (bs "x"" ,nulx-""\q")); [exact Hh|exact Hv|]. constructor. discriminate.
Qed.
