(** Errors of the tokenizer: which error is reported, and where, against SpecError. *)
From Verif Require Import Base Utf8 Utf8Facts StrModel ErrorModel Tokenizer Spec SpecError TokBase TokStr TokNum TokFacts.
Local Open Scope N_scope.

(** [raises m base R]: if [m] is an error then one that [R] describes, with offsets counted from [base]. *)
Definition raises {A} (x : res (error infallible) A * byte_iter) (base : nat) (R : nat -> kind -> Prop) : Prop :=
  forall e it', x = (Err e, it') -> exists n k, R n k /\ e = Error (base + n) k.

(** [raised x o k]: [x] is the error [k] at [o]. *)
Definition raised {A} (x : res (error infallible) A * byte_iter) (o : nat) (k : kind) : Prop :=
  exists it', x = (Err (Error o k), it').

Lemma raised_bind {A B} (m : tok A) (f : A -> tok B) it o k : raised (m it) o k -> raised (tbind m f it) o k.
Proof. intros (it' & E). unfold tbind. rewrite E. exists it'. reflexivity. Qed.

Lemma tbind_err {A B} (m : tok A) (f : A -> tok B) it e it' : tbind m f it = (Err e, it') ->
  m it = (Err e, it') \/ exists a it1, m it = (Ok a, it1) /\ f a it1 = (Err e, it').
Proof.
  unfold tbind. destruct (m it) as [[a|e0|f0] it1]; intro H; [right; eauto|left; congruence|discriminate].
Qed.

(** * Hexadecimal digits *)
Lemma is_hex_iff b : is_hex b <-> exists d, hex_digit b = Some d.
Proof.
  unfold is_hex, digit, hex_digit. split.
  - intro H. ifb; eauto. 
  - intros (d & H). revert H. ifb; intro H; try discriminate; lia.
Qed.

Lemma is_hex_none b : ~ is_hex b <-> hex_digit b = None.
Proof.
  rewrite is_hex_iff. destruct (hex_digit b) as [d|]; split; intro H; try reflexivity; try discriminate.
  - destruct H; eauto.
  - intros (d & E). discriminate.
Qed.

Lemma hex_error_cons n b r m k : is_hex b -> hex_error n r m k -> hex_error (S n) (b :: r) (S m) k.
Proof.
  intros Hb [h Hh Hl|h c x Hh Hl Hc].
  - apply (he_end (S n) (b :: h)); [constructor; assumption|cbn; lia].
  - apply (he_bad (S n) (b :: h)); [constructor; assumption|cbn; lia|exact Hc].
Qed.

Lemma read_hex_raises n : forall acc pre r, raises (read_hex n acc (mk pre r)) (length pre) (hex_error n r).
Proof.
  induction n as [|n IH]; intros acc pre r e it'; cbn [read_hex]; [discriminate|].
  unfold tbind. rewrite bi_read_mk. destruct r as [|b r].
  { intro H. injection H as <- <-. exists 0%nat, KUnexpectedEof. split; [|f_equal; lia].
    apply (he_end (S n) []); [constructor|cbn; lia]. }
  rewrite hex_table. unfold hex_val. destruct (hex_digit b) as [d|] eqn:Hd.
  - pose proof (hex_digit_bound b d Hd). destruct (N.eqb_spec d 255); [lia|]. intro H1.
    destruct (IH _ _ _ _ _ H1) as (m & k & Hm & ->). exists (S m), k. split.
    + apply hex_error_cons; [apply is_hex_iff; eauto|exact Hm].
    + f_equal. rewrite app_length. cbn. lia.
  - cbn. intro H. injection H as <- <-. exists 0%nat, KInvalidHexadecimal. split; [|f_equal; lia].
    apply (he_bad (S n) [] b r); [constructor|cbn; lia|apply is_hex_none; exact Hd].
Qed.

Lemma read_hex_raised n r m k : hex_error n r m k -> forall acc pre,
  raised (read_hex n acc (mk pre r)) (length pre + m) k.
Proof.
  assert (H : forall h x c, Forall is_hex h -> (length h < n)%nat -> x = [] \/ (exists y, x = c :: y /\ ~ is_hex c) ->
    forall acc pre, raised (read_hex n acc (mk pre (h ++ x))) (length pre + length h)
      (match x with [] => KUnexpectedEof | _ => KInvalidHexadecimal end)).
  { induction n as [|n' IH]; intros h x c Hh Hl Hx acc pre; [lia|]. unfold raised. cbn [read_hex]. unfold tbind.
    destruct Hh as [|b h Hb Hh]; cbn [app length].
    - rewrite bi_read_mk. destruct Hx as [->|(y & -> & Hc)]; [eexists; rewrite Nat.add_0_r; reflexivity|].
      rewrite hex_table. unfold hex_val. apply is_hex_none in Hc. rewrite Hc. cbn. rewrite Nat.add_0_r. eexists; reflexivity.
    - rewrite bi_read_mk, hex_table. unfold hex_val. apply is_hex_iff in Hb as (d & Hd). rewrite Hd.
      pose proof (hex_digit_bound b d Hd). destruct (N.eqb_spec d 255); [lia|]. cbn [length] in Hl.
      destruct (IH h x c Hh ltac:(lia) Hx (N.lor (N.shiftl acc 4) d) (pre ++ [b])) as (it' & E).
      exists it'. rewrite E, app_length. cbn [length]. do 3 f_equal. lia. }
  intros [h Hh Hl|h c x Hh Hl Hc] acc pre.
  - specialize (H h [] 0 Hh Hl (or_introl eq_refl) acc pre). rewrite app_nil_r in H. exact H.
  - apply (H h (c :: x) c Hh Hl); eauto.
Qed.

(** * Escapes *)
Lemma scalar_false_u16 v : v < 65536 -> is_scalar v = false -> high_surrogate v \/ low_surrogate v.
Proof. unfold is_scalar, high_surrogate, low_surrogate. lia. Qed.

Lemma escape_letter c : In c (map fst simple_escapes) <->
  (c =? 34) || (c =? 92) || (c =? 47) || (c =? 98) || (c =? 102) || (c =? 114) || (c =? 110) || (c =? 116) = true.
Proof. cbn [map simple_escapes fst In]. lia. Qed.

Lemma add_escape_no_err pw i n e it it' : tlift (add_bytes_from_escape pw i n) it <> (Err e, it').
Proof. unfold tlift, add_bytes_from_escape. destruct (checked_add _ _ _); discriminate. Qed.

Lemma read_escape_raises pw i pre r : raises (read_string_escape pw i (mk pre r)) (length pre) (escape_error r).
Proof.
  intros e it' H. unfold read_string_escape in H. apply tbind_err in H.
  rewrite bi_read_mk in H. destruct r as [|b r].
  { destruct H as [H|(a & it1 & H & _)]; [|discriminate]. injection H as <- <-.
    exists 0%nat, KUnexpectedEof. split; [constructor|f_equal; lia]. }
  destruct H as [H|([o c] & it1 & H1 & H)]; [discriminate|]. injection H1 as <- <- <-.
  destruct ((b =? 34) || (b =? 92) || (b =? 47) || (b =? 98) || (b =? 102) || (b =? 114) ||
            (b =? 110) || (b =? 116)) eqn:Hs.
  { exfalso. exact (add_escape_no_err _ _ _ _ _ _ H). }
  destruct (N.eqb_spec b 117) as [->|Hb].
  2:{ injection H as <- <-. exists 0%nat, KInvalidEscape. split; [|f_equal; lia]. constructor.
      intros [E|Hin]; [congruence|]. apply escape_letter in Hin. congruence. }
  apply tbind_err in H as [H|(v & it1 & H1 & H)].
  { destruct (read_hex_raises _ _ _ _ _ _ H) as (n & k & Hn & ->). exists (1 + n)%nat, k.
    split; [constructor; exact Hn|]. f_equal. rewrite app_length. cbn. lia. }
  pose proof (read_hex_spec 4 0 (pre ++ [117]) r) as Hh. rewrite H1 in Hh.
  destruct Hh as (h & r1 & -> & Lh & -> & Hv).
  assert (H4 : hex4 h v) by (apply hex4_iff; auto). pose proof (hex4_bound _ _ H4) as Hvb.
  apply tbind_err in H as [H|(ch & it1 & _ & H)]; [|exfalso; exact (add_escape_no_err _ _ _ _ _ _ H)].
  unfold char_from_u32 in H. destruct (is_scalar v) eqn:Hsc; [discriminate|].
  destruct (scalar_false_u16 v Hvb Hsc) as [Hhi|Hlo].
  2:{ exists 0%nat, KUtf8. split; [econstructor; eassumption|].
      unfold read_second_half, HIGH_SURROGATE_MIN, HIGH_SURROGATE_MAX in H. unfold low_surrogate in Hlo.
      destruct ((0xD800 <=? v) && (v <=? 0xDBFF)) eqn:E; [lia|]. injection H as <- _. f_equal. lia. }
  enough (exists n k, second_half_error r1 n k /\ e = Error (length pre + n) k) as (n & k & Hn & ->).
  { exists n, k. split; [eapply ee_high; eassumption|reflexivity]. }
  unfold read_second_half, HIGH_SURROGATE_MIN, HIGH_SURROGATE_MAX in H. unfold high_surrogate in Hhi.
  destruct ((0xD800 <=? v) && (v <=? 0xDBFF)) eqn:E; [|lia].
  assert (Hutf : forall it, @terr N (Error (length pre) KUtf8) it = (Err e, it') ->
    second_half_error r1 0 KUtf8 -> exists n k, second_half_error r1 n k /\ e = Error (length pre + n) k).
  { intros it Eq Hs2. injection Eq as <- _. exists 0%nat, KUtf8. split; [exact Hs2|f_equal; lia]. }
  assert (Hlen : length ((pre ++ [117]) ++ h) = (length pre + 5)%nat) by (rewrite !app_length, Lh; cbn; lia).
  apply tbind_err in H as [H|(o & it1 & H2 & H)].
  - (* errors of reading *)
    apply tbind_err in H. rewrite bi_read_mk in H. destruct r1 as [|b1 r1].
    { destruct H as [H|(a & it1 & H & _)]; [|discriminate]. injection H as <- _.
      exists 5%nat, KUnexpectedEof. split; [constructor|f_equal; exact Hlen]. }
    destruct H as [H|([o c] & it1 & H2 & H)]; [discriminate|]. injection H2 as <- <- <-.
    destruct (N.eqb_spec b1 92) as [->|Hb1]; [|discriminate].
    apply tbind_err in H. rewrite bi_read_mk in H. destruct r1 as [|b2 r1].
    { destruct H as [H|(a & it1 & H & _)]; [|discriminate]. injection H as <- _.
      exists 6%nat, KUnexpectedEof. split; [constructor|]. f_equal. rewrite app_length, Hlen. cbn. lia. }
    destruct H as [H|([o c] & it1 & H2 & H)]; [discriminate|]. injection H2 as <- <- <-.
    destruct (N.eqb_spec b2 117) as [->|Hb2]; [|discriminate].
    apply tbind_err in H as [H|(v2 & it1 & H2 & H)].
    + destruct (read_hex_raises _ _ _ _ _ _ H) as (n & k & Hn & ->). exists (7 + n)%nat, k.
      split; [constructor; exact Hn|]. f_equal. rewrite !app_length, Lh. cbn. lia.
    + destruct ((LOW_SURROGATE_MIN <=? v2) && (v2 <=? LOW_SURROGATE_MAX)); [|discriminate]. apply tbind_err in H as [H|(m & it2 & _ & H)]; [|discriminate].
      unfold tlift in H. exfalso. unfold merge_surrogate_pair, u32_sub in H.
      destruct (_ <=? v); [|discriminate]. destruct (_ <=? v2); discriminate.
  - (* not a pair *)
    destruct o as [m|].
    { unfold tlift, char_from_u32_unchecked in H. destruct (is_scalar m); discriminate. }
    apply (Hutf _ H). clear H Hutf.
    unfold tbind at 1 in H2. rewrite bi_read_mk in H2. destruct r1 as [|b1 r1]; [discriminate|].
    destruct (N.eqb_spec b1 92) as [->|Hb1]; [|constructor; exact Hb1].
    unfold tbind at 1 in H2. rewrite bi_read_mk in H2. destruct r1 as [|b2 r1]; [discriminate|].
    destruct (N.eqb_spec b2 117) as [->|Hb2]; [|constructor; exact Hb2].
    unfold tbind at 1 in H2. rewrite <- app_assoc in H2. 
    pose proof (read_hex_spec 4 0 (((pre ++ [117]) ++ h) ++ [92] ++ [117]) r1) as Hh.
    destruct (read_hex 4 0 _) as [[v2|e2|f2] it2]; [|discriminate..].
    destruct Hh as (h2 & r2 & -> & Lh2 & -> & Hv2).
    apply (sh_not_low h2 v2 r2); [apply hex4_iff; auto|].
    unfold low_surrogate. unfold LOW_SURROGATE_MIN, LOW_SURROGATE_MAX in H2.
    destruct ((0xDC00 <=? v2) && (v2 <=? 0xDFFF)) eqn:E2; [|lia].
    unfold tbind, tlift, tret in H2. destruct (merge_surrogate_pair v v2); discriminate.
Qed.

Lemma second_half_raised v pre r n k (f : option N -> tok N) :
  high_surrogate v -> second_half_error r n k ->
  (forall it, f None it = (Err (Error (length pre) KUtf8), it)) ->
  forall x, length x = 5%nat ->
  raised (tbind (read_second_half v) f (mk (pre ++ x) r)) (length pre + n) k.
Proof.
  unfold high_surrogate. intros Hv Hs Hf x Lx. unfold read_second_half, HIGH_SURROGATE_MIN, HIGH_SURROGATE_MAX.
  destruct ((0xD800 <=? v) && (v <=? 0xDBFF)) eqn:E; [|lia].
  destruct Hs as [|c y Hc| |c y Hc|y m k Hm|h v2 y Hh Hlo].
  - apply raised_bind, raised_bind. rewrite bi_read_mk, app_length, Lx. eexists; reflexivity.
  - unfold tbind at 1 2. rewrite bi_read_mk. destruct (N.eqb_spec c 92); [congruence|]. unfold tret.
    rewrite Hf, Nat.add_0_r. eexists; reflexivity.
  - unfold tbind at 2. apply raised_bind. rewrite bi_read_mk. cbn [N.eqb Pos.eqb]. apply raised_bind.
    rewrite bi_read_mk, !app_length, Lx. cbn [length]. replace (length pre + 6)%nat with (length pre + 5 + 1)%nat by lia.
    eexists; reflexivity.
  - unfold tbind at 1 2. rewrite bi_read_mk. cbn [N.eqb Pos.eqb]. unfold tbind at 1. rewrite bi_read_mk.
    destruct (N.eqb_spec c 117); [congruence|]. unfold tret. rewrite Hf, Nat.add_0_r. eexists; reflexivity.
  - apply raised_bind. unfold tbind at 1. rewrite bi_read_mk. cbn [N.eqb Pos.eqb]. unfold tbind at 1. rewrite bi_read_mk.
    cbn [N.eqb Pos.eqb]. apply raised_bind.
    replace (length pre + (7 + m))%nat with (length (((pre ++ x) ++ [92%N]) ++ [117%N]) + m)%nat
      by (rewrite !app_length, Lx; cbn; lia).
    apply read_hex_raised. exact Hm.
  - apply hex4_iff in Hh as [Lh Hh]. unfold tbind at 1 2. rewrite bi_read_mk. cbn [N.eqb Pos.eqb]. unfold tbind at 1.
    rewrite bi_read_mk. cbn [N.eqb Pos.eqb]. unfold tbind at 1. rewrite <- Lh at 1.
    rewrite (read_hex_complete h 0 _ y v2 Hh). unfold low_surrogate in Hlo. unfold LOW_SURROGATE_MIN, LOW_SURROGATE_MAX.
    destruct ((0xDC00 <=? v2) && (v2 <=? 0xDFFF)) eqn:E2; [lia|]. unfold tret. rewrite Hf, Nat.add_0_r.
    eexists; reflexivity.
Qed.

Lemma read_escape_raised pw i r n k : escape_error r n k -> forall pre,
  raised (read_string_escape pw i (mk pre r)) (length pre + n) k.
Proof.
  intros He pre. unfold read_string_escape.
  destruct He as [|c x Hc|x n k Hh|h v x Hh Hlo|h v x n k Hh Hhi Hs].
  - apply raised_bind. rewrite bi_read_mk, Nat.add_0_r. eexists; reflexivity.
  - unfold tbind at 1. rewrite bi_read_mk.
    destruct ((c =? 34) || (c =? 92) || (c =? 47) || (c =? 98) || (c =? 102) || (c =? 114) ||
            (c =? 110) || (c =? 116)) eqn:E.
    { exfalso. apply Hc. right. apply escape_letter. exact E. }
    destruct (N.eqb_spec c 117) as [->|]; [exfalso; apply Hc; left; reflexivity|].
    rewrite Nat.add_0_r. eexists; reflexivity.
  - unfold tbind at 1. rewrite bi_read_mk. cbn [N.eqb Pos.eqb orb]. apply raised_bind.
    replace (length pre + (1 + n))%nat with (length (pre ++ [117%N]) + n)%nat by (rewrite app_length; cbn; lia).
    apply read_hex_raised. exact Hh.
  - apply hex4_iff in Hh as [Lh Hh]. unfold tbind at 1. rewrite bi_read_mk. cbn [N.eqb Pos.eqb orb].
    unfold tbind at 1. rewrite <- Lh at 1. rewrite (read_hex_complete h 0 _ x v Hh). unfold low_surrogate in Hlo.
    unfold char_from_u32. assert (Es : is_scalar v = false) by (unfold is_scalar; lia). rewrite Es.
    unfold tbind, read_second_half, HIGH_SURROGATE_MIN, HIGH_SURROGATE_MAX.
    destruct ((0xD800 <=? v) && (v <=? 0xDBFF)) eqn:E; [lia|]. rewrite Nat.add_0_r. eexists; reflexivity.
  - apply hex4_iff in Hh as [Lh Hh]. unfold tbind at 1. rewrite bi_read_mk. cbn [N.eqb Pos.eqb orb].
    unfold tbind at 1. rewrite <- Lh at 1. rewrite (read_hex_complete h 0 _ x v Hh).
    unfold char_from_u32. assert (Es : is_scalar v = false) by (unfold high_surrogate, is_scalar in *; lia). rewrite Es.
    apply raised_bind. rewrite <- app_assoc. apply second_half_raised; [exact Hhi|exact Hs|reflexivity|cbn; lia].
Qed.

(** * Strings *)
Definition ends_ascii (b : list N) : Prop := forall y c, b = y ++ [c] -> c < 128.


Lemma ends_ascii_app a b : (b = [] -> ends_ascii a) -> ends_ascii b -> ends_ascii (a ++ b).
Proof.
  intros Ha Hb y c E. destruct b as [|b0 b] using rev_ind.
  - rewrite app_nil_r in E. apply (Ha eq_refl y). exact E.
  - clear IHb. rewrite app_assoc in E. apply app_inj_tail in E as [_ <-]. apply (Hb b). reflexivity.
Qed.

Lemma string_error_app a ca r n k : str_body a ca -> ends_ascii a \/ ~ starts (fun c => 128 <= c) r ->
  string_error r n k -> string_error (a ++ r) (length a + n) k.
Proof.
  intros Ha Hend H. revert Hend. destruct H as [b cs Hb|b cs c x Hb Hc|b cs x m k' Hb He|b cs h x Hb Hlast Hne Hh Hx Hu];
    intro Hend.
  - rewrite <- app_length. eapply se_end. eapply str_body_app; eassumption.
  - rewrite app_assoc, <- app_length. eapply se_control; [eapply str_body_app; eassumption|exact Hc].
  - rewrite app_assoc. replace (length a + (length b + 1 + m))%nat with (length (a ++ b) + 1 + m)%nat by (rewrite app_length; lia).
    eapply se_escape; [eapply str_body_app; eassumption|exact He].
  - rewrite app_assoc, <- app_length. eapply se_utf8; try eassumption; [eapply str_body_app; eassumption|].
    apply ends_ascii_app; [|exact Hlast]. intros ->. destruct Hend as [Hend|Hend]; [exact Hend|].
    exfalso. apply Hend. destruct h as [|h0 h]; [congruence|]. inversion Hh as [|? ? H0 _]. cbn. exact H0.
Qed.

Lemma ends_ascii_all a : Forall (fun b => b < 128) a -> ends_ascii a.
Proof. intros H y c ->. apply Forall_app in H as [_ H]. inversion H as [|? ? H0 _]. exact H0. Qed.

Lemma starts_high_drop r : ~ starts (fun c => 128 <= c) (drop_while high r).
Proof.
  pose proof (drop_while_head high r) as H. destruct (drop_while high r) as [|b r']; cbn; [tauto|].
  unfold high in H. lia.
Qed.

Lemma Forall_high h : Forall (fun b => high b = true) h -> Forall (fun b => 128 <= b) h.
Proof. apply Forall_impl. intros b. unfold high. lia. Qed.

Lemma add_bytes_no_err pw i n : forall e : error infallible, add_bytes pw i n <> Err e.
Proof. intros e. unfold add_bytes. destruct (checked_add _ _ _); discriminate. Qed.

Lemma string_loop_raises pw start : forall fuel esc len pre r,
  len + N.of_nat (length r) <= isize_max pw ->
  raises (read_string_loop false pw fuel start (info_new pw esc len) (mk pre r)) (length pre) (string_error r).
Proof.
  induction fuel as [|fuel IH]; intros esc len pre r Hlen e it'; [discriminate|].
  cbn [read_string_loop]. rewrite bi_next_mk. destruct r as [|b r].
  { intro H. injection H as <- <-. exists 0%nat, KUnclosedString. split; [|f_equal; cbn; lia].
    apply (se_end [] []). constructor. }
  cbn [length] in Hlen.
  unfold safe_string_bytes_verify_utf8. rewrite safe_table_spec, andb_false_r, orb_false_r.
  assert (Hstep : forall a c r1 esc1 len1 pre1, str_body a c -> ends_ascii a \/ ~ starts (fun c => 128 <= c) r1 ->
    b :: r = a ++ r1 -> len1 + N.of_nat (length r1) <= isize_max pw -> pre1 = pre ++ a ->
    read_string_loop false pw fuel start (info_new pw esc1 len1) (mk pre1 r1) = (Err e, it') ->
    exists n k, string_error (b :: r) n k /\ e = Error (length pre + n) k).
  { intros a c r1 esc1 len1 pre1 Ha Hend E Hl -> H. destruct (IH esc1 len1 (pre ++ a) r1 Hl e it' H) as (n & k & Hn & ->).
    exists (length a + n)%nat, k. rewrite E. split; [eapply string_error_app; eassumption|].
    f_equal. rewrite app_length. lia. }
  destruct ((32 <=? b) && negb (b =? 34) && negb (b =? 92) && (b <? 128)) eqn:Hsafe.
  { unfold tbind, tlift. rewrite add_bytes_info by lia. intro H.
    eapply (Hstep [b] [b] r); [| |reflexivity| |reflexivity|exact H]; [|left; apply ends_ascii_all; repeat constructor; lia|lia].
    apply str_body_one. rewrite <- (utf8_encode_ascii b) by lia. apply si_plain; [apply is_scalar_spec|..]; lia. }
  destruct (N.eqb_spec b 34) as [->|Hn34].
  { unfold tbind, tlift. destruct (str_unchecked _ _ _) eqn:Eu; intro H; try discriminate.
    exfalso. unfold str_unchecked in Eu. destruct (slice _ _ _) as [s|]; [|discriminate]. destruct (utf8_valid s); discriminate. }
  destruct (N.eqb_spec b 92) as [->|Hn92].
  { intro H. apply tbind_err in H as [H|(i & it1 & H1 & H)].
    - destruct (read_escape_raises _ _ _ _ _ _ H) as (n & k & Hn & ->). exists (1 + n)%nat, k.
      split; [apply (se_escape [] []); [constructor|exact Hn]|]. f_equal. rewrite app_length. cbn. lia.
    - pose proof (read_string_escape_spec pw esc len (pre ++ [92]) r ltac:(lia)) as Hx. rewrite H1 in Hx.
      destruct Hx as (x & c & r1 & -> & Hi & -> & ->). pose proof (esc_item _ _ Hi) as (Hxa & Hl & _).
      eapply (Hstep (92 :: x) [c] r1); [apply str_body_one; exact Hi|left; apply ends_ascii_all; constructor; [lia|exact Hxa]|reflexivity| | |exact H].
      + rewrite app_length in Hlen. lia.
      + rewrite <- app_assoc. reflexivity. }
  destruct (N.leb_spec 128 b) as [Hhi|Hlo].
  - rewrite skip_high_mk, mk_offset, <- app_assoc.
    pose proof (take_while_all high r) as Hall. pose proof (take_drop high r) as Hr. pose proof (starts_high_drop r) as Hst.
    set (h := take_while high r) in *. set (r1 := drop_while high r) in *. clearbody h r1. subst r. cbn [app].
    rewrite app_length in Hlen.
    replace (length (pre ++ b :: h) - length pre)%nat with (S (length h)) by (rewrite app_length; cbn [length]; lia).
    unfold tbind, tlift. rewrite add_bytes_info by lia. rewrite mk_bytes.
    rewrite slice_mid by (rewrite ?app_length; cbn; lia).
    assert (Hall' : Forall (fun b => high b = true) (b :: h)) by (constructor; [unfold high; lia|exact Hall]).
    destruct (utf8_valid (b :: h)) eqn:Hv.
    + destruct (high_run_body _ Hall' Hv) as (ch & Hbh & Hch). intro H.
      eapply (Hstep (b :: h) ch r1); [exact Hbh|right; exact Hst|reflexivity| |reflexivity|exact H]. lia.
    + unfold terr. intro H. injection H as <- <-. exists 0%nat, KUtf8. split; [|f_equal; lia].
      apply (se_utf8 [] [] (b :: h) r1); [constructor| |discriminate|apply Forall_high; exact Hall'|exact Hst|].
      * intros y c E. destruct y; discriminate.
      * intro Hu. apply utf8_valid_iff in Hu. congruence.
  - destruct (N.leb_spec b 31) as [Hc|Hc]; [|discriminate].
    intro H. injection H as <- <-. exists 0%nat, (KUnexpected b). split; [|f_equal; lia].
    apply (se_control [] []); [constructor|lia].
Qed.

Lemma ends_ascii_tail a b : ends_ascii (a ++ b) -> ends_ascii b.
Proof. intros H y c ->. apply (H (a ++ y)). apply app_assoc. Qed.

Lemma string_loop_run pw start : forall n fuel t cs x esc len pre,
  (length t <= n)%nat -> (length t <= fuel)%nat -> len + N.of_nat (length t) <= isize_max pw -> str_body t cs ->
  ends_ascii t \/ ~ starts (fun c => 128 <= c) x ->
  exists fuel' esc' len', (fuel <= fuel' + length t)%nat /\ len' <= len + N.of_nat (length t) /\
    read_string_loop false pw fuel start (info_new pw esc len) (mk pre (t ++ x)) =
    read_string_loop false pw fuel' start (info_new pw esc' len') (mk (pre ++ t) x).
Proof.
  induction n as [|n IH]; intros fuel t cs x esc len pre Hn Hf Hlen Hb Hend.
  { destruct t; [|cbn in Hn; lia]. exists fuel, esc, len. rewrite app_nil_r. cbn. split; [lia|]. split; [lia|reflexivity]. }
  destruct (str_body_run t cs Hb) as (h & ch & t2 & cs2 & -> & -> & Hh & Hvh & Eh & Hb2 & Ht2).
  destruct h as [|b h].
  - clear Hb. cbn [app] in *. destruct Hb2 as [|a c r' cs' Ha Hr].
    { exists fuel, esc, len. rewrite app_nil_r. cbn. split; [lia|]. split; [lia|reflexivity]. }
    rewrite app_length in *.
    assert (Hstep : forall fuel1 esc1 len1, (fuel <= fuel1 + length a)%nat -> len1 <= len + N.of_nat (length a) ->
      (length a <> 0)%nat -> (length r' <= fuel1)%nat ->
      read_string_loop false pw fuel start (info_new pw esc len) (mk pre ((a ++ r') ++ x)) =
      read_string_loop false pw fuel1 start (info_new pw esc1 len1) (mk (pre ++ a) (r' ++ x)) ->
      exists fuel' esc' len', (fuel <= fuel' + (length a + length r'))%nat /\ len' <= len + N.of_nat (length a + length r') /\
        read_string_loop false pw fuel start (info_new pw esc len) (mk pre ((a ++ r') ++ x)) =
        read_string_loop false pw fuel' start (info_new pw esc' len') (mk (pre ++ a ++ r') x)).
    { intros fuel1 esc1 len1 Hf1 Hl1 Hne Hf2 E.
      destruct (IH fuel1 r' cs' x esc1 len1 (pre ++ a)) as (f2 & e2 & l2 & H1 & H2 & H3); auto; try lia.
      { destruct Hend as [H|H]; [left; apply ends_ascii_tail in H; exact H|right; exact H]. }
      exists f2, e2, l2. split; [lia|]. split; [lia|]. rewrite E, H3, app_assoc. reflexivity. }
    assert (Hesc : forall y, a = 92 :: y -> str_item (92 :: y) c ->
      exists fuel' esc' len', (fuel <= fuel' + (length a + length r'))%nat /\ len' <= len + N.of_nat (length a + length r') /\
        read_string_loop false pw fuel start (info_new pw esc len) (mk pre ((a ++ r') ++ x)) =
        read_string_loop false pw fuel' start (info_new pw esc' len') (mk (pre ++ a ++ r') x)).
    { intros y -> Hi. destruct fuel as [|fuel]; [cbn in Hf; lia|]. pose proof (esc_item y c Hi) as (Hx & Hcl & _).
      apply (Hstep fuel true (len + N.of_nat (len_utf8 c))); cbn [length] in *; try lia.
      cbn [app read_string_loop]. rewrite bi_next_mk. unfold safe_string_bytes_verify_utf8. rewrite safe_table_spec.
      cbn [N.leb N.compare Pos.compare Pos.compare_cont N.eqb Pos.eqb andb negb].
      unfold tbind. rewrite <- (app_assoc y), (read_string_escape_complete pw esc len _ y c) by (assumption || lia).
      rewrite <- app_assoc. reflexivity. }
    inversion Ha as [y Hs Hy H1 H2 Ey|b y Hin Eb|h u Hhx Hu Ehx|h1 hi h2 lo Hh1 Hhi Hh2 Hlo Ep]; subst;
      try (eapply Hesc; [reflexivity|assumption]). clear Hesc.
    assert (Hc : c < 128).
    { destruct (N.ltb_spec c 128); [assumption|]. exfalso.
      pose proof (utf8_encode_high c H) as F. pose proof (utf8_encode_nonnil c).
      destruct (utf8_encode c) as [|b0' bs']; [congruence|]. cbn in Ht2. inversion F. unfold high in Ht2. lia. }
    rewrite (utf8_encode_ascii c) in * by exact Hc. cbn [length] in *. destruct fuel as [|fuel]; [lia|].
    apply (Hstep fuel esc (len + 1)); try lia.
    cbn [app read_string_loop]. rewrite bi_next_mk. unfold safe_string_bytes_verify_utf8. rewrite safe_table_spec.
    destruct ((32 <=? c) && negb (c =? 34) && negb (c =? 92) && ((c <? 128) || (c <? 256) && false)) eqn:E; [|lia].
    unfold tbind, tlift. rewrite add_bytes_info by lia. reflexivity.
  - inversion Hh as [|? ? Hb1 Hh']. subst x0 l. rewrite <- app_assoc. rewrite app_length in *. cbn [app length] in *.
    destruct fuel as [|fuel]; [lia|].
    assert (Hend2 : ends_ascii t2 \/ ~ starts (fun c => 128 <= c) x).
    { destruct Hend as [H|H]; [left; apply (ends_ascii_tail (b :: h)); exact H|right; exact H]. }
    destruct (IH fuel t2 cs2 x esc (len + N.of_nat (S (length h))) (pre ++ b :: h)) as (f2 & e2 & l2 & H1 & H2 & H3);
      auto; try lia.
    exists f2, e2, l2. split; [lia|]. split; [lia|].
    cbn [read_string_loop]. rewrite bi_next_mk. unfold safe_string_bytes_verify_utf8. rewrite safe_table_spec.
    unfold high in Hb1. rewrite andb_false_r, orb_false_r.
    destruct (N.ltb_spec b 128); [discriminate|]. rewrite andb_false_r.
    destruct (N.eqb_spec b 34); [lia|]. destruct (N.eqb_spec b 92); [lia|].
    destruct (N.leb_spec 128 b); [|lia].
    rewrite skip_high_mk.
    destruct (take_while_app high h (t2 ++ x)) as [-> ->]; [exact Hh'| |].
    { destruct t2 as [|b2 t2]; [|exact Ht2]. cbn [app].
      destruct Hend as [Hend|Hend].
      - exfalso. rewrite app_nil_r in Hend. destruct (exists_last (l := b :: h)) as (y & z & E); [discriminate|].
        pose proof (Hend y z E). rewrite E in Hh. apply Forall_app in Hh as [_ Hz]. inversion Hz as [|? ? Hz0 _].
        unfold high in Hz0. lia.
      - destruct x as [|x0 x]; [exact I|]. cbn in Hend. unfold high. lia. }
    rewrite mk_offset, <- app_assoc. cbn [app].
    replace (length (pre ++ b :: h) - length pre)%nat with (S (length h)) by (rewrite app_length; cbn [length]; lia).
    unfold tbind, tlift. rewrite add_bytes_info by lia. rewrite mk_bytes.
    rewrite slice_mid by (rewrite ?app_length; cbn; lia).
    rewrite Hvh, H3, <- app_assoc. reflexivity.
Qed.

Lemma string_loop_raised pw start r n k : string_error r n k -> forall fuel esc len pre,
  (length r < fuel)%nat -> len + N.of_nat (length r) <= isize_max pw ->
  raised (read_string_loop false pw fuel start (info_new pw esc len) (mk pre r)) (length pre + n) k.
Proof.
  intros Hs fuel esc len pre Hf Hlen.
  destruct Hs as [b cs Hb|b cs c x Hb Hc|b cs x n k Hb He|b cs h x Hb Hlast Hne Hh Hx Hu].
  - destruct (string_loop_run pw start (length b) fuel b cs [] esc len pre) as (f2 & e2 & l2 & H1 & H2 & H3);
      auto; try lia; try (right; cbn; tauto).
    rewrite app_nil_r in H3. rewrite H3. destruct f2 as [|f2]; [lia|]. cbn [read_string_loop]. rewrite bi_next_mk.
    rewrite mk_offset, app_length. eexists; reflexivity.
  - rewrite app_length in *. cbn [length] in *.
    destruct (string_loop_run pw start (length b) fuel b cs (c :: x) esc len pre) as (f2 & e2 & l2 & H1 & H2 & H3);
      auto; try lia; try (right; cbn; lia).
    rewrite H3. destruct f2 as [|f2]; [lia|]. cbn [read_string_loop]. rewrite bi_next_mk.
    unfold safe_string_bytes_verify_utf8. rewrite safe_table_spec.
    destruct ((32 <=? c) && negb (c =? 34) && negb (c =? 92) && ((c <? 128) || (c <? 256) && false)) eqn:E; [lia|].
    destruct (N.eqb_spec c 34); [lia|]. destruct (N.eqb_spec c 92); [lia|]. destruct (N.leb_spec 128 c); [lia|].
    destruct (N.leb_spec c 31); [|lia]. rewrite app_length. eexists; reflexivity.
  - rewrite app_length in *. cbn [length] in *.
    destruct (string_loop_run pw start (length b) fuel b cs (92 :: x) esc len pre) as (f2 & e2 & l2 & H1 & H2 & H3);
      auto; try lia; try (right; cbn; lia).
    rewrite H3. destruct f2 as [|f2]; [lia|]. cbn [read_string_loop]. rewrite bi_next_mk.
    unfold safe_string_bytes_verify_utf8. rewrite safe_table_spec.
    cbn [N.leb N.compare Pos.compare Pos.compare_cont N.eqb Pos.eqb andb negb]. apply raised_bind.
    replace (length pre + (length b + 1 + n))%nat with (length ((pre ++ b) ++ [92%N]) + n)%nat by (rewrite !app_length; cbn; lia).
    apply read_escape_raised. exact He.
  - rewrite !app_length in *.
    destruct (string_loop_run pw start (length b) fuel b cs (h ++ x) esc len pre) as (f2 & e2 & l2 & H1 & H2 & H3);
      auto; try lia.
    destruct h as [|h0 h]; [congruence|]. cbn [length app] in *. inversion Hh as [|? ? Hh0 Hh']. subst x0 l.
    rewrite H3. destruct f2 as [|f2]; [lia|]. cbn [read_string_loop]. rewrite bi_next_mk.
    unfold safe_string_bytes_verify_utf8. rewrite safe_table_spec.
    destruct ((32 <=? h0) && negb (h0 =? 34) && negb (h0 =? 92) && ((h0 <? 128) || (h0 <? 256) && false)) eqn:E; [lia|].
    destruct (N.eqb_spec h0 34); [lia|]. destruct (N.eqb_spec h0 92); [lia|].
    destruct (N.leb_spec 128 h0); [|lia].
    rewrite skip_high_mk.
    destruct (take_while_app high h x) as [-> ->].
    { eapply Forall_impl; [|exact Hh']. cbv beta. intros z Hz. unfold high. lia. }
    { destruct x as [|x0 x]; [exact I|]. cbn in Hx. unfold high. lia. }
    rewrite mk_offset, <- app_assoc. cbn [app].
    replace (length ((pre ++ b) ++ h0 :: h) - length (pre ++ b))%nat with (S (length h)) by (rewrite (app_length (pre ++ b)); cbn [length]; lia).
    unfold tbind, tlift. rewrite add_bytes_info by lia. rewrite mk_bytes.
    rewrite slice_mid by (rewrite ?app_length; cbn; lia).
    destruct (utf8_valid (h0 :: h)) eqn:Ev; [exfalso; apply Hu, utf8_valid_iff; exact Ev|].
    rewrite app_length. eexists; reflexivity.
Qed.

(** * Numbers *)
Lemma starts_digit r : ~ starts digit r <-> not_digit_head r.
Proof. destruct r; cbn; tauto. Qed.

Lemma take_digits_nil r : take_while is_digit r = [] <-> not_digit_head r.
Proof.
  destruct r as [|b r]; cbn; [tauto|]. destruct (is_digit b) eqn:E.
  - apply is_digit_spec in E. split; [discriminate|tauto].
  - split; [|reflexivity]. intros _ H. apply is_digit_spec in H. congruence.
Qed.

Lemma number_then_iff t r : number_then t r <-> num_token t r.
Proof.
  split.
  - intros [m i f e r' Hm Hi Hf He H1 H2 H3 H4 H5]. exists m i f e; [reflexivity|exact Hm|..].
    + destruct Hi as [->|Hi]; [left; reflexivity|right]. split; [exact Hi|]. apply starts_digit, H1.
      destruct Hi as (d & ds & Hd & _ & ->). intro E. injection E as -> _. lia.
    + destruct Hf as [->|Hf]; [left|right].
      * split; [reflexivity|]. specialize (H2 eq_refl). destruct (e ++ r'); cbn in *; auto.
      * split; [exact Hf|]. apply starts_digit, H3. destruct Hf as (ds & _ & ->). discriminate.
    + destruct He as [->|He]; [left|right].
      * split; [reflexivity|]. specialize (H4 eq_refl). destruct r'; cbn in *; auto.
      * split; [exact He|]. apply starts_digit, H5. destruct He as (x & sg & ds & _ & _ & _ & ->). discriminate.
  - intros [m i f e -> Hm Hi Hf He]. constructor; auto.
    + destruct Hi as [->|[Hi _]]; [left; reflexivity|right; exact Hi].
    + destruct Hf as [[-> _]|[Hf _]]; [left; reflexivity|right; exact Hf].
    + destruct He as [[-> _]|[He _]]; [left; reflexivity|right; exact He].
    + intro Hn. destruct Hi as [->|[_ Hr]]; [congruence|]. apply starts_digit, Hr.
    + intros ->. destruct Hf as [[_ Hr]|[(ds & _ & E) _]]; [|discriminate]. destruct (e ++ r); cbn in *; auto.
    + intro Hn. destruct Hf as [[-> _]|[_ Hr]]; [congruence|]. apply starts_digit, Hr.
    + intros ->. destruct He as [[_ Hr]|[(x & sg & ds & _ & _ & _ & E) _]]; [|discriminate]. destruct r; cbn in *; auto. lia.
    + intro Hn. destruct He as [[-> _]|[_ Hr]]; [congruence|]. apply starts_digit, Hr.
Qed.

(** The integer part. *)
Lemma int_stage st p c r : init_ok st c ->
  (c = 45 /\ not_digit_head r /\
     read_number_int st (mk (p ++ [c]) r) = (Err (Error (length p + 1) KExpectedDigit), mk (p ++ [c]) r)) \/
  (exists m i r1, num_minus m /\ num_int i /\ c :: r = m ++ i ++ r1 /\
     read_number_int st (mk (p ++ [c]) r) = (Ok tt, mk (p ++ m ++ i) r1)).
Proof.
  intro Hst. rewrite read_number_int_mk. destruct st; cbn in Hst.
  - right. subst c. exists [], [48], r. split; [left; reflexivity|]. split; [left; reflexivity|]. auto.
  - right. exists [], (c :: take_while is_digit r), (drop_while is_digit r). split; [left; reflexivity|].
    split; [right; exists c, (take_while is_digit r); split; [exact Hst|]; split; [apply digits_take|reflexivity]|].
    split; [cbn; rewrite take_drop; reflexivity|]. rewrite <- app_assoc. reflexivity.
  - subst c. destruct r as [|b r].
    { left. split; [reflexivity|]. split; [exact I|]. rewrite app_length. reflexivity. }
    destruct (N.eqb_spec b 48) as [->|Hb].
    { right. exists [45], [48], r. split; [right; reflexivity|]. split; [left; reflexivity|]. split; [reflexivity|].
      rewrite <- app_assoc. reflexivity. }
    destruct (is_digit b) eqn:Ed.
    + right. exists [45], (take_while is_digit (b :: r)), (drop_while is_digit (b :: r)).
      split; [right; reflexivity|]. cbn [take_while drop_while]. rewrite Ed. apply is_digit_spec in Ed. unfold digit in Ed.
      split; [right; exists b, (take_while is_digit r); split; [lia|]; split; [apply digits_take|reflexivity]|].
      split; [cbn; rewrite take_drop; reflexivity|]. rewrite <- app_assoc. reflexivity.
    + left. split; [reflexivity|]. split; [|rewrite app_length; reflexivity].
      cbn. intro H. apply is_digit_spec in H. congruence.
Qed.

Lemma num_tail_no_err a it e it' :
  (let! it := get_iter in let! s := tlift (str_unchecked it a (bi_offset it)) in tret (JNum (Borrowed s))) it <> (Err e, it').
Proof.
  unfold tbind, get_iter, tlift, str_unchecked. destruct (slice _ _ _) as [s|]; [|discriminate].
  destruct (utf8_valid s); discriminate.
Qed.

Lemma read_number_raises st p c r : init_ok st c ->
  raises (read_number_from_source st (length p) (mk (p ++ [c]) r)) (length p) (number_error (c :: r)).
Proof.
  intros Hst e it' H. unfold read_number_from_source in H. unfold tbind at 1 in H.
  destruct (int_stage st p c r Hst) as [(-> & Hr & E)|(m & i & r1 & Hm & Hi & Er & E)]; rewrite E in H.
  { injection H as <- <-. exists 1%nat, KExpectedDigit. split; [|reflexivity]. constructor. apply starts_digit. exact Hr. }
  rewrite Er. unfold tbind at 1 in H. rewrite read_number_frac_mk in H.
  assert (Htail : forall f r2, num_frac f -> r1 = f ++ r2 ->
    (let! _ := read_number_exp in let! it := get_iter in let! s := tlift (str_unchecked it (length p) (bi_offset it)) in
       tret (JNum (Borrowed s))) (mk ((p ++ m ++ i) ++ f) r2) = (Err e, it') ->
    exists n k, number_error (m ++ i ++ r1) n k /\ e = Error (length p + n) k).
  { intros f r2 Hf -> H1. apply tbind_err in H1 as [H1|(u & it1 & _ & H1)].
    2:{ exfalso. exact (num_tail_no_err _ _ _ _ H1). }
    rewrite read_number_exp_mk in H1. destruct r2 as [|b r2]; [discriminate|].
    destruct ((b =? 101) || (b =? 69)) eqn:Eb; [|discriminate]. cbn zeta in H1.
    destruct (take_while is_digit _) as [|d ds] eqn:Etk; [|discriminate]. injection H1 as <- _.
    assert (Hsg : r2 = opt_sign r2 ++ skipn (length (opt_sign r2)) r2 /\
      (opt_sign r2 = [43] \/ opt_sign r2 = [45] \/
       opt_sign r2 = [] /\ ~ starts (fun c => c = 43 \/ c = 45) (skipn (length (opt_sign r2)) r2))).
    { destruct r2 as [|s r2]; [split; [reflexivity|right; right; split; [reflexivity|cbn; tauto]]|].
      cbn [opt_sign]. unfold is_sign. destruct ((s =? 45) || (s =? 43)) eqn:Es; cbn [length skipn app].
      - split; [reflexivity|]. assert (s = 45 \/ s = 43) as [->| ->] by lia; auto.
      - split; [reflexivity|]. right; right. split; [reflexivity|]. cbn. lia. }
    destruct Hsg as [E2 Hsg]. set (sg := opt_sign r2) in *. set (r3 := skipn (length sg) r2) in *. rewrite E2.
    exists (length (m ++ i ++ f) + 1 + length sg)%nat, KExpectedExponent. split.
    - apply ne_exp; auto; [lia|]. apply starts_digit, take_digits_nil. exact Etk.
    - f_equal. rewrite !app_length. lia. }
  destruct r1 as [|b r1].
  { apply (Htail [] []); [left; reflexivity|reflexivity|]. rewrite app_nil_r. exact H. }
  destruct (N.eqb_spec b 46) as [->|Hb].
  2:{ apply (Htail [] (b :: r1)); [left; reflexivity|reflexivity|]. rewrite app_nil_r. exact H. }
  pose proof (take_drop is_digit r1) as Etd.
  destruct (take_while is_digit r1) as [|d ds] eqn:Etk.
  - injection H as <- <-. exists (length (m ++ i) + 1)%nat, KExpectedDecimalDigit. split.
    + apply ne_frac; auto. apply starts_digit, take_digits_nil. exact Etk.
    + f_equal. rewrite app_length. lia.
  - apply (Htail (46 :: d :: ds) (drop_while is_digit r1)); [right; exists (d :: ds); split; [|reflexivity]|cbn; cbn in Etd; rewrite Etd; reflexivity|exact H].
    eapply digits_of_take; exact Etk.
Qed.

(** The integer part, when it is well-formed and stops. *)
Lemma int_run st p c y m i r1 : init_ok st c -> num_minus m -> num_int i -> not_digit_head r1 ->
  c :: y = m ++ i -> read_number_int st (mk (p ++ [c]) (y ++ r1)) = (Ok tt, mk (p ++ m ++ i) r1).
Proof.
  intros Hst Hm Hi Hr E. rewrite read_number_int_mk.
  assert (Ep : p ++ m ++ i = (p ++ [c]) ++ y) by (rewrite <- E, <- app_assoc; reflexivity).
  destruct Hm as [-> | ->]; cbn [app] in E; rewrite Ep; clear Ep.
  - destruct Hi as [->|(d & ds & Hd & Hds & ->)]; injection E as -> ->.
    + destruct st; cbn in Hst; [|lia|lia]. cbn [app]. rewrite app_nil_r. reflexivity.
    + destruct st; cbn in Hst; [lia| |lia]. destruct (digits_take_app ds r1 Hds Hr) as [-> ->]. reflexivity.
  - injection E as -> ->. destruct st; cbn in Hst; [lia|lia|].
    destruct Hi as [->|(d & ds & Hd & Hds & ->)].
    + reflexivity.
    + cbn [app]. destruct (N.eqb_spec d 48); [lia|]. destruct (is_digit d) eqn:Edg; [|unfold is_digit in Edg; lia].
      change (d :: ds ++ r1) with ((d :: ds) ++ r1).
      destruct (digits_take_app (d :: ds) r1) as [-> ->]; [constructor; [unfold digit; lia|exact Hds]|exact Hr|]. reflexivity.
Qed.

Lemma number_head m i : num_minus m -> num_int i -> exists c y st, m ++ i = c :: y /\ init_ok st c.
Proof.
  intros [-> | ->] Hi.
  - destruct Hi as [->|(d & ds & Hd & Hds & ->)]; [exists 48, [], INZero|exists d, ds, INDigit]; cbn; auto.
  - exists 45, i, INSign. split; reflexivity.
Qed.

(** The initial state the tokenizer chooses for a first byte. *)
Definition init_of (c : N) : initial_number_state := if c =? 45 then INSign else if c =? 48 then INZero else INDigit.

Lemma init_unique st c : init_ok st c -> st = init_of c.
Proof.
  unfold init_of. destruct st; cbn; intro H; [subst; reflexivity| |subst; reflexivity].
  destruct (N.eqb_spec c 45); [lia|]. destruct (N.eqb_spec c 48); [lia|reflexivity].
Qed.

Lemma read_number_raised x n k : number_error x n k -> exists c r, x = c :: r /\ init_ok (init_of c) c /\
  forall p, raised (read_number_from_source (init_of c) (length p) (mk (p ++ [c]) r)) (length p + n) k.
Proof.
  intros [r Hr|m i r Hm Hi Hr|m i f e sg r Hm Hi Hf He Hsg Hr].
  - exists 45, r. split; [reflexivity|]. split; [reflexivity|]. intro p. unfold read_number_from_source. apply raised_bind.
    cbn [init_of N.eqb Pos.eqb]. rewrite read_number_int_mk, app_length. apply starts_digit in Hr.
    destruct r as [|b r]; [eexists; reflexivity|]. cbn in Hr.
    destruct (N.eqb_spec b 48) as [->|]; [exfalso; apply Hr; unfold digit; lia|].
    destruct (is_digit b) eqn:E; [apply is_digit_spec in E; contradiction|]. eexists; reflexivity.
  - destruct (number_head m i Hm Hi) as (c & y & st & E & Hst). exists c, (y ++ 46 :: r).
    split; [rewrite app_assoc, E; reflexivity|]. pose proof (init_unique _ _ Hst) as <-. split; [exact Hst|].
    intro p. unfold read_number_from_source, tbind at 1.
    rewrite (int_run st p c y m i (46 :: r) Hst Hm Hi); [|cbn; unfold digit; lia|symmetry; exact E].
    apply raised_bind. rewrite read_number_frac_mk. cbn [N.eqb Pos.eqb].
    apply starts_digit, take_digits_nil in Hr. rewrite Hr.
    replace (length p + (length (m ++ i) + 1))%nat with (length (p ++ m ++ i) + 1)%nat by (rewrite app_length; lia).
    eexists; reflexivity.
  - destruct (number_head m i Hm Hi) as (c & y & st & E & Hst). exists c, (y ++ f ++ e :: sg ++ r).
    split; [rewrite app_assoc, E; reflexivity|]. pose proof (init_unique _ _ Hst) as <-. split; [exact Hst|].
    intro p. unfold read_number_from_source, tbind at 1.
    rewrite (int_run st p c y m i (f ++ e :: sg ++ r) Hst Hm Hi); [| |symmetry; exact E].
    2:{ destruct Hf as [->|(ds & _ & ->)]; cbn; unfold digit; lia. }
    unfold tbind at 1. rewrite frac_complete.
    2:{ destruct Hf as [->|Hf]; [left; split; [reflexivity|lia]|right; split; [exact Hf|cbn; unfold digit; lia]]. }
    apply raised_bind. rewrite read_number_exp_mk. destruct ((e =? 101) || (e =? 69)) eqn:Ee; [|lia]. cbn zeta.
    assert (Hos : opt_sign (sg ++ r) = sg /\ skipn (length sg) (sg ++ r) = r).
    { destruct Hsg as [->|[->|[-> Hs]]]; [split; reflexivity..|]. split; [|reflexivity].
      cbn [app]. destruct r as [|s r]; [reflexivity|]. cbn in *. unfold is_sign.
      destruct ((s =? 45) || (s =? 43)) eqn:Es; [lia|reflexivity]. }
    destruct Hos as [-> ->]. apply starts_digit, take_digits_nil in Hr. rewrite Hr.
    replace (length p + (length (m ++ i ++ f) + 1 + length sg))%nat with (length ((p ++ m ++ i) ++ f) + 1 + length sg)%nat
      by (rewrite !app_length; lia).
    eexists; reflexivity.
Qed.

(** * Literals *)
Lemma read_literal_raises ls : forall done pre r, done <> [] ->
  raises (read_literal ls (mk pre r)) (length pre)
    (fun n k => literal_error (done ++ ls) (done ++ r) (length done + n) k).
Proof.
  induction ls as [|l ls IH]; intros done pre r Hne e it'; cbn [read_literal]; [discriminate|].
  rewrite bi_next_mk. destruct r as [|b r].
  { intro H. injection H as <- <-. exists 0%nat, KUnexpectedEof. rewrite app_nil_r, Nat.add_0_r.
    split; [eapply le_end; [reflexivity|exact Hne]|f_equal; cbn; lia]. }
  destruct (N.eqb_spec b l) as [->|Hb]; cbn [negb].
  - intro H. destruct (IH (done ++ [l]) (pre ++ [l]) r) with (2 := H) as (n & k & Hn & ->).
    { destruct done; discriminate. }
    exists (S n), k. split; [|f_equal; rewrite app_length; cbn; lia].
    rewrite <- !app_assoc in Hn. cbn [app] in Hn. rewrite app_length in Hn. cbn [length] in Hn.
    replace (length done + S n)%nat with (length done + 1 + n)%nat by lia. exact Hn.
  - intro H. injection H as <- <-. exists 0%nat, (KUnexpected b). rewrite Nat.add_0_r.
    split; [eapply le_bad; [reflexivity|exact Hne|exact Hb]|f_equal; lia].
Qed.

Lemma read_literal_raised p c q x k pre : (x = [] /\ k = KUnexpectedEof) \/ (exists b y, x = b :: y /\ b <> c /\ k = KUnexpected b) ->
  raised (read_literal (p ++ c :: q) (mk pre (p ++ x))) (length pre + length p) k.
Proof.
  intro Hx. revert pre. induction p as [|a p IH]; intro pre; unfold raised; cbn [app read_literal length].
  - rewrite bi_next_mk, Nat.add_0_r. destruct Hx as [[-> ->]|(b & y & -> & Hb & ->)]; [eexists; reflexivity|].
    destruct (N.eqb_spec b c); [congruence|]. cbn [negb]. eexists; reflexivity.
  - rewrite bi_next_mk, N.eqb_refl. cbn [negb]. specialize (IH (pre ++ [a])).
    replace (length pre + S (length p))%nat with (length (pre ++ [a]) + length p)%nat by (rewrite app_length; cbn; lia).
    exact IH.
Qed.

(** * Tokens *)
Lemma read_string_raises pw pre r : small pw (length (pre ++ 34 :: r)) ->
  raises (read_string_from_source false pw (length pre) (mk (pre ++ [34]) r)) (length pre + 1) (string_error r).
Proof.
  intros Hs. unfold read_string_from_source. rewrite info_none_new. unfold small in Hs. rewrite app_length in Hs. cbn [length] in Hs.
  replace (length pre + 1)%nat with (length (pre ++ [34%N])) by (rewrite app_length; reflexivity).
  apply string_loop_raises. lia.
Qed.

Lemma read_string_raised pw pre r n k : small pw (length (pre ++ 34 :: r)) -> string_error r n k ->
  raised (read_string_from_source false pw (length pre) (mk (pre ++ [34]) r)) (length pre + 1 + n) k.
Proof.
  intros Hs He. unfold read_string_from_source. rewrite info_none_new. unfold small in Hs. rewrite app_length in Hs. cbn [length] in Hs.
  replace (length pre + 1)%nat with (length (pre ++ [34%N])) by (rewrite app_length; reflexivity).
  apply string_loop_raised; [exact He| |lia]. cbn. rewrite !app_length. lia.
Qed.

Lemma read_peek_raises pw pre b r : small pw (length (pre ++ b :: r)) -> ~ ws_byte b ->
  raises (read_peek false pw (length pre) b (mk (pre ++ [b]) r)) (length pre) (token_error (b :: r)).
Proof.
  intros Hs Hb e it' H. unfold read_peek in H.
  assert (Hlit : forall ls (tk : token), In (b :: ls) [lit_true; lit_false; lit_null] ->
    (let! _ := read_literal ls in tret tk) (mk (pre ++ [b]) r) = (Err e, it') ->
    exists n k, token_error (b :: r) n k /\ e = Error (length pre + n) k).
  { intros ls tk Hin H1. apply tbind_err in H1 as [H1|(u & it1 & _ & H1)]; [|discriminate].
    destruct (read_literal_raises ls [b] (pre ++ [b]) r ltac:(discriminate) _ _ H1) as (n & k & Hn & ->).
    exists (1 + n)%nat, k. split; [eapply te_literal; [exact Hin|exact Hn]|]. f_equal. rewrite app_length. cbn. lia. }
  assert (Hnum : forall st, init_ok st b ->
    (let! n := read_number_from_source st (length pre) in tret (TkNumber n)) (mk (pre ++ [b]) r) = (Err e, it') ->
    exists n k, token_error (b :: r) n k /\ e = Error (length pre + n) k).
  { intros st Hst H1. apply tbind_err in H1 as [H1|(u & it1 & _ & H1)]; [|discriminate].
    destruct (read_number_raises st pre b r Hst _ _ H1) as (n & k & Hn & ->). exists n, k. split; [constructor; exact Hn|reflexivity]. }
  destruct (N.eqb_spec b 123) as [->|]; [discriminate|].
  destruct (N.eqb_spec b 125) as [->|]; [discriminate|].
  destruct (N.eqb_spec b 91) as [->|]; [discriminate|].
  destruct (N.eqb_spec b 93) as [->|]; [discriminate|].
  destruct (N.eqb_spec b 44) as [->|]; [discriminate|].
  destruct (N.eqb_spec b 58) as [->|]; [discriminate|].
  destruct (N.eqb_spec b 34) as [->|].
  { apply tbind_err in H as [H|(u & it1 & _ & H)]; [|discriminate].
    destruct (read_string_raises pw pre r Hs _ _ H) as (n' & k & Hn & ->). exists (1 + n')%nat, k.
    split; [constructor; exact Hn|]. f_equal. lia. }
  destruct (N.eqb_spec b 45) as [->|]; [exact (Hnum INSign eq_refl H)|].
  destruct (N.eqb_spec b 48) as [->|]; [exact (Hnum INZero eq_refl H)|].
  destruct ((49 <=? b) && (b <=? 57)) eqn:Ed; [refine (Hnum INDigit _ H); cbn; lia|].
  destruct (N.eqb_spec b 116) as [->|]; [refine (Hlit _ _ _ H); left; reflexivity|].
  destruct (N.eqb_spec b 102) as [->|]; [refine (Hlit _ _ _ H); right; left; reflexivity|].
  destruct (N.eqb_spec b 110) as [->|]; [refine (Hlit _ _ _ H); right; right; left; reflexivity|].
  injection H as <- _. exists 0%nat, (KUnexpected b). split; [|f_equal; lia].
  apply te_other; [exact Hb|]. intros [Hin|Hd]; [cbn [In] in Hin; lia|unfold digit in Hd; lia].
Qed.

Lemma token_error_raised pw x n k : token_error x n k -> exists b r, x = b :: r /\ ~ ws_byte b /\
  forall pre, small pw (length (pre ++ x)) -> raised (read_peek false pw (length pre) b (mk (pre ++ [b]) r)) (length pre + n) k.
Proof.
  unfold ws_byte. intros [y m k' He|y m k' He|lit y m k' Hin He|b y Hw Hb].
  - exists 34, y. split; [reflexivity|]. split; [lia|]. intros pre Hs. unfold read_peek. cbn [N.eqb Pos.eqb]. apply raised_bind.
    replace (length pre + (1 + m))%nat with (length pre + 1 + m)%nat by lia. apply read_string_raised; assumption.
  - destruct (read_number_raised _ _ _ He) as (c & r & -> & Hst & Hrun). exists c, r. split; [reflexivity|].
    assert (Hc : c = 45 \/ c = 48 \/ 49 <= c <= 57).
    { unfold init_of in Hst. destruct (N.eqb_spec c 45); [auto|]. destruct (N.eqb_spec c 48); [auto|]. cbn in Hst. lia. }
    split; [lia|]. intros pre Hs. specialize (Hrun pre).
    destruct Hc as [->|[->|Hc]].
    + unfold read_peek. cbn [N.eqb Pos.eqb]. apply raised_bind. exact Hrun.
    + unfold read_peek. cbn [N.eqb Pos.eqb]. apply raised_bind. exact Hrun.
    + unfold read_peek.
      repeat match goal with |- context [if c =? ?d then _ else _] => destruct (N.eqb_spec c d); [lia|] end.
      destruct ((49 <=? c) && (c <=? 57)) eqn:E; [|lia]. apply raised_bind.
      unfold init_of in Hrun. destruct (N.eqb_spec c 45); [lia|]. destruct (N.eqb_spec c 48); [lia|]. exact Hrun.
  - assert (Hl : exists l p c q x0, lit = l :: p ++ c :: q /\ y = l :: p ++ x0 /\ m = S (length p) /\
      ((x0 = [] /\ k' = KUnexpectedEof) \/ (exists b z, x0 = b :: z /\ b <> c /\ k' = KUnexpected b))).
    { destruct He as [p c q E Hne|p c q b z E Hne Hbc]; destruct p as [|l p]; try congruence.
      - exists l, p, c, q, []. rewrite app_nil_r. split; [exact E|]. split; [reflexivity|]. split; [reflexivity|]. left. auto.
      - exists l, p, c, q, (b :: z). split; [exact E|]. split; [reflexivity|]. split; [reflexivity|]. right. exists b, z. auto. }
    clear He. destruct Hl as (l & p & c & q & x0 & -> & -> & -> & Hx). exists l, (p ++ x0). split; [reflexivity|].
    assert (Hrun : forall pre, raised (read_literal (p ++ c :: q) (mk (pre ++ [l]) (p ++ x0))) (length pre + S (length p)) k').
    { intro pre. replace (length pre + S (length p))%nat with (length (pre ++ [l]) + length p)%nat by (rewrite app_length; cbn; lia).
      apply read_literal_raised. exact Hx. }
    destruct Hin as [E|[E|[E|[]]]]; injection E as El Ep; subst l.
    + split; [lia|]. intros pre _. specialize (Hrun pre). rewrite <- Ep in Hrun. unfold read_peek.
      cbn [N.eqb Pos.eqb N.leb N.compare Pos.compare Pos.compare_cont andb]. apply raised_bind. exact Hrun.
    + split; [lia|]. intros pre _. specialize (Hrun pre). rewrite <- Ep in Hrun. unfold read_peek.
      cbn [N.eqb Pos.eqb N.leb N.compare Pos.compare Pos.compare_cont andb]. apply raised_bind. exact Hrun.
    + split; [lia|]. intros pre _. specialize (Hrun pre). rewrite <- Ep in Hrun. unfold read_peek.
      cbn [N.eqb Pos.eqb N.leb N.compare Pos.compare Pos.compare_cont andb]. apply raised_bind. exact Hrun.
  - exists b, y. split; [reflexivity|]. unfold ws_byte in Hw. split; [exact Hw|]. intros pre Hs. unfold read_peek.
    assert (Hd : ~ digit b) by (intro H; apply Hb; right; exact H).
    assert (Hin : forall c, In c [123; 125; 91; 93; 44; 58; 34; 45; 116; 102; 110] -> b <> c).
    { intros c Hc ->. apply Hb. left. exact Hc. }
    unfold digit in Hd.
    repeat match goal with |- context [if b =? ?d then _ else _] =>
      destruct (N.eqb_spec b d) as [Eb|_]; [first [lia | exfalso; apply (Hin d); [cbn [In]; auto 20|exact Eb]]|] end.
    destruct ((49 <=? b) && (b <=? 57)) eqn:E; [lia|].
    repeat match goal with |- context [if b =? ?d then _ else _] =>
      destruct (N.eqb_spec b d) as [Eb|_]; [first [lia | exfalso; apply (Hin d); [cbn [In]; auto 20|exact Eb]]|] end.
    rewrite Nat.add_0_r. eexists; reflexivity.
Qed.

(** What [next_or_eof] can report: the end of the input, or a wrong token. *)
Inductive next_error : list N -> nat -> kind -> Prop :=
| xn_end w : ws w -> next_error w (length w) KUnexpectedEof
| xn_token w x n k : ws w -> token_error x n k -> next_error (w ++ x) (length w + n) k.

Lemma next_raises g pw pre r : good g pw (pre ++ r) ->
  raises (next_or_eof g pw (mk pre r)) (length pre) (next_error r).
Proof.
  intros Hg e it' H. rewrite (next_or_eof_false g) in H by exact Hg. destruct Hg as [Hs _]. rewrite next_or_eof_mk in H. cbn zeta in H.
  pose proof (take_drop is_ws r) as E. pose proof (ws_take r) as Hw. pose proof (drop_while_head is_ws r) as Hd.
  set (w := take_while is_ws r) in *. set (d := drop_while is_ws r) in *. clearbody w d. subst r.
  destruct d as [|b r'].
  - injection H as <- _. exists (length w), KUnexpectedEof. rewrite app_nil_r, app_length. split; [constructor; exact Hw|reflexivity].
  - rewrite app_assoc in Hs.
    assert (Hb : ~ ws_byte b) by (intro Hb; apply is_ws_spec in Hb; congruence).
    destruct (read_peek_raises pw (pre ++ w) b r' Hs Hb _ _ H) as (n & k & Hn & ->).
    exists (length w + n)%nat, k. split; [constructor; assumption|]. f_equal. rewrite app_length. lia.
Qed.

Lemma next_raised g pw pre r n k : good g pw (pre ++ r) -> next_error r n k ->
  raised (next_or_eof g pw (mk pre r)) (length pre + n) k.
Proof.
  intros Hg He. rewrite (next_or_eof_false g) by exact Hg. destruct Hg as [Hs _]. unfold next_or_eof, read_non_ws.
  destruct He as [w Hw|w x n k Hw Hx].
  - rewrite <- (app_nil_r w) at 1. rewrite skip_ws_mk_app, bi_read_mk by (assumption || exact I).
    rewrite app_length. eexists; reflexivity.
  - destruct (token_error_raised pw _ _ _ Hx) as (b & y & -> & Hb & Hrun).
    rewrite skip_ws_mk_app, bi_read_mk by assumption.
    replace (length pre + (length w + n))%nat with (length (pre ++ w) + n)%nat by (rewrite app_length; lia).
    apply Hrun. eapply small_le; [|exact Hs]. rewrite <- app_assoc. reflexivity.
Qed.

(** The tokens that are read. *)
Lemma token_then_text pw x r : token_then x r <-> exists tk, token_text pw tk x /\ token_stop tk x r.
Proof.
  split.
  - intros [b y Hin|lit y Hin|raw cs y Hb|t y Ht].
    + cbn [In] in Hin. repeat (destruct Hin as [<-|Hin]; [eexists; split; [constructor|exact I]|]). destruct Hin.
    + cbn [In] in Hin. repeat (destruct Hin as [<-|Hin]; [eexists; split; [constructor|exact I]|]). destruct Hin.
    + eexists; split; [constructor; exact Hb|exact I].
    + apply number_then_iff in Ht. eexists; split; [constructor; eapply num_token_number; exact Ht|exact Ht].
  - intros (tk & Ht & Hst). destruct Ht as [ | | | | | | | | |raw cs Hb|n Hn].
    1-3: apply th_literal; cbn [In]; auto.
    1-6: apply th_punct; cbn [In]; auto 10.
    + econstructor; exact Hb.
    + apply th_number, number_then_iff. exact Hst.
Qed.
