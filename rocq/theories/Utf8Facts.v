(** Facts about UTF-8: validator = specification, decode inverts encode, order preservation. *)
From Verif Require Import Base Utf8.
Local Open Scope N_scope.

Lemma is_scalar_spec c :
  is_scalar c = true <-> c < 0xD800 \/ (0xE000 <= c /\ c < 0x110000).
Proof. unfold is_scalar. lia. Qed.

Lemma utf8_encode_length c : length (utf8_encode c) = len_utf8 c.
Proof.
  unfold utf8_encode, len_utf8.
  destruct (c <? 0x80); [reflexivity|]. destruct (c <? 0x800); [reflexivity|].
  destruct (c <? 0x10000); reflexivity.
Qed.

Lemma len_utf8_pos c : (1 <= len_utf8 c <= 4)%nat.
Proof.
  unfold len_utf8.
  destruct (c <? 0x80); [lia|]. destruct (c <? 0x800); [lia|]. destruct (c <? 0x10000); lia.
Qed.

Lemma utf8_encode_nonnil c : utf8_encode c <> [].
Proof. intro H. pose proof (utf8_encode_length c) as L. rewrite H in L. pose proof (len_utf8_pos c).
  cbn in L. lia. Qed.

Lemma utf8_encode_ascii c : c < 0x80 -> utf8_encode c = [c].
Proof. intro H. unfold utf8_encode. destruct (N.ltb_spec c 0x80); [reflexivity|lia]. Qed.

Ltac ifs :=
  repeat match goal with
  | |- context [if ?a <? ?b then _ else _] => destruct (N.ltb_spec a b); try lia
  | |- context [if ?a <=? ?b then _ else _] => destruct (N.leb_spec a b); try lia
  | |- context [if ?a =? ?b then _ else _] => destruct (N.eqb_spec a b); try lia
  end.

Lemma next_char_encode c r : is_scalar c = true -> next_char (utf8_encode c ++ r) = Some (c, r).
Proof.
  intro Hs. apply is_scalar_spec in Hs. unfold utf8_encode.
  destruct (N.ltb_spec c 0x80) as [H1|H1].
  { cbn [app next_char]. destruct (N.ltb_spec c 0x80); [reflexivity|lia]. }
  destruct (N.ltb_spec c 0x800) as [H2|H2].
  { cbn [app next_char].
    destruct (N.ltb_spec (0xC0 + c / 64) 0x80); [lia|].
    destruct (N.ltb_spec (0xC0 + c / 64) 0xE0); [|lia].
    f_equal. f_equal. lia. }
  destruct (N.ltb_spec c 0x10000) as [H3|H3].
  { cbn [app next_char].
    destruct (N.ltb_spec (0xE0 + c / 4096) 0x80); [lia|].
    destruct (N.ltb_spec (0xE0 + c / 4096) 0xE0); [lia|].
    destruct (N.ltb_spec (0xE0 + c / 4096) 0xF0); [|lia].
    f_equal. f_equal. lia. }
  cbn [app next_char].
  destruct (N.ltb_spec (0xF0 + c / 262144) 0x80); [lia|].
  destruct (N.ltb_spec (0xF0 + c / 262144) 0xE0); [lia|].
  destruct (N.ltb_spec (0xF0 + c / 262144) 0xF0); [lia|].
  f_equal. f_equal. lia.
Qed.

Lemma utf8_valid_encode c r : is_scalar c = true -> utf8_valid (utf8_encode c ++ r) = utf8_valid r.
Proof.
  intro Hs. apply is_scalar_spec in Hs. unfold utf8_encode.
  destruct (N.ltb_spec c 0x80) as [H1|H1].
  { cbn [app utf8_valid]. destruct (N.ltb_spec c 0x80); [reflexivity|lia]. }
  destruct (N.ltb_spec c 0x800) as [H2|H2].
  { cbn [app utf8_valid].
    destruct (N.ltb_spec (0xC0 + c / 64) 0x80); [lia|].
    replace ((0xC2 <=? 0xC0 + c / 64) && (0xC0 + c / 64 <=? 0xDF)) with true by lia.
    unfold is_cont. 
    replace ((0x80 <=? 0x80 + c mod 64) && (0x80 + c mod 64 <? 0xC0)) with true by lia.
    reflexivity. }
  destruct (N.ltb_spec c 0x10000) as [H3|H3].
  { cbn [app utf8_valid].
    set (b0 := 0xE0 + c / 4096). set (b1 := 0x80 + (c / 64) mod 64). set (b2 := 0x80 + c mod 64).
    assert (B0 : 0xE0 <= b0 <= 0xEF) by (unfold b0; lia).
    assert (B1 : 0x80 <= b1 <= 0xBF) by (unfold b1; lia).
    assert (B2 : 0x80 <= b2 <= 0xBF) by (unfold b2; lia).
    assert (BA : b0 = 0xE0 -> 0xA0 <= b1) by (unfold b0, b1; lia).
    assert (BB : b0 = 0xED -> b1 <= 0x9F) by (unfold b0, b1; lia).
    clearbody b0 b1 b2.
    destruct (N.ltb_spec b0 0x80); [lia|].
    replace ((0xC2 <=? b0) && (b0 <=? 0xDF)) with false by lia.
    replace ((0xE0 <=? b0) && (b0 <=? 0xEF)) with true by lia.
    unfold is_cont.
    match goal with |- ?x && ?y && ?z = _ => replace x with true by lia; replace y with true by lia end.
    reflexivity. }
  cbn [app utf8_valid].
  set (b0 := 0xF0 + c / 262144). set (b1 := 0x80 + (c / 4096) mod 64).
  set (b2 := 0x80 + (c / 64) mod 64). set (b3 := 0x80 + c mod 64).
  assert (B0 : 0xF0 <= b0 <= 0xF4) by (unfold b0; lia).
  assert (B1 : 0x80 <= b1 <= 0xBF) by (unfold b1; lia).
  assert (B2 : 0x80 <= b2 <= 0xBF) by (unfold b2; lia).
  assert (B3 : 0x80 <= b3 <= 0xBF) by (unfold b3; lia).
  assert (BA : b0 = 0xF0 -> 0x90 <= b1) by (unfold b0, b1; lia).
  assert (BB : b0 = 0xF4 -> b1 <= 0x8F) by (unfold b0, b1; lia).
  clearbody b0 b1 b2 b3.
  destruct (N.ltb_spec b0 0x80); [lia|].
  replace ((0xC2 <=? b0) && (b0 <=? 0xDF)) with false by lia.
  replace ((0xE0 <=? b0) && (b0 <=? 0xEF)) with false by lia.
  unfold is_cont.
  match goal with |- ?x && ?y && ?w && ?z = _ =>
    replace x with true by lia; replace y with true by lia; replace w with true by lia end.
  reflexivity.
Qed.

(** A valid non-empty byte string starts with the encoding of a scalar value. *)
Lemma utf8_valid_step s :
  utf8_valid s = true -> s <> [] ->
  exists c r, is_scalar c = true /\ s = utf8_encode c ++ r /\ utf8_valid r = true.
Proof.
  destruct s as [|b0 r0]; [congruence|]. intros H _. cbn [utf8_valid] in H.
  destruct (N.ltb_spec b0 0x80) as [H0|H0].
  { exists b0, r0. rewrite utf8_encode_ascii by assumption. split; [apply is_scalar_spec; lia|auto]. }
  destruct r0 as [|b1 r1]; [discriminate|].
  destruct ((0xC2 <=? b0) && (b0 <=? 0xDF)) eqn:E1.
  { apply andb_true_iff in H as [Hc Hv]. unfold is_cont in Hc.
    exists ((b0 - 0xC0) * 64 + (b1 - 0x80)), r1.
    split; [apply is_scalar_spec; lia|]. split; [|assumption].
    unfold utf8_encode. ifs. cbn [app]. f_equal; [lia|]. f_equal. lia. }
  destruct r1 as [|b2 r2]; [discriminate|].
  destruct ((0xE0 <=? b0) && (b0 <=? 0xEF)) eqn:E2.
  { apply andb_true_iff in H as [H Hv]. apply andb_true_iff in H as [H Hc]. unfold is_cont in Hc.
    exists ((b0 - 0xE0) * 4096 + (b1 - 0x80) * 64 + (b2 - 0x80)), r2.
    split; [apply is_scalar_spec; lia|]. split; [|assumption].
    unfold utf8_encode. ifs. cbn [app]. f_equal; [lia|]. f_equal; [lia|]. f_equal. lia. }
  destruct r2 as [|b3 r3]; [discriminate|].
  apply andb_true_iff in H as [H Hv]. apply andb_true_iff in H as [H Hc3].
  apply andb_true_iff in H as [H Hc2]. unfold is_cont in Hc2, Hc3.
  exists ((b0 - 0xF0) * 262144 + (b1 - 0x80) * 4096 + (b2 - 0x80) * 64 + (b3 - 0x80)), r3.
  split; [apply is_scalar_spec; lia|]. split; [|assumption].
  unfold utf8_encode. ifs. cbn [app].
  f_equal; [lia|]. f_equal; [lia|]. f_equal; [lia|]. f_equal. lia.
Qed.

Lemma utf8_string_cons c cs : utf8_string (c :: cs) = utf8_encode c ++ utf8_string cs.
Proof. reflexivity. Qed.

Lemma utf8_string_app a b : utf8_string (a ++ b) = utf8_string a ++ utf8_string b.
Proof. unfold utf8_string. apply flat_map_app. Qed.

Lemma utf8_string_valid cs r : Forall (fun c => is_scalar c = true) cs ->
  utf8_valid (utf8_string cs ++ r) = utf8_valid r.
Proof.
  induction 1 as [|c cs Hc Hcs IH]; [reflexivity|].
  rewrite utf8_string_cons, <- app_assoc, utf8_valid_encode by assumption. exact IH.
Qed.

Theorem utf8_valid_iff s : utf8_valid s = true <-> is_utf8 s.
Proof.
  split.
  - remember (length s) as n eqn:En. assert (Hn : (length s <= n)%nat) by lia. clear En.
    revert s Hn. induction n as [|n IH]; intros s Hn H.
    + destruct s; [|cbn in Hn; lia]. exists []. split; [constructor|reflexivity].
    + destruct s as [|b s'] eqn:Es.
      { exists []. split; [constructor|reflexivity]. }
      rewrite <- Es in *.
      destruct (utf8_valid_step s H) as (c & r & Hc & Hs & Hr); [congruence|].
      assert (Hl : (length r <= n)%nat).
      { rewrite Hs, app_length, utf8_encode_length in Hn. pose proof (len_utf8_pos c). lia. }
      destruct (IH r Hl Hr) as (cs & Hcs & Hr').
      exists (c :: cs). split; [constructor; assumption|]. rewrite utf8_string_cons, <- Hr'. exact Hs.
  - intros (cs & Hcs & ->). rewrite <- (app_nil_r (utf8_string cs)).
    rewrite utf8_string_valid by assumption. reflexivity.
Qed.

Lemma utf8_string_length_ge cs : (length cs <= length (utf8_string cs))%nat.
Proof.
  induction cs as [|c cs IH]; [cbn; lia|].
  rewrite utf8_string_cons, app_length, utf8_encode_length. pose proof (len_utf8_pos c). cbn. lia.
Qed.

Lemma chars_fuel_utf8 cs n : Forall (fun c => is_scalar c = true) cs ->
  (length cs <= n)%nat -> chars_fuel n (utf8_string cs) = cs.
Proof.
  intros H. revert n. induction H as [|c cs Hc Hcs IH]; intros n Hn.
  - destruct n; reflexivity.
  - destruct n as [|n]; [cbn in Hn; lia|]. cbn [chars_fuel].
    rewrite utf8_string_cons, next_char_encode by assumption. f_equal. apply IH. cbn in Hn. lia.
Qed.

Theorem chars_utf8_string cs : Forall (fun c => is_scalar c = true) cs -> chars (utf8_string cs) = cs.
Proof. intro H. apply chars_fuel_utf8; [assumption|apply utf8_string_length_ge]. Qed.

Lemma chars_valid s : utf8_valid s = true ->
  Forall (fun c => is_scalar c = true) (chars s) /\ s = utf8_string (chars s).
Proof.
  intro H. apply utf8_valid_iff in H as (cs & Hcs & ->). rewrite chars_utf8_string by assumption. auto.
Qed.

Lemma utf8_string_inj a b : Forall (fun c => is_scalar c = true) a ->
  Forall (fun c => is_scalar c = true) b -> utf8_string a = utf8_string b -> a = b.
Proof. intros Ha Hb E. rewrite <- (chars_utf8_string a), <- (chars_utf8_string b), E; auto. Qed.

(** Validity splits at ASCII bytes. *)
Lemma utf8_valid_ascii_cons b r : b < 0x80 -> utf8_valid (b :: r) = utf8_valid r.
Proof. intro H. cbn [utf8_valid]. destruct (N.ltb_spec b 0x80); [reflexivity|lia]. Qed.

Lemma utf8_encode_high c : 0x80 <= c -> Forall (fun b => 0x80 <= b) (utf8_encode c).
Proof.
  intro H. unfold utf8_encode. ifs; repeat constructor; lia.
Qed.

(** If a valid text is cut just before an ASCII byte (or at the end), both parts are valid. *)
Lemma utf8_valid_split p r :
  utf8_valid (p ++ r) = true ->
  match r with [] => True | b :: _ => b < 0x80 end ->
  utf8_valid p = true /\ utf8_valid r = true.
Proof.
  remember (length p) as n eqn:En. assert (Hn : (length p <= n)%nat) by lia. clear En.
  revert p Hn. induction n as [|n IH]; intros p Hn Hv Hr.
  - destruct p; [|cbn in Hn; lia]. cbn in Hv. auto.
  - destruct p as [|b0 p0] eqn:Ep; [cbn in Hv; auto|]. rewrite <- Ep in *.
    destruct (utf8_valid_step (p ++ r) Hv) as (c & t & Hc & Hs & Ht).
    { rewrite Ep. discriminate. }
    (* the encoding of c is a prefix of p *)
    assert (Hpre : exists p1, p = utf8_encode c ++ p1).
    { destruct (le_lt_dec (length (utf8_encode c)) (length p)) as [Hle|Hlt].
      - exists (skipn (length (utf8_encode c)) p).
        pose proof (f_equal (firstn (length (utf8_encode c))) Hs) as E.
        rewrite !firstn_app, firstn_all in E.
        replace (length (utf8_encode c) - length p)%nat with 0%nat in E by lia.
        rewrite Nat.sub_diag in E. cbn in E. rewrite !app_nil_r in E.
        rewrite <- (firstn_skipn (length (utf8_encode c)) p) at 1. rewrite E. reflexivity.
      - exfalso. destruct r as [|b r'].
        + rewrite app_nil_r in Hs. pose proof (f_equal (@length N) Hs) as L.
          rewrite app_length in L. lia.
        + destruct (N.ltb_spec c 0x80) as [Hca|Hca].
          * rewrite utf8_encode_ascii in Hlt by assumption. rewrite Ep in Hlt. cbn in Hlt. lia.
          * pose proof (utf8_encode_high c Hca) as Hh.
            assert (Hnth : nth_error (p ++ b :: r') (length p) = Some b).
            { rewrite nth_error_app2 by lia. rewrite Nat.sub_diag. reflexivity. }
            rewrite Hs, nth_error_app1 in Hnth by assumption.
            apply nth_error_In in Hnth. rewrite Forall_forall in Hh. apply Hh in Hnth. lia. }
    destruct Hpre as (p1 & Hp1). rewrite Hp1, <- app_assoc in Hs. apply app_inv_head in Hs.
    assert (Hl : (length p1 <= n)%nat).
    { rewrite Hp1, app_length, utf8_encode_length in Hn. pose proof (len_utf8_pos c). lia. }
    rewrite <- Hs in Ht. destruct (IH p1 Hl Ht Hr) as [V1 V2]. split; [|exact V2].
    rewrite Hp1. rewrite utf8_valid_encode by assumption. exact V1.
Qed.

Lemma utf8_valid_app p r : utf8_valid p = true -> utf8_valid (p ++ r) = utf8_valid r.
Proof.
  intro H. apply utf8_valid_iff in H as (cs & Hcs & ->). apply utf8_string_valid. assumption.
Qed.

(** What follows an ASCII byte of a valid text is valid. *)
Lemma utf8_valid_after_ascii p b r :
  utf8_valid (p ++ b :: r) = true -> b < 0x80 -> utf8_valid r = true.
Proof.
  intros H Hb. apply utf8_valid_split in H as [_ H]; [|exact Hb].
  rewrite utf8_valid_ascii_cons in H by assumption. exact H.
Qed.

(** A slice between two ASCII bytes of a valid text is valid. *)
Lemma utf8_valid_between p b m b' r :
  utf8_valid (p ++ b :: m ++ b' :: r) = true -> b < 0x80 -> b' < 0x80 -> utf8_valid m = true.
Proof.
  intros H Hb Hb'. apply utf8_valid_after_ascii in H; [|assumption].
  apply utf8_valid_split in H as [H _]; assumption.
Qed.

Lemma utf8_valid_bytes s : utf8_valid s = true -> is_bytes s.
Proof.
  intro H. apply utf8_valid_iff in H as (cs & Hcs & ->).
  induction Hcs as [|c cs Hc Hcs IH]; [constructor|].
  rewrite utf8_string_cons. apply is_bytes_app. split; [|exact IH].
  apply is_scalar_spec in Hc. unfold utf8_encode. ifs; repeat constructor; lia.
Qed.

Lemma utf8_valid_ascii s : Forall (fun b => b < 0x80) s -> utf8_valid s = true.
Proof.
  induction 1 as [|b s Hb Hs IH]; [reflexivity|]. rewrite utf8_valid_ascii_cons; assumption.
Qed.

(** * Order: byte order of encodings is code point order *)

Lemma lex_cmp_refl_app x a b : lex_cmp (x ++ a) (x ++ b) = lex_cmp a b.
Proof. induction x as [|y x IH]; cbn; [reflexivity|]. rewrite N.compare_refl. exact IH. Qed.

Lemma lex_cmp_refl a : lex_cmp a a = Eq.
Proof. induction a as [|y a IH]; cbn; [reflexivity|]. rewrite N.compare_refl. exact IH. Qed.

Lemma lex_cmp_antisym a b : lex_cmp b a = CompOpp (lex_cmp a b).
Proof.
  revert b. induction a as [|x a IH]; intros [|y b]; cbn; try reflexivity.
  rewrite (N.compare_antisym x y). destruct (x ?= y); cbn; [apply IH|reflexivity|reflexivity].
Qed.

Lemma lex_cmp_eq a b : lex_cmp a b = Eq <-> a = b.
Proof.
  split; [|intros ->; apply lex_cmp_refl].
  revert b. induction a as [|x a IH]; intros [|y b] H; cbn in H; try congruence; try discriminate.
  destruct (N.compare_spec x y) as [->| |]; try discriminate. f_equal. apply IH. assumption.
Qed.

Lemma lex_cmp_trans_lt a b c : lex_cmp a b = Lt -> lex_cmp b c = Lt -> lex_cmp a c = Lt.
Proof.
  revert b c. induction a as [|x a IH]; intros [|y b] [|z c] H1 H2; cbn in *; try congruence; try discriminate.
  destruct (N.compare_spec x y) as [->|Hxy|Hxy]; try discriminate;
  destruct (N.compare_spec y z) as [->|Hyz|Hyz]; try discriminate.
  - destruct (N.compare_spec z z); try lia; eauto.
  - destruct (N.compare_spec y z); try lia; reflexivity.
  - destruct (N.compare_spec x z); try lia; reflexivity.
  - destruct (N.compare_spec x z); try lia; reflexivity.
Qed.

Lemma bytes_eqb_eq a b : bytes_eqb a b = true <-> a = b.
Proof.
  revert b. induction a as [|x a IH]; intros [|y b]; cbn; split; intro H; try congruence; try discriminate; auto.
  - apply andb_true_iff in H as [Hx H]. apply IH in H. apply N.eqb_eq in Hx. congruence.
  - injection H as -> ->. apply andb_true_iff. split; [apply N.eqb_refl|]. apply IH. reflexivity.
Qed.

Lemma bytes_eqb_refl a : bytes_eqb a a = true.
Proof. apply bytes_eqb_eq. reflexivity. Qed.

Lemma lex_lt_cons_eq x a b : lex_cmp a b = Lt -> lex_cmp (x :: a) (x :: b) = Lt.
Proof. intro H. cbn. rewrite N.compare_refl. exact H. Qed.

Lemma lex_lt_cons_lt x y a b : x < y -> lex_cmp (x :: a) (y :: b) = Lt.
Proof. intro H. cbn. apply N.compare_lt_iff in H. rewrite H. reflexivity. Qed.

Lemma utf8_encode_lt c d x y : is_scalar c = true -> is_scalar d = true -> c < d ->
  lex_cmp (utf8_encode c ++ x) (utf8_encode d ++ y) = Lt.
Proof.
  intros Hc Hd H. apply is_scalar_spec in Hc, Hd.
  unfold utf8_encode.
  destruct (N.ltb_spec c 0x80); destruct (N.ltb_spec d 0x80); try lia; cbn [app].
  { apply lex_lt_cons_lt. lia. }
  { destruct (N.ltb_spec d 0x800); [|destruct (N.ltb_spec d 0x10000)]; apply lex_lt_cons_lt; lia. }
  destruct (N.ltb_spec c 0x800); destruct (N.ltb_spec d 0x800); try lia; cbn [app].
  { destruct (N.eq_dec (c / 64) (d / 64)) as [E|E].
    - rewrite E. apply lex_lt_cons_eq. apply lex_lt_cons_lt. lia.
    - apply lex_lt_cons_lt. lia. }
  { destruct (N.ltb_spec d 0x10000); apply lex_lt_cons_lt; lia. }
  destruct (N.ltb_spec c 0x10000); destruct (N.ltb_spec d 0x10000); try lia; cbn [app].
  { destruct (N.eq_dec (c / 4096) (d / 4096)) as [E|E]; [|apply lex_lt_cons_lt; lia].
    rewrite E. apply lex_lt_cons_eq.
    destruct (N.eq_dec (c / 64 mod 64) (d / 64 mod 64)) as [E2|E2]; [|apply lex_lt_cons_lt; lia].
    rewrite E2. apply lex_lt_cons_eq. apply lex_lt_cons_lt. lia. }
  { apply lex_lt_cons_lt; lia. }
  destruct (N.eq_dec (c / 262144) (d / 262144)) as [E|E]; [|apply lex_lt_cons_lt; lia].
  rewrite E. apply lex_lt_cons_eq.
  destruct (N.eq_dec (c / 4096 mod 64) (d / 4096 mod 64)) as [E2|E2]; [|apply lex_lt_cons_lt; lia].
  rewrite E2. apply lex_lt_cons_eq.
  destruct (N.eq_dec (c / 64 mod 64) (d / 64 mod 64)) as [E3|E3]; [|apply lex_lt_cons_lt; lia].
  rewrite E3. apply lex_lt_cons_eq. apply lex_lt_cons_lt. lia.
Qed.

Theorem utf8_string_order a b :
  Forall (fun c => is_scalar c = true) a -> Forall (fun c => is_scalar c = true) b ->
  lex_cmp (utf8_string a) (utf8_string b) = lex_cmp a b.
Proof.
  intros Ha. revert b. induction Ha as [|x a Hx Ha IH]; intros b Hb.
  - destruct Hb as [|y b Hy Hb]; [reflexivity|]. rewrite utf8_string_cons. cbn [utf8_string flat_map].
    pose proof (utf8_encode_nonnil y). destruct (utf8_encode y); [congruence|reflexivity].
  - destruct Hb as [|y b Hy Hb].
    + rewrite utf8_string_cons. cbn [utf8_string flat_map].
      pose proof (utf8_encode_nonnil x). destruct (utf8_encode x); [congruence|reflexivity].
    + rewrite !utf8_string_cons. cbn [lex_cmp].
      destruct (N.compare_spec x y) as [->|Hlt|Hlt].
      * rewrite lex_cmp_refl_app. apply IH. assumption.
      * apply utf8_encode_lt; assumption.
      * rewrite lex_cmp_antisym. rewrite utf8_encode_lt by assumption. reflexivity.
Qed.
