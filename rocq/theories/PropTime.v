(** Property theorems: how often the input is looked at (C89). *)
From Verif Require Import Base Utf8 StrModel ErrorModel Tokenizer Parser ValueModel DocModel LookModel LookFacts PropDelegate PropTok.

Ltac lia := rewrite ?app_length in *; cbn [length app] in *; Coq.micromega.Lia.lia.

Section Credit.
  Variable source : list N.
  Notation len := (length source).

  (** Every byte consumed earns 9, every look costs 2; [c] before, [c'] after. *)
  Definition T {A} (c : nat) (m : ctok A) (c' : A -> nat) : Prop := forall n, (n <= len)%nat ->
    match m (BI source n) with
    | ((Ok a, it'), k) => exists n', (n <= n' <= len)%nat /\ it' = BI source n' /\ (2 * length k + c' a + 9 * n <= 9 * n' + c /\ n' <= n + length k)%nat
    | ((_, it'), k) => exists n', (n <= n' <= len)%nat /\ it' = BI source n' /\ (2 * length k + 9 * n <= 9 * n' + c /\ n' <= n + length k)%nat
    end.
  Lemma T_bind {A B} c (m : ctok A) (k : A -> ctok B) c1 c2 : T c m c1 -> (forall a, T (c1 a) (k a) c2) -> T c (cbind m k) c2.
  Proof.
    intros Hm Hk n Hn. specialize (Hm n Hn). unfold cbind. destruct (m (BI source n)) as [[[a|e|f] it1] k1]; [|exact Hm..].
    destruct Hm as (n1 & H1 & -> & H2). specialize (Hk a n1 (proj2 H1)). destruct (k a (BI source n1)) as [[[b|e|f] it2] k2];
      destruct Hk as (n2 & H3 & -> & H4); exists n2; (split; [lia|]); (split; [reflexivity|]); lia.
  Qed.
  Lemma T_le {A} c c0 (m : ctok A) c1 c2 : (c0 <= c)%nat -> (forall a, c2 a <= c1 a)%nat -> T c0 m c1 -> T c m c2.
  Proof.
    intros H0 H1 H n Hn. specialize (H n Hn). destruct (m (BI source n)) as [[[a|e|f] it1] k1]; destruct H as (n1 & H3 & -> & H4);
      exists n1; (split; [lia|]); (split; [reflexivity|]); try lia. specialize (H1 a). lia.
  Qed.
  Lemma T_ret {A} c (a : A) c' : (c' a <= c)%nat -> T c (cret a) c'.
  Proof. intros H n Hn. exists n. split; [lia|]. split; [reflexivity|]. lia. Qed.
  Lemma T_err {A} c e (c' : A -> nat) : T c (cerr e) c'.
  Proof. intros n Hn. exists n. split; [lia|]. split; [reflexivity|]. lia. Qed.
  Lemma T_fault {A} c e (c' : A -> nat) : T c (cfault e) c'.
  Proof. intros n Hn. exists n. split; [lia|]. split; [reflexivity|]. lia. Qed.
  Lemma T_lift {A} c (r : res (error infallible) A) c' : (forall a, c' a <= c)%nat -> T c (clift r) c'.
  Proof. intros H n Hn. unfold clift. destruct r as [a| |]; exists n; (split; [lia|]); (split; [reflexivity|]); try lia. specialize (H a). lia. Qed.
  Lemma next_cases n : (n <= len)%nat ->
    (exists b, bi_next (BI source n) = (Some (n, b), BI source (n + 1)) /\ (n < len)%nat /\ nth_error source n = Some b) \/ bi_next (BI source n) = (None, BI source n).
  Proof.
    intro Hn. unfold bi_next. cbn [bi_bytes bi_offset]. destruct (nth_error source n) as [b|] eqn:E; [left|right; reflexivity].
    exists b. split; [reflexivity|]. split; [|reflexivity]. apply nth_error_Some. rewrite E. discriminate.
  Qed.
  Lemma T_read c : T (c + 2) c_read (fun _ => c + 9)%nat.
  Proof.
    intros n Hn. unfold c_read, c_next. destruct (next_cases n Hn) as [(b & -> & Hb & _)| ->].
    - exists (n + 1)%nat. split; [lia|]. split; [reflexivity|]. lia.
    - exists n. split; [lia|]. split; [reflexivity|]. lia.
  Qed.
  Lemma T_get c : T c c_get_iter (fun _ => c).
  Proof. intros n Hn. exists n. split; [lia|]. split; [reflexivity|]. lia. Qed.
  Lemma T_peeked c : T (c + 2) c_peeked (fun _ => c).
  Proof. intros n Hn. exists n. split; [lia|]. split; [reflexivity|]. lia. Qed.
  (** A [next] after a [peek] that saw a byte. *)
  Lemma T_peek_bump {A} c p (k : ctok A) (k' : ctok A) c' :
    T (c + 7) k c' -> T c k' c' ->
    T (c + 2) (cbind c_peeked (fun o => match o with Some b => if (p b : bool) then cbind c_bump (fun _ => k) else k' | None => k' end)) c'.
  Proof.
    intros Hk Hk' n Hn. unfold cbind, c_peeked, c_peek, bi_peek. cbn [bi_bytes bi_offset].
    destruct (nth_error source n) as [b|] eqn:E.
    - destruct (p b).
      + unfold c_bump, c_next, bi_next. cbn [bi_bytes bi_offset]. rewrite E. cbn [snd].
        assert (n < len)%nat by (apply nth_error_Some; rewrite E; discriminate). specialize (Hk (n + 1)%nat ltac:(lia)).
        destruct (k (BI source (n + 1))) as [[[a|e|f] it1] k1]; destruct Hk as (n1 & H3 & -> & H4); exists n1; (split; [lia|]); (split; [reflexivity|]); lia.
      + specialize (Hk' n Hn). destruct (k' (BI source n)) as [[[a|e|f] it1] k1]; destruct Hk' as (n1 & H3 & -> & H4); exists n1; (split; [lia|]); (split; [reflexivity|]); lia.
    - specialize (Hk' n Hn). destruct (k' (BI source n)) as [[[a|e|f] it1] k1]; destruct Hk' as (n1 & H3 & -> & H4); exists n1; (split; [lia|]); (split; [reflexivity|]); lia.
  Qed.

  Lemma T_peek_opt {A} c p (k : ctok A) c' : T c k c' ->
    T (c + 2) (cbind c_peeked (fun o => cbind (match o with Some b => if (p b : bool) then c_bump else cret tt | None => cret tt end) (fun _ => k))) c'.
  Proof.
    intros Hk n Hn.
    assert (Hk9 : T (c + 7) k c') by (apply T_le with (c0 := c) (c1 := c'); [lia|auto|exact Hk]).
    assert (E : cbind c_peeked (fun o => cbind (match o with Some b => if p b then c_bump else cret tt | None => cret tt end) (fun _ => k)) (BI source n) =
                cbind c_peeked (fun o => match o with Some b => if p b then cbind c_bump (fun _ => k) else cbind (cret tt) (fun _ => k) | None => cbind (cret tt) (fun _ => k) end) (BI source n)).
    { unfold cbind at 1 3. destruct (c_peeked (BI source n)) as [[[o|e|f] it] k0]; try reflexivity. destruct o as [b|]; [|reflexivity]. destruct (p b); reflexivity. }
    rewrite E. apply (T_peek_bump c p k (cbind (cret tt) (fun _ => k)) c' Hk9); [|exact Hn].
    apply T_bind with (c1 := fun _ => c); [apply T_ret; lia|]. intros _. exact Hk.
  Qed.

  (** ** Loops *)
  Lemma rest_length n : (n <= len)%nat -> (n + length (bi_rest (BI source n)) = len)%nat.
  Proof. intro H. unfold bi_rest. cbn [bi_bytes bi_offset]. rewrite skipn_length. lia. Qed.
  Lemma skip_ws_count rest : forall o, let '(o', k) := c_skip_ws_loop rest o in (o <= o' <= o + length rest)%nat /\ (length k = o' - o + 1)%nat.
  Proof.
    induction rest as [|b r IH]; intro o; cbn [c_skip_ws_loop length]; [lia|]. destruct (is_ws b); [|lia].
    specialize (IH (o + 1)%nat). destruct (c_skip_ws_loop r (o + 1)). lia.
  Qed.
  Lemma skip_high_count rest : forall o, let '(o', k) := c_skip_high_loop rest o in (o <= o' <= o + length rest)%nat /\ (length k = 2 * (o' - o) + 1)%nat.
  Proof.
    induction rest as [|b r IH]; intro o; cbn [c_skip_high_loop length]; [lia|]. destruct (b <? 128)%N; [lia|].
    specialize (IH (o + 1)%nat). destruct (c_skip_high_loop r (o + 1)). lia.
  Qed.
  Lemma int_count rest : forall o f, let '((o', _), k) := c_int_loop rest o f in (o <= o' <= o + length rest)%nat /\ (o' - o <= length k <= 2 * (o' - o) + 1)%nat.
  Proof.
    induction rest as [|b r IH]; intros o f; cbn [c_int_loop length]; [lia|]. destruct (_ && _)%bool; [lia|]. destruct (is_digit b); [|lia].
    specialize (IH (o + 1)%nat true). destruct (c_int_loop r (o + 1) true) as [[o' f'] k]. lia.
  Qed.
  Lemma digits_count rest : forall o f, let '((o', _), k) := c_digits_loop rest o f in (o <= o' <= o + length rest)%nat /\ (length k = 2 * (o' - o) + 1)%nat.
  Proof.
    induction rest as [|b r IH]; intros o f; cbn [c_digits_loop length]; [lia|]. destruct (is_digit b); [|lia].
    specialize (IH (o + 1)%nat true). destruct (c_digits_loop r (o + 1) true) as [[o' f'] k]. lia.
  Qed.
  Lemma skip_ws_step n : (n <= len)%nat -> exists n' k, c_skip_ws (BI source n) = (BI source n', k) /\ (n <= n' <= len)%nat /\ (length k = n' - n + 1)%nat.
  Proof.
    intro Hn. unfold c_skip_ws. cbn [bi_offset bi_bytes]. pose proof (skip_ws_count (bi_rest (BI source n)) n) as H. pose proof (rest_length n Hn).
    destruct (c_skip_ws_loop _ n) as [o k]. exists o, k. split; [reflexivity|]. lia.
  Qed.
  Lemma T_int c f : T (c + 2) (c_read_int f) (fun _ => c).
  Proof.
    intros n Hn. unfold c_read_int. cbn [bi_offset bi_bytes]. pose proof (int_count (bi_rest (BI source n)) n f) as H. pose proof (rest_length n Hn).
    destruct (c_int_loop _ n f) as [[o b] k]. exists o. split; [lia|]. split; [reflexivity|]. lia.
  Qed.
  Lemma T_digits c : T (c + 2) c_read_digits (fun _ => c).
  Proof.
    intros n Hn. unfold c_read_digits. cbn [bi_offset bi_bytes]. pose proof (digits_count (bi_rest (BI source n)) n false) as H. pose proof (rest_length n Hn).
    destruct (c_digits_loop _ n false) as [[o b] k]. exists o. split; [lia|]. split; [reflexivity|]. lia.
  Qed.

  (** ** Numbers, strings, literals *)
  Lemma T_number st start c : T (c + 6) (c_read_number_from_source st start) (fun _ => c).
  Proof.
    unfold c_read_number_from_source. apply T_bind with (c1 := fun _ => (c + 4)%nat).
    { assert (H : forall f, T (c + 6) (cbind (c_read_int f) (fun f => cbind c_get_iter (fun it => if f : bool then cret tt else cerr (Error (bi_offset it) KExpectedDigit)))) (fun _ => c + 4)%nat).
      { intro f. replace (c + 6)%nat with (c + 4 + 2)%nat by lia. eapply T_bind; [apply T_int|]. intro x. eapply T_bind; [apply T_get|]. intro it. destruct x; [apply T_ret; lia|apply T_err]. }
      destruct st; [apply T_ret; lia|apply H|apply H]. }
    intros _. apply T_bind with (c1 := fun _ => (c + 2)%nat).
    { unfold c_read_number_frac. replace (c + 4)%nat with (c + 2 + 2)%nat by lia. apply (T_peek_bump (c + 2) (fun b => (b =? 46)%N)).
      - apply T_le with (c0 := (c + 2 + 2)%nat) (c1 := fun _ => (c + 2)%nat); [lia|intro; lia|].
        eapply T_bind; [apply T_digits|]. intro f. eapply T_bind; [apply T_get|]. intro. destruct f; [apply T_ret; lia|apply T_err].
      - apply T_ret. lia. }
    intros _. apply T_bind with (c1 := fun _ => c).
    { unfold c_read_number_exp.
      assert (K : T (c + 2) (cbind c_read_digits (fun f => cbind c_get_iter (fun it => if f : bool then cret tt else cerr (Error (bi_offset it) KExpectedExponent)))) (fun _ => c)).
      { eapply T_bind; [apply T_digits|]. intro f. eapply T_bind; [apply T_get|]. intro. destruct f; [apply T_ret; lia|apply T_err]. }
      apply (T_peek_bump c (fun b => (b =? 101)%N || (b =? 69)%N)%bool).
      - apply T_le with (c0 := (c + 2 + 2)%nat) (c1 := fun _ => c); [lia|intro; lia|].
        apply (T_peek_opt (c + 2) (fun s => (s =? 45)%N || (s =? 43)%N)%bool). exact K.
      - apply T_ret. lia. }
    intros _. eapply T_bind; [apply T_get|]. intro it. apply T_bind with (c1 := fun _ => c); [apply T_lift; intro; lia|]. intro x. apply T_ret. lia.
  Qed.
  Lemma T_hex n : forall acc c, T (c + 2) (c_read_hex n acc) (fun _ => c + 2)%nat.
  Proof.
    induction n as [|n IH]; intros acc c; cbn [c_read_hex]; [apply T_ret; lia|]. eapply T_bind; [apply T_read|]. intros [o d]. cbv zeta.
    destruct (_ =? 255)%N; [apply T_err|]. eapply T_le; [|intro; apply Nat.le_refl|apply IH]. lia.
  Qed.
  Lemma T_more {A} c (m : ctok A) c' : T (c + 2) m c' -> T (c + 9) m c'.
  Proof. intro H. eapply T_le; [|intro; apply Nat.le_refl|exact H]. lia. Qed.
  Lemma T_second d c : T (c + 2) (c_read_second_half d) (fun _ => c).
  Proof.
    unfold c_read_second_half. destruct (_ && _)%bool; [|apply T_ret; lia]. eapply T_bind; [apply T_read|]. intros [o b1].
    destruct (b1 =? 92)%N; [|apply T_ret; lia]. apply T_more. eapply T_bind; [apply T_read|]. intros [o2 b2]. destruct (b2 =? 117)%N; [|apply T_ret; lia].
    apply T_more. eapply T_bind; [apply T_hex|]. intro x. destruct (_ && _)%bool; [|apply T_ret; lia].
    apply T_bind with (c1 := fun _ => c); [apply T_lift; intro; lia|]. intro. apply T_ret. lia.
  Qed.
  Lemma T_escape pw i c : T (c + 2) (c_read_string_escape pw i) (fun _ => c).
  Proof.
    unfold c_read_string_escape. eapply T_bind; [apply T_read|]. intros [o b]. destruct (_ || _)%bool; [apply T_lift; intro; lia|].
    destruct (b =? 117)%N; [|apply T_err]. apply T_more. eapply T_bind; [apply T_hex|]. intro d.
    apply T_bind with (c1 := fun _ => c); [|intro; apply T_lift; intro; lia].
    destruct (char_from_u32 d); [apply T_ret; lia|]. eapply T_bind; [apply T_second|]. intros [m|]; [apply T_lift; intro; lia|apply T_err].
  Qed.
  Lemma T_string g pw fuel : forall start i c, T (c + 2) (c_read_string_loop g pw fuel start i) (fun _ => c + 9)%nat.
  Proof.
    induction fuel as [|fuel IH]; intros start i c; cbn [c_read_string_loop]; [apply T_fault|]. intros n Hn. unfold c_next.
    destruct (next_cases n Hn) as [(b & -> & Hb & _)| ->]; [|exists n; split; [lia|]; split; [reflexivity|]; lia]. cbv zeta.
    (* it suffices to continue with the byte's credit *)
    assert (Go : forall m : ctok json_string, T (c + 9) m (fun _ => c + 9)%nat ->
      match (let '(r, n') := m (BI source (n + 1)) in (r, [n] ++ n')) with
      | ((Ok a, it'), k) => exists n', (n <= n' <= len)%nat /\ it' = BI source n' /\ (2 * length k + (c + 9) + 9 * n <= 9 * n' + (c + 2) /\ n' <= n + length k)%nat
      | ((_, it'), k) => exists n', (n <= n' <= len)%nat /\ it' = BI source n' /\ (2 * length k + 9 * n <= 9 * n' + (c + 2) /\ n' <= n + length k)%nat
      end).
    { intros m Hm. specialize (Hm (n + 1)%nat ltac:(lia)). destruct (m (BI source (n + 1))) as [[[a|e|f] it1] k1];
        destruct Hm as (n1 & H1 & -> & H2); exists n1; (split; [lia|]); (split; [reflexivity|]); lia. }
    destruct (table_get _ _ _).
    { apply Go. apply T_bind with (c1 := fun _ => (c + 2)%nat); [apply T_lift; intro; lia|]. intro. apply IH. }
    destruct (b =? 34)%N.
    { apply Go. apply T_bind with (c1 := fun _ => (c + 9)%nat); [apply T_lift; intro; lia|]. intro. apply T_ret. lia. }
    destruct (b =? 92)%N.
    { apply Go. apply T_bind with (c1 := fun _ => (c + 2)%nat); [|intro; apply IH]. eapply T_le; [|intro; apply Nat.le_refl|apply T_escape]. lia. }
    destruct (128 <=? b)%N.
    { unfold c_skip_high. cbn [bi_offset bi_bytes]. pose proof (skip_high_count (bi_rest (BI source (n + 1))) (n + 1)) as H. pose proof (rest_length (n + 1) ltac:(lia)).
      destruct (c_skip_high_loop _ (n + 1)) as [o k]. cbn [bi_offset bi_bytes].
      assert (Q : T (c + 2 + 2 * (o - n)) (cbind (clift (add_bytes pw i (N.of_nat (o - n)))) (fun i' => match slice source n o with
             | None => cfault FIndex
             | Some run => cbind (looks (seq n (length run))) (fun _ => if utf8_valid run then c_read_string_loop g pw fuel start i' else cerr (Error n KUtf8))
             end)) (fun _ => c + 9)%nat).
      { apply T_bind with (c1 := fun _ => (c + 2 + 2 * (o - n))%nat); [apply T_lift; intro; lia|]. intro i'.
        unfold slice. destruct (_ && _)%bool; [|apply T_fault]. apply T_bind with (c1 := fun _ => (c + 2)%nat).
        - intros m Hm. exists m. split; [lia|]. split; [reflexivity|]. pose proof (firstn_le_length (o - n) (skipn n source)). rewrite seq_length. lia.
        - intros _. destruct (utf8_valid _); [apply IH|apply T_err]. }
      specialize (Q o ltac:(lia)). destruct (cbind _ _ (BI source o)) as [[[a|e|f] it1] k1]; destruct Q as (n1 & H1 & -> & H2); exists n1; (split; [lia|]); (split; [reflexivity|]); lia. }
    destruct (b <=? 31)%N; exists (n + 1)%nat; (split; [lia|]); (split; [reflexivity|]); lia.
  Qed.
  Lemma T_literal l : forall c, T (c + 2) (c_read_literal l) (fun _ => c + 2)%nat.
  Proof.
    induction l as [|e l IH]; intro c; cbn [c_read_literal]; [apply T_ret; lia|]. intros n Hn. unfold c_next.
    destruct (next_cases n Hn) as [(b & -> & Hb & _)| ->]; [|exists n; split; [lia|]; split; [reflexivity|]; lia].
    destruct (negb _); [exists (n + 1)%nat; split; [lia|]; split; [reflexivity|]; lia|].
    specialize (IH c (n + 1)%nat ltac:(lia)). destruct (c_read_literal l (BI source (n + 1))) as [[[a|x|f] it1] k1];
        destruct IH as (n1 & H1 & -> & H2); exists n1; (split; [lia|]); (split; [reflexivity|]); lia.
  Qed.

  (** ** Tokens *)
  Definition refund (tk : token) : nat := match tk with TkNumber _ => 0 | _ => 6 end.
  Lemma T_read_peek g pw o b c : T (c + 6) (c_read_peek g pw o b) (fun tk => c + refund tk)%nat.
  Proof.
    assert (HL : forall l tk, refund tk = 6%nat -> T (c + 6) (cbind (c_read_literal l) (fun _ => cret tk)) (fun tk => c + refund tk)%nat).
    { intros l tk Hk. apply T_bind with (c1 := fun _ => (c + 6)%nat); [|intro; apply T_ret; rewrite Hk; lia].
      replace (c + 6)%nat with (c + 4 + 2)%nat by lia. apply T_literal. }
    assert (HN : forall st, T (c + 6) (cbind (c_read_number_from_source st o) (fun n => cret (TkNumber n))) (fun tk => c + refund tk)%nat).
    { intro st. apply T_bind with (c1 := fun _ => c); [apply T_number|]. intro. apply T_ret. cbn [refund]. lia. }
    unfold c_read_peek.
    repeat match goal with |- T _ (if ?x then _ else _) _ => destruct x end;
      try (apply T_ret; cbn [refund]; lia); try apply T_err; try (apply HL; reflexivity); try apply HN.
    apply T_bind with (c1 := fun _ => (c + 6)%nat); [|intro; apply T_ret; cbn [refund]; lia].
    intros n Hn. unfold c_read_string_from_source. cbn [bi_bytes].
    refine (T_le (c + 6) (c + 2) _ (fun _ => c + 9)%nat (fun _ => c + 6)%nat _ _ (T_string g pw _ o _ c) n Hn); [lia|intro; lia].
  Qed.
  Lemma T_next_or_eof g pw c : T (c + 4) (c_next_or_eof g pw) (fun tk => c + 3 + refund tk)%nat.
  Proof.
    intros n Hn. unfold c_next_or_eof, c_read_non_ws. destruct (skip_ws_step n Hn) as (n1 & k1 & -> & H1 & Hk1).
    unfold c_read, c_next. destruct (next_cases n1 (proj2 H1)) as [(b & -> & Hb & _)| ->].
    - pose proof (T_read_peek g pw n1 b (c + 3) (n1 + 1)%nat ltac:(lia)) as H.
      destruct (c_read_peek g pw n1 b (BI source (n1 + 1))) as [[[a|x|f] it1] k2];
        destruct H as (n2 & H2 & -> & H3); exists n2; (split; [lia|]); (split; [reflexivity|]); lia.
    - exists n1. split; [lia|]. split; [reflexivity|]. lia.
  Qed.
End Credit.

(** * The parser *)
Section Parser.
  Variables (g : bool) (pw : pwidth) (cfg : parse_config) (D : delegate) (source : list N).
  Notation len := (length source).

  Definition P {A} (c : nat) (m : cpm D A) (c' : A -> nat) : Prop := forall s n, (n <= len)%nat -> ps_iter s = BI source n ->
    match m s with
    | ((Ok a, s'), k) => exists n', (n <= n' <= len)%nat /\ ps_iter s' = BI source n' /\ (2 * length k + c' a + 9 * n <= 9 * n' + c /\ n' <= n + length k)%nat
    | ((_, s'), k) => exists n', (n <= n' <= len)%nat /\ ps_iter s' = BI source n' /\ (2 * length k + 9 * n <= 9 * n' + c /\ n' <= n + length k)%nat
    end.
  Lemma P_bind {A B} c (m : cpm D A) (k : A -> cpm D B) c1 c2 : P c m c1 -> (forall a, P (c1 a) (k a) c2) -> P c (cpbind D m k) c2.
  Proof.
    intros Hm Hk s n Hn Hs. specialize (Hm s n Hn Hs). unfold cpbind. destruct (m s) as [[[a|e|f] s1] k1]; [|exact Hm..].
    destruct Hm as (n1 & H1 & H1' & H2). specialize (Hk a s1 n1 (proj2 H1) H1'). destruct (k a s1) as [[[b|e|f] s2] k2];
      destruct Hk as (n2 & H3 & H3' & H4); exists n2; (split; [lia|]); (split; [exact H3'|]); lia.
  Qed.
  Lemma P_le {A} c c0 (m : cpm D A) c1 c2 : (c0 <= c)%nat -> (forall a, c2 a <= c1 a)%nat -> P c0 m c1 -> P c m c2.
  Proof.
    intros H0 H1 H s n Hn Hs. specialize (H s n Hn Hs). destruct (m s) as [[[a|e|f] s1] k1]; destruct H as (n1 & H3 & H3' & H4);
      exists n1; (split; [lia|]); (split; [exact H3'|]); try lia. specialize (H1 a). lia.
  Qed.
  (** A step that looks at nothing and leaves the position. *)
  Definition stays {A} (m : pm D A) : Prop := forall s, ps_iter (snd (m s)) = ps_iter s.
  Lemma P_blind {A} c (m : pm D A) c' : stays m -> (forall a, c' a <= c)%nat -> P c (blind D m) c'.
  Proof.
    intros H Hc s n Hn Hs. unfold blind. specialize (H s). destruct (m s) as [[a|e|f] s1]; cbn [snd] in H; rewrite Hs in H; exists n;
      (split; [lia|]); (split; [exact H|]); try lia. specialize (Hc a). lia.
  Qed.
  Lemma st_ret {A} (a : A) : stays (pret D a). Proof. intro; reflexivity. Qed.
  Lemma st_err {A} o k : stays (A := A) (perr D o k). Proof. intro; reflexivity. Qed.
  Lemma st_offset : stays (p_offset D). Proof. intro; reflexivity. Qed.
  Lemma st_del {A} o (m : d_st D -> res (d_error D) A * d_st D) : stays (p_del D o m).
  Proof. intro s. unfold p_del. destruct (m (ps_del s)) as [r st]. reflexivity. Qed.
  Lemma st_query {A} (m : d_st D -> res infallible A) : stays (p_query D m).
  Proof. intro s. unfold p_query. destruct (m (ps_del s)) as [a|[]|f]; reflexivity. Qed.
  Lemma st_begin o : stays (begin_nest cfg D o).
  Proof. intro s. unfold begin_nest. destruct (recursion_limit cfg); [destruct (0 <? _)%N|]; reflexivity. Qed.
  Lemma st_end : stays (end_nest cfg D).
  Proof. intro s. unfold end_nest. destruct (recursion_limit cfg); reflexivity. Qed.
  Lemma st_bind {A B} (m : pm D A) (k : A -> pm D B) : stays m -> (forall a, stays (k a)) -> stays (pbind D m k).
  Proof. intros H K s. unfold pbind. specialize (H s). destruct (m s) as [[a|e|f] s1]; cbn [snd] in *; [rewrite <- H; apply K|exact H|exact H]. Qed.
  Lemma st_root v : stays (check_root cfg D v).
  Proof. unfold check_root. destruct (negb _); [|apply st_ret]. apply st_bind; [apply st_query|]. intros []; first [apply st_ret|apply st_err]. Qed.

  Lemma P_tok_err c conv : P (c + 4) (cp_tok_err D conv (c_next_or_eof g pw)) (fun tk => c + 3 + refund tk)%nat.
  Proof.
    intros s n Hn Hs. unfold cp_tok_err. rewrite Hs. pose proof (T_next_or_eof source g pw c n Hn) as H.
    destruct (c_next_or_eof g pw (BI source n)) as [[[a|x|f] it1] k1]; cbn [map_err];
      destruct H as (n2 & H2 & -> & H3); exists n2; (split; [lia|]); (split; [reflexivity|]); lia.
  Qed.
  Lemma P_map_err {A} c f (m : cpm D A) c' : P c m c' -> P c (cp_map_err D f m) c'.
  Proof. intros H s n Hn Hs. specialize (H s n Hn Hs). unfold cp_map_err. destruct (m s) as [[[a|e|x] s'] k]; exact H. Qed.
  Lemma P_peek c : P (c + 4) (c_peek_array_end D) (fun b => if b : bool then c + 9 else c)%nat.
  Proof.
    intros s n Hn Hs. unfold c_peek_array_end, c_tokenizer_peek. rewrite Hs. destruct (skip_ws_step source n Hn) as (n1 & k1 & -> & H1 & Hk1).
    unfold c_peek, bi_peek. cbn [bi_bytes bi_offset].
    destruct (nth_error source n1) as [b|] eqn:E; [|exists n1; split; [lia|]; split; [reflexivity|]; lia].
    assert (n1 < len)%nat by (apply nth_error_Some; rewrite E; discriminate).
    destruct (peek_kind_of b); try (exists n1; split; [lia|]; split; [reflexivity|]; lia).
    exists (n1 + 1)%nat. split; [lia|]. split; [reflexivity|]. lia.
  Qed.
  Lemma P_trailing c : P (c + 4) (c_check_trailing D) (fun _ => c).
  Proof.
    intros s n Hn Hs. unfold c_check_trailing, c_next_non_ws. rewrite Hs. destruct (skip_ws_step source n Hn) as (n1 & k1 & -> & H1 & Hk1).
    unfold c_next. destruct (next_cases source n1 (proj2 H1)) as [(b & -> & Hb & _)| ->].
    - exists (n1 + 1)%nat. split; [lia|]. split; [reflexivity|]. lia.
    - exists n1. split; [lia|]. split; [reflexivity|]. lia.
  Qed.

  Ltac tok := eapply P_bind; [apply P_tok_err|intro].
  Ltac off := eapply P_bind; [eapply P_blind; [apply st_offset|intro; apply Nat.le_refl]|intro].
  Ltac del c := apply P_bind with (c1 := fun _ => c%nat); [apply P_blind; [apply st_del|intro; cbn [refund]; lia]|].
  Lemma P_err {A} c o k (c' : A -> nat) : P c (blind D (perr D o k)) c'.
  Proof. intros s n Hn Hs. exists n. split; [lia|]. split; [exact Hs|]. lia. Qed.
  Lemma P_ret {A} c (a : A) c' : (c' a <= c)%nat -> P c (blind D (pret D a)) c'.
  Proof. intros H s n Hn Hs. exists n. split; [lia|]. split; [exact Hs|]. lia. Qed.
  Lemma P_fuel {A} c (c' : A -> nat) : P c (fun s => ((Fault FFuel, s), [])) c'.
  Proof. intros s n Hn Hs. exists n. split; [lia|]. split; [exact Hs|]. lia. Qed.
  Lemma P_comma {A} c (q : d_st D -> res infallible bool) (a : A) o c' : (c' a <= c)%nat ->
    P c (cpbind D (if allow_trailing_commas cfg then blind D (pret D true) else blind D (p_query D q))
           (fun ok => if ok : bool then blind D (pret D a) else blind D (perr D o KIllegalTrailingComma))) c'.
  Proof.
    intro H. apply P_bind with (c1 := fun _ => c).
    - destruct (allow_trailing_commas cfg); apply P_blind; first [apply st_ret|apply st_query|intro; lia].
    - intros [|]; [apply P_ret, H|apply P_err].
  Qed.
  Definition thrifty (rv : cpm D (d_value D)) : Prop := P 5 rv (fun _ => 4%nat).
  Lemma P_object_loop rv : thrifty rv -> forall n o, P 9 (c_object_loop g pw cfg D rv n o) (fun _ => 9%nat).
  Proof.
    intro Hrv. induction n as [|n IH]; intro o; cbn [c_object_loop]; [apply P_fuel|]. off. unfold cp_tok.
    apply P_bind with (c1 := fun tk => (5 + 3 + refund tk)%nat); [exact (P_tok_err 5 _)|]. intro tk.
    destruct tk; try apply P_err; [|apply P_comma; cbn; lia].
    del 14. intros [o1 key]. off. apply P_bind with (c1 := fun tk => (10 + 3 + refund tk)%nat); [exact (P_tok_err 10 _)|]. intro tk.
    destruct tk; try apply P_err. off. apply P_bind with (c1 := fun _ => 4%nat); [eapply P_le; [|intro; apply Nat.le_refl|exact Hrv]; cbn; lia|].
    intro v. del 4. intro o2. off. apply P_bind with (c1 := fun tk => (0 + 3 + refund tk)%nat); [exact (P_tok_err 0 _)|]. intro tk.
    destruct tk; try apply P_err; [apply P_ret; cbn; lia|]. exact (IH o2).
  Qed.
  Lemma P_array_loop rv : thrifty rv -> forall n o, P 9 (c_array_loop g pw cfg D rv n o) (fun _ => 9%nat).
  Proof.
    intro Hrv. induction n as [|n IH]; intro o; cbn [c_array_loop]; [apply P_fuel|]. off.
    apply P_bind with (c1 := fun b => (if b : bool then 5 + 9 else 5)%nat); [exact (P_peek 5)|]. intros [|]; [apply P_comma; cbn; lia|].
    eapply P_bind; [exact Hrv|]. intro v. off. del 4. intro o2. off. unfold cp_tok.
    apply P_bind with (c1 := fun tk => (0 + 3 + refund tk)%nat); [exact (P_tok_err 0 _)|]. intro tk.
    destruct tk; try apply P_err; [apply P_ret; cbn; lia|]. exact (IH o2).
  Qed.
  Lemma thrifty_tokens loops fuel : thrifty (c_read_tokens g pw cfg D loops fuel).
  Proof.
    induction fuel as [|fuel IH]; cbn [c_read_tokens]; [apply P_fuel|]. unfold thrifty. off. unfold cp_tok.
    apply P_bind with (c1 := fun tk => (1 + 3 + refund tk)%nat); [exact (P_tok_err 1 _)|]. intro tk.
    destruct tk; try apply P_err; try (apply P_blind; [apply st_del|intro; cbn; lia]).
    - apply P_bind with (c1 := fun _ => 10%nat); [apply P_blind; [apply st_begin|intro; cbn; lia]|]. intro. apply P_map_err. unfold c_read_object. off.
      del 9. intro o. eapply P_bind; [apply (P_object_loop _ IH)|]. intro o2. off. del 9. intro v.
      apply P_bind with (c1 := fun _ => 9%nat); [apply P_blind; [apply st_end|intro; cbn; lia]|]. intro. apply P_ret. lia.
    - apply P_bind with (c1 := fun _ => 10%nat); [apply P_blind; [apply st_begin|intro; cbn; lia]|]. intro. apply P_map_err. unfold c_read_array. off.
      del 9. intro o. eapply P_bind; [apply (P_array_loop _ IH)|]. intro o2. del 9. intro v.
      apply P_bind with (c1 := fun _ => 9%nat); [apply P_blind; [apply st_end|intro; cbn; lia]|]. intro. apply P_ret. lia.
  Qed.
  Lemma P_body loops fuel : P 5 (c_parse_body g pw cfg D loops fuel) (fun _ => 0%nat).
  Proof.
    unfold c_parse_body. eapply P_bind; [apply thrifty_tokens|]. intro v.
    apply P_bind with (c1 := fun _ => 4%nat); [apply P_blind; [apply st_root|intro; lia]|]. intro.
    eapply P_bind; [exact (P_trailing 0)|]. intro. apply P_ret. lia.
  Qed.
  (** A run that succeeds has come to the end of the input. *)
  Lemma body_ends loops fuel s n : (n <= len)%nat -> ps_iter s = BI source n ->
    match c_parse_body g pw cfg D loops fuel s with ((Ok _, s'), k) => (len < n + length k)%nat | _ => True end.
  Proof.
    intros Hn Hs. pose proof (thrifty_tokens loops fuel s n Hn Hs) as H. unfold c_parse_body, cpbind at 1.
    destruct (c_read_tokens g pw cfg D loops fuel s) as [[[v|e|f] s1] k1]; [|exact I..]. destruct H as (n1 & H1 & H1' & _ & H2).
    unfold cpbind, blind. pose proof (st_root v s1) as Hr. destruct (check_root cfg D v s1) as [[[]|e|f] s2]; cbn [snd] in Hr; [|exact I..].
    unfold c_check_trailing, c_next_non_ws. rewrite Hr, H1'. destruct (skip_ws_step source n1 (proj2 H1)) as (n2 & k2 & -> & H3 & Hk2).
    unfold c_next. destruct (next_cases source n2 (proj2 H3)) as [(b & -> & Hb & _)|E]; [exact I|rewrite E].
    unfold pret. unfold bi_next in E. cbn [bi_bytes bi_offset] in E. destruct (nth_error source n2) eqn:E2; [discriminate|]. apply nth_error_None in E2. lia.
  Qed.
End Parser.

(** * C89 *)
(** Whatever the delegate does and however the run ends, a run over [n] bytes looks at its input at most (9n + 5) / 2 times; and
    a run that succeeds has looked at least once at each byte (and at the end of the input).  The first conjunct says that
    the count is about the parser of the other theorems: without the count, it is the same computation. *)
Theorem C89_parsing_is_linear utf8 pw cfg D s st :
  let '(r, looks) := c_parse_bytes utf8 pw cfg D s st in
  r = parse_with utf8 pw D s cfg st /\
  (2 * length looks <= 9 * length s + 5)%nat /\
  (forall v, fst r = Ok v -> length s < length looks)%nat.
Proof.
  rewrite parse_with_eq, <- parse_eq. unfold c_parse_bytes.
  pose proof (P_body utf8 pw cfg D s (S (length s)) (S (length s)) (parse_state pw cfg D s st) 0 ltac:(lia) eq_refl) as H.
  pose proof (body_ends utf8 pw cfg D s (S (length s)) (S (length s)) (parse_state pw cfg D s st) 0 ltac:(lia) eq_refl) as H'.
  destruct (c_parse_body _ _ _ _ _ _ _) as [[r s1] k]. cbn [fst]. split; [reflexivity|].
  destruct r as [v|e|f]; destruct H as (n' & H1 & H2 & H3); (split; [lia|]); intros w Hw; try discriminate. lia.
Qed.

(** Calls of [Tokenizer::next], [next_or_eof] and [peek] in any order: at most 9/2 looks for each byte moved over, and two more
    for each call.  The first conjunct again ties the count to the tokenizer of the other theorems. *)
Definition c_tok_step (utf8 : bool) (pw : pwidth) (it : byte_iter) (c : tok_call) : (tok_obs * byte_iter) * list nat :=
  match c with
  | CallNext => let '((r, it'), k) := c_tokenizer_next utf8 pw it in ((ObsNext r (tokenizer_offset it'), it'), k)
  | CallNextOrEof => let '((r, it'), k) := c_next_or_eof utf8 pw it in ((ObsNextOrEof r (tokenizer_offset it'), it'), k)
  | CallPeek => let '((r, it'), k) := c_tokenizer_peek it in ((ObsPeek r (tokenizer_offset it'), it'), k)
  end.
Fixpoint c_tok_run (utf8 : bool) (pw : pwidth) (it : byte_iter) (cs : list tok_call) : (list tok_obs * byte_iter) * list nat :=
  match cs with
  | [] => (([], it), [])
  | c :: cs' =>
    let '((o, it1), k) := c_tok_step utf8 pw it c in let '((os, it2), k') := c_tok_run utf8 pw it1 cs' in ((o :: os, it2), k ++ k')
  end.
Lemma tok_step_eq utf8 pw it c : fst (c_tok_step utf8 pw it c) = tok_step utf8 pw it c.
Proof.
  destruct c; unfold c_tok_step, tok_step.
  - rewrite <- tokenizer_next_eq. destruct (c_tokenizer_next utf8 pw it) as [[r it'] k]. reflexivity.
  - rewrite <- (er_next_or_eof utf8 pw it). destruct (c_next_or_eof utf8 pw it) as [[r it'] k]. reflexivity.
  - rewrite <- tokenizer_peek_eq. destruct (c_tokenizer_peek it) as [[r it'] k]. reflexivity.
Qed.
Lemma tok_run_eq utf8 pw cs : forall it, fst (c_tok_run utf8 pw it cs) = tok_run utf8 pw it cs.
Proof.
  induction cs as [|c cs IH]; intro it; [reflexivity|]. cbn [c_tok_run tok_run]. rewrite <- tok_step_eq. destruct (c_tok_step utf8 pw it c) as [[o it1] k]. cbn [fst].
  rewrite <- IH. destruct (c_tok_run utf8 pw it1 cs) as [[os it2] k2]. reflexivity.
Qed.
Lemma tok_step_count utf8 pw s n c : (n <= length s)%nat ->
  let '((_, it), k) := c_tok_step utf8 pw (BI s n) c in
  exists n', it = BI s n' /\ (n <= n' <= length s)%nat /\ (2 * length k + 9 * n <= 9 * n' + 4 /\ n' <= n + length k)%nat.
Proof.
  intro Hn. destruct c; unfold c_tok_step.
  - unfold c_tokenizer_next, c_next_non_ws. destruct (skip_ws_step s n Hn) as (n1 & k1 & -> & H1 & Hk1). unfold c_next.
    destruct (next_cases s n1 (proj2 H1)) as [(b & -> & Hb & _)| ->].
    + pose proof (T_read_peek s utf8 pw n1 b 3 (n1 + 1)%nat ltac:(lia)) as H.
      destruct (c_read_peek utf8 pw n1 b (BI s (n1 + 1))) as [[r it1] k2].
      destruct r; destruct H as (n2 & H2 & -> & H3); exists n2; (split; [reflexivity|]); lia.
    + exists n1. split; [reflexivity|]. lia.
  - pose proof (T_next_or_eof s utf8 pw 0 n Hn) as H. destruct (c_next_or_eof utf8 pw (BI s n)) as [[[a|e|f] it1] k1];
      destruct H as (n2 & H2 & -> & H3); exists n2; (split; [reflexivity|]); lia.
  - unfold c_tokenizer_peek. destruct (skip_ws_step s n Hn) as (n1 & k1 & -> & H1 & Hk1). unfold c_peek, bi_peek. cbn [bi_bytes bi_offset].
    destruct (nth_error s n1); exists n1; (split; [reflexivity|]); lia.
Qed.
Theorem C89_tokenizing_is_linear utf8 pw s calls :
  let '(r, looks) := c_tok_run utf8 pw (tokenizer_new s) calls in
  r = tok_run utf8 pw (tokenizer_new s) calls /\
  (2 * length looks <= 9 * tokenizer_offset (snd r) + 4 * length calls)%nat /\
  (tokenizer_offset (snd r) <= length s)%nat /\ (tokenizer_offset (snd r) <= length looks)%nat.
Proof.
  rewrite <- tok_run_eq.
  assert (H : forall cs n, (n <= length s)%nat -> let '((_, it), k) := c_tok_run utf8 pw (BI s n) cs in
    exists n', it = BI s n' /\ (n <= n' <= length s)%nat /\ (2 * length k + 9 * n <= 9 * n' + 4 * length cs /\ n' <= n + length k)%nat).
  { induction cs as [|c cs IH]; intros n Hn; cbn [c_tok_run length].
    - exists n. split; [reflexivity|]. lia.
    - pose proof (tok_step_count utf8 pw s n c Hn) as H. destruct (c_tok_step utf8 pw (BI s n) c) as [[o it1] k1]. destruct H as (n1 & -> & H1 & H2).
      specialize (IH n1 (proj2 H1)). destruct (c_tok_run utf8 pw (BI s n1) cs) as [[os it2] k2]. destruct IH as (n2 & -> & H3 & H4).
      exists n2. split; [reflexivity|]. lia. }
  specialize (H calls 0%nat ltac:(lia)). unfold tokenizer_new, bi_new in *. destruct (c_tok_run _ _ _ _) as [[os it] k]. destruct H as (n & -> & H1 & H2).
  cbn [fst]. split; [reflexivity|]. unfold tokenizer_offset. cbn [snd bi_offset]. lia.
Qed.

(** The bound is attained (by a digit: seven looks), and three more runs. *)
Example C89_bound_is_attained : length (snd (c_parse_bytes true W64 config_new unit_delegate (bs "1") tt)) = 7%nat.
Proof. vm_compute. reflexivity. Qed.
Example C89_samples :
  length (snd (c_parse_bytes true W64 config_new unit_delegate (bs "[1, 22]") tt)) = 25%nat /\
  length (snd (c_parse_bytes true W64 config_new unit_delegate (bs "{") tt)) = 4%nat /\
  length (snd (c_parse_bytes false W64 config_new unit_delegate [34; 195; 169; 195; 169; 34]%N tt)) = 17%nat /\
  fst (c_parse_bytes false W64 config_new unit_delegate [34; 195; 169; 195; 169; 34]%N tt) = (Ok JkString, tt).
Proof. vm_compute. repeat split. Qed.
