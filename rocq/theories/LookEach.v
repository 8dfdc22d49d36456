(** How often a single position is looked at.  (Used by PropLook.v.) *)
From Verif Require Import Base Utf8 StrModel ErrorModel Tokenizer Parser LookModel LookFacts LookLocal.

Notation count p k := (count_occ Nat.eq_dec k p).
Ltac bools := repeat match goal with
  | |- context [(?a <? ?b)%nat] => destruct (Nat.ltb_spec a b)
  | |- context [(?a =? ?b)%nat] => destruct (Nat.eqb_spec a b)
  | H : context [(?a <? ?b)%nat] |- _ => destruct (Nat.ltb_spec a b)
  | H : context [(?a =? ?b)%nat] |- _ => destruct (Nat.eqb_spec a b)
  end.

Lemma count_cons p q k : count p (q :: k) = ((if (p =? q)%nat then 1 else 0) + count p k)%nat.
Proof. cbn [count_occ]. destruct (Nat.eq_dec q p), (Nat.eqb_spec p q); lia. Qed.
Lemma count_nil (p : nat) : count p [] = 0%nat. Proof. reflexivity. Qed.
Lemma count_app p (k k' : list nat) : count p (k ++ k') = (count p k + count p k')%nat.
Proof. apply count_occ_app. Qed.
Lemma count_seq p l : forall o, count p (seq o l) = if (p <? o)%nat then 0%nat else if (p <? o + l)%nat then 1%nat else 0%nat.
Proof. induction l as [|l IH]; intro o; cbn [seq]; [|rewrite count_cons, IH]; rewrite ?count_nil; bools; lia. Qed.

Section Each.
  Variable s : list N.
  Notation len := (length s).
  (** Coming from [n], where [a] looks were made before, to [n'], where at most [b] have been made after. *)
  Definition lim (n n' b p : nat) : nat := if (p <? n)%nat then 0 else if (p <? n')%nat then 5 else if (p =? n')%nat then b else 0.
  Definition each (a n n' b : nat) (k : list nat) : Prop :=
    (n <= n' <= len)%nat /\ forall p, (count p k + (if (p =? n)%nat then a else 0) <= lim n n' b p)%nat.
  Lemma each_app a n n1 b n2 c k1 k2 : each a n n1 b k1 -> each b n1 n2 c k2 -> each a n n2 c (k1 ++ k2).
  Proof.
    intros [H1 H2] [H3 H4]. split; [lia|]. intro p. specialize (H2 p). specialize (H4 p). rewrite count_app. unfold lim in *. bools; lia.
  Qed.
  Lemma each_le a a' n n' b b' k : (a' <= a)%nat -> (b <= b')%nat -> each a n n' b k -> each a' n n' b' k.
  Proof. intros Ha Hb [H1 H2]. split; [exact H1|]. intro p. specialize (H2 p). unfold lim in *. bools; lia. Qed.
  Lemma each_here a n b : (n <= len)%nat -> (a <= b)%nat -> each a n n b [].
  Proof. intros Hn Ha. split; [lia|]. intro p. rewrite count_nil. unfold lim. bools; lia. Qed.
  Lemma each_one a n k : (n < len)%nat -> (a + count n k <= 5)%nat -> (forall p, p <> n -> count p k = 0%nat) -> each a n (n + 1) 0 k.
  Proof.
    intros Hn Ha Hk. split; [lia|]. intro p. destruct (Nat.eq_dec p n) as [->|Hp]; [|rewrite (Hk p Hp)]; unfold lim; bools; lia.
  Qed.
  Lemma each_look a n b : (n <= len)%nat -> (a + 1 <= b)%nat -> each a n n b [n].
  Proof. intros Hn Ha. split; [lia|]. intro p. rewrite count_cons, count_nil. unfold lim. bools; lia. Qed.
  Lemma each_read a n : (n < len)%nat -> (a + 1 <= 5)%nat -> each a n (n + 1) 0 [n].
  Proof. intros Hn Ha. apply each_one; [exact Hn|rewrite count_cons, count_nil; bools; lia|]. intros p Hp. rewrite count_cons, count_nil. bools; lia. Qed.

  Definition E {A} (a : nat) (m : ctok A) (b : A -> nat) : Prop := forall n, (n <= len)%nat ->
    let '((r, it), k) := m (BI s n) in exists n', it = BI s n' /\ each a n n' (match r with Ok x => b x | _ => 5 end) k.
  Lemma E_bind {A B} a (m : ctok A) (k : A -> ctok B) b c : E a m b -> (forall x, E (b x) (k x) c) -> E a (cbind m k) c.
  Proof.
    intros Hm Hk n Hn. specialize (Hm n Hn). unfold cbind. destruct (m (BI s n)) as [[[x|e|f] it] k1]; [|exact Hm..]. destruct Hm as (n1 & -> & H1).
    specialize (Hk x n1 ltac:(destruct H1; lia)). destruct (k x (BI s n1)) as [[r it2] k2]. destruct Hk as (n2 & -> & H2). exists n2. split; [reflexivity|].
    eapply each_app; eassumption.
  Qed.
  Lemma E_le {A} a a' (m : ctok A) b b' : (a' <= a)%nat -> (forall x, b x <= b' x)%nat -> E a m b -> E a' m b'.
  Proof.
    intros Ha Hb H n Hn. specialize (H n Hn). destruct (m (BI s n)) as [[r it] k]. destruct H as (n' & H1 & H2). exists n'. split; [exact H1|].
    eapply each_le; [exact Ha| |exact H2]. destruct r; [apply Hb|lia|lia].
  Qed.
  Lemma E_ret {A} a (x : A) b : (a <= b x)%nat -> E a (cret x) b.
  Proof. intros H n Hn. exists n. split; [reflexivity|]. apply each_here; assumption. Qed.
  Lemma E_err {A} a e (b : A -> nat) : (a <= 5)%nat -> E a (cerr e) b.
  Proof. intros H n Hn. exists n. split; [reflexivity|]. apply each_here; assumption. Qed.
  Lemma E_lift {A} a (r : res (error infallible) A) b : (a <= 5)%nat -> (forall x, a <= b x)%nat -> E a (clift r) b.
  Proof. intros H H' n Hn. exists n. split; [reflexivity|]. apply each_here; [exact Hn|]. destruct r; [apply H'|lia|lia]. Qed.
  Lemma next_known n : (n <= len)%nat -> (exists b, bi_next (BI s n) = (Some (n, b), BI s (n + 1)) /\ (n < len)%nat) \/ bi_next (BI s n) = (None, BI s n).
  Proof.
    intro Hn. unfold bi_next. cbn [bi_bytes bi_offset]. destruct (nth_error s n) as [b|] eqn:K; [left|right; reflexivity]. exists b. split; [reflexivity|]. apply nth_error_Some. rewrite K. discriminate.
  Qed.
  Lemma E_read a : (a + 1 <= 5)%nat -> E a c_read (fun _ => 0%nat).
  Proof.
    intros Ha n Hn. unfold c_read, c_next. cbn [bi_offset]. destruct (next_known n Hn) as [(b & -> & Hl)| ->].
    - exists (n + 1)%nat. split; [reflexivity|]. apply each_read; assumption.
    - exists n. split; [reflexivity|]. apply each_look; assumption.
  Qed.
  Lemma E_get a : (a <= 5)%nat -> E a c_get_iter (fun _ => a).
  Proof. intros H n Hn. exists n. split; [reflexivity|]. apply each_here; [exact Hn|lia]. Qed.
  (** A [peek], then [k'] without moving, or [next] and [k]. *)
  Lemma E_peek_bump {A} a (p : N -> bool) (k k' : ctok A) b : (a + 2 <= 5)%nat -> E 0 k b -> E (a + 1) k' b ->
    E a (cbind c_peeked (fun o => match o with Some x => if p x then cbind c_bump (fun _ => k) else k' | None => k' end)) b.
  Proof.
    intros Ha Hk Hk' n Hn. unfold cbind, c_peeked, c_peek, bi_peek. cbn [bi_bytes bi_offset].
    assert (No : let '((r, it), k0) := let '(r, k2) := k' (BI s n) in (r, [n] ++ k2) in exists n', it = BI s n' /\ each a n n' (match r with Ok x => b x | _ => 5%nat end) k0).
    { specialize (Hk' n Hn). destruct (k' (BI s n)) as [[r it] k2]. destruct Hk' as (n2 & -> & H2). exists n2. split; [reflexivity|].
      eapply each_app; [|exact H2]. apply each_look; lia. }
    destruct (nth_error s n) as [x|] eqn:K; [|exact No]. destruct (p x); [|exact No].
    assert (Hl : (n < len)%nat) by (apply nth_error_Some; rewrite K; discriminate).
    unfold c_bump, c_next, bi_next. cbn [bi_bytes bi_offset]. rewrite K. cbn [snd]. specialize (Hk (n + 1)%nat ltac:(lia)).
    destruct (k (BI s (n + 1))) as [[r it] k2]. destruct Hk as (n2 & -> & H2). exists n2. split; [reflexivity|].
    eapply each_app; [|eapply each_app; [|exact H2]]; [apply each_look with (b := (a + 1)%nat); lia|]. apply each_read; lia.
  Qed.
  Lemma E_peek_opt {A} a (p : N -> bool) (k : ctok A) b : (a + 2 <= 5)%nat -> E (a + 1) k b ->
    E a (cbind c_peeked (fun o => cbind (match o with Some x => if p x then c_bump else cret tt | None => cret tt end) (fun _ => k))) b.
  Proof.
    intros Ha Hk n Hn.
    assert (Eq : cbind c_peeked (fun o => cbind (match o with Some b => if p b then c_bump else cret tt | None => cret tt end) (fun _ => k)) (BI s n) =
                cbind c_peeked (fun o => match o with Some b => if p b then cbind c_bump (fun _ => k) else cbind (cret tt) (fun _ => k) | None => cbind (cret tt) (fun _ => k) end) (BI s n)).
    { unfold cbind at 1 3. destruct (c_peeked (BI s n)) as [[[o|e|f] it] k0]; try reflexivity. destruct o as [x|]; [|reflexivity]. destruct (p x); reflexivity. }
    rewrite Eq. apply (E_peek_bump a p k (cbind (cret tt) (fun _ => k)) b Ha); [|apply E_bind with (b := fun _ => (a + 1)%nat); [apply E_ret; lia|intros _; exact Hk]|exact Hn].
    eapply E_le; [|intro; apply Nat.le_refl|exact Hk]. lia.
  Qed.

  (** ** Loops *)
  Lemma rest_len n : (n <= len)%nat -> (n + length (bi_rest (BI s n)) = len)%nat.
  Proof. intro H. unfold bi_rest. cbn [bi_bytes bi_offset]. rewrite skipn_length. lia. Qed.
  Lemma ws_each rest : forall o, let '(o', k) := c_skip_ws_loop rest o in (o <= o' <= o + length rest)%nat /\
    forall p, count p k = if (p <? o)%nat then 0%nat else if (p <? o' + 1)%nat then 1%nat else 0%nat.
  Proof.
    induction rest as [|b r IH]; intro o; cbn [c_skip_ws_loop length]; [split; [lia|]; intro p; rewrite count_cons, count_nil; bools; lia|].
    destruct (is_ws b); [|split; [lia|]; intro p; rewrite count_cons, count_nil; bools; lia].
    specialize (IH (o + 1)%nat). destruct (c_skip_ws_loop r (o + 1)) as [o' k]. destruct IH as [H1 H2]. split; [lia|]. intro p. rewrite count_cons, H2. bools; lia.
  Qed.
  Definition twice (o o' p : nat) : nat := if (p <? o)%nat then 0 else if (p <? o')%nat then 2 else if (p =? o')%nat then 1 else 0.
  Lemma high_each rest : forall o, let '(o', k) := c_skip_high_loop rest o in (o <= o' <= o + length rest)%nat /\ forall p, count p k = twice o o' p.
  Proof.
    unfold twice. induction rest as [|b r IH]; intro o; cbn [c_skip_high_loop length]; [split; [lia|]; intro p; rewrite count_cons, count_nil; bools; lia|].
    destruct (b <? 128)%N; [split; [lia|]; intro p; rewrite count_cons, count_nil; bools; lia|].
    specialize (IH (o + 1)%nat). destruct (c_skip_high_loop r (o + 1)) as [o' k]. destruct IH as [H1 H2]. split; [lia|]. intro p. rewrite !count_cons, H2. bools; lia.
  Qed.
  Lemma digits_each rest : forall o f, let '((o', _), k) := c_digits_loop rest o f in (o <= o' <= o + length rest)%nat /\ forall p, (count p k <= twice o o' p)%nat.
  Proof.
    unfold twice. induction rest as [|b r IH]; intros o f; cbn [c_digits_loop length]; [split; [lia|]; intro p; rewrite count_cons, count_nil; bools; lia|].
    destruct (is_digit b); [|split; [lia|]; intro p; rewrite count_cons, count_nil; bools; lia].
    specialize (IH (o + 1)%nat true). destruct (c_digits_loop r (o + 1) true) as [[o' f'] k]. destruct IH as [H1 H2]. split; [lia|]. intro p. specialize (H2 p). rewrite !count_cons. bools; lia.
  Qed.
  Lemma int_each rest : forall o f, let '((o', _), k) := c_int_loop rest o f in (o <= o' <= o + length rest)%nat /\ forall p, (count p k <= twice o o' p)%nat.
  Proof.
    unfold twice. induction rest as [|b r IH]; intros o f; cbn [c_int_loop length]; [split; [lia|]; intro p; rewrite count_cons, count_nil; bools; lia|].
    destruct (_ && _)%bool; [split; [lia|]; intro p; rewrite !count_cons, count_nil; bools; lia|].
    destruct (is_digit b); [|split; [lia|]; intro p; rewrite count_cons, count_nil; bools; lia].
    specialize (IH (o + 1)%nat true). destruct (c_int_loop r (o + 1) true) as [[o' f'] k]. destruct IH as [H1 H2]. split; [lia|]. intro p. specialize (H2 p). rewrite !count_cons. bools; lia.
  Qed.
  Lemma E_int a f : (a <= 3)%nat -> E a (c_read_int f) (fun _ => a + 1)%nat.
  Proof.
    intros Ha n Hn. unfold c_read_int. cbn [bi_offset bi_bytes]. pose proof (int_each (bi_rest (BI s n)) n f) as H. pose proof (rest_len n Hn).
    destruct (c_int_loop _ n f) as [[o b] k]. destruct H as [H1 H2]. exists o. split; [reflexivity|]. split; [lia|]. intro p. specialize (H2 p). unfold twice, lim in *. bools; lia.
  Qed.
  Lemma E_digits a : (a <= 3)%nat -> E a c_read_digits (fun _ => a + 1)%nat.
  Proof.
    intros Ha n Hn. unfold c_read_digits. cbn [bi_offset bi_bytes]. pose proof (digits_each (bi_rest (BI s n)) n false) as H. pose proof (rest_len n Hn).
    destruct (c_digits_loop _ n false) as [[o b] k]. destruct H as [H1 H2]. exists o. split; [reflexivity|]. split; [lia|]. intro p. specialize (H2 p). unfold twice, lim in *. bools; lia.
  Qed.
  (** [skip_ws]: at most one more at the position it stops at. *)
  Lemma ws_step_each a n : (a <= 4)%nat -> (n <= len)%nat -> exists n' k, c_skip_ws (BI s n) = (BI s n', k) /\ each a n n' (a + 1) k.
  Proof.
    intros Ha Hn. unfold c_skip_ws. cbn [bi_offset bi_bytes]. pose proof (ws_each (bi_rest (BI s n)) n) as H. pose proof (rest_len n Hn).
    destruct (c_skip_ws_loop _ n) as [o k]. destruct H as [H1 H2]. exists o, k. split; [reflexivity|]. split; [lia|]. intro p. rewrite H2. unfold lim. bools; lia.
  Qed.

  (** ** Numbers, strings, literals *)
  Lemma E_checked a (f : bool) k : (a <= 5)%nat -> E a (cbind c_get_iter (fun it => if f then cret tt else cerr (Error (bi_offset it) k))) (fun _ => a).
  Proof. intro Ha. eapply E_bind; [apply E_get, Ha|]. intro it. destruct f; [apply E_ret; lia|apply E_err, Ha]. Qed.
  Lemma E_number st start : E 0 (c_read_number_from_source st start) (fun _ => 3%nat).
  Proof.
    unfold c_read_number_from_source. apply E_bind with (b := fun _ => 1%nat).
    { unfold c_read_number_int. destruct st; [apply E_ret; lia| |]; (eapply E_bind; [apply E_int; lia|]; intro; apply E_checked; lia). }
    intros _. apply E_bind with (b := fun _ => 2%nat).
    { unfold c_read_number_frac. apply (E_peek_bump 1 (fun b => (b =? 46)%N)); [lia| |apply E_ret; lia].
      apply E_bind with (b := fun _ => 1%nat); [exact (E_digits 0 ltac:(lia))|]. intro. eapply E_le; [| |apply E_checked]; [apply Nat.le_refl|intro; cbn; lia|lia]. }
    intros _. apply E_bind with (b := fun _ => 3%nat).
    { unfold c_read_number_exp. apply (E_peek_bump 2 (fun b => (b =? 101)%N || (b =? 69)%N)%bool); [lia| |apply E_ret; lia].
      apply (E_peek_opt 0 (fun s => (s =? 45)%N || (s =? 43)%N)%bool); [lia|]. apply E_bind with (b := fun _ => 2%nat); [exact (E_digits 1 ltac:(lia))|]. intro.
      eapply E_le; [| |apply E_checked]; [apply Nat.le_refl|intro; cbn; lia|lia]. }
    intros _. eapply E_bind; [apply E_get; lia|]. intro it. apply E_bind with (b := fun _ => 3%nat); [apply E_lift; intros; lia|]. intro. apply E_ret. lia.
  Qed.
  Lemma E_read0 : E 0 c_read (fun _ => 0%nat). Proof. apply E_read. lia. Qed.
  Lemma E_hex c : forall acc, E 0 (c_read_hex c acc) (fun _ => 0%nat).
  Proof.
    induction c as [|c IH]; intro acc; cbn [c_read_hex]; [apply E_ret; lia|]. eapply E_bind; [apply E_read0|]. intros [o d]. cbv zeta.
    destruct (_ =? 255)%N; [apply E_err; lia|apply IH].
  Qed.
  Lemma E_second d : E 0 (c_read_second_half d) (fun _ => 0%nat).
  Proof.
    unfold c_read_second_half. destruct (_ && _)%bool; [|apply E_ret; lia]. eapply E_bind; [apply E_read0|]. intros [o b1]. destruct (b1 =? 92)%N; [|apply E_ret; lia].
    eapply E_bind; [apply E_read0|]. intros [o2 b2]. destruct (b2 =? 117)%N; [|apply E_ret; lia]. eapply E_bind; [apply E_hex|]. intro x. destruct (_ && _)%bool; [|apply E_ret; lia].
    apply E_bind with (b := fun _ => 0%nat); [apply E_lift; intros; lia|]. intro. apply E_ret. lia.
  Qed.
  Lemma E_escape pw i : E 0 (c_read_string_escape pw i) (fun _ => 0%nat).
  Proof.
    unfold c_read_string_escape. eapply E_bind; [apply E_read0|]. intros [o b]. destruct (_ || _)%bool; [apply E_lift; intros; lia|].
    destruct (b =? 117)%N; [|apply E_err; lia]. eapply E_bind; [apply E_hex|]. intro d. apply E_bind with (b := fun _ => 0%nat); [|intro; apply E_lift; intros; lia].
    destruct (char_from_u32 d); [apply E_ret; lia|]. eapply E_bind; [apply E_second|]. intros [m|]; [apply E_lift; intros; lia|apply E_err; lia].
  Qed.
  Lemma E_string g pw fuel : forall start i a, (a <= 1)%nat -> E a (c_read_string_loop g pw fuel start i) (fun _ => 0%nat).
  Proof.
    induction fuel as [|fuel IH]; intros start i a Ha; cbn [c_read_string_loop].
    { intros n Hn. exists n. split; [reflexivity|]. apply each_here; lia. }
    intros n Hn. unfold c_next. cbn [bi_offset]. destruct (next_known n Hn) as [(b & -> & Hl)| ->]; [|exists n; split; [reflexivity|]; apply each_look; lia]. cbv zeta.
    assert (Go : forall m : ctok json_string, E 0 m (fun _ => 0%nat) ->
      let '((r, it), k) := let '(r, k') := m (BI s (n + 1)) in (r, [n] ++ k') in exists n', it = BI s n' /\ each a n n' (match r with Ok _ => 0%nat | _ => 5%nat end) k).
    { intros m Hm. specialize (Hm (n + 1)%nat ltac:(lia)). destruct (m (BI s (n + 1))) as [[r it1] k1]. destruct Hm as (n1 & -> & H1). exists n1. split; [reflexivity|].
      eapply each_app; [|exact H1]. apply each_read; lia. }
    assert (One : each a n (n + 1) 5 ([n] ++ [])) by (eapply each_le; [| |apply (each_read a)]; lia).
    destruct (table_get _ _ _); [apply Go; apply E_bind with (b := fun _ => 0%nat); [apply E_lift; intros; lia|intro; apply IH; lia]|].
    destruct (b =? 34)%N; [apply Go; apply E_bind with (b := fun _ => 0%nat); [apply E_lift; intros; lia|intro; apply E_ret; lia]|].
    destruct (b =? 92)%N; [apply Go; apply E_bind with (b := fun _ => 0%nat); [apply E_escape|intro; apply IH; lia]|].
    destruct (128 <=? b)%N; [|destruct (b <=? 31)%N; exists (n + 1)%nat; (split; [reflexivity|]); exact One].
    unfold c_skip_high. cbn [bi_offset bi_bytes]. pose proof (high_each (bi_rest (BI s (n + 1))) (n + 1)) as H. pose proof (rest_len (n + 1) ltac:(lia)).
    destruct (c_skip_high_loop _ (n + 1)) as [o k]. destruct H as [H1 H2]. cbn [bi_offset bi_bytes].
    assert (Hs : each a n o 5 ([n] ++ k)).
    { split; [lia|]. intro p. rewrite count_app, count_cons, count_nil, H2. unfold lim, twice. bools; lia. }
    unfold cbind at 1. unfold clift. destruct (add_bytes _ _ _) as [i'|e|f]; [|exists o; split; [reflexivity|]; rewrite app_nil_r; exact Hs..].
    unfold slice. destruct (_ && _)%bool; [|exists o; split; [reflexivity|]; rewrite !app_nil_r; exact Hs].
    assert (Lr : (length (firstn (o - n) (skipn n s)) = o - n)%nat) by (rewrite firstn_length, skipn_length; lia).
    set (run := firstn (o - n) (skipn n s)) in *. unfold cbind, looks.
    assert (Hu : each a n o 1 ([n] ++ k ++ seq n (length run))).
    { split; [lia|]. intro p. rewrite !count_app, count_cons, count_nil, H2, count_seq, Lr. unfold lim, twice. bools; lia. }
    destruct (utf8_valid run).
    - specialize (IH start i' 1%nat ltac:(lia) o ltac:(lia)). destruct (c_read_string_loop g pw fuel start i' (BI s o)) as [[r it2] k2]. destruct IH as (n2 & -> & H3).
      exists n2. split; [reflexivity|]. pose proof (each_app _ _ _ _ _ _ _ _ Hu H3) as H4. rewrite <- !app_assoc in H4. cbn [app] in H4 |- *. exact H4.
    - exists o. split; [reflexivity|]. cbn [cerr app]. rewrite app_nil_r. eapply each_le; [apply Nat.le_refl| |exact Hu]. lia.
  Qed.
  Lemma E_literal l : E 0 (c_read_literal l) (fun _ => 0%nat).
  Proof.
    induction l as [|e l IH]; cbn [c_read_literal]; [apply E_ret; lia|]. intros n Hn. unfold c_next. cbn [bi_offset].
    destruct (next_known n Hn) as [(b & -> & Hl)| ->]; [|exists n; split; [reflexivity|]; apply each_look; lia].
    destruct (negb _); [exists (n + 1)%nat; split; [reflexivity|]; eapply each_le; [| |apply (each_read 0)]; lia|].
    specialize (IH (n + 1)%nat ltac:(lia)). destruct (c_read_literal l (BI s (n + 1))) as [[r it1] k1]. destruct IH as (n1 & -> & H1). exists n1. split; [reflexivity|].
    eapply each_app; [|exact H1]. apply each_read; lia.
  Qed.

  (** ** Tokens *)
  Definition after (tk : token) : nat := match tk with TkNumber _ => 3 | _ => 0 end.
  Lemma E_read_peek g pw o b : E 0 (c_read_peek g pw o b) after.
  Proof.
    assert (HL : forall l tk, after tk = 0%nat -> E 0 (cbind (c_read_literal l) (fun _ => cret tk)) after).
    { intros l tk Hk. eapply E_bind; [apply E_literal|]. intro. apply E_ret. lia. }
    assert (HN : forall st, E 0 (cbind (c_read_number_from_source st o) (fun n => cret (TkNumber n))) after).
    { intro st. eapply E_bind; [apply E_number|]. intro. apply E_ret. cbn [after]. lia. }
    unfold c_read_peek.
    repeat match goal with |- E _ (if ?x then _ else _) _ => destruct x end;
      try (apply E_ret; cbn [after]; lia); try (apply E_err; lia); try (apply HL; reflexivity); try apply HN.
    eapply E_bind; [|intro; apply E_ret; cbn [after]; apply Nat.le_refl].
    intros n Hn. unfold c_read_string_from_source. cbn [bi_bytes]. apply (E_string g pw _ o _ 0); [lia|exact Hn].
  Qed.
  Lemma E_next_or_eof g pw a : (a <= 3)%nat -> E a (c_next_or_eof g pw) after.
  Proof.
    intros Ha n Hn. unfold c_next_or_eof, c_read_non_ws. destruct (ws_step_each a n ltac:(lia) Hn) as (n1 & k1 & -> & H1).
    unfold c_read, c_next. cbn [bi_offset]. destruct (next_known n1 ltac:(destruct H1; lia)) as [(b & -> & Hb)| ->].
    - pose proof (E_read_peek g pw n1 b (n1 + 1)%nat ltac:(lia)) as H.
      destruct (c_read_peek g pw n1 b (BI s (n1 + 1))) as [[r it1] k2]. destruct H as (n2 & -> & H2). exists n2. split; [reflexivity|].
      eapply each_app; [|exact H2]. eapply each_app; [exact H1|]. apply each_read; lia.
    - exists n1. split; [reflexivity|]. eapply each_app; [exact H1|]. apply each_look; destruct H1; lia.
  Qed.

  (** * The parser *)
  Section Parser.
    Variables (g : bool) (pw : pwidth) (cfg : parse_config) (D : delegate).
    Definition PE {A} (a : nat) (m : cpm D A) (b : A -> nat) : Prop := forall n st dep, (n <= len)%nat ->
      let '((r, t), k) := m (PS (BI s n) st dep) in exists n', ps_iter t = BI s n' /\ each a n n' (match r with Ok x => b x | _ => 5 end) k.
    Lemma PE_bind {A B} a (m : cpm D A) (k : A -> cpm D B) b c : PE a m b -> (forall x, PE (b x) (k x) c) -> PE a (cpbind D m k) c.
    Proof.
      intros Hm Hk n st dep Hn. specialize (Hm n st dep Hn). unfold cpbind. destruct (m (PS (BI s n) st dep)) as [[[x|e|f] [it1 st1 dep1]] k1]; [|exact Hm..].
      destruct Hm as (n1 & H0 & H1). cbn [ps_iter] in H0. subst it1. specialize (Hk x n1 st1 dep1 ltac:(destruct H1; lia)). destruct (k x _) as [[r t] k2].
      destruct Hk as (n2 & H2 & H3). exists n2. split; [exact H2|]. eapply each_app; eassumption.
    Qed.
    Lemma PE_le {A} a a' (m : cpm D A) b b' : (a' <= a)%nat -> (forall x, b x <= b' x)%nat -> PE a m b -> PE a' m b'.
    Proof.
      intros Ha Hb H n st dep Hn. specialize (H n st dep Hn). destruct (m _) as [[r t] k]. destruct H as (n' & H1 & H2). exists n'. split; [exact H1|].
      eapply each_le; [exact Ha| |exact H2]. destruct r; [apply Hb|lia|lia].
    Qed.
    Lemma PE_blind {A} a (m : pm D A) b : obl D m -> (a <= 5)%nat -> (forall x, a <= b x)%nat -> PE a (blind D m) b.
    Proof.
      intros H Ha Hb n st dep Hn. unfold blind. destruct (H n st dep) as (r & st' & dep' & Eq). rewrite Eq. exists n. split; [reflexivity|]. apply each_here; [exact Hn|].
      destruct r; [apply Hb|lia|lia].
    Qed.
    Lemma PE_err {A} a o k (b : A -> nat) : (a <= 5)%nat -> PE a (blind D (perr D o k)) b.
    Proof. intros Ha n st dep Hn. exists n. split; [reflexivity|]. apply each_here; assumption. Qed.
    Lemma PE_ret {A} a (x : A) b : (a <= b x)%nat -> PE a (blind D (pret D x)) b.
    Proof. intros Ha n st dep Hn. exists n. split; [reflexivity|]. apply each_here; assumption. Qed.
    Lemma PE_fuel {A} a (b : A -> nat) : (a <= 5)%nat -> PE a (fun s => ((Fault FFuel, s), [])) b.
    Proof. intros Ha n st dep Hn. exists n. split; [reflexivity|]. apply each_here; assumption. Qed.
    Lemma PE_tok a conv : (a <= 3)%nat -> PE a (cp_tok_err D conv (c_next_or_eof g pw)) after.
    Proof.
      intros Ha n st dep Hn. unfold cp_tok_err. cbn [ps_iter ps_del ps_depth]. pose proof (E_next_or_eof g pw a Ha n Hn) as H. destruct (c_next_or_eof g pw (BI s n)) as [[r it] k].
      destruct H as (n' & -> & H1). exists n'. split; [reflexivity|]. destruct r; exact H1.
    Qed.
    Lemma PE_map_err {A} a f (m : cpm D A) b : PE a m b -> PE a (cp_map_err D f m) b.
    Proof. intros H n st dep Hn. specialize (H n st dep Hn). unfold cp_map_err. destruct (m _) as [[r t] k]. destruct H as (n' & H1 & H2). exists n'. split; [exact H1|]. destruct r; exact H2. Qed.
    Lemma PE_peek : PE 0 (c_peek_array_end D) (fun e => if e : bool then 0 else 2)%nat.
    Proof.
      intros n st dep Hn. unfold c_peek_array_end, c_tokenizer_peek. cbn [ps_iter ps_del ps_depth]. destruct (ws_step_each 0 n ltac:(lia) Hn) as (n1 & k1 & -> & H1).
      unfold c_peek, bi_peek. cbn [bi_bytes bi_offset].
      assert (Stay : each 0 n n1 2 (k1 ++ [n1])) by (eapply each_app; [exact H1|apply each_look; destruct H1; lia]).
      destruct (nth_error s n1) as [b|] eqn:K; [|exists n1; split; [reflexivity|exact Stay]].
      assert (n1 < len)%nat by (apply nth_error_Some; rewrite K; discriminate).
      destruct (peek_kind_of b); try (exists n1; split; [reflexivity|exact Stay]).
      exists (n1 + 1)%nat. split; [reflexivity|]. eapply each_app; [exact H1|]. apply each_read; lia.
    Qed.
    Lemma PE_trailing a : (a <= 3)%nat -> PE a (c_check_trailing D) (fun _ => 5%nat).
    Proof.
      intros Ha n st dep Hn. unfold c_check_trailing, c_next_non_ws. cbn [ps_iter ps_del ps_depth]. destruct (ws_step_each a n ltac:(lia) Hn) as (n1 & k1 & -> & H1).
      unfold c_next. cbn [bi_offset]. destruct (next_known n1 ltac:(destruct H1; lia)) as [(b & -> & Hb)| ->].
      - exists (n1 + 1)%nat. split; [reflexivity|]. eapply each_app; [exact H1|]. eapply each_le; [| |apply (each_read (a + 1))]; lia.
      - exists n1. split; [reflexivity|]. eapply each_app; [exact H1|]. apply each_look; destruct H1; lia.
    Qed.
    Ltac off := eapply PE_bind; [apply PE_blind; [apply ob_offset|lia|intro; apply Nat.le_refl]|intro].
    Ltac del := eapply PE_bind; [apply PE_blind; [apply ob_del|lia|intro; apply Nat.le_refl]|].
    Lemma PE_comma {A} (q : d_st D -> res infallible bool) (x : A) o b :
      PE 0 (cpbind D (if allow_trailing_commas cfg then blind D (pret D true) else blind D (p_query D q))
             (fun ok => if ok : bool then blind D (pret D x) else blind D (perr D o KIllegalTrailingComma))) b.
    Proof.
      apply PE_bind with (b := fun _ => 0%nat).
      - destruct (allow_trailing_commas cfg); apply PE_blind; first [apply ob_ret|apply ob_query|intros; lia].
      - intros [|]; [apply PE_ret; lia|apply PE_err; lia].
    Qed.
    Definition few (rv : cpm D (d_value D)) : Prop := PE 2 rv (fun _ => 3%nat).
    Ltac err := apply PE_err; cbn [after]; lia.
    Lemma PE_object_loop rv : few rv -> forall n o, PE 0 (c_object_loop g pw cfg D rv n o) (fun _ => 0%nat).
    Proof.
      intro Hrv. induction n as [|n IH]; intro o; cbn [c_object_loop]; [apply PE_fuel; lia|]. off. unfold cp_tok.
      eapply PE_bind; [apply PE_tok; lia|]. intro tk. destruct tk; try err; [|apply PE_comma].
      cbn [after]. del. intros [o1 key]. off. eapply PE_bind; [apply PE_tok; lia|]. intro tk. destruct tk; try err. cbn [after]. off.
      eapply PE_bind; [eapply PE_le; [|intro; apply Nat.le_refl|exact Hrv]; lia|]. intro v. del. intro o2. off. eapply PE_bind; [apply PE_tok; lia|]. intro tk.
      destruct tk; try err; [apply PE_ret; cbn [after]; lia|]. exact (IH o2).
    Qed.
    Lemma PE_array_loop rv : few rv -> forall n o, PE 0 (c_array_loop g pw cfg D rv n o) (fun _ => 0%nat).
    Proof.
      intro Hrv. induction n as [|n IH]; intro o; cbn [c_array_loop]; [apply PE_fuel; lia|]. off.
      eapply PE_bind; [apply PE_peek|]. intros [|]; [apply PE_comma|].
      eapply PE_bind; [exact Hrv|]. intro v. off. del. intro o2. off. unfold cp_tok. eapply PE_bind; [apply PE_tok; lia|]. intro tk.
      destruct tk; try err; [apply PE_ret; cbn [after]; lia|]. exact (IH o2).
    Qed.
    Lemma few_tokens loops fuel : few (c_read_tokens g pw cfg D loops fuel).
    Proof.
      induction fuel as [|fuel IH]; cbn [c_read_tokens]; [apply PE_fuel; lia|]. unfold few. off. unfold cp_tok.
      eapply PE_bind; [apply PE_tok; lia|]. intro tk.
      destruct tk; try err; try (apply PE_blind; [apply ob_del|cbn [after]; lia|intro; cbn [after]; lia]); cbn [after].
      - eapply PE_bind; [apply PE_blind; [apply ob_begin|lia|intro; apply Nat.le_refl]|]. intro. apply PE_map_err. unfold c_read_object. off.
        del. intro o. eapply PE_bind; [apply (PE_object_loop _ IH)|]. intro o2. off. del. intro v.
        eapply PE_bind; [apply PE_blind; [apply ob_end|lia|intro; apply Nat.le_refl]|]. intro. apply PE_ret. lia.
      - eapply PE_bind; [apply PE_blind; [apply ob_begin|lia|intro; apply Nat.le_refl]|]. intro. apply PE_map_err. unfold c_read_array. off.
        del. intro o. eapply PE_bind; [apply (PE_array_loop _ IH)|]. intro o2. del. intro v.
        eapply PE_bind; [apply PE_blind; [apply ob_end|lia|intro; apply Nat.le_refl]|]. intro. apply PE_ret. lia.
    Qed.
    Lemma PE_body loops fuel : PE 0 (c_parse_body g pw cfg D loops fuel) (fun _ => 5%nat).
    Proof.
      unfold c_parse_body. eapply PE_bind; [eapply PE_le; [|intro; apply Nat.le_refl|apply few_tokens]; lia|]. intro v.
      eapply PE_bind; [apply PE_blind; [apply ob_root|lia|intro; apply Nat.le_refl]|]. intro.
      eapply PE_bind; [apply PE_trailing; lia|]. intro. apply PE_ret. lia.
    Qed.
  End Parser.
End Each.
