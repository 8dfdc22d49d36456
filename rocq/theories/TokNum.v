(** Number tokens against the RFC 8259 number grammar. *)
From Verif Require Import Base Utf8 Utf8Facts StrModel ErrorModel Tokenizer Spec TokBase TokStr.
Local Open Scope N_scope.

Lemma is_digit_spec b : is_digit b = true <-> digit b.
Proof. unfold is_digit, digit. lia. Qed.

Definition not_digit_head (r : list N) : Prop := match r with [] => True | b :: _ => ~ digit b end.

Lemma digits_take r : Forall digit (take_while is_digit r).
Proof. eapply Forall_impl; [|apply take_while_all]. intro b. apply is_digit_spec. Qed.

Lemma digits_drop r : not_digit_head (drop_while is_digit r).
Proof.
  pose proof (drop_while_head is_digit r) as H. destruct (drop_while is_digit r) as [|b r']; [exact I|].
  cbn. intro Hd. apply is_digit_spec in Hd. congruence.
Qed.

Lemma digits_take_app ds r : Forall digit ds -> not_digit_head r ->
  take_while is_digit (ds ++ r) = ds /\ drop_while is_digit (ds ++ r) = r.
Proof.
  intros Hd Hr. apply take_while_app.
  - eapply Forall_impl; [|exact Hd]. intro b. apply is_digit_spec.
  - destruct r as [|b r]; [exact I|]. destruct (is_digit b) eqn:E; [|reflexivity].
    apply is_digit_spec in E. contradiction.
Qed.

Lemma int_loop_true r : forall o, int_loop r o true = ((o + length (take_while is_digit r))%nat, true).
Proof.
  induction r as [|b r IH]; intro o; cbn [int_loop take_while]; [cbn; f_equal; lia|].
  rewrite andb_false_r. destruct (is_digit b); [rewrite IH; cbn; f_equal; lia|cbn; f_equal; lia].
Qed.

Lemma digits_loop_spec r : forall o f, digits_loop r o f =
  ((o + length (take_while is_digit r))%nat,
   match take_while is_digit r with [] => f | _ => true end).
Proof.
  induction r as [|b r IH]; intros o f; cbn [digits_loop take_while]; [cbn; f_equal; lia|].
  destruct (is_digit b); [rewrite IH; cbn; f_equal; [lia|destruct (take_while is_digit r); reflexivity]|cbn; f_equal; lia].
Qed.

Lemma mk_take_drop pre f r :
  BI (pre ++ r) (length pre + length (take_while f r)) = mk (pre ++ take_while f r) (drop_while f r).
Proof. rewrite <- (take_drop f r) at 1. apply mk_eq. Qed.

Lemma read_digits_mk pre r :
  read_digits (mk pre r) =
  (Ok (match take_while is_digit r with [] => false | _ => true end),
   mk (pre ++ take_while is_digit r) (drop_while is_digit r)).
Proof.
  unfold read_digits. rewrite bi_rest_mk, digits_loop_spec. unfold mk at 1 2. cbn [bi_bytes bi_offset].
  rewrite mk_take_drop. reflexivity.
Qed.

Lemma read_number_int_mk st pre r :
  read_number_int st (mk pre r) =
  match st with
  | INZero => (Ok tt, mk pre r)
  | INDigit => (Ok tt, mk (pre ++ take_while is_digit r) (drop_while is_digit r))
  | INSign =>
    match r with
    | b :: r' =>
      if b =? 48 then (Ok tt, mk (pre ++ [b]) r')
      else if is_digit b then (Ok tt, mk (pre ++ take_while is_digit r) (drop_while is_digit r))
      else (Err (Error (length pre) KExpectedDigit), mk pre r)
    | [] => (Err (Error (length pre) KExpectedDigit), mk pre r)
    end
  end.
Proof.
  destruct st; [reflexivity| |]; cbn [read_number_int]; unfold tbind, read_int, get_iter; rewrite bi_rest_mk.
  - rewrite int_loop_true. unfold mk at 1 2. cbn [bi_bytes bi_offset]. rewrite mk_take_drop. reflexivity.
  - destruct r as [|b r]; [reflexivity|]. cbn [int_loop].
    destruct (N.eqb_spec b 48) as [->|Hb]; cbn [andb negb].
    + unfold mk at 1 2. cbn [bi_bytes bi_offset]. rewrite mk_eq1. reflexivity.
    + destruct (is_digit b) eqn:Hd.
      * rewrite int_loop_true. cbn [take_while drop_while]. rewrite Hd.
        replace (bi_offset (mk pre (b :: r)) + 1 + length (take_while is_digit r))%nat
          with (length pre + length (b :: take_while is_digit r))%nat by (cbn; lia).
        replace (bi_bytes (mk pre (b :: r))) with (pre ++ (b :: take_while is_digit r) ++ drop_while is_digit r)
          by (cbn; rewrite take_drop; reflexivity).
        rewrite mk_eq. reflexivity.
      * reflexivity.
Qed.

Lemma bump_mk pre b r : bump (mk pre (b :: r)) = (Ok tt, mk (pre ++ [b]) r).
Proof. unfold bump. rewrite bi_next_mk. reflexivity. Qed.

Lemma read_number_frac_mk pre r :
  read_number_frac (mk pre r) =
  match r with
  | b :: r' =>
    if b =? 46 then
      match take_while is_digit r' with
      | [] => (Err (Error (length pre + 1) KExpectedDecimalDigit), mk (pre ++ [46]) r')
      | ds => (Ok tt, mk (pre ++ 46 :: ds) (drop_while is_digit r'))
      end
    else (Ok tt, mk pre r)
  | [] => (Ok tt, mk pre r)
  end.
Proof.
  unfold read_number_frac, tbind at 1, get_iter at 1. rewrite bi_peek_mk.
  destruct r as [|b r]; [reflexivity|]. destruct (N.eqb_spec b 46) as [->|]; [|reflexivity].
  unfold tbind. rewrite bump_mk, read_digits_mk. unfold get_iter.
  pose proof (take_drop is_digit r) as E.
  destruct (take_while is_digit r) as [|d ds].
  - cbn [app] in E. rewrite E, app_nil_r. unfold terr, mk. cbn [bi_offset]. rewrite app_length. reflexivity.
  - rewrite <- app_assoc. reflexivity.
Qed.

Definition is_sign (b : N) : bool := (b =? 45) || (b =? 43).
Definition opt_sign (r : list N) : list N :=
  match r with b :: _ => if is_sign b then [b] else [] | [] => [] end.

Lemma read_number_exp_mk pre r :
  read_number_exp (mk pre r) =
  match r with
  | b :: r1 =>
    if (b =? 101) || (b =? 69) then
      let sg := opt_sign r1 in
      let r2 := skipn (length sg) r1 in
      match take_while is_digit r2 with
      | [] => (Err (Error (length pre + 1 + length sg) KExpectedExponent), mk (pre ++ b :: sg) r2)
      | ds => (Ok tt, mk (pre ++ b :: sg ++ ds) (drop_while is_digit r2))
      end
    else (Ok tt, mk pre r)
  | [] => (Ok tt, mk pre r)
  end.
Proof.
  unfold read_number_exp, tbind at 1, get_iter at 1. rewrite bi_peek_mk.
  destruct r as [|b r]; [reflexivity|]. destruct ((b =? 101) || (b =? 69)) eqn:Eb; [|reflexivity].
  unfold tbind. rewrite bump_mk. unfold get_iter. rewrite bi_peek_mk.
  assert (Es : (match match r with [] => None | s :: _ => Some s end with
                | Some s => if (s =? 45) || (s =? 43) then bump else tret tt
                | None => tret tt
                end) (mk (pre ++ [b]) r) =
          (Ok tt, mk (pre ++ b :: opt_sign r) (skipn (length (opt_sign r)) r))).
  { destruct r as [|s r]; [reflexivity|]. cbn [opt_sign]. unfold is_sign.
    destruct ((s =? 45) || (s =? 43)); [rewrite bump_mk, <- app_assoc; reflexivity|reflexivity]. }
  rewrite Es, read_digits_mk.
  set (sg := opt_sign r). set (r2 := skipn (length sg) r).
  pose proof (take_drop is_digit r2) as E.
  cbn zeta. destruct (take_while is_digit r2) as [|d ds].
  - cbn [app] in E. rewrite E, app_nil_r. unfold terr, mk. cbn [bi_offset]. rewrite app_length. cbn [length].
    replace (length pre + S (length sg))%nat with (length pre + 1 + length sg)%nat by lia. reflexivity.
  - rewrite <- app_assoc. reflexivity.
Qed.

(** * The token found at the start of [s], with the stop conditions that make it unique *)
Inductive num_token (t r' : list N) : Prop :=
| NumToken (m i f e : list N) :
  t = m ++ i ++ f ++ e ->
  num_minus m ->
  i = [48] \/
    (exists d ds, 49 <= d <= 57 /\ Forall digit ds /\ i = d :: ds) /\ not_digit_head (f ++ e ++ r') ->
  f = [] /\ (match e ++ r' with b :: _ => b <> 46 | [] => True end) \/
    (exists ds, digits ds /\ f = 46 :: ds) /\ not_digit_head (e ++ r') ->
  e = [] /\ (match r' with b :: _ => b <> 101 /\ b <> 69 | [] => True end) \/
    (exists e0 sg ds, (e0 = 101 \/ e0 = 69) /\ (sg = [] \/ sg = [43] \/ sg = [45]) /\ digits ds /\
                      e = e0 :: sg ++ ds) /\ not_digit_head r' ->
  num_token t r'.

Lemma num_token_number t r' : num_token t r' -> number t.
Proof.
  intros [m i f e E Hm Hi Hf He]. exists m, i, f, e.
  split; [exact Hm|]. split.
  { destruct Hi as [->|[(d & ds & Hd & Hds & ->) _]]; [left; reflexivity|right; eauto]. }
  split. { destruct Hf as [[-> _]|[H _]]; [left; reflexivity|right; exact H]. }
  split. { destruct He as [[-> _]|[H _]]; [left; reflexivity|right; exact H]. }
  exact E.
Qed.

(** A byte that can follow a number without prolonging it. *)
Definition num_stop (r : list N) : Prop :=
  match r with [] => True | b :: _ => ~ digit b /\ b <> 46 /\ b <> 101 /\ b <> 69 end.

Lemma num_stop_digit r : num_stop r -> not_digit_head r.
Proof. destruct r; cbn; tauto. Qed.

Lemma number_num_token t r : number t -> num_stop r -> num_token t r.
Proof.
  intros (m & i & f & e & Hm & Hi & Hf & He & ->) Hr.
  assert (Her : not_digit_head (e ++ r) /\ match e ++ r with b :: _ => b <> 46 | [] => True end).
  { destruct He as [->|(x & sg & ds & Hx & Hsg & Hds & ->)].
    - cbn [app]. split; [apply num_stop_digit; exact Hr|]. destruct r; cbn in *; tauto.
    - cbn. unfold digit. split; lia. }
  assert (Hfer : not_digit_head (f ++ e ++ r)).
  { destruct Hf as [->|(ds & Hds & ->)]; [apply Her|]. cbn. unfold digit. lia. }
  exists m i f e; [reflexivity|exact Hm|..].
  - destruct Hi as [->|(d & ds & Hd & Hds & ->)]; [left; reflexivity|right; split; eauto].
  - destruct Hf as [->|Hds]; [left; split; [reflexivity|apply Her]|right; split; [exact Hds|apply Her]].
  - destruct He as [->|Hx]; [left; split; [reflexivity|]|right; split; [exact Hx|apply num_stop_digit; exact Hr]].
    destruct r; cbn in *; tauto.
Qed.

Lemma number_nonnil t : number t -> t <> [].
Proof.
  intros (m & i & f & e & Hm & Hi & Hf & He & ->) E.
  apply app_eq_nil in E as [_ E]. apply app_eq_nil in E as [E _].
  destruct Hi as [->|(d & ds & _ & _ & ->)]; discriminate.
Qed.

Lemma num_int_digits i : num_int i -> Forall digit i.
Proof.
  intros [->|(d & ds & Hd & Hds & ->)]; [repeat constructor; lia|].
  constructor; [unfold digit; lia|exact Hds].
Qed.

Lemma number_ascii t : number t -> Forall (fun b => b < 128) t.
Proof.
  intros (m & i & f & e & Hm & Hi & Hf & He & ->).
  assert (D : forall s, Forall digit s -> Forall (fun b => b < 128) s).
  { intros s H. eapply Forall_impl; [|exact H]. unfold digit. intros; lia. }
  apply num_int_digits in Hi. repeat (apply Forall_app; split).
  - destruct Hm as [-> | ->]; repeat constructor; lia.
  - apply D. exact Hi.
  - destruct Hf as [->|(ds & [_ Hds] & ->)]; [constructor|constructor; [lia|apply D; exact Hds]].
  - destruct He as [->|(x & sg & ds & Hx & Hsg & [_ Hds] & ->)]; [constructor|].
    constructor; [lia|]. apply Forall_app. split; [|apply D; exact Hds].
    destruct Hsg as [->|[->| ->]]; repeat constructor; lia.
Qed.

(** * Longest match *)
Lemma digits_longest ds A ds' B : Forall digit ds' -> not_digit_head A -> ds ++ A = ds' ++ B ->
  (length ds' < length ds)%nat /\ (exists b B', B = b :: B' /\ In b ds) \/ ds' = ds /\ A = B.
Proof.
  intros Hd HA. revert ds' Hd B. induction ds as [|d ds IH]; intros ds' Hd B E.
  - destruct ds' as [|d' ds']; [right; auto|]. exfalso. cbn in E. subst A. cbn in HA.
    inversion Hd. contradiction.
  - destruct ds' as [|d' ds'].
    + left. cbn [app] in E. subst B. split; [cbn; lia|]. exists d, (ds ++ A). split; [reflexivity|left; reflexivity].
    + cbn in E. injection E as <- E. inversion Hd as [|? ? _ Hd']. subst.
      destruct (IH ds' Hd' B E) as [[H1 (b & B' & HB & Hin)]|[-> ->]].
      * left. split; [cbn; lia|]. exists b, B'. split; [exact HB|right; exact Hin].
      * right. auto.
Qed.

Theorem num_token_longest t r' n z : num_token t r' -> number n -> t ++ r' = n ++ z ->
  (length n <= length t)%nat.
Proof.
  intros [m i f e -> Hm Hi Hf He] (m' & i' & f' & e' & Hm' & Hi' & Hf' & He' & ->) E.
  rewrite <- !app_assoc in E.
  assert (Hd : forall j, num_int j -> exists d ds, j = d :: ds /\ digit d).
  { intros j [->|(d & ds & Hd & Hds & ->)]; eexists _, _; (split; [reflexivity|unfold digit; lia]). }
  assert (Hi0 : num_int i).
  { destruct Hi as [->|[(d & ds & Hd1 & Hds & ->) _]]; [left; reflexivity|right; eauto]. }
  assert (m = m') as <-.
  { destruct (Hd i Hi0) as (d & ds & -> & Hdd). destruct (Hd i' Hi') as (d' & ds' & -> & Hdd').
    unfold digit in *.
    destruct Hm as [-> | ->], Hm' as [-> | ->]; cbn in E; try reflexivity; injection E as E0 _; lia. }
  apply app_inv_head in E.
  (* stages *)
  assert (Hno : forall b B', f' ++ e' ++ z = b :: B' -> digit b -> f' = [] /\ e' = []).
  { intros b B' EB Hb. destruct Hf' as [->|(ds & _ & ->)].
    - destruct He' as [->|(x & sg & ds & Hx & _ & _ & ->)]; [auto|]. cbn in EB. injection EB as -> _.
      unfold digit in Hb. lia.
    - cbn in EB. injection EB as <- _. unfold digit in Hb. lia. }
  assert (Hfe : f ++ e ++ r' = f' ++ e' ++ z -> (length f' + length e' <= length f + length e)%nat).
  { clear Hi Hi' Hi0 Hno E. intro E.
    assert (Hee : e ++ r' = e' ++ z -> (length e' <= length e)%nat).
    { clear E. intro E. destruct He as [[-> Hr]|[(x & sg & ds & Hx & Hsg & [Hn Hds] & ->) Hr]].
      - destruct He' as [->|(x & sg & ds & Hx & _ & _ & ->)]; [cbn; lia|].
        cbn in E. subst r'. cbn in Hr. lia.
      - destruct He' as [->|(x' & sg' & ds' & Hx' & Hsg' & [Hn' Hds'] & ->)]; [cbn; lia|].
        cbn in E. injection E as <- E. rewrite <- !app_assoc in E.
        assert (Hsgn : forall s l y, (s = [] \/ s = [43] \/ s = [45]) -> Forall digit l -> l <> [] ->
                 exists b q, s ++ l ++ y = b :: q /\ (b = 43 /\ s = [43] \/ b = 45 /\ s = [45] \/ digit b /\ s = [])).
        { intros s l y Hs Hl Hln. destruct l as [|l0 l]; [congruence|]. inversion Hl.
          destruct Hs as [->|[->| ->]]; cbn; eexists _, _; (split; [reflexivity|]); auto 6. }
        destruct (Hsgn sg ds r' Hsg Hds Hn) as (b1 & q1 & E1 & C1).
        destruct (Hsgn sg' ds' z Hsg' Hds' Hn') as (b2 & q2 & E2 & C2).
        assert (sg = sg') as <-.
        { rewrite E1, E2 in E. injection E as -> _. unfold digit in *.
          destruct C1 as [[? ->]|[[? ->]|[? ->]]], C2 as [[? ->]|[[? ->]|[? ->]]]; try reflexivity; lia. }
        apply app_inv_head in E. destruct (digits_longest ds r' ds' z Hds' Hr E) as [[Hl _]|[-> _]];
          cbn; rewrite !app_length; lia. }
    destruct Hf as [[-> Hr]|[(ds & [Hn Hds] & ->) Hr]].
    - destruct Hf' as [->|(ds & _ & ->)].
      + cbn [app] in E. specialize (Hee E). cbn. lia.
      + exfalso. cbn in E. rewrite E in Hr. apply Hr. reflexivity.
    - destruct Hf' as [->|(ds' & [_ Hds'] & ->)].
      + cbn [app] in E. destruct He' as [->|(x & sg & ds' & Hx & _ & _ & ->)]; [cbn; lia|].
        cbn in E. injection E as E0 _. lia.
      + cbn in E. injection E as E.
        destruct (digits_longest ds (e ++ r') ds' (e' ++ z) Hds' Hr E) as [[Hl (b & B' & HB & Hin)]|[-> E2]].
        * rewrite Forall_forall in Hds. specialize (Hds b Hin).
          destruct He' as [->|(x & sg & ds2 & Hx & _ & _ & ->)]; [cbn; lia|].
          cbn in HB. injection HB as -> _. unfold digit in Hds. lia.
        * specialize (Hee E2). cbn. lia. }
  assert (length i' + length f' + length e' <= length i + length f + length e)%nat.
  { destruct Hi as [->|[(d & ds & Hd1 & Hds & ->) Hr]].
    - destruct Hi' as [->|(d & ds & Hd1 & Hds & ->)].
      + cbn in E. injection E as E. specialize (Hfe E). cbn. lia.
      + cbn in E. injection E as E0 _. lia.
    - destruct Hi' as [->|(d' & ds' & Hd1' & Hds' & ->)].
      + cbn in E. injection E as E0 _. lia.
      + cbn in E. injection E as <- E.
        destruct (digits_longest ds (f ++ e ++ r') ds' (f' ++ e' ++ z) Hds' Hr E) as [[Hl (b & B' & HB & Hin)]|[-> E2]].
        * rewrite Forall_forall in Hds. destruct (Hno b B' HB (Hds b Hin)) as [-> ->]. cbn. lia.
        * specialize (Hfe E2). cbn. lia. }
  rewrite !app_length. lia.
Qed.

(** * Soundness and completeness of the number reader *)
Lemma digits_of_take r d ds : take_while is_digit r = d :: ds -> digits (d :: ds).
Proof. intro H. split; [discriminate|]. rewrite <- H. apply digits_take. Qed.

(** [c] is the first byte of the number: already consumed when the reader starts. *)
Definition init_ok (st : initial_number_state) (c : N) : Prop :=
  match st with INZero => c = 48 | INDigit => 49 <= c <= 57 | INSign => c = 45 end.

Lemma read_number_spec st p c r :
  init_ok st c ->
  match read_number_from_source st (length p) (mk (p ++ [c]) r) with
  | (Ok n, it') => exists x r', r = x ++ r' /\ it' = mk (p ++ c :: x) r' /\
                     n = JNum (Borrowed (c :: x)) /\ num_token (c :: x) r'
  | (Err e, it') => err_ok (p ++ [c]) r e it'
  | (Fault _, _) => False
  end.
Proof.
  intro Hst. unfold read_number_from_source.
  set (k := fun _ : unit => let! _ := read_number_frac in _).
  set (k2 := fun _ : unit => let! _ := read_number_exp in _) in k.
  set (k3 := fun _ : unit => let! it := get_iter in _) in k2.
  (* exponent stage and end *)
  assert (H3 : forall x r3, num_token (c :: x) r3 ->
     k3 tt (mk (p ++ c :: x) r3) = (Ok (JNum (Borrowed (c :: x))), mk (p ++ c :: x) r3)).
  { intros x r3 Ht. unfold k3, tbind, get_iter, tlift, str_unchecked, tret. rewrite mk_bytes, mk_offset.
    rewrite slice_mid by (rewrite ?app_length; lia).
    rewrite utf8_valid_ascii by (apply number_ascii; eapply num_token_number; exact Ht). reflexivity. }
  assert (H2 : forall m i f r2, (m ++ i ++ f <> [] -> exists q, m ++ i ++ f = c :: q) -> 
     (forall e r', r2 = e ++ r' ->
       (e = [] /\ (match r' with b :: _ => b <> 101 /\ b <> 69 | [] => True end) \/
        (exists e0 sg ds, (e0 = 101 \/ e0 = 69) /\ (sg = [] \/ sg = [43] \/ sg = [45]) /\ digits ds /\
                            e = e0 :: sg ++ ds) /\ not_digit_head r') ->
       num_token (m ++ i ++ f ++ e) r') ->
     m ++ i ++ f <> [] ->
     match k2 tt (mk (p ++ m ++ i ++ f) r2) with
     | (Ok n, it') => exists x r', (m ++ i ++ f) ++ r2 = c :: x ++ r' /\ it' = mk (p ++ c :: x) r' /\
                     n = JNum (Borrowed (c :: x)) /\ num_token (c :: x) r'
     | (Err e, it') => err_ok (p ++ m ++ i ++ f) r2 e it'
     | (Fault _, _) => False
     end).
  { intros m i f r2 Hq Ht Hne. destruct (Hq Hne) as (q & Eq). unfold k2, tbind at 1. rewrite read_number_exp_mk.
    assert (Hdone : forall e r', r2 = e ++ r' ->
       (e = [] /\ (match r' with b :: _ => b <> 101 /\ b <> 69 | [] => True end) \/
        (exists e0 sg ds, (e0 = 101 \/ e0 = 69) /\ (sg = [] \/ sg = [43] \/ sg = [45]) /\ digits ds /\
                            e = e0 :: sg ++ ds) /\ not_digit_head r') ->
       exists x r'', k3 tt (mk ((p ++ m ++ i ++ f) ++ e) r') = (Ok (JNum (Borrowed (c :: x))), mk (p ++ c :: x) r'') /\
         (m ++ i ++ f) ++ r2 = c :: x ++ r'' /\ num_token (c :: x) r'').
    { intros e r' -> He. specialize (Ht e r' eq_refl He).
      replace (m ++ i ++ f ++ e) with ((m ++ i ++ f) ++ e) in Ht by (rewrite <- !app_assoc; reflexivity).
      rewrite <- (app_assoc p (m ++ i ++ f) e), Eq in *. cbn [app] in *.
      exists (q ++ e), r'. split; [apply H3; exact Ht|]. split; [rewrite <- app_assoc; reflexivity|exact Ht]. }
    destruct r2 as [|b r2].
    { destruct (Hdone [] [] eq_refl (or_introl (conj eq_refl I))) as (x & r'' & Ek & Es & Hn).
      rewrite app_nil_r in Ek. rewrite Ek. exists x, r''. rewrite Es. auto. }
    destruct ((b =? 101) || (b =? 69)) eqn:Eb.
    - cbn zeta. set (sg := opt_sign r2). set (r3 := skipn (length sg) r2).
      assert (Hsg : (sg = [] \/ sg = [43] \/ sg = [45]) /\ r2 = sg ++ r3).
      { subst sg r3. destruct r2 as [|s r2]; [split; [left; reflexivity|reflexivity]|]. cbn [opt_sign]. unfold is_sign.
        destruct ((s =? 45) || (s =? 43)) eqn:Es; cbn; [|split; auto].
        split; [|reflexivity]. assert (s = 45 \/ s = 43) as [->| ->] by lia; auto. }
      destruct Hsg as [Hsg Er]. pose proof (take_drop is_digit r3) as Etd. pose proof (digits_drop r3) as Hdd.
      destruct (take_while is_digit r3) as [|d ds] eqn:Etk.
      + rewrite Er. change (b :: sg ++ r3) with ((b :: sg) ++ r3). apply err_ok_back; [cbn [length]; lia|reflexivity].
      + destruct (Hdone (b :: sg ++ d :: ds) (drop_while is_digit r3)) as (x & r'' & Ek & Es & Hn).
        { rewrite Er. cbn. f_equal. rewrite <- app_assoc. f_equal. symmetry. exact Etd. }
        { right. split; [|exact Hdd]. exists b, sg, (d :: ds). repeat split; auto; [lia|discriminate|].
          apply (digits_of_take _ _ _ Etk). }
        rewrite Ek. exists x, r''. auto.
    - destruct (Hdone [] (b :: r2) eq_refl) as (x & r'' & Ek & Es & Hn).
      { left. split; [reflexivity|]. lia. }
      rewrite app_nil_r in Ek. rewrite Ek. exists x, r''. auto. }
  (* fraction stage *)
  assert (H1 : forall m i r1, num_minus m -> num_int i -> (exists q, m ++ i = c :: q) ->
     (i = [48] \/ not_digit_head r1) ->
     match k tt (mk (p ++ m ++ i) r1) with
     | (Ok n, it') => exists x r', (m ++ i) ++ r1 = c :: x ++ r' /\ it' = mk (p ++ c :: x) r' /\
                     n = JNum (Borrowed (c :: x)) /\ num_token (c :: x) r'
     | (Err e, it') => err_ok (p ++ m ++ i) r1 e it'
     | (Fault _, _) => False
     end).
  { intros m i r1 Hm Hi (q & Eq) Hnd. unfold k, tbind at 1. rewrite read_number_frac_mk.
    assert (Hstage : forall f r2, r1 = f ++ r2 ->
       (forall e r', r2 = e ++ r' -> f = [] /\ (match e ++ r' with b :: _ => b <> 46 | [] => True end) \/
            (exists ds, digits ds /\ f = 46 :: ds) /\ not_digit_head (e ++ r')) ->
       match k2 tt (mk (p ++ m ++ i ++ f) r2) with
       | (Ok n, it') => exists x r', (m ++ i) ++ r1 = c :: x ++ r' /\ it' = mk (p ++ c :: x) r' /\
                     n = JNum (Borrowed (c :: x)) /\ num_token (c :: x) r'
       | (Err e, it') => err_ok (p ++ m ++ i) r1 e it'
       | (Fault _, _) => False
       end).
    { intros f r2 -> Hf. specialize (H2 m i f r2).
      assert (Hq : exists q, m ++ i ++ f = c :: q).
      { exists (q ++ f). rewrite app_assoc, Eq. reflexivity. }
      assert (Hne : m ++ i ++ f <> []) by (destruct Hq as (q' & ->); discriminate).
      specialize (H2 (fun _ => Hq)).
      assert (Htok : forall e r', r2 = e ++ r' ->
       (e = [] /\ (match r' with b :: _ => b <> 101 /\ b <> 69 | [] => True end) \/
        (exists e0 sg ds, (e0 = 101 \/ e0 = 69) /\ (sg = [] \/ sg = [43] \/ sg = [45]) /\ digits ds /\
                            e = e0 :: sg ++ ds) /\ not_digit_head r') ->
       num_token (m ++ i ++ f ++ e) r').
      { intros e r' E2 He. exists m i f e; [reflexivity|exact Hm| |apply Hf; exact E2|exact He].
        destruct Hi as [->|Hi]; [left; reflexivity|]. right. split; [exact Hi|].
        destruct Hnd as [->|Hnd]; [destruct Hi as (d & ds & Hd & _ & E0); injection E0 as <- _; lia|].
        rewrite E2 in Hnd. exact Hnd. }
      specialize (H2 Htok Hne).
      destruct (k2 tt (mk (p ++ m ++ i ++ f) r2)) as [[n|e|ff] it'].
      - destruct H2 as (x & r' & E2 & Hrest). exists x, r'. split; [|exact Hrest].
        rewrite <- E2. rewrite <- !app_assoc. reflexivity.
      - rewrite !app_assoc in H2. rewrite <- (app_assoc p) in H2. apply err_ok_app. exact H2.
      - exact H2. }
    destruct r1 as [|b r1].
    { specialize (Hstage [] [] eq_refl). rewrite app_nil_r in Hstage. apply Hstage.
      intros e r' E0. left. split; [reflexivity|]. rewrite <- E0. exact I. }
    destruct (N.eqb_spec b 46) as [->|Hb].
    - pose proof (take_drop is_digit r1) as Etd. pose proof (digits_drop r1) as Hdd.
      destruct (take_while is_digit r1) as [|d ds] eqn:Etk.
      + apply (err_ok_back _ [46] r1); [cbn; lia|reflexivity].
      + specialize (Hstage (46 :: d :: ds) (drop_while is_digit r1)).
        replace ((p ++ m ++ i) ++ 46 :: d :: ds) with (p ++ m ++ i ++ 46 :: d :: ds)
          by (rewrite <- !app_assoc; reflexivity).
        apply Hstage; [cbn; f_equal; symmetry; exact Etd|].
        intros e r' E0. right. split; [exists (d :: ds); split; [apply (digits_of_take _ _ _ Etk)|reflexivity]|].
        rewrite <- E0. exact Hdd.
    - specialize (Hstage [] (b :: r1) eq_refl). rewrite app_nil_r in Hstage. apply Hstage.
      intros e r' E0. left. split; [reflexivity|]. rewrite <- E0. exact Hb. }
  unfold tbind at 1. rewrite read_number_int_mk.
  assert (Hgo : forall m i x r1, m ++ i = c :: x -> r = x ++ r1 -> num_minus m -> num_int i ->
     (i = [48] \/ not_digit_head r1) ->
     match k tt (mk ((p ++ [c]) ++ x) r1) with
     | (Ok n, it') => exists x r', r = x ++ r' /\ it' = mk (p ++ c :: x) r' /\
                     n = JNum (Borrowed (c :: x)) /\ num_token (c :: x) r'
     | (Err e, it') => err_ok (p ++ [c]) r e it'
     | (Fault _, _) => False
     end).
  { intros m i x r1 E1 -> Hm Hi Hnd. specialize (H1 m i r1 Hm Hi (ex_intro _ x E1) Hnd).
    rewrite E1 in H1. rewrite <- app_assoc. cbn [app].
    destruct (k tt (mk (p ++ c :: x) r1)) as [[n|e|ff] it'].
    - destruct H1 as (y & r' & E2 & Hrest). exists y, r'. split; [|exact Hrest].
      cbn in E2. injection E2 as E2. exact E2.
    - apply err_ok_app. rewrite <- app_assoc. exact H1.
    - exact H1. }
  destruct st; cbn in Hst.
  - subst c. specialize (Hgo [] [48] [] r). rewrite app_nil_r in Hgo.
    apply Hgo; auto; [left; reflexivity|left; reflexivity].
  - apply (Hgo [] (c :: take_while is_digit r)); auto.
    + symmetry. apply take_drop.
    + left. reflexivity.
    + right. exists c, (take_while is_digit r). split; [exact Hst|]. split; [apply digits_take|reflexivity].
    + right. apply digits_drop.
  - subst c. destruct r as [|b r].
    { apply err_ok_here. reflexivity. }
    destruct (N.eqb_spec b 48) as [->|Hb].
    + apply (Hgo [45] [48] [48] r); auto; [right; reflexivity|left; reflexivity].
    + destruct (is_digit b) eqn:Hd.
      * apply (Hgo [45] (take_while is_digit (b :: r))); auto.
        -- symmetry. apply take_drop.
        -- right. reflexivity.
        -- right. cbn [take_while]. rewrite Hd. exists b, (take_while is_digit r).
           apply is_digit_spec in Hd. unfold digit in Hd. split; [lia|]. split; [apply digits_take|reflexivity].
        -- right. apply digits_drop.
      * apply err_ok_here. reflexivity.
Qed.

Lemma exp_complete pre e r' :
  e = [] /\ (match r' with b :: _ => b <> 101 /\ b <> 69 | [] => True end) \/
    (exists e0 sg ds, (e0 = 101 \/ e0 = 69) /\ (sg = [] \/ sg = [43] \/ sg = [45]) /\ digits ds /\
                      e = e0 :: sg ++ ds) /\ not_digit_head r' ->
  read_number_exp (mk pre (e ++ r')) = (Ok tt, mk (pre ++ e) r').
Proof.
  intros [[-> H]|[(e0 & sg & ds & He & Hsg & [Hn Hds] & ->) Hr]]; rewrite read_number_exp_mk.
  - cbn [app]. rewrite app_nil_r. destruct r' as [|b r']; [reflexivity|].
    destruct ((b =? 101) || (b =? 69)) eqn:E; [lia|reflexivity].
  - cbn [app]. destruct ((e0 =? 101) || (e0 =? 69)) eqn:E; [|lia]. cbn zeta.
    assert (Hos : opt_sign ((sg ++ ds) ++ r') = sg /\ skipn (length sg) ((sg ++ ds) ++ r') = ds ++ r').
    { destruct Hsg as [->|[->| ->]]; [|split; reflexivity..].
      cbn [app length skipn]. split; [|reflexivity]. destruct ds as [|d ds]; [congruence|]. cbn.
      inversion Hds as [|? ? Hd _]. unfold digit in Hd. unfold is_sign. destruct ((d =? 45) || (d =? 43)) eqn:E2; [lia|reflexivity]. }
    destruct Hos as [-> ->]. destruct (digits_take_app ds r' Hds Hr) as [-> ->].
    destruct ds as [|d ds]; [congruence|]. reflexivity.
Qed.

Lemma frac_complete pre f s :
  f = [] /\ (match s with b :: _ => b <> 46 | [] => True end) \/
    (exists ds, digits ds /\ f = 46 :: ds) /\ not_digit_head s ->
  read_number_frac (mk pre (f ++ s)) = (Ok tt, mk (pre ++ f) s).
Proof.
  intros [[-> H]|[(ds & [Hn Hds] & ->) Hr]]; rewrite read_number_frac_mk.
  - cbn [app]. rewrite app_nil_r. destruct s as [|b s]; [reflexivity|].
    destruct (N.eqb_spec b 46); [lia|reflexivity].
  - cbn [app N.eqb Pos.eqb]. destruct (digits_take_app ds s Hds Hr) as [-> ->].
    destruct ds as [|d ds]; [congruence|]. reflexivity.
Qed.

Lemma read_number_complete st p c x r' :
  init_ok st c -> num_token (c :: x) r' ->
  read_number_from_source st (length p) (mk (p ++ [c]) (x ++ r')) =
  (Ok (JNum (Borrowed (c :: x))), mk (p ++ c :: x) r').
Proof.
  intros Hst Ht. pose proof (number_ascii _ (num_token_number _ _ Ht)) as Hascii.
  destruct Ht as [m i f e E Hm Hi Hf He].
  assert (Hint : exists y, m ++ i = c :: y /\ x = y ++ f ++ e /\
     read_number_int st (mk (p ++ [c]) (x ++ r')) = (Ok tt, mk ((p ++ [c]) ++ y) (f ++ e ++ r'))).
  { assert (Hi' : exists d ds, i = d :: ds /\ digit d).
    { destruct Hi as [->|[(d & ds & Hd & _ & ->) _]]; eexists _, _; (split; [reflexivity|unfold digit; lia]). }
    destruct Hi' as (d & ds & Ei & Hd). unfold digit in Hd.
    destruct Hm as [-> | ->]; rewrite Ei in E |- *; cbn in E; injection E as -> E.
    - (* no sign: the first digit was consumed *)
      exists ds. split; [reflexivity|]. split; [exact E|]. subst x. rewrite read_number_int_mk.
      destruct st; cbn in Hst.
      + destruct Hi as [Hi|[(d' & ds' & Hd' & _ & Hi) _]]; rewrite Ei in Hi; injection Hi as Hi1 Hi2; [|lia].
        subst ds. cbn [app]. rewrite app_nil_r, <- app_assoc. reflexivity.
      + destruct Hi as [Hi|[(d' & ds' & Hd' & Hds' & Hi) Hr]]; rewrite Ei in Hi; injection Hi as Hi1 Hi2; [lia|].
        subst ds'. rewrite <- !app_assoc. destruct (digits_take_app ds (f ++ e ++ r') Hds' Hr) as [-> ->]. reflexivity.
      + lia.
    - exists (d :: ds). split; [reflexivity|]. split; [exact E|]. subst x. rewrite read_number_int_mk.
      destruct st; cbn in Hst; [lia|lia|].
      cbn [app].
      destruct Hi as [Hi|[(d' & ds' & Hd' & Hds' & Hi) Hr]]; rewrite Ei in Hi; injection Hi as Hi1 Hi2; subst.
      + cbn. rewrite <- !app_assoc. reflexivity.
      + destruct (N.eqb_spec d' 48); [lia|]. destruct (is_digit d') eqn:Edg; [|unfold is_digit in Edg; lia].
        rewrite <- !app_assoc. change (d' :: ds' ++ f ++ e ++ r') with ((d' :: ds') ++ f ++ e ++ r').
        destruct (digits_take_app (d' :: ds') (f ++ e ++ r')) as [-> ->]; [constructor; [unfold digit; lia|exact Hds']|exact Hr|].
        reflexivity. }
  destruct Hint as (y & Ey & Ex & Eint).
  unfold read_number_from_source, tbind. rewrite Eint, frac_complete by exact Hf. rewrite exp_complete by exact He.
  unfold get_iter, tlift, tret. rewrite mk_offset.
  replace ((((p ++ [c]) ++ y) ++ f) ++ e) with (p ++ c :: x) by (subst x; rewrite <- !app_assoc; reflexivity).
  unfold str_unchecked. rewrite mk_bytes. rewrite slice_mid by (rewrite ?app_length; lia).
  rewrite utf8_valid_ascii by exact Hascii. reflexivity.
Qed.
