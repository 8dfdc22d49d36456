(** A run depends on its input only through the positions in its log: two inputs that agree there have the same run.  (Used by PropLook.v.) *)
From Verif Require Import Base Utf8 StrModel ErrorModel Tokenizer Parser LookModel.

Lemma agree_firstn (n : nat) : forall a a' : list N, (n <= length a)%nat -> (forall p, (p < n)%nat -> nth_error a' p = nth_error a p) -> firstn n a' = firstn n a.
Proof.
  induction n as [|n IH]; intros a a' Hn Hb; [reflexivity|].
  pose proof (Hb 0%nat ltac:(lia)) as H0. destruct a as [|x a]; [cbn in Hn; lia|]. destruct a' as [|x' a']; [discriminate|].
  injection H0 as ->. cbn [firstn]. f_equal. apply IH; [cbn in Hn; lia|]. intros p Hp. exact (Hb (S p) ltac:(lia)).
Qed.

Section Two.
  Variables s s' : list N.
  Notation len := (length s).
  Definition agree (p : nat) : Prop := nth_error s' p = nth_error s p.
  Definition below (n : nat) : Prop := forall p, (p < n)%nat -> agree p.
  Definition agrees (k : list nat) : Prop := forall p, In p k -> agree p.

  Lemma below_length n : (n <= len)%nat -> below n -> (n <= length s')%nat.
  Proof.
    intros Hn Hb. destruct n as [|n]; [lia|]. specialize (Hb n ltac:(lia)). unfold agree in Hb.
    assert (H : nth_error s' n <> None) by (rewrite Hb; apply nth_error_Some; lia). apply nth_error_Some in H. lia.
  Qed.
  Lemma below_slice n a b : (n <= len)%nat -> below n -> (b <= n)%nat -> slice s' a b = slice s a b.
  Proof.
    intros Hn Hb Hbn. pose proof (agree_firstn n s s' Hn Hb) as E. pose proof (below_length n Hn Hb) as L. unfold slice.
    replace (b <=? length s')%nat with true by (symmetry; apply Nat.leb_le; lia). replace (b <=? len)%nat with true by (symmetry; apply Nat.leb_le; lia).
    destruct (a <=? b)%nat eqn:Hab; [|reflexivity]. apply Nat.leb_le in Hab. cbn [andb]. f_equal.
    rewrite !firstn_skipn_comm. replace (a + (b - a))%nat with b by lia. f_equal.
    transitivity (firstn b (firstn n s')); [rewrite firstn_firstn; f_equal; lia|]. rewrite E, firstn_firstn. f_equal. lia.
  Qed.
  Lemma below_unchecked n a b : (n <= len)%nat -> below n -> (b <= n)%nat -> str_unchecked (BI s' n) a b = str_unchecked (BI s n) a b.
  Proof. intros. unfold str_unchecked. cbn [bi_bytes]. rewrite (below_slice n) by assumption. reflexivity. Qed.

  (** [m] on [s] from [n], against [m'] on [s']; a success moves by at least [d], and what is passed is in the log. *)
  Definition same {A} (d n n' : nat) (r : res (error infallible) A) (k : list nat) : Prop :=
    (n <= n' <= len)%nat /\ (match r with Ok _ => n + d <= n' | _ => True end)%nat /\ (forall p, (n <= p < n')%nat -> In p k).
  Definition loc {A} (d n : nat) (m m' : ctok A) : Prop := (n <= len)%nat -> below n ->
    let '((r, it), k) := m (BI s n) in
    agrees k -> exists n', it = BI s n' /\ same d n n' r k /\ m' (BI s' n) = ((r, BI s' n'), k).

  Lemma below_step n n' k : below n -> (forall p, (n <= p < n')%nat -> In p k) -> agrees k -> below n'.
  Proof. intros Hb Hc Ha p Hp. destruct (Nat.lt_ge_cases p n); [apply Hb; lia|apply Ha, Hc; lia]. Qed.
  Lemma agrees_app k k' : agrees (k ++ k') -> agrees k /\ agrees k'.
  Proof. intro H. split; intros p Hp; apply H, in_or_app; auto. Qed.
  Lemma same_app {A B} d e n n1 n2 (a : A) (r : res (error infallible) B) k1 k2 :
    same d n n1 (Ok a) k1 -> same e n1 n2 r k2 -> same (d + e) n n2 r (k1 ++ k2).
  Proof.
    intros (H1 & H2 & H3) (H4 & H5 & H6). split; [lia|]. split; [destruct r; lia|]. intros p Hp. apply in_or_app.
    destruct (Nat.lt_ge_cases p n1); [left; apply H3; lia|right; apply H6; lia].
  Qed.
  Lemma loc_bind {A B} d e n (m m' : ctok A) (k k' : A -> ctok B) :
    loc d n m m' -> (forall a n', (n + d <= n' <= len)%nat -> below n' -> loc e n' (k a) (k' a)) -> loc (d + e) n (cbind m k) (cbind m' k').
  Proof.
    intros Hm Hk Hn Hb. specialize (Hm Hn Hb). unfold cbind. destruct (m (BI s n)) as [[[a|x|f] it] k1].
    2,3: intro Ha; destruct (Hm Ha) as (n1 & -> & H1 & ->); exists n1; split; [reflexivity|]; split; [exact H1|reflexivity].
    destruct (k a it) as [[r it2] k2] eqn:E. intro Ha. apply agrees_app in Ha. destruct Ha as [Ha1 Ha2]. destruct (Hm Ha1) as (n1 & -> & H1 & ->).
    pose proof H1 as (H2 & H3 & H4). pose proof (below_step n n1 k1 Hb H4 Ha1) as Hb1.
    specialize (Hk a n1 ltac:(lia) Hb1 ltac:(lia) Hb1). rewrite E in Hk. destruct (Hk Ha2) as (n2 & -> & H5 & ->).
    exists n2. split; [reflexivity|]. split; [eapply same_app; eassumption|reflexivity].
  Qed.
  Lemma loc_le {A} d d' n (m m' : ctok A) : (d' <= d)%nat -> loc d n m m' -> loc d' n m m'.
  Proof.
    intros Hd H Hn Hb. specialize (H Hn Hb). destruct (m (BI s n)) as [[r it] k]. intro Ha. destruct (H Ha) as (n' & H1 & (H2 & H3 & H4) & H5).
    exists n'. split; [exact H1|]. split; [|exact H5]. split; [exact H2|]. split; [destruct r; lia|exact H4].
  Qed.
  Lemma loc_bind0 {A B} n (m m' : ctok A) (k k' : A -> ctok B) :
    loc 0 n m m' -> (forall a n', (n <= n' <= len)%nat -> below n' -> loc 0 n' (k a) (k' a)) -> loc 0 n (cbind m k) (cbind m' k').
  Proof. intros Hm Hk. apply (loc_bind 0 0); [exact Hm|]. intros a n' Hn' Hb. apply Hk; [lia|exact Hb]. Qed.
  Lemma same_here {A} n (r : res (error infallible) A) k : (n <= len)%nat -> same 0 n n r k.
  Proof. intro Hn. split; [lia|]. split; [destruct r; lia|]. intros p Hp. lia. Qed.
  Lemma loc_lift {A} n (r r' : res (error infallible) A) : ((n <= len)%nat -> below n -> r' = r) -> loc 0 n (clift r) (clift r').
  Proof. intros H Hn Hb _. exists n. rewrite (H Hn Hb). split; [reflexivity|]. split; [apply same_here, Hn|reflexivity]. Qed.
  Lemma loc_ret {A} n (a : A) : loc 0 n (cret a) (cret a).
  Proof. exact (loc_lift n (Ok a) (Ok a) (fun _ _ => eq_refl)). Qed.
  Lemma loc_err {A} d n e : loc (A := A) d n (cerr e) (cerr e).
  Proof. intros Hn Hb _. exists n. split; [reflexivity|]. split; [|reflexivity]. split; [lia|]. split; [exact I|]. intros p Hp. lia. Qed.
  Lemma loc_fault {A} d n e : loc (A := A) d n (cfault e) (cfault e).
  Proof. intros Hn Hb _. exists n. split; [reflexivity|]. split; [|reflexivity]. split; [lia|]. split; [exact I|]. intros p Hp. lia. Qed.
  Lemma loc_looks n k : loc 0 n (looks k) (looks k).
  Proof. intros Hn Hb _. exists n. split; [reflexivity|]. split; [apply same_here, Hn|reflexivity]. Qed.
  Lemma loc_get {A} d n (k k' : byte_iter -> ctok A) : loc d n (k (BI s n)) (k' (BI s' n)) -> loc d n (cbind c_get_iter k) (cbind c_get_iter k').
  Proof.
    intros H Hn Hb. specialize (H Hn Hb). unfold cbind, c_get_iter. destruct (k (BI s n) (BI s n)) as [[r it] k0]. cbn [app]. intro Ha. destruct (H Ha) as (n' & H1 & H2 & ->).
    exists n'. auto.
  Qed.

  (** [next]. *)
  Lemma next_loc n : (n <= len)%nat -> agree n ->
    (exists b, bi_next (BI s n) = (Some (n, b), BI s (n + 1)) /\ bi_next (BI s' n) = (Some (n, b), BI s' (n + 1)) /\ (n < len)%nat) \/
    (bi_next (BI s n) = (None, BI s n) /\ bi_next (BI s' n) = (None, BI s' n)).
  Proof.
    intros Hn Ha. unfold bi_next. cbn [bi_bytes bi_offset]. unfold agree in Ha. rewrite Ha. destruct (nth_error s n) as [b|] eqn:E; [left|right; auto].
    exists b. split; [reflexivity|]. split; [reflexivity|]. apply nth_error_Some. rewrite E. discriminate.
  Qed.
  Lemma agrees1 n k : agrees (n :: k) -> agree n /\ agrees k.
  Proof. intro H. split; [apply H; left; reflexivity|]. intros p Hp. apply H. right. exact Hp. Qed.
  Lemma same_one {A} n (r : res (error infallible) A) k : (n < len)%nat -> In n k -> same 1 n (n + 1) r k.
  Proof. intros Hn Hi. split; [lia|]. split; [destruct r; lia|]. intros p Hp. replace p with n by lia. exact Hi. Qed.
  Lemma loc_read n : loc 1 n c_read c_read.
  Proof.
    intros Hn Hb. unfold c_read, c_next. cbn [bi_offset]. destruct (bi_next (BI s n)) as [[[o b]|] it] eqn:E; intro Ha; apply agrees1 in Ha; destruct Ha as [Ha _].
    - destruct (next_loc n Hn Ha) as [(b' & E1 & -> & Hl)|[E1 _]]; rewrite E1 in E; [|discriminate]. injection E as <- <- <-.
      exists (n + 1)%nat. split; [reflexivity|]. split; [apply same_one; [exact Hl|left; reflexivity]|reflexivity].
    - destruct (next_loc n Hn Ha) as [(b' & E1 & -> & Hl)|[E1 ->]]; rewrite E1 in E; [discriminate|]. injection E as <-.
      exists n. split; [reflexivity|]. split; [|reflexivity]. split; [lia|]. split; [exact I|]. intros p Hp. lia.
  Qed.
  Lemma loc_bump n : loc 0 n c_bump c_bump.
  Proof.
    intros Hn Hb. unfold c_bump, c_next. cbn [bi_offset]. destruct (bi_next (BI s n)) as [o it] eqn:E; intro Ha; apply agrees1 in Ha; destruct Ha as [Ha _].
    destruct (next_loc n Hn Ha) as [(b' & E1 & -> & Hl)|[E1 ->]]; rewrite E1 in E; injection E as <- <-; cbn [snd].
    - exists (n + 1)%nat. split; [reflexivity|]. split; [|reflexivity]. split; [lia|]. split; [lia|]. intros p Hp. left. lia.
    - exists n. split; [reflexivity|]. split; [|reflexivity]. apply same_here, Hn.
  Qed.
  Lemma loc_peeked n : loc 0 n c_peeked c_peeked.
  Proof.
    intros Hn Hb. unfold c_peeked, c_peek, bi_peek. cbn [bi_offset bi_bytes]. intro Ha; apply agrees1 in Ha; destruct Ha as [Ha _].
    exists n. split; [reflexivity|]. split; [apply same_here, Hn|]. unfold agree in Ha. rewrite Ha. reflexivity.
  Qed.

  (** Loops. *)
  Lemma skip_agree n rest : (n <= len)%nat -> rest = skipn n s -> agree n ->
    match rest with
    | [] => skipn n s' = []
    | b :: r => skipn n s' = b :: skipn (n + 1) s' /\ r = skipn (n + 1) s /\ (n + 1 <= len)%nat
    end.
  Proof.
    intros Hn E Ha. unfold agree in Ha. destruct rest as [|b r].
    - apply (f_equal (@length N)) in E. rewrite skipn_length in E. cbn [length] in E.
      rewrite (proj2 (nth_error_None s n) ltac:(lia)) in Ha. apply nth_error_None in Ha. apply skipn_all2. exact Ha.
    - assert (Es : s = firstn n s ++ b :: r) by (rewrite E; symmetry; apply firstn_skipn).
      assert (Lf : length (firstn n s) = n) by (rewrite firstn_length; lia).
      assert (En : nth_error s n = Some b) by (rewrite Es, nth_error_app2, Lf, Nat.sub_diag by lia; reflexivity).
      rewrite En in Ha. apply nth_error_split in Ha. destruct Ha as (l1 & l2 & Es' & L1). split; [|split].
      + rewrite Es'. rewrite skipn_app, skipn_all2 by lia. replace (n - length l1)%nat with 0%nat by lia. cbn [app skipn]. f_equal.
        rewrite skipn_app, skipn_all2 by lia. replace (n + 1 - length l1)%nat with 1%nat by lia. reflexivity.
      + transitivity (skipn (n + 1) (firstn n s ++ b :: r)); [|rewrite <- Es; reflexivity].
        rewrite skipn_app, skipn_all2 by lia. rewrite Lf. replace (n + 1 - n)%nat with 1%nat by lia. reflexivity.
      + assert (n < len)%nat by (apply nth_error_Some; rewrite En; discriminate). lia.
  Qed.
  Definition covers (n o : nat) (k : list nat) : Prop := (n <= o <= len)%nat /\ (forall p, (n <= p < o)%nat -> In p k).
  Lemma covers_cons n o k k' : covers (n + 1) o k -> covers n o (n :: k' ++ k).
  Proof.
    intros [H1 H2]. split; [lia|]. intros p Hp. destruct (Nat.eq_dec p n); [left; lia|right; apply in_or_app; right; apply H2; lia].
  Qed.
  Lemma covers_here n k : (n <= len)%nat -> covers n n k.
  Proof. intro Hn. split; [lia|]. intros p Hp. lia. Qed.
  Lemma ws_loc rest : forall n, (n <= len)%nat -> rest = skipn n s -> let '(o, k) := c_skip_ws_loop rest n in
    agrees k -> covers n o k /\ c_skip_ws_loop (skipn n s') n = (o, k).
  Proof.
    induction rest as [|b r IH]; intros n Hn E; cbn [c_skip_ws_loop].
    - intro Ha. apply agrees1 in Ha. pose proof (skip_agree n [] Hn E (proj1 Ha)) as ->. split; [apply covers_here, Hn|reflexivity].
    - destruct (is_ws b) eqn:Eb.
      + destruct (c_skip_ws_loop r (n + 1)) as [o k] eqn:Er. intro Ha. apply agrees1 in Ha. destruct (skip_agree n (b :: r) Hn E (proj1 Ha)) as (-> & -> & Hn1).
        specialize (IH (n + 1)%nat Hn1 eq_refl). rewrite Er in IH. destruct (IH (proj2 Ha)) as [H1 H2]. cbn [c_skip_ws_loop]. rewrite Eb, H2.
        split; [exact (covers_cons n o k [] H1)|reflexivity].
      + intro Ha. apply agrees1 in Ha. destruct (skip_agree n (b :: r) Hn E (proj1 Ha)) as (-> & _). cbn [c_skip_ws_loop]. rewrite Eb. split; [apply covers_here, Hn|reflexivity].
  Qed.
  Lemma high_loc rest : forall n, (n <= len)%nat -> rest = skipn n s -> let '(o, k) := c_skip_high_loop rest n in
    agrees k -> covers n o k /\ c_skip_high_loop (skipn n s') n = (o, k).
  Proof.
    induction rest as [|b r IH]; intros n Hn E; cbn [c_skip_high_loop].
    - intro Ha. apply agrees1 in Ha. pose proof (skip_agree n [] Hn E (proj1 Ha)) as ->. split; [apply covers_here, Hn|reflexivity].
    - destruct (b <? 128)%N eqn:Eb.
      + intro Ha. apply agrees1 in Ha. destruct (skip_agree n (b :: r) Hn E (proj1 Ha)) as (-> & _). cbn [c_skip_high_loop]. rewrite Eb. split; [apply covers_here, Hn|reflexivity].
      + destruct (c_skip_high_loop r (n + 1)) as [o k] eqn:Er. intro Ha. apply agrees1 in Ha. destruct Ha as [Ha1 Ha2]. apply agrees1 in Ha2. destruct Ha2 as [_ Ha2].
        destruct (skip_agree n (b :: r) Hn E Ha1) as (-> & -> & Hn1).
        specialize (IH (n + 1)%nat Hn1 eq_refl). rewrite Er in IH. destruct (IH Ha2) as [H1 H2]. cbn [c_skip_high_loop]. rewrite Eb, H2.
        split; [exact (covers_cons n o k [n] H1)|reflexivity].
  Qed.
  Lemma digits_loc rest : forall n f, (n <= len)%nat -> rest = skipn n s -> let '((o, f'), k) := c_digits_loop rest n f in
    agrees k -> covers n o k /\ c_digits_loop (skipn n s') n f = ((o, f'), k).
  Proof.
    induction rest as [|b r IH]; intros n f Hn E; cbn [c_digits_loop].
    - intro Ha. apply agrees1 in Ha. pose proof (skip_agree n [] Hn E (proj1 Ha)) as ->. split; [apply covers_here, Hn|reflexivity].
    - destruct (is_digit b) eqn:Eb.
      + destruct (c_digits_loop r (n + 1) true) as [[o f'] k] eqn:Er. intro Ha. apply agrees1 in Ha. destruct Ha as [Ha1 Ha2]. apply agrees1 in Ha2. destruct Ha2 as [_ Ha2].
        destruct (skip_agree n (b :: r) Hn E Ha1) as (-> & -> & Hn1).
        specialize (IH (n + 1)%nat true Hn1 eq_refl). rewrite Er in IH. destruct (IH Ha2) as [H1 H2]. cbn [c_digits_loop]. rewrite Eb, H2.
        split; [exact (covers_cons n o k [n] H1)|reflexivity].
      + intro Ha. apply agrees1 in Ha. destruct (skip_agree n (b :: r) Hn E (proj1 Ha)) as (-> & _). cbn [c_digits_loop]. rewrite Eb. split; [apply covers_here, Hn|reflexivity].
  Qed.
  Lemma int_loc rest : forall n f, (n <= len)%nat -> rest = skipn n s -> let '((o, f'), k) := c_int_loop rest n f in
    agrees k -> covers n o k /\ c_int_loop (skipn n s') n f = ((o, f'), k).
  Proof.
    induction rest as [|b r IH]; intros n f Hn E; cbn [c_int_loop].
    - intro Ha. apply agrees1 in Ha. pose proof (skip_agree n [] Hn E (proj1 Ha)) as ->. split; [apply covers_here, Hn|reflexivity].
    - destruct ((b =? 48)%N && negb f)%bool eqn:Ez.
      + intro Ha. apply agrees1 in Ha. destruct (skip_agree n (b :: r) Hn E (proj1 Ha)) as (-> & -> & Hn1). cbn [c_int_loop]. rewrite Ez.
        split; [exact (covers_cons n (n + 1) [] [n] (covers_here (n + 1) [] Hn1))|reflexivity].
      + destruct (is_digit b) eqn:Eb.
        * destruct (c_int_loop r (n + 1) true) as [[o f'] k] eqn:Er. intro Ha. apply agrees1 in Ha. destruct Ha as [Ha1 Ha2]. apply agrees1 in Ha2. destruct Ha2 as [_ Ha2].
          destruct (skip_agree n (b :: r) Hn E Ha1) as (-> & -> & Hn1).
          specialize (IH (n + 1)%nat true Hn1 eq_refl). rewrite Er in IH. destruct (IH Ha2) as [H1 H2]. cbn [c_int_loop]. rewrite Ez, Eb, H2.
          split; [exact (covers_cons n o k [n] H1)|reflexivity].
        * intro Ha. apply agrees1 in Ha. destruct (skip_agree n (b :: r) Hn E (proj1 Ha)) as (-> & _). cbn [c_int_loop]. rewrite Ez, Eb. split; [apply covers_here, Hn|reflexivity].
  Qed.
  Lemma skip_ws_loc n : (n <= len)%nat -> let '(it, k) := c_skip_ws (BI s n) in
    agrees k -> exists o, it = BI s o /\ covers n o k /\ c_skip_ws (BI s' n) = (BI s' o, k).
  Proof.
    intro Hn. unfold c_skip_ws. cbn [bi_offset bi_bytes]. pose proof (ws_loc (bi_rest (BI s n)) n Hn eq_refl) as H.
    destruct (c_skip_ws_loop _ n) as [o k]. intro Ha. destruct (H Ha) as [H1 H2]. exists o. split; [reflexivity|]. split; [exact H1|].
    unfold bi_rest. cbn [bi_offset bi_bytes]. rewrite H2. reflexivity.
  Qed.
  Lemma skip_high_loc n : (n <= len)%nat -> let '(it, k) := c_skip_high (BI s n) in
    agrees k -> exists o, it = BI s o /\ covers n o k /\ c_skip_high (BI s' n) = (BI s' o, k).
  Proof.
    intro Hn. unfold c_skip_high. cbn [bi_offset bi_bytes]. pose proof (high_loc (bi_rest (BI s n)) n Hn eq_refl) as H.
    destruct (c_skip_high_loop _ n) as [o k]. intro Ha. destruct (H Ha) as [H1 H2]. exists o. split; [reflexivity|]. split; [exact H1|].
    unfold bi_rest. cbn [bi_offset bi_bytes]. rewrite H2. reflexivity.
  Qed.
  Lemma covers_same {A} n o k (a : A) : covers n o k -> same 0 n o (Ok a) k.
  Proof. intros [H1 H2]. split; [exact H1|]. split; [lia|exact H2]. Qed.
  Lemma loc_int n f : loc 0 n (c_read_int f) (c_read_int f).
  Proof.
    intros Hn Hb. unfold c_read_int. cbn [bi_offset bi_bytes]. pose proof (int_loc (bi_rest (BI s n)) n f Hn eq_refl) as H.
    destruct (c_int_loop _ n f) as [[o f'] k]. intro Ha. destruct (H Ha) as [H1 H2]. exists o. split; [reflexivity|]. split; [apply covers_same, H1|].
    unfold bi_rest. cbn [bi_offset bi_bytes]. rewrite H2. reflexivity.
  Qed.
  Lemma loc_digits n : loc 0 n c_read_digits c_read_digits.
  Proof.
    intros Hn Hb. unfold c_read_digits. cbn [bi_offset bi_bytes]. pose proof (digits_loc (bi_rest (BI s n)) n false Hn eq_refl) as H.
    destruct (c_digits_loop _ n false) as [[o f'] k]. intro Ha. destruct (H Ha) as [H1 H2]. exists o. split; [reflexivity|]. split; [apply covers_same, H1|].
    unfold bi_rest. cbn [bi_offset bi_bytes]. rewrite H2. reflexivity.
  Qed.

  (** Numbers. *)
  Lemma loc_checked n (c : bool) k : loc 0 n (cbind c_get_iter (fun it => if c then cret tt else cerr (Error (bi_offset it) k))) (cbind c_get_iter (fun it => if c then cret tt else cerr (Error (bi_offset it) k))).
  Proof. apply loc_get. cbn [bi_offset]. destruct c; [apply loc_ret|apply loc_err]. Qed.
  Lemma loc_number n st start : loc 0 n (c_read_number_from_source st start) (c_read_number_from_source st start).
  Proof.
    unfold c_read_number_from_source. apply loc_bind0.
    { unfold c_read_number_int. destruct st; [apply loc_ret| |]; (apply loc_bind0; [apply loc_int|]; intros; apply loc_checked). }
    intros _ n1 H1 Hb1. apply loc_bind0.
    { unfold c_read_number_frac. apply loc_bind0; [apply loc_peeked|]. intros [b|] n2 H2 Hb2; [|apply loc_ret]. destruct (b =? 46)%N; [|apply loc_ret].
      apply loc_bind0; [apply loc_bump|]. intros _ n3 H3 Hb3. apply loc_bind0; [apply loc_digits|]. intros. apply loc_checked. }
    intros _ n2 H2 Hb2. apply loc_bind0.
    { unfold c_read_number_exp. apply loc_bind0; [apply loc_peeked|]. intros [b|] n3 H3 Hb3; [|apply loc_ret]. destruct (_ || _)%bool; [|apply loc_ret].
      apply loc_bind0; [apply loc_bump|]. intros _ n4 H4 Hb4. apply loc_bind0; [apply loc_peeked|]. intros o n5 H5 Hb5.
      apply loc_bind0; [destruct o as [x|]; [destruct (_ || _)%bool; [apply loc_bump|]|]; apply loc_ret|]. intros _ n6 H6 Hb6.
      apply loc_bind0; [apply loc_digits|]. intros. apply loc_checked. }
    intros _ n3 H3 Hb3. apply loc_get. cbn [bi_offset]. apply loc_bind0; [|intros; apply loc_ret].
    apply loc_lift. intros Hn Hb. apply below_unchecked; [exact Hn|exact Hb|lia].
  Qed.

  (** Strings. *)
  Lemma loc_hex c : forall n acc, loc 0 n (c_read_hex c acc) (c_read_hex c acc).
  Proof.
    induction c as [|c IH]; intros n acc; cbn [c_read_hex]; [apply loc_ret|]. apply loc_bind0; [apply (loc_le 1); [lia|apply loc_read]|].
    intros [o d] n1 H1 Hb1. cbv zeta. destruct (_ =? 255)%N; [apply loc_err|apply IH].
  Qed.
  Lemma loc_read0 n : loc 0 n c_read c_read.
  Proof. apply (loc_le 1); [lia|apply loc_read]. Qed.
  Lemma loc_second n d : loc 0 n (c_read_second_half d) (c_read_second_half d).
  Proof.
    unfold c_read_second_half. destruct (_ && _)%bool; [|apply loc_ret]. apply loc_bind0; [apply loc_read0|]. intros [o b] n1 H1 Hb1. destruct (b =? 92)%N; [|apply loc_ret].
    apply loc_bind0; [apply loc_read0|]. intros [o2 b2] n2 H2 Hb2. destruct (b2 =? 117)%N; [|apply loc_ret].
    apply loc_bind0; [apply loc_hex|]. intros x n3 H3 Hb3. destruct (_ && _)%bool; [|apply loc_ret]. apply loc_bind0; [apply loc_lift; reflexivity|]. intros. apply loc_ret.
  Qed.
  Lemma loc_escape n pw i : loc 0 n (c_read_string_escape pw i) (c_read_string_escape pw i).
  Proof.
    unfold c_read_string_escape. apply loc_bind0; [apply loc_read0|]. intros [o b] n1 H1 Hb1. destruct (_ || _)%bool; [apply loc_lift; reflexivity|].
    destruct (b =? 117)%N; [|apply loc_err]. apply loc_bind0; [apply loc_hex|]. intros d n2 H2 Hb2. apply loc_bind0; [|intros; apply loc_lift; reflexivity].
    destruct (char_from_u32 d); [apply loc_ret|]. apply loc_bind0; [apply loc_second|]. intros [m|] n3 H3 Hb3; [apply loc_lift; reflexivity|apply loc_err].
  Qed.
  Lemma same_err {A} n n' (e : error infallible) k : covers n n' k -> same (A := A) 0 n n' (Err e) k.
  Proof. intros [H1 H2]. split; [exact H1|]. split; [exact I|exact H2]. Qed.
  Lemma same_cons {A} d n n' (r : res (error infallible) A) k k' : (n < len)%nat -> same d (n + 1) n' r k -> same d n n' r (n :: k' ++ k).
  Proof.
    intros Hn (H1 & H2 & H3). split; [lia|]. split; [destruct r; lia|]. intros p Hp. destruct (Nat.eq_dec p n); [left; lia|right; apply in_or_app; right; apply H3; lia].
  Qed.
  (** The loop of [read_string_from_source] as a sequence of steps. *)
  Definition nxt : ctok (option (nat * N)) := fun it => let '((o, it'), k) := c_next it in ((Ok o, it'), k).
  Definition high : ctok unit := fun it => let '(it', k) := c_skip_high it in ((Ok tt, it'), k).
  Definition string_step (g : bool) (pw : pwidth) (rec : info -> ctok json_string) (start : nat) (i : info) : ctok json_string :=
    cbind nxt (fun o => match o with
    | None => cbind c_get_iter (fun it => cerr (Error (bi_offset it) KUnclosedString))
    | Some (offset, byte) =>
      if table_get false (if g then safe_string_bytes else safe_string_bytes_verify_utf8) byte then cbind (clift (add_bytes pw i 1)) (fun i' => rec i')
      else if (byte =? 34)%N then cbind c_get_iter (fun it => cbind (clift (str_unchecked it (start + 1) offset)) (fun x => cret (JStr (CJson (Borrowed x)) i)))
      else if (byte =? 92)%N then cbind (c_read_string_escape pw i) (fun i' => rec i')
      else if (128 <=? byte)%N then
        cbind high (fun _ => cbind c_get_iter (fun it2 => cbind (clift (add_bytes pw i (N.of_nat (bi_offset it2 - offset)))) (fun i' =>
          match slice (bi_bytes it2) offset (bi_offset it2) with
          | None => cfault FIndex
          | Some run => cbind (looks (seq offset (length run))) (fun _ => if utf8_valid run then rec i' else cerr (Error offset KUtf8))
          end)))
      else if (byte <=? 31)%N then cerr (Error offset (KUnexpected byte))
      else cfault FUnreachable
    end).
  Lemma bind_get {A} (k : byte_iter -> ctok A) it : cbind c_get_iter k it = k it it.
  Proof. unfold cbind, c_get_iter. destruct (k it it). reflexivity. Qed.
  Lemma bind_high {A} (k : unit -> ctok A) it : cbind high k it = let '(it2, k2) := c_skip_high it in let '(r, k3) := k tt it2 in (r, k2 ++ k3).
  Proof. unfold cbind, high. destruct (c_skip_high it). reflexivity. Qed.
  Lemma string_step_eq g pw fuel start i it :
    c_read_string_loop g pw (S fuel) start i it = string_step g pw (fun i' => c_read_string_loop g pw fuel start i') start i it.
  Proof.
    unfold string_step, nxt. unfold cbind at 1. cbn [c_read_string_loop]. destruct (c_next it) as [[[[offset byte]|] it1] k].
    2: unfold cbind, c_get_iter, cerr; rewrite !app_nil_r; reflexivity.
    cbv zeta. destruct (table_get _ _ _); [reflexivity|]. destruct (byte =? 34)%N.
    { unfold cbind, c_get_iter. destruct (clift _ it1) as [[[x|e|f] it2] k2]; reflexivity. }
    destruct (byte =? 92)%N; [reflexivity|]. destruct (128 <=? byte)%N; [|destruct (byte <=? 31)%N; reflexivity].
    rewrite bind_high. destruct (c_skip_high it1) as [it2 k2]. rewrite bind_get. reflexivity.
  Qed.
  Lemma loc_nxt n : (n <= len)%nat -> below n -> let '((r, it), k) := nxt (BI s n) in
    agrees k -> exists n', it = BI s n' /\ same 0 n n' r k /\ nxt (BI s' n) = ((r, BI s' n'), k) /\
      match r with Ok (Some (o, _)) => o = n /\ n' = (n + 1)%nat | _ => True end.
  Proof.
    intros Hn Hb. unfold nxt, c_next. cbn [bi_offset]. destruct (bi_next (BI s n)) as [o it] eqn:E. intro Ha. apply agrees1 in Ha. destruct Ha as [Ha _].
    destruct (next_loc n Hn Ha) as [(b' & E1 & -> & Hl)|[E1 ->]]; rewrite E1 in E; injection E as <- <-.
    - exists (n + 1)%nat. split; [reflexivity|]. split; [|split; [reflexivity|auto]]. split; [lia|]. split; [lia|]. intros p Hp. left. lia.
    - exists n. split; [reflexivity|]. split; [apply same_here, Hn|]. split; [reflexivity|exact I].
  Qed.
  Lemma loc_high n : loc 0 n high high.
  Proof.
    intros Hn Hb. unfold high. pose proof (skip_high_loc n Hn) as H. destruct (c_skip_high (BI s n)) as [it k]. intro Ha. destruct (H Ha) as (o & -> & H1 & ->).
    exists o. split; [reflexivity|]. split; [apply covers_same, H1|reflexivity].
  Qed.
  Lemma loc_nxt_bind {A} n (k k' : option (nat * N) -> ctok A) :
    ((n <= len)%nat -> below n -> loc 0 n (k None) (k' None)) ->
    (forall b, (n + 1 <= len)%nat -> below (n + 1) -> loc 0 (n + 1) (k (Some (n, b))) (k' (Some (n, b)))) ->
    loc 0 n (cbind nxt k) (cbind nxt k').
  Proof.
    intros H0 H1 Hn Hb. unfold cbind, nxt, c_next. cbn [bi_offset]. destruct (bi_next (BI s n)) as [o it] eqn:E.
    destruct (k o it) as [[r it2] k2] eqn:Ek. intro Ha. apply agrees1 in Ha. destruct Ha as [Ha Ha2].
    destruct (next_loc n Hn Ha) as [(b' & E1 & -> & Hl)|[E1 ->]]; rewrite E1 in E; injection E as <- <-.
    - assert (Hb1 : below (n + 1)) by (intros p Hp; destruct (Nat.eq_dec p n) as [->|]; [exact Ha|apply Hb; lia]).
      specialize (H1 b' ltac:(lia) Hb1 ltac:(lia) Hb1). rewrite Ek in H1. destruct (H1 Ha2) as (n' & -> & H3 & ->).
      exists n'. split; [reflexivity|]. split; [exact (same_cons 0 n n' r k2 [] Hl H3)|reflexivity].
    - specialize (H0 Hn Hb Hn Hb). rewrite Ek in H0. destruct (H0 Ha2) as (n' & -> & (H3 & H4 & H5) & ->). exists n'. split; [reflexivity|]. split; [|reflexivity].
      split; [exact H3|]. split; [exact H4|]. intros p Hp. right. apply H5, Hp.
  Qed.
  Lemma loc_ext {A} d n (m1 m1' m2 m2' : ctok A) : (forall it, m1 it = m2 it) -> (forall it, m1' it = m2' it) -> loc d n m2 m2' -> loc d n m1 m1'.
  Proof. intros E E' H Hn Hb. rewrite E, E'. exact (H Hn Hb). Qed.
  Lemma loc_string g pw fuel : forall fuel' n start i, (len < n + fuel)%nat -> (length s' < n + fuel')%nat ->
    loc 0 n (c_read_string_loop g pw fuel start i) (c_read_string_loop g pw fuel' start i).
  Proof.
    induction fuel as [|fuel IH]; intros fuel' n start i F F' Hn Hb; [lia|]. pose proof (below_length n Hn Hb) as L. destruct fuel' as [|fuel']; [lia|].
    revert Hn Hb. apply (loc_ext 0 n _ _ _ _ (string_step_eq g pw fuel start i) (string_step_eq g pw fuel' start i)). unfold string_step.
    apply loc_nxt_bind; [intros Hn Hb; apply loc_get; cbn [bi_offset]; apply loc_err|]. intros b Hn Hb.
    assert (Rec : forall i n1, (n + 1 <= n1)%nat -> loc 0 n1 (c_read_string_loop g pw fuel start i) (c_read_string_loop g pw fuel' start i)) by (intros; apply IH; lia).
    destruct (table_get _ _ _); [apply loc_bind0; [apply loc_lift; reflexivity|intros; apply Rec; lia]|].
    destruct (b =? 34)%N.
    { apply loc_get. apply loc_bind0; [|intros; apply loc_ret]. apply loc_lift. intros. apply below_unchecked; [assumption|assumption|lia]. }
    destruct (b =? 92)%N; [apply loc_bind0; [apply loc_escape|intros; apply Rec; lia]|].
    destruct (128 <=? b)%N; [|destruct (b <=? 31)%N; [apply loc_err|apply loc_fault]].
    apply loc_bind0; [apply loc_high|]. intros _ n1 H1 Hb1. apply loc_get. cbn [bi_offset bi_bytes]. apply loc_bind0; [apply loc_lift; reflexivity|]. intros i' n2 H2 Hb2.
    rewrite (below_slice n2 n n1) by (try assumption; lia). destruct (slice s n n1) as [run|]; [|apply loc_fault].
    apply loc_bind0; [apply loc_looks|]. intros _ n3 H3 Hb3. destruct (utf8_valid run); [apply Rec; lia|apply loc_err].
  Qed.
  Lemma loc_literal l : forall n, loc 0 n (c_read_literal l) (c_read_literal l).
  Proof.
    induction l as [|e l IH]; intros n; cbn [c_read_literal]; [apply loc_ret|].
    apply (loc_ext 0 n _ _ (cbind nxt (fun o => match o with None => cbind c_get_iter (fun it => cerr (Error (bi_offset it) KUnexpectedEof))
      | Some (offset, b) => if negb (b =? e)%N then cerr (Error offset (KUnexpected b)) else c_read_literal l end))
      (cbind nxt (fun o => match o with None => cbind c_get_iter (fun it => cerr (Error (bi_offset it) KUnexpectedEof))
      | Some (offset, b) => if negb (b =? e)%N then cerr (Error offset (KUnexpected b)) else c_read_literal l end))).
    1,2: intro it; unfold cbind, nxt, c_get_iter, cerr; destruct (c_next it) as [[[[offset b]|] it1] k]; [destruct (negb _)|]; rewrite ?app_nil_r; reflexivity.
    apply loc_nxt_bind; [intros; apply loc_get; apply loc_err|]. intros b Hn Hb. destruct (negb _); [apply loc_err|apply IH].
  Qed.

  (** Tokens. *)
  Lemma loc_read_peek g pw o b n : loc 0 n (c_read_peek g pw o b) (c_read_peek g pw o b).
  Proof.
    assert (HL : forall l (tk : token), loc 0 n (cbind (c_read_literal l) (fun _ => cret tk)) (cbind (c_read_literal l) (fun _ => cret tk))) by (intros; apply loc_bind0; [apply loc_literal|intros; apply loc_ret]).
    assert (HN : forall st, loc 0 n (cbind (c_read_number_from_source st o) (fun x => cret (TkNumber x))) (cbind (c_read_number_from_source st o) (fun x => cret (TkNumber x)))) by (intros; apply loc_bind0; [apply loc_number|intros; apply loc_ret]).
    unfold c_read_peek.
    repeat match goal with |- loc _ _ (if ?x then _ else _) _ => destruct x end; try apply loc_ret; try apply loc_err; try apply HL; try apply HN.
    apply loc_bind0; [|intros; apply loc_ret]. intros Hn Hb. unfold c_read_string_from_source. cbn [bi_bytes].
    apply (loc_string g pw (S len) (S (length s')) n o (info_none pw)); [lia|lia|exact Hn|exact Hb].
  Qed.
  (** [read_non_ws] and [next_non_ws], then something. *)
  Definition ws_step : ctok unit := fun it => let '(it', k) := c_skip_ws it in ((Ok tt, it'), k).
  Lemma loc_ws n : loc 0 n ws_step ws_step.
  Proof.
    intros Hn Hb. unfold ws_step. pose proof (skip_ws_loc n Hn) as H. destruct (c_skip_ws (BI s n)) as [it k]. intro Ha. destruct (H Ha) as (o & -> & H1 & ->).
    exists o. split; [reflexivity|]. split; [apply covers_same, H1|reflexivity].
  Qed.
  Lemma next_or_eof_steps g pw it : c_next_or_eof g pw it = cbind ws_step (fun _ => cbind c_read (fun x => let '(o, b) := x in c_read_peek g pw o b)) it.
  Proof.
    unfold c_next_or_eof, c_read_non_ws, ws_step, cbind. destruct (c_skip_ws it) as [it1 k1]. destruct (c_read it1) as [[[[o b]|[eo ek]|f] it2] k2].
    - destruct (c_read_peek g pw o b it2). rewrite app_assoc. reflexivity.
    - f_equal. f_equal. f_equal. unfold into_fallable. cbn. destruct ek as [| | | | | | | | | | | | | | | | | | | | | | | |]; try reflexivity; match goal with d : infallible |- _ => destruct d end.
    - reflexivity.
  Qed.
  Lemma loc_next_or_eof g pw n : loc 1 n (c_next_or_eof g pw) (c_next_or_eof g pw).
  Proof.
    apply (loc_ext 1 n _ _ _ _ (next_or_eof_steps g pw) (next_or_eof_steps g pw)). apply (loc_bind 0 1); [apply loc_ws|]. intros _ n1 H1 Hb1.
    apply (loc_bind 1 0); [apply loc_read|]. intros [o b] n2 H2 Hb2. apply loc_read_peek.
  Qed.

  (** * The parser *)
  Section Parser.
    Variables (g : bool) (pw : pwidth) (cfg : parse_config) (D : delegate).
    Definition psame {A} (d n n' : nat) (r : res (error (d_error D)) A) (k : list nat) : Prop :=
      (n <= n' <= len)%nat /\ (match r with Ok _ => n + d <= n' | _ => True end)%nat /\ (forall p, (n <= p < n')%nat -> In p k).
    Definition ploc {A} (d n : nat) (m m' : cpm D A) : Prop := (n <= len)%nat -> below n -> forall st dep,
      let '((r, t), k) := m (PS (BI s n) st dep) in
      agrees k -> exists n', ps_iter t = BI s n' /\ psame d n n' r k /\ m' (PS (BI s' n) st dep) = ((r, PS (BI s' n') (ps_del t) (ps_depth t)), k).

    Lemma ploc_bind {A B} d e n (m m' : cpm D A) (k k' : A -> cpm D B) :
      ploc d n m m' -> (forall a n', (n + d <= n' <= len)%nat -> below n' -> ploc e n' (k a) (k' a)) -> ploc (d + e) n (cpbind D m k) (cpbind D m' k').
    Proof.
      intros Hm Hk Hn Hb st dep. specialize (Hm Hn Hb st dep). unfold cpbind. destruct (m (PS (BI s n) st dep)) as [[[a|x|f] [it1 st1 dep1]] k1]; cbn [ps_iter ps_del ps_depth] in Hm.
      2,3: intro Ha; destruct (Hm Ha) as (n1 & -> & H1 & ->); exists n1; split; [reflexivity|]; split; [exact H1|reflexivity].
      destruct (k a (PS it1 st1 dep1)) as [[r [it2 st2 dep2]] k2] eqn:E. intro Ha. apply agrees_app in Ha. destruct Ha as [Ha1 Ha2]. destruct (Hm Ha1) as (n1 & -> & H1 & ->).
      pose proof H1 as (H2 & H3 & H4). pose proof (below_step n n1 k1 Hb H4 Ha1) as Hb1.
      specialize (Hk a n1 ltac:(lia) Hb1 ltac:(lia) Hb1 st1 dep1). rewrite E in Hk. destruct (Hk Ha2) as (n2 & H5 & (H6 & H7 & H8) & ->).
      exists n2. split; [exact H5|]. split; [|reflexivity]. split; [lia|]. split; [destruct r; lia|]. intros p Hp. apply in_or_app.
      destruct (Nat.lt_ge_cases p n1); [left; apply H4; lia|right; apply H8; lia].
    Qed.
    Lemma ploc_bind0 {A B} n (m m' : cpm D A) (k k' : A -> cpm D B) :
      ploc 0 n m m' -> (forall a n', (n <= n' <= len)%nat -> below n' -> ploc 0 n' (k a) (k' a)) -> ploc 0 n (cpbind D m k) (cpbind D m' k').
    Proof. intros Hm Hk. apply (ploc_bind 0 0); [exact Hm|]. intros a n' Hn' Hb. apply Hk; [lia|exact Hb]. Qed.
    Lemma ploc_le {A} d d' n (m m' : cpm D A) : (d' <= d)%nat -> ploc d n m m' -> ploc d' n m m'.
    Proof.
      intros Hd H Hn Hb st dep. specialize (H Hn Hb st dep). destruct (m (PS (BI s n) st dep)) as [[r t] k]. intro Ha. destruct (H Ha) as (n' & H1 & (H2 & H3 & H4) & H5).
      exists n'. split; [exact H1|]. split; [|exact H5]. split; [exact H2|]. split; [destruct r; lia|exact H4].
    Qed.
    (** A step that neither moves nor looks at the bytes. *)
    Definition obl {A} (m : pm D A) : Prop := forall n st dep, exists r st' dep', forall b, m (PS (BI b n) st dep) = (r, PS (BI b n) st' dep').
    Lemma ploc_blind {A} n (m : pm D A) : obl m -> ploc 0 n (blind D m) (blind D m).
    Proof.
      intros H Hn Hb st dep. destruct (H n st dep) as (r & st' & dep' & E). unfold blind. rewrite !E. intros _. exists n. split; [reflexivity|]. split; [|reflexivity].
      split; [lia|]. split; [destruct r; lia|]. intros p Hp. lia.
    Qed.
    Lemma ob_ret {A} (a : A) : obl (pret D a). Proof. intros n st dep. do 3 eexists. intro. reflexivity. Qed.
    Lemma ob_err {A} o k : obl (A := A) (perr D o k). Proof. intros n st dep. do 3 eexists. intro. reflexivity. Qed.
    Lemma ob_offset : obl (p_offset D). Proof. intros n st dep. exists (Ok n), st, dep. intro. reflexivity. Qed.
    Lemma ob_del {A} o (m : d_st D -> res (d_error D) A * d_st D) : obl (p_del D o m).
    Proof. intros n st dep. unfold p_del. cbn [ps_del ps_iter ps_depth]. destruct (m st) as [r st']. do 3 eexists. intro. reflexivity. Qed.
    Lemma ob_query {A} (m : d_st D -> res infallible A) : obl (p_query D m).
    Proof. intros n st dep. unfold p_query. cbn [ps_del]. do 3 eexists. intro. reflexivity. Qed.
    Lemma ob_begin o : obl (begin_nest cfg D o).
    Proof. intros n st dep. unfold begin_nest. destruct (recursion_limit cfg); [cbn [ps_depth ps_iter ps_del]; destruct (0 <? dep)%N|]; do 3 eexists; intro; reflexivity. Qed.
    Lemma ob_end : obl (end_nest cfg D).
    Proof. intros n st dep. unfold end_nest. cbn [ps_depth ps_iter ps_del]. destruct (recursion_limit cfg); do 3 eexists; intro; reflexivity. Qed.
    Lemma ob_bind {A B} (m : pm D A) (k : A -> pm D B) : obl m -> (forall a, obl (k a)) -> obl (pbind D m k).
    Proof.
      intros Hm Hk n st dep. destruct (Hm n st dep) as (r & st1 & dep1 & E). unfold pbind. destruct r as [a|e|f].
      - destruct (Hk a n st1 dep1) as (r2 & st2 & dep2 & E2). exists r2, st2, dep2. intro b. rewrite E. apply E2.
      - do 3 eexists. intro b. rewrite E. reflexivity.
      - do 3 eexists. intro b. rewrite E. reflexivity.
    Qed.
    Lemma ob_root v : obl (check_root cfg D v).
    Proof. unfold check_root. destruct (negb _); [|apply ob_ret]. apply ob_bind; [apply ob_query|]. intros []; first [apply ob_ret|apply ob_err]. Qed.
    Lemma ploc_tok {A} d n conv (m m' : ctok A) : loc d n m m' -> ploc d n (cp_tok_err D conv m) (cp_tok_err D conv m').
    Proof.
      intros H Hn Hb st dep. specialize (H Hn Hb). unfold cp_tok_err. cbn [ps_iter ps_del ps_depth]. destruct (m (BI s n)) as [[r it] k]. intro Ha.
      destruct (H Ha) as (n' & -> & (H1 & H2 & H3) & ->). exists n'. split; [reflexivity|]. split; [|reflexivity]. split; [exact H1|]. split; [destruct r; exact H2|exact H3].
    Qed.
    Lemma ploc_map_err {A} d n f (m m' : cpm D A) : ploc d n m m' -> ploc d n (cp_map_err D f m) (cp_map_err D f m').
    Proof.
      intros H Hn Hb st dep. specialize (H Hn Hb st dep). unfold cp_map_err. destruct (m (PS (BI s n) st dep)) as [[r t] k]. intro Ha.
      destruct (H Ha) as (n' & H0 & (H1 & H2 & H3) & ->). exists n'. split; [exact H0|]. split; [|reflexivity]. split; [exact H1|]. split; [destruct r; exact H2|exact H3].
    Qed.
    Lemma ploc_peek n : ploc 0 n (c_peek_array_end D) (c_peek_array_end D).
    Proof.
      intros Hn Hb st dep. unfold c_peek_array_end, c_tokenizer_peek. cbn [ps_iter ps_del ps_depth]. pose proof (skip_ws_loc n Hn) as H.
      destruct (c_skip_ws (BI s n)) as [it1 k1]. unfold c_peek, bi_peek.
      destruct (nth_error (bi_bytes it1) (bi_offset it1)) as [b|] eqn:E.
      - destruct (match peek_kind_of b with PkArrayEnd => true | _ => false end) eqn:Ek.
        + assert (Epk : peek_kind_of b = PkArrayEnd) by (destruct (peek_kind_of b); congruence). rewrite Epk. intro Ha. apply agrees_app in Ha. destruct Ha as [Ha1 Ha2]. apply agrees1 in Ha2.
          destruct (H Ha1) as (o & -> & [Hc1 Hc2] & ->). cbn [bi_bytes bi_offset] in *. destruct Ha2 as [Ha2 _]. unfold agree in Ha2. rewrite Ha2, E, Epk.
          exists (o + 1)%nat. cbn [ps_iter]. split; [reflexivity|]. split; [|reflexivity].
          assert (o < len)%nat by (apply nth_error_Some; rewrite E; discriminate). split; [lia|]. split; [lia|]. intros p Hp. apply in_or_app.
          destruct (Nat.eq_dec p o); [right; left; lia|left; apply Hc2; lia].
        + assert (Eq : forall A (x y : A), match peek_kind_of b with PkArrayEnd => x | _ => y end = y) by (intros; destruct (peek_kind_of b); congruence).
          rewrite Eq. intro Ha. apply agrees_app in Ha. destruct Ha as [Ha1 Ha2]. apply agrees1 in Ha2.
          destruct (H Ha1) as (o & -> & [Hc1 Hc2] & ->). cbn [bi_bytes bi_offset] in *. destruct Ha2 as [Ha2 _]. unfold agree in Ha2. rewrite Ha2, E, Eq.
          exists o. cbn [ps_iter]. split; [reflexivity|]. split; [|reflexivity]. split; [lia|]. split; [lia|]. intros p Hp. apply in_or_app. left. apply Hc2; lia.
      - intro Ha. apply agrees_app in Ha. destruct Ha as [Ha1 Ha2]. apply agrees1 in Ha2.
        destruct (H Ha1) as (o & -> & [Hc1 Hc2] & ->). cbn [bi_bytes bi_offset] in *. destruct Ha2 as [Ha2 _]. unfold agree in Ha2. rewrite Ha2, E.
        exists o. cbn [ps_iter]. split; [reflexivity|]. split; [|reflexivity]. split; [lia|]. split; [lia|]. intros p Hp. apply in_or_app. left. apply Hc2; lia.
    Qed.
    Lemma ploc_trailing n : ploc 0 n (c_check_trailing D) (c_check_trailing D).
    Proof.
      intros Hn Hb st dep. unfold c_check_trailing, c_next_non_ws. cbn [ps_iter ps_del ps_depth]. pose proof (skip_ws_loc n Hn) as H.
      destruct (c_skip_ws (BI s n)) as [it1 k1]. unfold c_next. destruct (bi_next it1) as [[[o b]|] it2] eqn:E; intro Ha; apply agrees_app in Ha; destruct Ha as [Ha1 Ha2]; apply agrees1 in Ha2;
        destruct (H Ha1) as (o1 & -> & [Hc1 Hc2] & ->); cbn [bi_offset] in *; destruct Ha2 as [Ha2 _];
        (destruct (next_loc o1 (proj2 Hc1) Ha2) as [(b' & E1 & -> & Hl)|[E1 ->]]; rewrite E1 in E; try discriminate).
      - injection E as <- <- <-. exists (o1 + 1)%nat. split; [reflexivity|]. split; [|reflexivity]. split; [lia|]. split; [exact I|]. intros p Hp. apply in_or_app.
        destruct (Nat.eq_dec p o1); [right; left; lia|left; apply Hc2; lia].
      - injection E as <-. exists o1. split; [reflexivity|]. split; [|reflexivity]. split; [lia|]. split; [lia|]. intros p Hp. apply in_or_app. left. apply Hc2; lia.
    Qed.

    Ltac off := apply ploc_bind0; [apply ploc_blind, ob_offset|intros ? ? ? ?].
    Ltac del := apply ploc_bind0; [apply ploc_blind, ob_del|intros ? ? ? ?].
    Lemma ploc_comma {A} n (q : d_st D -> res infallible bool) (a : A) o :
      ploc 0 n (cpbind D (if allow_trailing_commas cfg then blind D (pret D true) else blind D (p_query D q)) (fun ok => if ok : bool then blind D (pret D a) else blind D (perr D o KIllegalTrailingComma)))
               (cpbind D (if allow_trailing_commas cfg then blind D (pret D true) else blind D (p_query D q)) (fun ok => if ok : bool then blind D (pret D a) else blind D (perr D o KIllegalTrailingComma))).
    Proof.
      apply ploc_bind0; [destruct (allow_trailing_commas cfg); apply ploc_blind; [apply ob_ret|apply ob_query]|].
      intros [|] n1 H1 Hb1; apply ploc_blind; [apply ob_ret|apply ob_err].
    Qed.
    Lemma ploc_err {A} n o k : ploc (A := A) 0 n (blind D (perr D o k)) (blind D (perr D o k)).
    Proof. apply ploc_blind, ob_err. Qed.
    Lemma ploc_next n conv : ploc 1 n (cp_tok_err D conv (c_next_or_eof g pw)) (cp_tok_err D conv (c_next_or_eof g pw)).
    Proof. apply ploc_tok, loc_next_or_eof. Qed.
    (** [rv] and [rv'] from all positions >= [n0]. *)
    Definition agreeing (n0 : nat) (rv rv' : cpm D (d_value D)) : Prop := forall n, (n0 <= n)%nat -> ploc 0 n rv rv'.
    Lemma ploc_object_loop n0 rv rv' : agreeing n0 rv rv' -> forall loops loops' n o, (n0 <= n)%nat -> (len < n + loops)%nat -> (length s' < n + loops')%nat ->
      ploc 0 n (c_object_loop g pw cfg D rv loops o) (c_object_loop g pw cfg D rv' loops' o).
    Proof.
      intro Hrv. induction loops as [|loops IH]; intros loops' n o N0 F F' Hn Hb; [lia|]. pose proof (below_length n Hn Hb) as L. destruct loops' as [|loops']; [lia|]. revert Hn Hb.
      cbn [c_object_loop]. off. unfold cp_tok. apply (ploc_le 1); [lia|]. apply (ploc_bind 1 0); [apply ploc_next|]. intros tk ? ? ?.
      destruct tk; try apply ploc_err; [|apply ploc_comma].
      del. match goal with x : (_ * _)%type |- _ => destruct x as [o1 key] end. off. apply ploc_bind0; [apply (ploc_le 1); [lia|apply ploc_next]|]. intros tk ? ? ?. destruct tk; try apply ploc_err.
      off. apply ploc_bind0; [apply Hrv; lia|]. intros v ? ? ?. del. off. apply ploc_bind0; [apply (ploc_le 1); [lia|apply ploc_next]|]. intros tk ? ? ?.
      destruct tk; try apply ploc_err; [apply ploc_blind, ob_ret|]. apply IH; lia.
    Qed.
    Lemma ploc_array_loop n0 rv rv' : agreeing n0 rv rv' -> forall loops loops' n o, (n0 <= n)%nat -> (len < n + loops)%nat -> (length s' < n + loops')%nat ->
      ploc 0 n (c_array_loop g pw cfg D rv loops o) (c_array_loop g pw cfg D rv' loops' o).
    Proof.
      intro Hrv. induction loops as [|loops IH]; intros loops' n o N0 F F' Hn Hb; [lia|]. pose proof (below_length n Hn Hb) as L. destruct loops' as [|loops']; [lia|]. revert Hn Hb.
      cbn [c_array_loop]. off. apply ploc_bind0; [apply ploc_peek|]. intros e ? ? ?. destruct e; [apply ploc_comma|].
      apply ploc_bind0; [apply Hrv; lia|]. intros v ? ? ?. off. del. off. unfold cp_tok. apply (ploc_le 1); [lia|]. apply (ploc_bind 1 0); [apply ploc_next|]. intros tk ? ? ?.
      destruct tk; try apply ploc_err; [apply ploc_blind, ob_ret|]. apply IH; lia.
    Qed.
    Lemma ploc_tokens loops loops' : (len < loops)%nat -> (length s' < loops')%nat -> forall fuel fuel' n, (len < n + fuel)%nat -> (length s' < n + fuel')%nat ->
      ploc 0 n (c_read_tokens g pw cfg D loops fuel) (c_read_tokens g pw cfg D loops' fuel').
    Proof.
      intros FL FL'. induction fuel as [|fuel IH]; intros fuel' n F F' Hn Hb; [lia|]. pose proof (below_length n Hn Hb) as L. destruct fuel' as [|fuel']; [lia|]. revert Hn Hb.
      cbn [c_read_tokens]. off. unfold cp_tok. apply (ploc_le 1); [lia|]. apply (ploc_bind 1 0); [apply ploc_next|]. intros tk n2 ? ?.
      assert (Rv : agreeing n2 (c_read_tokens g pw cfg D loops fuel) (c_read_tokens g pw cfg D loops' fuel')) by (intros ? ?; apply IH; lia).
      destruct tk; try apply ploc_err; try (apply ploc_blind, ob_del).
      - apply ploc_bind0; [apply ploc_blind, ob_begin|]. intros _ ? ? ?. apply ploc_map_err. unfold c_read_object. off. del.
        apply ploc_bind0; [apply (ploc_object_loop n2 _ _ Rv); lia|]. intros o2 ? ? ?. off. del. apply ploc_bind0; [apply ploc_blind, ob_end|]. intros. apply ploc_blind, ob_ret.
      - apply ploc_bind0; [apply ploc_blind, ob_begin|]. intros _ ? ? ?. apply ploc_map_err. unfold c_read_array. off. del.
        apply ploc_bind0; [apply (ploc_array_loop n2 _ _ Rv); lia|]. intros o2 ? ? ?. del. apply ploc_bind0; [apply ploc_blind, ob_end|]. intros. apply ploc_blind, ob_ret.
    Qed.
    Lemma ploc_body : ploc 0 0 (c_parse_body g pw cfg D (S len) (S len)) (c_parse_body g pw cfg D (S (length s')) (S (length s'))).
    Proof.
      unfold c_parse_body. apply ploc_bind0; [apply ploc_tokens; lia|]. intros v ? ? ?. apply ploc_bind0; [apply ploc_blind, ob_root|]. intros _ ? ? ?.
      apply ploc_bind0; [apply ploc_trailing|]. intros. apply ploc_blind, ob_ret.
    Qed.
  End Parser.
End Two.
