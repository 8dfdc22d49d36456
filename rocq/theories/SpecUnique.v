(** The grammar of Spec.v by itself: every text denotes at most one tree, of whatever length, and a value can
    be followed by only one continuation.  Nothing here uses the model of the crate. *)
From Verif Require Import Base Utf8 Utf8Facts Spec StrSpec.
Local Open Scope N_scope.

(** Bytes that occur in numbers. *)
Definition num_byte (b : N) : Prop := digit b \/ In b [43; 45; 46; 69; 101].
(** What may follow a value: nothing, or a byte that cannot continue a number. *)
Definition follows (x : list N) : Prop := match x with [] => True | b :: _ => ~ num_byte b end.

Lemma number_bytes n : number n -> Forall num_byte n.
Proof.
  intros (m & i & f & e & Hm & Hi & Hf & He & ->).
  assert (D : forall s, Forall digit s -> Forall num_byte s) by (intros s H; eapply Forall_impl; [|exact H]; intros; left; assumption).
  rewrite !Forall_app. split; [|split; [|split]].
  - destruct Hm as [->| ->]; [constructor|]. constructor; [right; cbn; tauto|constructor].
  - destruct Hi as [->|(d & r & Hd & Hr & ->)].
    + constructor; [left; unfold digit; lia|constructor].
    + constructor; [left; unfold digit; lia|auto].
  - destruct Hf as [->|(ds & (_ & Hd) & ->)]; [constructor|]. constructor; [right; cbn; tauto|auto].
  - destruct He as [->|(c & sg & ds & Hc & Hs & (_ & Hd) & ->)]; [constructor|].
    constructor; [right; destruct Hc as [->| ->]; cbn; tauto|]. apply Forall_app. split; [|auto].
    destruct Hs as [->|[->| ->]]; repeat constructor; right; cbn; tauto.
Qed.

Lemma run_unique (P : N -> Prop) n n' x x' : Forall P n -> Forall P n' ->
  (match x with [] => True | b :: _ => ~ P b end) -> (match x' with [] => True | b :: _ => ~ P b end) ->
  n ++ x = n' ++ x' -> n = n' /\ x = x'.
Proof.
  intros Hn Hn' Hx Hx'. revert n' Hn'. induction Hn as [|b n Hb Hn IH]; intros n' Hn' E.
  - destruct n' as [|b' n']; cbn in E; [auto|]. subst x. inversion Hn'; contradiction.
  - destruct n' as [|b' n']; cbn in E; [subst x'; contradiction|].
    injection E as -> E. inversion Hn'; subst. destruct (IH _ H2 E) as [-> ->]. auto.
Qed.

Lemma ws_run w w' x x' : ws w -> ws w' ->
  (match x with [] => True | b :: _ => ~ ws_byte b end) -> (match x' with [] => True | b :: _ => ~ ws_byte b end) ->
  w ++ x = w' ++ x' -> w = w' /\ x = x'.
Proof. intros. apply (run_unique ws_byte); assumption. Qed.

Lemma body_no_quote a c r x : str_item a c -> a ++ r <> 34 :: x.
Proof.
  intros [c' Hs Hc H1 H2|b c' H|h u H Hs|h1 hi h2 lo H1 H2 H3 H4] E; cbn in E; try discriminate.
  destruct (N.ltb_spec c' 128) as [L|L].
  - rewrite utf8_encode_ascii in E by exact L. injection E as E _. contradiction.
  - pose proof (utf8_encode_high c' L) as F. pose proof (utf8_encode_nonnil c') as Hne.
    destruct (utf8_encode c') as [|y ys]; [contradiction|]. injection E as -> _. inversion F. lia.
Qed.

Lemma string_unique raw cs raw' cs' x x' : str_body raw cs -> str_body raw' cs' ->
  raw ++ 34 :: x = raw' ++ 34 :: x' -> raw = raw' /\ x = x'.
Proof.
  intros H. revert raw' cs'. induction H as [|a c r cs Hi Hb IH]; intros raw' cs' H' E.
  - inversion H' as [|a' c' r' cs'' Hi' Hb']; subst; [cbn in E; injection E as ->; auto|].
    cbn in E. rewrite <- app_assoc in E. symmetry in E. destruct (body_no_quote _ _ _ _ Hi' E).
  - inversion H' as [|a' c' r' cs'' Hi' Hb']; subst; rewrite <- app_assoc in E.
    + destruct (body_no_quote _ _ _ _ Hi E).
    + rewrite <- app_assoc in E. destruct (str_item_det _ _ _ _ _ _ Hi Hi' E) as (-> & _ & E').
      destruct (IH _ _ Hb' E') as [-> ->]. auto.
Qed.

(** First bytes of values. *)
Definition starts (b : N) : Prop := ~ ws_byte b /\ ~ In b [44; 58; 93; 125].
Lemma value_starts tc t s : value_text tc t s -> exists b r, s = b :: r /\ starts b.
Proof.
  assert (K : forall b, num_byte b -> b <> 43 -> starts b).
  { intros b H Hp. unfold starts, ws_byte, num_byte, digit in *. cbn in *. lia. }
  intros [ | | |n Hn| | | | | ]; try (eexists _, _; split; [reflexivity|]; unfold starts, ws_byte; cbn; lia).
  pose proof (number_bytes _ Hn) as F. destruct Hn as (m & i & f & e & Hm & Hi & _ & _ & ->).
  destruct Hm as [->| ->].
  - destruct Hi as [->|(d & r & Hd & _ & ->)]; (eexists _, _; split; [reflexivity|]; unfold starts, ws_byte; cbn; lia).
  - eexists _, _; split; [reflexivity|]; unfold starts, ws_byte; cbn; lia.
Qed.
Lemma elements_start tc l s : elements tc l s -> exists w b r, ws w /\ s = w ++ b :: r /\ starts b.
Proof.
  intros [t w1 s1 w2 tr H1 Hv H2 Ht|t l' w1 s1 w2 r H1 Hv H2 Hl]; destruct (value_starts _ _ _ Hv) as (b & y & -> & Hb);
    exists w1, b; eexists; (split; [exact H1|]); (split; [reflexivity|exact Hb]).
Qed.
Lemma members_start tc l s : members tc l s -> exists w b r, ws w /\ s = w ++ b :: r /\ starts b.
Proof.
  assert (starts 34) by (unfold starts, ws_byte; cbn; lia).
  intros [k cs t w1 w2 w3 s1 w4 tr H1 Hk|k cs t l' w1 w2 w3 s1 w4 r H1 Hk]; exists w1, 34; eexists;
    (split; [exact H1|]); (split; [reflexivity|assumption]).
Qed.

Lemma ws_then_not_start w c x w' b r : ws w -> ws w' -> starts b -> In c [44; 58; 93; 125] -> w ++ c :: x <> w' ++ b :: r.
Proof.
  intros Hw Hw' [Hb1 Hb2] Hc E. apply ws_run in E; auto.
  - destruct E as [_ E]. injection E as -> _. contradiction.
  - unfold ws_byte. cbn in Hc. lia.
Qed.

Lemma closers_follow c x : In c [44; 58; 93; 125] -> follows (c :: x).
Proof. cbn. unfold num_byte, digit. cbn. lia. Qed.
Lemma ws_follows w x : ws w -> follows x -> follows (w ++ x).
Proof. intros [|b w' Hb _] H; [exact H|]. cbn. unfold ws_byte, num_byte, digit in *. cbn. lia. Qed.
Lemma not_ws c : In c [44; 58; 93; 125] -> ~ ws_byte c.
Proof. unfold ws_byte. cbn. lia. Qed.

Definition V (tc : bool) (t : tree) (s : list N) : Prop := forall t' s' x x', value_text tc t' s' ->
  follows x -> follows x' -> s ++ x = s' ++ x' -> t = t' /\ s = s' /\ x = x'.

(** What stands between a value and the end of a list: whitespace, a possible extra comma, the bracket. *)
Lemma tail_unique tc w tr c x w' tr' x' : c = 93 \/ c = 125 -> ws w -> ws w' -> trailing tc tr -> trailing tc tr' ->
  w ++ tr ++ c :: x = w' ++ tr' ++ c :: x' -> w = w' /\ tr = tr' /\ x = x'.
Proof.
  intros Hc Hw Hw' Ht Ht' E.
  assert (Nc : ~ ws_byte c) by (apply not_ws; cbn; lia). assert (N4 : ~ ws_byte 44) by (apply not_ws; cbn; lia).
  destruct Ht as [|u _ Hu], Ht' as [|u' _ Hu']; cbn in E; apply ws_run in E; auto; destruct E as [-> E].
  - injection E as ->. auto.
  - injection E as E _. lia.
  - injection E as E _. lia.
  - injection E as E. apply ws_run in E; auto. destruct E as [-> E]. injection E as ->. auto.
Qed.
Lemma tail_not_more tc w tr c x w' w2 b r : c = 93 \/ c = 125 -> ws w -> ws w' -> trailing tc tr -> ws w2 -> starts b ->
  w ++ tr ++ c :: x <> w' ++ 44 :: w2 ++ b :: r.
Proof.
  intros Hc Hw Hw' Ht Hw2 Hb E.
  assert (Nc : ~ ws_byte c) by (apply not_ws; cbn; lia). assert (N4 : ~ ws_byte 44) by (apply not_ws; cbn; lia).
  destruct Ht as [|u _ Hu]; cbn in E; apply ws_run in E; auto; destruct E as [-> E]; injection E as E; [lia|].
  apply ws_then_not_start in E; auto. cbn; lia.
Qed.

Lemma value_unique_all tc :
  (forall t s, value_text tc t s -> V tc t s) /\
  (forall l s, elements tc l s -> forall l' s' x x', elements tc l' s' -> s ++ 93 :: x = s' ++ 93 :: x' -> l = l' /\ s = s' /\ x = x') /\
  (forall l s, members tc l s -> forall l' s' x x', members tc l' s' -> s ++ 125 :: x = s' ++ 125 :: x' -> l = l' /\ s = s' /\ x = x').
Proof.
  apply text_mutind.
  - intros t' s' x x' H' Hx Hx' E. destruct H' as [ | | |n Hn| | | | | ]; cbn in E; try discriminate.
    + injection E as ->. auto.
    + pose proof (number_bytes _ Hn) as F. destruct Hn as (m & i & f & e & [->| ->] & [->|(d & r & Hd & _ & ->)] & _ & _ & ->);
        cbn in E; injection E as E _; lia.
  - intros t' s' x x' H' Hx Hx' E. destruct H' as [ | | |n Hn| | | | | ]; cbn in E; try discriminate.
    + injection E as ->. auto.
    + destruct Hn as (m & i & f & e & [->| ->] & [->|(d & r & Hd & _ & ->)] & _ & _ & ->);
        cbn in E; injection E as E _; lia.
  - intros t' s' x x' H' Hx Hx' E. destruct H' as [ | | |n Hn| | | | | ]; cbn in E; try discriminate.
    + injection E as ->. auto.
    + destruct Hn as (m & i & f & e & [->| ->] & [->|(d & r & Hd & _ & ->)] & _ & _ & ->);
        cbn in E; injection E as E _; lia.
  - intros n Hn t' s' x x' H' Hx Hx' E.
    assert (K : forall b y, (forall c z, n = c :: z -> c <> b) -> n ++ x <> b :: y).
    { intros b y K E'. destruct Hn as (m & i & f & e & [->| ->] & [->|(d & r & Hd & _ & ->)] & _ & _ & ->);
        cbn in E'; injection E' as <- _; eapply K; reflexivity. }
    assert (K2 : forall b, b <> 45 -> ~ digit b -> forall c z, n = c :: z -> c <> b).
    { intros b B1 B2 c z Ez ->. destruct Hn as (m & i & f & e & [->| ->] & [->|(d & r & Hd & _ & ->)] & _ & _ & ->);
        cbn in Ez; injection Ez as <- _; unfold digit in *; lia. }
    destruct H' as [ | | |n' Hn'| | | | | ]; cbn in E;
      try (exfalso; refine (K _ _ (K2 _ _ _) E); unfold digit; lia).
    apply (run_unique num_byte) in E; auto using number_bytes. destruct E as [-> ->]. auto.
  - intros raw cs Hb t' s' x x' H' Hx Hx' E.
    destruct H' as [ | | |n' Hn'|raw' cs' Hb'| | | | ]; cbn in E; try discriminate.
    + exfalso. destruct Hn' as (m & i & f & e & [->| ->] & [->|(d & r & Hd & _ & ->)] & _ & _ & ->);
        cbn in E; injection E as E _; lia.
    + injection E as E. rewrite <- ?app_assoc in E. cbn in E. destruct (string_unique _ _ _ _ _ _ Hb Hb' E) as [-> ->]. auto.
  - intros w Hw t' s' x x' H' Hx Hx' E.
    destruct H' as [ | | |n' Hn'| |w' Hw'|l' s' Hl'| | ]; cbn in E; try discriminate.
    + exfalso. destruct Hn' as (m & i & f & e & [->| ->] & [->|(d & r & Hd & _ & ->)] & _ & _ & ->);
        cbn in E; injection E as E _; lia.
    + injection E as E. rewrite <- ?app_assoc in E. cbn in E. apply ws_run in E; auto using not_ws.
      2, 3: apply not_ws; cbn; lia.
      destruct E as [-> E]. injection E as ->. auto.
    + exfalso. injection E as E. rewrite <- ?app_assoc in E. cbn in E. destruct (elements_start _ _ _ Hl') as (u & b & r & Hu & -> & Hb).
      rewrite <- app_assoc in E. apply ws_then_not_start in E; auto. cbn; lia.
  - intros l s Hl IH t' s' x x' H' Hx Hx' E.
    destruct H' as [ | | |n' Hn'| |w' Hw'|l' s' Hl'| | ]; cbn in E; try discriminate.
    + exfalso. destruct Hn' as (m & i & f & e & [->| ->] & [->|(d & r & Hd & _ & ->)] & _ & _ & ->);
        cbn in E; injection E as E _; lia.
    + exfalso. injection E as E. rewrite <- ?app_assoc in E. cbn in E. destruct (elements_start _ _ _ Hl) as (u & b & r & Hu & -> & Hb).
      rewrite <- app_assoc in E. symmetry in E. apply ws_then_not_start in E; auto. cbn; lia.
    + injection E as E. rewrite <- ?app_assoc in E. cbn in E. destruct (IH _ _ _ _ Hl' E) as (-> & -> & ->). auto.
  - intros w Hw t' s' x x' H' Hx Hx' E.
    destruct H' as [ | | |n' Hn'| | | |w' Hw'|l' s' Hl']; cbn in E; try discriminate.
    + exfalso. destruct Hn' as (m & i & f & e & [->| ->] & [->|(d & r & Hd & _ & ->)] & _ & _ & ->);
        cbn in E; injection E as E _; lia.
    + injection E as E. rewrite <- ?app_assoc in E. cbn in E. apply ws_run in E; auto.
      2, 3: apply not_ws; cbn; lia.
      destruct E as [-> E]. injection E as ->. auto.
    + exfalso. injection E as E. rewrite <- ?app_assoc in E. cbn in E. destruct (members_start _ _ _ Hl') as (u & b & r & Hu & -> & Hb).
      rewrite <- app_assoc in E. apply ws_then_not_start in E; auto. cbn; lia.
  - intros l s Hl IH t' s' x x' H' Hx Hx' E.
    destruct H' as [ | | |n' Hn'| | | |w' Hw'|l' s' Hl']; cbn in E; try discriminate.
    + exfalso. destruct Hn' as (m & i & f & e & [->| ->] & [->|(d & r & Hd & _ & ->)] & _ & _ & ->);
        cbn in E; injection E as E _; lia.
    + exfalso. injection E as E. rewrite <- ?app_assoc in E. cbn in E. destruct (members_start _ _ _ Hl) as (u & b & r & Hu & -> & Hb).
      rewrite <- app_assoc in E. symmetry in E. apply ws_then_not_start in E; auto. cbn; lia.
    + injection E as E. rewrite <- ?app_assoc in E. cbn in E. destruct (IH _ _ _ _ Hl' E) as (-> & -> & ->). auto.
  - intros t w1 s w2 tr H1 Hv IH H2 Ht l' s' x x' H' E.
    destruct H' as [t' w1' s' w2' tr' H1' Hv' H2' Ht'|t' l' w1' s' w2' r' H1' Hv' H2' Hl']; rewrite <- ?app_assoc in E.
    + destruct (value_starts _ _ _ Hv) as (b & y & -> & [Hb _]), (value_starts _ _ _ Hv') as (b' & y' & -> & [Hb' _]).
      apply ws_run in E; auto. destruct E as [-> E].
      apply (IH _ _ _ _ Hv') in E.
      * destruct E as (-> & Es & E). apply (tail_unique tc) in E; auto. destruct E as (-> & -> & ->). rewrite Es. auto.
      * apply ws_follows; [exact H2|]. destruct Ht; apply closers_follow; cbn; lia.
      * apply ws_follows; [exact H2'|]. destruct Ht'; apply closers_follow; cbn; lia.
    + exfalso. destruct (value_starts _ _ _ Hv) as (b & y & -> & [Hb _]), (value_starts _ _ _ Hv') as (b' & y' & -> & [Hb' _]).
      apply ws_run in E; auto. destruct E as [-> E].
      apply (IH _ _ _ _ Hv') in E.
      * destruct E as (_ & _ & E). destruct (elements_start _ _ _ Hl') as (u & c & r & Hu & -> & Hc).
        cbn in E. rewrite <- app_assoc in E. cbn in E. apply (tail_not_more tc) in E; auto.
      * apply ws_follows; [exact H2|]. destruct Ht; apply closers_follow; cbn; lia.
      * apply ws_follows; [exact H2'|]. apply closers_follow; cbn; lia.
  - intros t l w1 s w2 r H1 Hv IH H2 Hl IHl l' s' x x' H' E.
    destruct H' as [t' w1' s' w2' tr' H1' Hv' H2' Ht'|t' l' w1' s' w2' r' H1' Hv' H2' Hl']; rewrite <- ?app_assoc in E.
    + exfalso. destruct (value_starts _ _ _ Hv) as (b & y & -> & [Hb _]), (value_starts _ _ _ Hv') as (b' & y' & -> & [Hb' _]).
      apply ws_run in E; auto. destruct E as [-> E].
      apply (IH _ _ _ _ Hv') in E.
      * destruct E as (_ & _ & E). destruct (elements_start _ _ _ Hl) as (u & c & r0 & Hu & -> & Hc).
        cbn in E. rewrite <- app_assoc in E. cbn in E. symmetry in E. apply (tail_not_more tc) in E; auto.
      * apply ws_follows; [exact H2|]. apply closers_follow; cbn; lia.
      * apply ws_follows; [exact H2'|]. destruct Ht'; apply closers_follow; cbn; lia.
    + destruct (value_starts _ _ _ Hv) as (b & y & -> & [Hb _]), (value_starts _ _ _ Hv') as (b' & y' & -> & [Hb' _]).
      apply ws_run in E; auto. destruct E as [-> E].
      apply (IH _ _ _ _ Hv') in E.
      * destruct E as (-> & Es & E). apply ws_run in E; auto; try (cbn; apply not_ws; cbn; lia).
        destruct E as [-> E]. cbn in E. injection E as E. destruct (IHl _ _ _ _ Hl' E) as (-> & -> & ->). rewrite Es. auto.
      * apply ws_follows; [exact H2|]. apply closers_follow; cbn; lia.
      * apply ws_follows; [exact H2'|]. apply closers_follow; cbn; lia.
  - intros k cs t w1 w2 w3 s w4 tr H1 Hk H2 H3 Hv IH H4 Ht l' s' x x' H' E.
    assert (Q : ~ ws_byte 34) by (unfold ws_byte; lia). assert (C : ~ ws_byte 58) by (unfold ws_byte; lia).
    destruct H' as [k' cs' t' w1' w2' w3' s' w4' tr' H1' Hk' H2' H3' Hv' H4' Ht'|k' cs' t' l' w1' w2' w3' s' w4' r' H1' Hk' H2' H3' Hv' H4' Hl'];
      rewrite <- ?app_assoc in E; apply ws_run in E; auto; destruct E as [-> E]; cbn in E; injection E as E;
      rewrite <- ?app_assoc in E; destruct (string_unique _ _ _ _ _ _ Hk Hk' E) as [-> E1]; clear E;
      apply ws_run in E1; auto; destruct E1 as [-> E1]; injection E1 as E; rewrite <- ?app_assoc in E;
      destruct (value_starts _ _ _ Hv) as (b & y & -> & [Hb _]), (value_starts _ _ _ Hv') as (b' & y' & -> & [Hb' _]);
      apply ws_run in E; auto; destruct E as [-> E]; apply (IH _ _ _ _ Hv') in E.
    + destruct E as (-> & Es & E). apply (tail_unique tc) in E; auto. destruct E as (-> & -> & ->). rewrite Es. auto.
    + apply ws_follows; [exact H4|]. destruct Ht; apply closers_follow; cbn; lia.
    + apply ws_follows; [exact H4'|]. destruct Ht'; apply closers_follow; cbn; lia.
    + exfalso. destruct E as (_ & _ & E). destruct (members_start _ _ _ Hl') as (u & c & r & Hu & -> & Hc).
      cbn in E. rewrite <- app_assoc in E. cbn in E. apply (tail_not_more tc) in E; auto.
    + apply ws_follows; [exact H4|]. destruct Ht; apply closers_follow; cbn; lia.
    + apply ws_follows; [exact H4'|]. apply closers_follow; cbn; lia.
  - intros k cs t l w1 w2 w3 s w4 r H1 Hk H2 H3 Hv IH H4 Hl IHl l' s' x x' H' E.
    assert (Q : ~ ws_byte 34) by (unfold ws_byte; lia). assert (C : ~ ws_byte 58) by (unfold ws_byte; lia).
    destruct H' as [k' cs' t' w1' w2' w3' s' w4' tr' H1' Hk' H2' H3' Hv' H4' Ht'|k' cs' t' l' w1' w2' w3' s' w4' r' H1' Hk' H2' H3' Hv' H4' Hl'];
      rewrite <- ?app_assoc in E; apply ws_run in E; auto; destruct E as [-> E]; cbn in E; injection E as E;
      rewrite <- ?app_assoc in E; destruct (string_unique _ _ _ _ _ _ Hk Hk' E) as [-> E1]; clear E;
      apply ws_run in E1; auto; destruct E1 as [-> E1]; injection E1 as E; rewrite <- ?app_assoc in E;
      destruct (value_starts _ _ _ Hv) as (b & y & -> & [Hb _]), (value_starts _ _ _ Hv') as (b' & y' & -> & [Hb' _]);
      apply ws_run in E; auto; destruct E as [-> E]; apply (IH _ _ _ _ Hv') in E.
    + exfalso. destruct E as (_ & _ & E). destruct (members_start _ _ _ Hl) as (u & c & r0 & Hu & -> & Hc).
      cbn in E. rewrite <- app_assoc in E. cbn in E. symmetry in E. apply (tail_not_more tc) in E; auto.
    + apply ws_follows; [exact H4|]. apply closers_follow; cbn; lia.
    + apply ws_follows; [exact H4'|]. destruct Ht'; apply closers_follow; cbn; lia.
    + destruct E as (-> & Es & E). apply ws_run in E; auto; try (cbn; apply not_ws; cbn; lia).
      destruct E as [-> E]. cbn in E. injection E as E. destruct (IHl _ _ _ _ Hl' E) as (-> & -> & ->). rewrite Es. auto.
    + apply ws_follows; [exact H4|]. apply closers_follow; cbn; lia.
    + apply ws_follows; [exact H4'|]. apply closers_follow; cbn; lia.
Qed.

Theorem value_text_unique tc t s t' s' x x' : value_text tc t s -> value_text tc t' s' -> follows x -> follows x' ->
  s ++ x = s' ++ x' -> t = t' /\ s = s' /\ x = x'.
Proof. intros H. apply (proj1 (value_unique_all tc) t s H). Qed.

(** Each text denotes at most one tree, and is split in one way only into whitespace and value. *)
Theorem json_text_unambiguous tc t t' s : json_text tc t s -> json_text tc t' s -> t = t'.
Proof.
  intros (w1 & b & w2 & H1 & Hv & H2 & ->) (w1' & b' & w2' & H1' & Hv' & H2' & E).
  destruct (value_starts _ _ _ Hv) as (c & y & -> & [Hc _]), (value_starts _ _ _ Hv') as (c' & y' & -> & [Hc' _]).
  apply ws_run in E; auto. destruct E as [_ E]. apply (value_text_unique tc) with (t := t) (t' := t') in E; auto; [tauto| |].
  - rewrite <- (app_nil_r w2). apply ws_follows; [assumption|exact I].
  - rewrite <- (app_nil_r w2'). apply ws_follows; [assumption|exact I].
Qed.
