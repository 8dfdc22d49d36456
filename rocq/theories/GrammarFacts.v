(** Consequences for the grammar itself: unambiguity, prefixes, trailing commas. *)
From Verif Require Import Base Utf8 Utf8Facts StrModel ErrorModel Tokenizer Parser ValueModel DocModel NumModel Spec
  TokBase TokStr TokNum TokFacts Trace ParserGen ParserSound ParserComplete SimInst StrSpec View ParseMain.
Local Open Scope N_scope.

Definition open_config (tc : bool) : parse_config := Config tc None true.

Lemma accepted_open tc t s : accepted (open_config tc) t s <-> json_text tc t s.
Proof. unfold accepted. cbn. tauto. Qed.

(** * Unambiguity *)
Theorem json_text_unique pw tc t t' s : N.of_nat (length s) <= isize_max pw ->
  json_text tc t s -> json_text tc t' s -> t = t'.
Proof.
  intros Hl H H'.
  assert (Hg : good false pw s) by (split; [exact Hl|discriminate]).
  destruct (trace_complete false pw (open_config tc) t s Hg H I (or_introl eq_refl)) as (v & Hr & E).
  destruct (trace_complete false pw (open_config tc) t' s Hg H' I (or_introl eq_refl)) as (v' & Hr' & E').
  rewrite E in E'. injection E' as <- _.
  rewrite <- (value_repr_tree _ _ _ Hr), <- (value_repr_tree _ _ _ Hr'). reflexivity.
Qed.

(** * Prefixes *)
Lemma not_num_head tc t s : value_text tc t s -> (exists n, t = TNum n) \/
  (exists b r, s = b :: r /\ ~ digit b /\ b <> 45).
Proof.
  intros [ | | |n Hn| | | | | ]; try (left; eauto; fail); right; eexists _, _; (split; [reflexivity|unfold digit; lia]).
Qed.

Lemma num_head n : number n -> exists b r, n = b :: r /\ (digit b \/ b = 45).
Proof.
  intro Hn. pose proof (number_nonnil _ Hn). destruct n as [|b n]; [congruence|].
  exists b, n. split; [reflexivity|]. pose proof (number_head_cases b n Hn). unfold digit. lia.
Qed.

Lemma ws_lead w b x w' b' x' : ws w -> ws w' -> ~ ws_byte b -> ~ ws_byte b' ->
  w ++ b :: x = w' ++ b' :: x' -> w = w' /\ b = b' /\ x = x'.
Proof.
  intros Hw Hw' Hb Hb'. revert w' Hw'. induction Hw as [|c w Hc Hw IH]; intros [|c' w'] Hw' E; cbn in E.
  - injection E as -> ->. auto.
  - injection E as -> _. inversion Hw'. contradiction.
  - injection E as -> _. contradiction.
  - injection E as -> E. inversion Hw'; subst. destruct (IH w' H2 E) as (-> & -> & ->). auto.
Qed.

Theorem value_prefix pw tc t t' w b r w' b' r' : N.of_nat (length (w ++ b ++ r)) <= isize_max pw ->
  ws w -> ws w' -> value_text tc t b -> value_text tc t' b' -> (forall n, t <> TNum n) ->
  w ++ b ++ r = w' ++ b' ++ r' -> w = w' /\ b = b' /\ t = t' /\ r = r'.
Proof.
  intros Hl Hw Hw' H H' Hn E.
  assert (Hhd : exists c x, b = c :: x /\ ~ ws_byte c) by (destruct (value_text_head _ _ _ H) as (c & x & Ec & Hc & _); eauto).
  assert (Hhd' : exists c x, b' = c :: x /\ ~ ws_byte c) by (destruct (value_text_head _ _ _ H') as (c & x & Ec & Hc & _); eauto).
  assert (Ew : w = w').
  { destruct Hhd as (c & x & -> & Hc), Hhd' as (c' & x' & -> & Hc'). cbn in E. apply ws_lead in E; tauto. }
  subst w'. apply app_inv_head in E.
  assert (Hn' : forall n, t' <> TNum n).
  { intros n ->. inversion H'; subst. destruct (num_head _ H1) as (c & x & -> & Hc).
    destruct (not_num_head _ _ _ H) as [(n & ->)|(c' & x' & -> & Hc' & Hc2)]; [eapply Hn; reflexivity|].
    cbn in E. injection E as -> _. tauto. }
  assert (Hg : good false pw ([] ++ w ++ b ++ r)) by (split; [exact Hl|discriminate]).
  set (N := S (length (w ++ b ++ r))).
  assert (Hlen : (length (b ++ r) < N)%nat) by (unfold N; rewrite (app_length w); lia).
  destruct (proj1 (complete_text false pw (open_config tc)) t b H N N [] w r [] 0) as (v & Hr & E1); auto.
  { rewrite app_length in Hlen. lia. } { rewrite app_length in Hlen. lia. } { exact I. }
  { destruct t; try exact I. destruct (Hn text eq_refl). }
  destruct (proj1 (complete_text false pw (open_config tc)) t' b' H' N N [] w r' [] 0) as (v' & Hr' & E2); auto.
  { rewrite <- E. exact Hg. }
  { rewrite E, app_length in Hlen. lia. } { rewrite E, app_length in Hlen. lia. } { exact I. }
  { destruct t'; try exact I. destruct (Hn' text eq_refl). }
  rewrite <- E in E2. rewrite E1 in E2. injection E2 as -> Hbytes Hoff _.
  assert (L : length b = length b').
  { cbn [app] in Hoff. rewrite !app_length in Hoff. lia. }
  apply app_eq_len in E as [-> ->]; [|exact L].
  rewrite <- (value_repr_tree _ _ _ Hr), <- (value_repr_tree _ _ _ Hr'). auto.
Qed.

Theorem truncated pw tc t t' p q : N.of_nat (length (p ++ q)) <= isize_max pw ->
  json_text tc t (p ++ q) -> (forall n, t <> TNum n) -> json_text tc t' p -> ws q.
Proof.
  intros Hl (w1 & b & w2 & Hw1 & Hb & Hw2 & E) Hn (w1' & b' & w2' & Hw1' & Hb' & Hw2' & ->).
  rewrite <- !app_assoc in E. rewrite <- !app_assoc in Hl.
  destruct (value_prefix pw tc t t' w1 b w2 w1' b' (w2' ++ q)) as (_ & _ & _ & ->); auto.
  { rewrite <- E. exact Hl. }
  apply Forall_app in Hw2 as [_ H]. exact H.
Qed.

(** * Trailing commas *)
Lemma text_mono :
  (forall t s, value_text false t s -> value_text true t s) /\
  (forall l s, elements false l s -> elements true l s) /\
  (forall l s, members false l s -> members true l s).
Proof.
  assert (Htr : forall tr, trailing false tr -> trailing true tr).
  { intros tr [|w E _]; [constructor|discriminate]. }
  apply (text_mutind false (fun t s _ => value_text true t s) (fun l s _ => elements true l s) (fun l s _ => members true l s)); intros; econstructor; eauto.
Qed.

Lemma json_text_mono t s : json_text false t s -> json_text true t s.
Proof. intros (w1 & b & w2 & H1 & H & H2 & ->). exists w1, b, w2. repeat split; auto. apply text_mono. exact H. Qed.

(** Each text with trailing commas has a text without them denoting the same tree. *)
Lemma text_strip :
  (forall t s, value_text true t s -> exists s', value_text false t s') /\
  (forall l s, elements true l s -> exists s', elements false l s') /\
  (forall l s, members true l s -> exists s', members false l s').
Proof.
  apply (text_mutind true (fun t s _ => exists s', value_text false t s') (fun l s _ => exists s', elements false l s')
    (fun l s _ => exists s', members false l s')); intros;
    repeat match goal with H : exists _, _ |- _ => destruct H end; try (eexists; econstructor; eassumption).
  - eexists. eapply (el_last false t w1 x w2 []); eauto. constructor.
  - eexists. eapply (me_last false k cs t w1 w2 w3 x w4 []); eauto. constructor.
Qed.

(** The last byte that is not whitespace. *)
Definition ends (c : N) (s : list N) : Prop := exists p w, s = p ++ c :: w /\ ws w /\ ~ ws_byte c.

Lemma ends_app c a b : ends c b -> ends c (a ++ b).
Proof. intros (p & w & -> & H). exists (a ++ p), w. rewrite <- app_assoc. auto. Qed.
Lemma ends_ws c a w : ends c a -> ws w -> ends c (a ++ w).
Proof. intros (p & w' & -> & H & Hc) Hw. exists p, (w' ++ w). rewrite <- app_assoc. split; [reflexivity|]. split; [apply Forall_app; auto|exact Hc]. Qed.
Lemma ends_cons c a b : ends c b -> ends c (a :: b).
Proof. apply (ends_app c [a]). Qed.
Lemma ends_last c : ~ ws_byte c -> ends c [c].
Proof. intro H. exists [], []. repeat split; auto. constructor. Qed.

Lemma ends_fun c d s : ends c s -> ends d s -> c = d.
Proof.
  intros (p & w & -> & Hw & Hc) (p' & w' & E & Hw' & Hd).
  apply (f_equal (@rev N)) in E. rewrite !rev_app_distr in E. cbn in E. rewrite <- !app_assoc in E. cbn in E.
  apply ws_lead in E as (_ & <- & _); auto; apply Forall_rev; assumption.
Qed.

Lemma digits_ends ds : ds <> [] -> Forall digit ds -> exists c, ends c ds /\ c <> 44.
Proof.
  intros Hne H. destruct (exists_last Hne) as (p & c & ->). apply Forall_app in H as [_ H]. inversion H; subst.
  unfold digit in *. exists c. split; [apply ends_app, ends_last; unfold ws_byte; lia|lia].
Qed.

Lemma number_ends n : number n -> exists c, ends c n /\ c <> 44.
Proof.
  intros (m & i & f & e & Hm & Hi & Hf & He & ->).
  destruct He as [->|(c & sg & ds & Hc & Hsg & [Hne Hds] & ->)].
  2:{ destruct (digits_ends ds Hne Hds) as (d & Hd & Hd2). exists d. split; [|exact Hd2].
      apply ends_app, ends_app, ends_app, ends_cons, ends_app. exact Hd. }
  rewrite app_nil_r. destruct Hf as [->|(ds & [Hne Hds] & ->)].
  2:{ destruct (digits_ends ds Hne Hds) as (d & Hd & Hd2). exists d. split; [|exact Hd2].
      apply ends_app, ends_app, ends_cons. exact Hd. }
  rewrite app_nil_r. destruct Hi as [->|(d & r & Hd & Hr & ->)].
  - exists 48. split; [apply ends_app, ends_last; unfold ws_byte; lia|lia].
  - destruct (digits_ends (d :: r)) as (x & Hx & Hx2); [discriminate|constructor; [unfold digit; lia|exact Hr]|].
    exists x. split; [apply ends_app; exact Hx|exact Hx2].
Qed.

Lemma value_ends tc t s : value_text tc t s -> exists c, ends c s /\ c <> 44.
Proof.
  intros [ | | |n Hn|raw cs Hb|w Hw|l x Hl|w Hw|l x Hl].
  - exists 108. split; [|lia]. exists [110; 117; 108], []. repeat split; [constructor|unfold ws_byte; lia].
  - exists 101. split; [|lia]. exists [116; 114; 117], []. repeat split; [constructor|unfold ws_byte; lia].
  - exists 101. split; [|lia]. exists [102; 97; 108; 115], []. repeat split; [constructor|unfold ws_byte; lia].
  - apply number_ends. exact Hn.
  - exists 34. split; [apply ends_cons, ends_app, ends_last; unfold ws_byte; lia|lia].
  - exists 93. split; [apply ends_cons, ends_app, ends_last; unfold ws_byte; lia|lia].
  - exists 93. split; [apply ends_cons, ends_app, ends_last; unfold ws_byte; lia|lia].
  - exists 125. split; [apply ends_cons, ends_app, ends_last; unfold ws_byte; lia|lia].
  - exists 125. split; [apply ends_cons, ends_app, ends_last; unfold ws_byte; lia|lia].
Qed.

(** Without the option, no element or member list ends with a comma. *)
Lemma lists_end :
  (forall t s, value_text false t s -> True) /\
  (forall l s, elements false l s -> exists c, ends c s /\ c <> 44) /\
  (forall l s, members false l s -> exists c, ends c s /\ c <> 44).
Proof.
  assert (Hlast : forall t s w tr p, value_text false t s -> ws w -> trailing false tr ->
    exists c, ends c (p ++ s ++ w ++ tr) /\ c <> 44).
  { intros t s w tr p H Hw Htr. destruct Htr as [|? E _]; [|discriminate]. rewrite app_nil_r.
    destruct (value_ends _ _ _ H) as (c & Hc & Hne). exists c. split; [|exact Hne]. apply ends_app, ends_ws; assumption. }
  apply (text_mutind false (fun t s _ => True) (fun l s _ => exists c, ends c s /\ c <> 44) (fun l s _ => exists c, ends c s /\ c <> 44)); auto.
  - intros. eapply Hlast; eassumption.
  - intros t l w1 s w2 r Hw1 Hv _ Hw2 Hl (c & Hc & Hne). exists c. split; [|exact Hne].
    apply ends_app, ends_app, ends_app, ends_cons. exact Hc.
  - intros k cs t w1 w2 w3 s w4 tr H1 H2 H3 H4 H5 _ H6 H7.
    destruct (Hlast t s w4 tr (w1 ++ (34 :: k ++ [34]) ++ w2 ++ 58 :: w3) H5 H6 H7) as (c & Hc & Hne).
    exists c. split; [|exact Hne]. revert Hc. rewrite <- !app_assoc. cbn [app]. rewrite <- !app_assoc. auto.
  - intros k cs t l w1 w2 w3 s w4 r H1 H2 H3 H4 H5 _ H6 H7 (c & Hc & Hne). exists c. split; [|exact Hne].
    apply ends_app, ends_app, ends_app, ends_cons, ends_app, ends_app, ends_app, ends_cons. exact Hc.
Qed.

Lemma ends_comma s w : ws w -> ends 44 (s ++ 44 :: w).
Proof. intro H. exists s, w. repeat split; auto. unfold ws_byte. lia. Qed.

(** A text whose outermost container has a trailing comma is not RFC 8259 JSON. *)
Theorem trailing_comma_not_json s w o c t : ws w ->
  (o = 91 /\ c = 93) \/ (o = 123 /\ c = 125) ->
  ~ json_text false t (o :: (s ++ 44 :: w) ++ [c]).
Proof.
  intros Hw Hoc (u1 & b & u2 & Hu1 & Hb & Hu2 & E).
  destruct (value_text_head _ _ _ Hb) as (h & x & Eh & Hh & _).
  assert (Ho : ~ ws_byte o) by (unfold ws_byte; lia). assert (Hc : ~ ws_byte c) by (unfold ws_byte; lia).
  assert (Ew : u1 = []).
  { rewrite Eh in E. cbn in E. apply (ws_lead [] o) in E as [<- _]; auto. constructor. }
  subst u1. cbn [app] in E.
  assert (Eu : u2 = []).
  { destruct u2 as [|y u2 _] using rev_ind; [reflexivity|]. rewrite app_comm_cons, app_assoc in E. apply app_inj_tail in E as [_ <-].
    apply Forall_app in Hu2 as [_ Hu2]. inversion Hu2. contradiction. }
  subst u2. rewrite app_nil_r in E. subst b.
  assert (Hin : forall y, s ++ 44 :: w = y -> ws y -> False).
  { intros y <- Hy. apply Forall_app in Hy as [_ Hy]. inversion Hy. unfold ws_byte in *. lia. }
  assert (Hel : forall y d, s ++ 44 :: w = y -> ends d y -> d <> 44 -> False).
  { intros y d <- Hd Hne. apply Hne. eapply ends_fun; [exact Hd|]. apply ends_comma. exact Hw. }
  inversion Hb as [E|E|E|n Hn En|raw cs Hs Er|y Hy Ey|l y Hl Ey|y Hy Ey|l y Hl Ey]; subst; try lia.
  - destruct Hn as (m & i & f & e & Hm & Hi & _ & _ & E).
    destruct Hm as [->| ->]; [|cbn in E; injection E as -> _; lia].
    destruct Hi as [->|(d & r & Hd & _ & ->)]; cbn in E; injection E as -> _; lia.
  - match goal with HH : _ ++ [_] = _ ++ [_] |- _ => apply app_inj_tail in HH as [HH _]; symmetry in HH end. eapply Hin; eauto.
  - match goal with HH : _ ++ [_] = _ ++ [_] |- _ => apply app_inj_tail in HH as [HH _]; symmetry in HH end. destruct (proj1 (proj2 lists_end) _ _ Hl) as (d & Hd & Hne). eapply Hel; eauto.
  - match goal with HH : _ ++ [_] = _ ++ [_] |- _ => apply app_inj_tail in HH as [HH _]; symmetry in HH end. eapply Hin; eauto.
  - match goal with HH : _ ++ [_] = _ ++ [_] |- _ => apply app_inj_tail in HH as [HH _]; symmetry in HH end. destruct (proj2 (proj2 lists_end) _ _ Hl) as (d & Hd & Hne). eapply Hel; eauto.
Qed.
