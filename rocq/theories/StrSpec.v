(** Facts about the string grammar of Spec.v: what a string body denotes is unique. *)
From Verif Require Import Base Utf8 Utf8Facts Spec StrModel Tokenizer TokBase TokStr.
Local Open Scope N_scope.

Lemma hex4_fun h u v : hex4 h u -> hex4 h v -> u = v.
Proof. rewrite !hex4_iff. intros [_ H] [_ H']. congruence. Qed.

Lemma simple_escapes_fun b c d : In (b, c) simple_escapes -> In (b, d) simple_escapes -> c = d.
Proof.
  cbn. intros H1 H2.
  repeat (destruct H1 as [H1|H1]; [injection H1 as <- <-|]); try destruct H1;
    repeat (destruct H2 as [H2|H2]; [injection H2 as; try congruence; lia|]); destruct H2.
Qed.

Lemma simple_escapes_not_u c : ~ In (117, c) simple_escapes.
Proof. cbn. intro H. repeat (destruct H as [H|H]; [discriminate|]). destruct H. Qed.

Lemma app_eq_len {A} (a b x y : list A) : length a = length b -> a ++ x = b ++ y -> a = b /\ x = y.
Proof.
  revert b. induction a as [|u a IH]; intros [|v b] L H; cbn in *; try discriminate; auto.
  injection H as -> H. destruct (IH b) as [-> ->]; auto.
Qed.

Lemma utf8_encode_head c : exists b t, utf8_encode c = b :: t /\ (b = 92 -> c = 92).
Proof.
  destruct (N.lt_ge_cases c 128) as [H|H].
  - rewrite utf8_encode_ascii by assumption. eauto.
  - pose proof (utf8_encode_high c H) as F. destruct (utf8_encode c) as [|b t] eqn:E.
    + destruct (utf8_encode_nonnil c E).
    + exists b, t. split; [reflexivity|]. inversion F. intros ->. lia.
Qed.

(** An item is determined by the bytes it starts. *)
Lemma str_item_det a c r a' c' r' : str_item a c -> str_item a' c' -> a ++ r = a' ++ r' ->
  a = a' /\ c = c' /\ r = r'.
Proof.
  assert (Hplain : forall x y p q, is_scalar x = true -> x <> 92 ->
     utf8_encode x ++ p = 92 :: y ++ q -> False).
  { intros x y p q _ Hn E. destruct (utf8_encode_head x) as (b & t & Eb & Hb). rewrite Eb in E. injection E as -> _. auto. }
  intros H H' E. destruct H as [c Hs H32 H34 H92|b c Hin|h u Hh Hu|h1 hi h2 lo Hh1 Hhi Hh2 Hlo];
    destruct H' as [d Hs' H32' H34' H92'|b' d Hin'|h' u' Hh' Hu'|h1' hi' h2' lo' Hh1' Hhi' Hh2' Hlo'].
  - pose proof (next_char_encode c r Hs) as E1. rewrite E in E1. rewrite next_char_encode in E1 by assumption.
    injection E1 as <- <-. auto.
  - exfalso. cbn in E. exact (Hplain c [b'] r r' Hs H92 E).
  - exfalso. cbn in E. exact (Hplain c (117 :: h') r r' Hs H92 E).
  - exfalso. cbn in E. rewrite <- app_assoc in E. exact (Hplain c (117 :: h1' ++ 92 :: 117 :: h2') r r' Hs H92 ltac:(cbn; rewrite <- app_assoc; exact E)).
  - exfalso. cbn in E. symmetry in E. exact (Hplain d [b] r' r Hs' H92' E).
  - cbn in E. injection E as <- <-. rewrite (simple_escapes_fun b c d Hin Hin'). auto.
  - exfalso. cbn in E. injection E as -> _. exact (simple_escapes_not_u _ Hin).
  - exfalso. cbn in E. injection E as -> _. exact (simple_escapes_not_u _ Hin).
  - exfalso. cbn in E. symmetry in E. exact (Hplain d (117 :: h) r' r Hs' H92' E).
  - exfalso. cbn in E. injection E as <- _. exact (simple_escapes_not_u _ Hin').
  - cbn in E. injection E as E. apply app_eq_len in E as [<- <-].
    + rewrite (hex4_fun _ _ _ Hh Hh'). auto.
    + rewrite (hex4_length _ _ Hh), (hex4_length _ _ Hh'). reflexivity.
  - exfalso. cbn in E. injection E as E. rewrite <- app_assoc in E. apply app_eq_len in E as [<- _].
    + pose proof (hex4_fun _ _ _ Hh Hh1'). subst. apply is_scalar_spec in Hu. lia.
    + rewrite (hex4_length _ _ Hh), (hex4_length _ _ Hh1'). reflexivity.
  - exfalso. cbn in E. symmetry in E. rewrite <- app_assoc in E.
    exact (Hplain d (117 :: h1 ++ 92 :: 117 :: h2) r' r Hs' H92' ltac:(cbn; rewrite <- app_assoc; exact E)).
  - exfalso. cbn in E. injection E as <- _. exact (simple_escapes_not_u _ Hin').
  - exfalso. cbn in E. injection E as E. rewrite <- app_assoc in E. apply app_eq_len in E as [<- _].
    + pose proof (hex4_fun _ _ _ Hh1 Hh'). subst. apply is_scalar_spec in Hu'. lia.
    + rewrite (hex4_length _ _ Hh1), (hex4_length _ _ Hh'). reflexivity.
  - cbn in E. injection E as E. rewrite <- !app_assoc in E. apply app_eq_len in E as [<- E].
    2:{ rewrite (hex4_length _ _ Hh1), (hex4_length _ _ Hh1'). reflexivity. }
    cbn in E. injection E as E. apply app_eq_len in E as [<- <-].
    2:{ rewrite (hex4_length _ _ Hh2), (hex4_length _ _ Hh2'). reflexivity. }
    rewrite (hex4_fun _ _ _ Hh1 Hh1'), (hex4_fun _ _ _ Hh2 Hh2'). auto.
Qed.

Lemma str_item_nonnil a c : str_item a c -> a <> [].
Proof. intros [d Hs _ _ _| | | ]; try discriminate. apply utf8_encode_nonnil. Qed.

Theorem str_body_det raw cs cs' : str_body raw cs -> str_body raw cs' -> cs = cs'.
Proof.
  intro H. revert cs'. induction H as [|a c r cs Hi Hb IH]; intros cs' H'.
  - inversion H' as [|a c r cs Hi Hb E]; [reflexivity|].
    apply app_eq_nil in E as [-> _]. destruct (str_item_nonnil _ _ Hi eq_refl).
  - inversion H' as [E|a' c' r' cs'' Hi' Hb' E]; subst.
    + symmetry in E. apply app_eq_nil in E as [-> _]. destruct (str_item_nonnil _ _ Hi eq_refl).
    + symmetry in E. destruct (str_item_det _ _ _ _ _ _ Hi Hi' E) as (<- & <- & <-). f_equal. apply IH. exact Hb'.
Qed.
