(** Facts about SpecError: the text before the reported place is the beginning of a JSON text; the nesting limit. *)
From Verif Require Import Base Utf8 Utf8Facts StrModel ErrorModel Spec SpecError TokBase TokStr ParserComplete ErrTok SpecWrite StrSpec View ParseMain WriteFacts WriteGrammar.
Local Open Scope N_scope.

Section Place.
  Variables (tc : bool) (limit : option N).

  (** [n] is the length of a prefix with [A], or lies inside an ill-formed token that follows such a prefix. *)
  Definition placed (A : list N -> Prop) (s : list N) (n : nat) : Prop :=
    exists p x, s = p ++ x /\ A p /\ (n = length p \/ exists m k', n = (length p + m)%nat /\ token_error x m k').

  Lemma placed_map (A A' : list N -> Prop) q s n s' n' : placed A s n -> s' = q ++ s -> n' = (length q + n)%nat ->
    (forall p, A p -> A' (q ++ p)) -> placed A' s' n'.
  Proof.
    intros (p & x & -> & Hp & Hn) -> -> H. exists (q ++ p), x. split; [apply app_assoc|]. split; [apply H, Hp|].
    rewrite app_length. destruct Hn as [->|(m & k' & -> & He)]; [left; reflexivity|right]. exists m, k'. split; [lia|exact He].
  Qed.

  Lemma placed_here (A : list N -> Prop) s : A [] -> placed A s 0.
  Proof. intro H. exists [], s. split; [reflexivity|]. split; [exact H|left; reflexivity]. Qed.

  Lemma placed_ws (A : list N -> Prop) w : A w -> placed A w (length w).
  Proof. intro H. exists w, []. split; [symmetry; apply app_nil_r|]. split; [exact H|left; reflexivity]. Qed.

  Lemma placed_token (A : list N -> Prop) w x n k : A w -> token_error x n k -> placed A (w ++ x) (length w + n).
  Proof. intros H He. exists w, x. split; [reflexivity|]. split; [exact H|right; eauto]. Qed.

  (** What may come after an element of an array, before the closing bracket; after a member; after a key. *)
  Inductive rest_array : list N -> Prop :=
  | ra_end w : ws w -> rest_array w
  | ra_more w l r : ws w -> elements tc l r -> rest_array (w ++ 44 :: r).
  Inductive rest_object : list N -> Prop :=
  | ro_end w : ws w -> rest_object w
  | ro_more w l r : ws w -> members tc l r -> rest_object (w ++ 44 :: r).
  Inductive rest_member : list N -> Prop :=
  | rm_intro w1 w2 t v r : ws w1 -> ws w2 -> value_text tc t v -> rest_object r -> rest_member (w1 ++ 58 :: w2 ++ v ++ r).

  Lemma rest_array_elements t w v r : ws w -> value_text tc t v -> rest_array r -> exists l, elements tc l (w ++ v ++ r).
  Proof.
    intros Hw Hv [w' Hw'|w' l r' Hw' Hl].
    - exists [t]. rewrite <- (app_nil_r w'). apply el_last; auto. constructor.
    - exists (t :: l). apply el_cons; assumption.
  Qed.

  Lemma rest_member_members w k cs r : ws w -> str_body k cs -> rest_member r ->
    exists l, members tc l (w ++ (34 :: k ++ [34]) ++ r).
  Proof.
    intros Hw Hk [w1 w2 t v r' H1 H2 Hv [w' Hw'|w' l r'' Hw' Hl]].
    - exists [(k, t)]. rewrite <- (app_nil_r w'). eapply me_last; eauto. constructor.
    - exists ((k, t) :: l). eapply me_cons; eassumption.
  Qed.

  Definition A_value (p : list N) : Prop := exists y w t v, p ++ y = w ++ v /\ ws w /\ value_text tc t v.
  Definition A_array (p : list N) : Prop := exists y l, elements tc l (p ++ y).
  Definition A_array_next (p : list N) : Prop := exists y, rest_array (p ++ y).
  Definition A_object (p : list N) : Prop := exists y l, members tc l (p ++ y).
  Definition A_colon (p : list N) : Prop := exists y, rest_member (p ++ y).
  Definition A_member_next (p : list N) : Prop := exists y, rest_object (p ++ y).

  Lemma zero_text : value_text tc (TNum [48]) [48].
  Proof. constructor. exists [], [48], [], []. repeat split; auto; left; reflexivity. Qed.
  Lemma empty_body : str_body [] [].
  Proof. constructor. Qed.
  Lemma ws_nil : ws [].
  Proof. constructor. Qed.
  Hint Resolve zero_text empty_body ws_nil : core.

  Lemma av w : ws w -> A_value w.
  Proof. intro H. exists [48], w, (TNum [48]), [48]. auto. Qed.
  Lemma aa w : ws w -> A_array w.
  Proof. intro H. exists [48], [TNum [48]]. apply (el_last tc (TNum [48]) w [48] [] []); auto. constructor. Qed.
  Lemma an w : ws w -> A_array_next w.
  Proof. intro H. exists []. rewrite app_nil_r. constructor. exact H. Qed.
  Lemma ao w : ws w -> A_object w.
  Proof. intro H. exists ([34; 34; 58; 48]), [([], TNum [48])].
    apply (me_last tc [] [] (TNum [48]) w [] [] [48] [] []); auto. constructor. Qed.
  Lemma ac w : ws w -> A_colon w.
  Proof. intro H. exists [58; 48]. apply (rm_intro w [] (TNum [48]) [48] []); auto. constructor. auto. Qed.
  Lemma am w : ws w -> A_member_next w.
  Proof. intro H. exists []. rewrite app_nil_r. constructor. exact H. Qed.
  Hint Resolve av aa an ao ac am : core.

  Ltac len := rewrite ?app_length; cbn [length]; rewrite ?app_length; cbn [length]; lia.
  Ltac asc := repeat (rewrite <- app_assoc; cbn [app]); try reflexivity.

  Lemma errors_placed : forall d,
    (forall r n k, value_error tc limit d r n k -> placed A_value r n) /\
    (forall first r n k, array_error tc limit d first r n k -> placed A_array r n) /\
    (forall r n k, array_next_error tc limit d r n k -> placed A_array_next r n) /\
    (forall first r n k, object_error tc limit d first r n k -> placed A_object r n) /\
    (forall r n k, colon_error tc limit d r n k -> placed A_colon r n) /\
    (forall r n k, member_next_error tc limit d r n k -> placed A_member_next r n).
  Proof.
    intro d0. apply (error_mutind tc limit (fun d r n k _ => placed A_value r n) (fun d f r n k _ => placed A_array r n)
      (fun d r n k _ => placed A_array_next r n) (fun d f r n k _ => placed A_object r n) (fun d r n k _ => placed A_colon r n)
      (fun d r n k _ => placed A_member_next r n)); intros; try (apply placed_ws; auto; fail);
      try (eapply placed_token; eauto; fail); try (apply placed_here; auto; fail).
    - eapply placed_map with (q := w ++ [91]); [eassumption|asc|len|]. intros p (y & l & Hl).
      exists (y ++ [93]), w, (TArr l), (91 :: (p ++ y) ++ [93]). split; [asc|]. split; [assumption|constructor; exact Hl].
    - eapply placed_map with (q := w ++ [123]); [eassumption|asc|len|]. intros p (y & l & Hl).
      exists (y ++ [125]), w, (TObj l), (123 :: (p ++ y) ++ [125]). split; [asc|]. split; [assumption|constructor; exact Hl].
    - eapply placed_map with (q := w); [eassumption|reflexivity|reflexivity|]. intros p (y & wa & ta & va & E & Hwa & Hv).
      exists y, [ta]. rewrite <- app_assoc, E, (app_assoc w wa), <- (app_nil_r va).
      apply (el_last tc ta (w ++ wa) va [] []); auto; [apply Forall_app; auto|constructor].
    - match goal with Hx : value_then _ _ _ _ _ _ |- _ => destruct Hx as (Hv & _) end.
      eapply placed_map with (q := w ++ v); [eassumption|apply app_assoc|reflexivity|]. intros p (y & Hy).
      destruct (rest_array_elements t w v (p ++ y)) as (l & Hl); auto. exists y, l.
      replace (((w ++ v) ++ p) ++ y) with (w ++ v ++ p ++ y) by asc. exact Hl.
    - eapply placed_map with (q := w ++ [44]); [eassumption|asc|len|]. intros p (y & l & Hl). exists y.
      replace (((w ++ [44]) ++ p) ++ y) with (w ++ 44 :: p ++ y) by asc. econstructor; eassumption.
    - eapply placed_map with (q := w ++ 34 :: key ++ [34]); [eassumption|apply app_assoc|len|]. intros p (y & Hy).
      destruct (rest_member_members w key cs (p ++ y)) as (l & Hl); auto. exists y, l.
      replace (((w ++ 34 :: key ++ [34]) ++ p) ++ y) with (w ++ (34 :: key ++ [34]) ++ p ++ y) by (asc; cbn [app]; asc). exact Hl.
    - eapply placed_map with (q := w ++ [58]); [eassumption|asc|len|]. intros p (y & wa & ta & va & E & Hwa & Hv).
      exists y. replace (((w ++ [58]) ++ p) ++ y) with (w ++ 58 :: wa ++ va ++ []).
      + econstructor; eauto. constructor. auto.
      + asc. rewrite E. rewrite app_nil_r. reflexivity.
    - match goal with Hx : value_then _ _ _ _ _ _ |- _ => destruct Hx as (Hv & _) end.
      eapply placed_map with (q := w ++ 58 :: w' ++ v); [eassumption|asc|len|]. intros p (y & Hy). exists y.
      replace (((w ++ 58 :: w' ++ v) ++ p) ++ y) with (w ++ 58 :: w' ++ v ++ p ++ y) by asc. econstructor; eassumption.
    - eapply placed_map with (q := w ++ [44]); [eassumption|asc|len|]. intros p (y & l & Hl). exists y.
      replace (((w ++ [44]) ++ p) ++ y) with (w ++ 44 :: p ++ y) by asc. econstructor; eassumption.
  Qed.

  Theorem text_error_placed roots s n k : text_error tc limit roots s n k ->
    placed (fun p => exists y t, json_text tc t (p ++ y)) s n.
  Proof.
    intros [z m k' He|w t v r Hw Hv Hr Hc|w t v w' b r Hw (Hv & _) Hr Hw' Hb].
    - apply (proj1 (errors_placed 0)) in He as (p & x & -> & (y & w & t & v & E & Hw & Hv) & Hn).
      exists p, x. split; [reflexivity|]. split; [|exact Hn]. exists y, t, w, v, []. rewrite app_nil_r. auto.
    - apply placed_here. exists [48], (TNum [48]), [], [48], []. auto.
    - exists (w ++ v ++ w'), (b :: r). split; [asc|]. split; [|left; reflexivity].
      exists [], t, w, v, w'. rewrite app_nil_r. auto.
  Qed.

  (** * The nesting limit *)
  Lemma inside_limit u k : inside u k = KRecursionLimitReached -> u <> KRecursionLimitReached -> k = KRecursionLimitReached.
  Proof. destruct k; cbn; congruence. Qed.

  Lemma inside_limit_back u : inside u KRecursionLimitReached = KRecursionLimitReached.
  Proof. reflexivity. Qed.

  (** Another error than the limit's is reported with any more generous limit as well. *)
  Variable limit' : option N.
  Hypothesis generous : forall m, limit' = Some m -> exists n, limit = Some n /\ n <= m.

  Definition below (d : N) : Prop := forall n, limit = Some n -> d <= n.

  Lemma below_in d : below d -> limit <> Some d -> below (d + 1) /\ limit' <> Some d.
  Proof.
    intros H Hd. split.
    - intros n E. specialize (H n E). assert (n <> d) by congruence. lia.
    - intro E. destruct (generous _ E) as (n & En & Hn). specialize (H n En). apply Hd. rewrite En. f_equal. lia.
  Qed.

  Lemma value_then_generous d t v r : value_then tc limit d t v r -> value_then tc limit' d t v r.
  Proof.
    intros (H1 & H2 & H3). split; [exact H1|]. split; [exact H2|]. intros m E. destruct (generous m E) as (n & En & Hn).
    specialize (H3 n En). lia.
  Qed.

  Definition other (R : list N -> nat -> kind -> Prop) (d : N) (s : list N) (n : nat) (k : kind) : Prop :=
    below d -> k <> KRecursionLimitReached -> R s n k.

  Lemma errors_other_limit : forall d,
    (forall r n k, value_error tc limit d r n k -> other (value_error tc limit' d) d r n k) /\
    (forall first r n k, array_error tc limit d first r n k -> other (array_error tc limit' d first) d r n k) /\
    (forall r n k, array_next_error tc limit d r n k -> other (array_next_error tc limit' d) d r n k) /\
    (forall first r n k, object_error tc limit d first r n k -> other (object_error tc limit' d first) d r n k) /\
    (forall r n k, colon_error tc limit d r n k -> other (colon_error tc limit' d) d r n k) /\
    (forall r n k, member_next_error tc limit d r n k -> other (member_next_error tc limit' d) d r n k).
  Proof.
    intro d0. apply (error_mutind tc limit (fun d r n k _ => other (value_error tc limit' d) d r n k)
      (fun d f r n k _ => other (array_error tc limit' d f) d r n k)
      (fun d r n k _ => other (array_next_error tc limit' d) d r n k)
      (fun d f r n k _ => other (object_error tc limit' d f) d r n k)
      (fun d r n k _ => other (colon_error tc limit' d) d r n k)
      (fun d r n k _ => other (member_next_error tc limit' d) d r n k)); intros; intros Hb Hk;
      try (econstructor; eauto using value_then_generous; fail); try congruence.
    - destruct (below_in _ Hb n0) as [Hb' Hl']. apply ve_array; [assumption..|]. apply H; [exact Hb'|].
      intros ->. apply Hk. reflexivity.
    - destruct (below_in _ Hb n0) as [Hb' Hl']. apply ve_object; [assumption..|]. apply H; [exact Hb'|].
      intros ->. apply Hk. reflexivity.
  Qed.

  Theorem text_error_generous roots s n k : text_error tc limit roots s n k -> k <> KRecursionLimitReached ->
    text_error tc limit' roots s n k.
  Proof.
    intros [z m k' He|w t v r Hw Hv Hr Hc|w t v w' b r Hw Hv Hr Hw' Hb] Hk.
    - apply xe_value, (proj1 (errors_other_limit 0)); [exact He| |exact Hk]. intros n0 _. lia.
    - eapply xe_root; eauto using value_then_generous.
    - eapply xe_trailing; eauto using value_then_generous.
  Qed.
End Place.

(** * Nesting depth of a place, counted on the bytes *)

Lemma nesting_app st d a b : nesting st d (a ++ b) = let '(st', d') := nesting st d a in nesting st' d' b.
Proof.
  revert st d. induction a as [|c a IH]; intros st d; cbn [app nesting]; [reflexivity|].
  destruct st; repeat match goal with |- context [if ?x then _ else _] => destruct x end; apply IH.
Qed.

Definition plain (b : N) : Prop := ~ In b [34; 91; 123; 93; 125].

Lemma nesting_plain d s : Forall plain s -> nesting Outside d s = (Outside, d).
Proof.
  induction 1 as [|b s Hb Hs IH]; [reflexivity|]. cbn [nesting]. unfold plain in Hb. cbn [In] in Hb.
  destruct (N.eqb_spec b 34); [lia|]. destruct ((b =? 91) || (b =? 123)) eqn:E1; [lia|].
  destruct ((b =? 93) || (b =? 125)) eqn:E2; [lia|]. exact IH.
Qed.

Lemma ws_plain w : ws w -> Forall plain w.
Proof. intro H. eapply Forall_impl; [|exact H]. intros b Hb. unfold ws_byte, plain in *. cbn [In]. lia. Qed.

Lemma nesting_ws d w : ws w -> nesting Outside d w = (Outside, d).
Proof. intro H. apply nesting_plain, ws_plain, H. Qed.

Lemma nesting_inside d x : Forall (fun b => b <> 34 /\ b <> 92) x -> nesting InString d x = (InString, d).
Proof.
  induction 1 as [|b x [H1 H2] Hx IH]; [reflexivity|]. cbn [nesting].
  destruct (N.eqb_spec b 34); [lia|]. destruct (N.eqb_spec b 92); [lia|]. exact IH.
Qed.

Lemma nesting_body raw cs d : str_body raw cs -> nesting InString d raw = (InString, d).
Proof.
  induction 1 as [|a c r cs Ha Hr IH]; [reflexivity|]. rewrite nesting_app.
  destruct Ha as [c Hs H1 H2 H3|b c Hb|h u Hh Hu|h1 hi h2 lo H1 R1 H2 R2].
  - rewrite nesting_inside by (apply encode_inside; assumption). exact IH.
  - cbn [nesting N.eqb Pos.eqb]. exact IH.
  - cbn [nesting N.eqb Pos.eqb]. rewrite nesting_inside by (eapply hex_inside; eassumption). exact IH.
  - cbn [nesting N.eqb Pos.eqb]. rewrite nesting_app, nesting_inside by (eapply hex_inside; eassumption). cbn [nesting N.eqb Pos.eqb].
    rewrite nesting_inside by (eapply hex_inside; eassumption). exact IH.
Qed.

Lemma nesting_string raw cs d r : str_body raw cs -> nesting Outside d ((34 :: raw ++ [34]) ++ r) = nesting Outside d r.
Proof.
  intro H. cbn [app nesting N.eqb Pos.eqb]. rewrite <- app_assoc, nesting_app, (nesting_body _ cs) by exact H. reflexivity.
Qed.

Lemma number_nest n : number n -> Forall plain n.
Proof.
  intros (m & i & f & e & Hm & Hi & Hf & He & ->). unfold plain.
  assert (D : forall l, Forall digit l -> Forall (fun b => ~ In b [34; 91; 123; 93; 125]) l).
  { intros l Hl. eapply Forall_impl; [|exact Hl]. cbv beta. unfold digit. cbn [In]. intros; lia. }
  assert (One : forall b, 36 < b < 91 \/ b = 101 -> ~ In b [34; 91; 123; 93; 125]) by (cbn [In]; intros; lia).
  repeat (apply Forall_app; split).
  - destruct Hm as [->| ->]; repeat constructor; apply One; lia.
  - destruct Hi as [->|(d & r & Hd & Hr & ->)]; constructor; auto; apply One; lia.
  - destruct Hf as [->|(ds & [_ Hds] & ->)]; constructor; auto; apply One; lia.
  - destruct He as [->|(c & sg & ds & Hc & Hsg & [_ Hds] & ->)]; constructor; [apply One; lia|].
    apply Forall_app. split; auto. destruct Hsg as [->|[->| ->]]; repeat constructor; apply One; lia.
Qed.

Lemma nesting_ws_app d w r : ws w -> nesting Outside d (w ++ r) = nesting Outside d r.
Proof. intro H. rewrite nesting_app, nesting_ws by exact H. reflexivity. Qed.

Lemma nesting_text tc :
  (forall t s, value_text tc t s -> forall d r, nesting Outside d (s ++ r) = nesting Outside d r) /\
  (forall l s, elements tc l s -> forall d r, nesting Outside d (s ++ r) = nesting Outside d r) /\
  (forall l s, members tc l s -> forall d r, nesting Outside d (s ++ r) = nesting Outside d r).
Proof.
  assert (Htr : forall tr, trailing tc tr -> forall d r, nesting Outside d (tr ++ r) = nesting Outside d r).
  { intros tr [|w _ Hw] d r; [reflexivity|]. cbn [app nesting N.eqb Pos.eqb orb]. apply nesting_ws_app, Hw. }
  assert (D : forall d, d + 1 - 1 = d) by (intros; lia).
  apply text_mutind.
  - reflexivity.
  - reflexivity.
  - reflexivity.
  - intros n Hn d r. rewrite nesting_app, nesting_plain by (apply number_nest, Hn). reflexivity.
  - intros raw cs H d r. eapply nesting_string, H.
  - intros w Hw d r. cbn [app nesting N.eqb Pos.eqb orb]. rewrite <- app_assoc, nesting_ws_app by exact Hw.
    cbn [app nesting N.eqb Pos.eqb orb]. rewrite D. reflexivity.
  - intros l s _ IH d r. cbn [app nesting N.eqb Pos.eqb orb]. rewrite <- app_assoc, IH.
    cbn [app nesting N.eqb Pos.eqb orb]. rewrite D. reflexivity.
  - intros w Hw d r. cbn [app nesting N.eqb Pos.eqb orb]. rewrite <- app_assoc, nesting_ws_app by exact Hw.
    cbn [app nesting N.eqb Pos.eqb orb]. rewrite D. reflexivity.
  - intros l s _ IH d r. cbn [app nesting N.eqb Pos.eqb orb]. rewrite <- app_assoc, IH.
    cbn [app nesting N.eqb Pos.eqb orb]. rewrite D. reflexivity.
  - intros t w1 s w2 tr H1 _ IH H2 Ht d r. rewrite <- !app_assoc, nesting_ws_app, IH, nesting_ws_app by assumption. apply Htr, Ht.
  - intros t l w1 s w2 r0 H1 _ IH H2 _ IHl d r. rewrite <- !app_assoc, nesting_ws_app, IH, nesting_ws_app by assumption.
    cbn [app nesting N.eqb Pos.eqb orb]. apply IHl.
  - intros k cs t w1 w2 w3 s w4 tr H1 Hk H2 H3 _ IH H4 Ht d r.
    rewrite <- app_assoc, nesting_ws_app by assumption. rewrite <- app_assoc, (nesting_string _ cs) by exact Hk.
    rewrite <- app_assoc, nesting_ws_app by assumption. cbn [app nesting N.eqb Pos.eqb orb].
    rewrite <- !app_assoc, nesting_ws_app, IH, nesting_ws_app by assumption. apply Htr, Ht.
  - intros k cs t l w1 w2 w3 s w4 r0 H1 Hk H2 H3 _ IH H4 _ IHl d r.
    rewrite <- app_assoc, nesting_ws_app by assumption. rewrite <- app_assoc, (nesting_string _ cs) by exact Hk.
    rewrite <- app_assoc, nesting_ws_app by assumption. cbn [app nesting N.eqb Pos.eqb orb].
    rewrite <- !app_assoc, nesting_ws_app, IH, nesting_ws_app by assumption. cbn [app nesting N.eqb Pos.eqb orb]. apply IHl.
Qed.

Section Limit.
  Variables (tc : bool) (limit : option N).

  Definition at_limit (d : N) (s : list N) (n : nat) (k : kind) : Prop := k = KRecursionLimitReached ->
    exists p w b x m, s = p ++ w ++ b :: x /\ n = length p /\ ws w /\ In b [91; 123] /\ limit = Some m /\
      nesting Outside d p = (Outside, m).

  Lemma at_limit_map d d' q s n k s' n' : at_limit d s n k -> s' = q ++ s -> n' = (length q + n)%nat ->
    (forall r, nesting Outside d' (q ++ r) = nesting Outside d r) -> at_limit d' s' n' k.
  Proof.
    intros H -> -> Hq Hk. destruct (H Hk) as (p & w & b & x & m & -> & -> & Hw & Hb & Hl & Hn).
    exists (q ++ p), w, b, x, m. split; [apply app_assoc|]. split; [symmetry; apply app_length|]. rewrite Hq. auto.
  Qed.

  Lemma token_error_kind x n : ~ token_error x n KRecursionLimitReached.
  Proof.
    intro H. inversion H as [z m k' He|z m k' He|lit z m k' Hin He|]; subst.
    - inversion He as [| |b cs z' m' k' Hb Hx|]; subst. inversion Hx as [| |? ? ? Hh| |? ? ? ? ? Hh Hv Hs]; subst; [inversion Hh|].
      inversion Hs as [ | | | |? ? ? Hh'| ]; subst. inversion Hh'.
    - inversion He.
    - inversion He.
  Qed.

  Ltac len := rewrite ?app_length; cbn [length]; rewrite ?app_length; cbn [length]; lia.
  Ltac asc := repeat (rewrite <- app_assoc; cbn [app]); try reflexivity.
  Ltac nest := intros; repeat (rewrite <- ?app_assoc; rewrite ?nesting_ws_app by assumption; cbn [app nesting N.eqb Pos.eqb orb]); try reflexivity.

  Lemma errors_limit : forall d,
    (forall r n k, value_error tc limit d r n k -> at_limit d r n k) /\
    (forall first r n k, array_error tc limit d first r n k -> at_limit d r n k) /\
    (forall r n k, array_next_error tc limit d r n k -> at_limit d r n k) /\
    (forall first r n k, object_error tc limit d first r n k -> at_limit d r n k) /\
    (forall r n k, colon_error tc limit d r n k -> at_limit d r n k) /\
    (forall r n k, member_next_error tc limit d r n k -> at_limit d r n k).
  Proof.
    intro d0. apply (error_mutind tc limit (fun d r n k _ => at_limit d r n k) (fun d f r n k _ => at_limit d r n k)
      (fun d r n k _ => at_limit d r n k) (fun d f r n k _ => at_limit d r n k) (fun d r n k _ => at_limit d r n k)
      (fun d r n k _ => at_limit d r n k)); intros;
      try (intro Hk; discriminate Hk); try (intros ->; edestruct token_error_kind; eassumption).
    - intros _. exists [], w, b, x, d. auto 7.
    - intro Hk. apply inside_limit in Hk; [|discriminate].
      eapply (at_limit_map _ d (w ++ [91])); [eassumption|asc|len|nest|subst; reflexivity].
    - intro Hk. apply inside_limit in Hk; [|discriminate].
      eapply (at_limit_map _ d (w ++ [123])); [eassumption|asc|len|nest|subst; reflexivity].
    - eapply (at_limit_map _ d w); [eassumption|reflexivity|reflexivity|nest].
    - match goal with Hx : value_then _ _ _ _ _ _ |- _ => destruct Hx as (Hv & _) end.
      eapply (at_limit_map _ d (w ++ v)); [eassumption|apply app_assoc|reflexivity|].
      intros. rewrite <- app_assoc, nesting_ws_app by assumption. apply (proj1 (nesting_text tc) _ _ Hv).
    - eapply (at_limit_map _ d (w ++ [44])); [eassumption|asc|len|nest].
    - eapply (at_limit_map _ d (w ++ 34 :: key ++ [34])); [eassumption|apply app_assoc|len|].
      intros. rewrite <- app_assoc, nesting_ws_app by assumption. eapply nesting_string; eassumption.
    - eapply (at_limit_map _ d (w ++ [58])); [eassumption|asc|len|nest].
    - match goal with Hx : value_then _ _ _ _ _ _ |- _ => destruct Hx as (Hv & _) end.
      eapply (at_limit_map _ d (w ++ 58 :: w' ++ v)); [eassumption|asc|len|].
      intros. rewrite <- app_assoc, nesting_ws_app by assumption. cbn [app nesting N.eqb Pos.eqb orb].
      rewrite <- app_assoc, nesting_ws_app by assumption. apply (proj1 (nesting_text tc) _ _ Hv).
    - eapply (at_limit_map _ d (w ++ [44])); [eassumption|asc|len|nest].
  Qed.

  Theorem text_error_limit roots s n : text_error tc limit roots s n KRecursionLimitReached ->
    exists p w b x m, s = p ++ w ++ b :: x /\ n = length p /\ ws w /\ In b [91; 123] /\ limit = Some m /\
      nesting Outside 0 p = (Outside, m).
  Proof.
    intro H. inversion H as [z m' k' He| |]; subst. apply (proj1 (errors_limit 0)) in He. exact (He eq_refl).
  Qed.
End Limit.
