(** The contents of the string literals of a text, found by a scan that knows nothing but quotes and
    backslashes.  Proof support for C38: a text that contains an ill-formed string literal is no JSON. *)
From Verif Require Import Base Utf8 Utf8Facts Spec SpecStr SpecLex SpecWrite ParseMain WriteFacts WriteGrammar Lexemes StrEsc.
Local Open Scope N_scope.

Fixpoint contents_of (st : scan) (acc : list N) (s : list N) : list (list N) :=
  match s with
  | [] => []
  | b :: r =>
    match st with
    | Outside => if b =? 34 then contents_of InString [] r else contents_of Outside [] r
    | InString =>
      if b =? 92 then contents_of AfterBackslash (acc ++ [b]) r
      else if b =? 34 then acc :: contents_of Outside [] r
      else contents_of InString (acc ++ [b]) r
    | AfterBackslash => contents_of InString (acc ++ [b]) r
    end
  end.

Definition loose (body : list N) : Prop :=
  forall acc s, contents_of InString acc (body ++ s) = contents_of InString (acc ++ body) s.

Lemma loose_nil : loose [].
Proof. intros acc s. rewrite app_nil_r. reflexivity. Qed.
Lemma loose_app a b : loose a -> loose b -> loose (a ++ b).
Proof. intros Ha Hb acc s. rewrite <- app_assoc, Ha, Hb, <- app_assoc. reflexivity. Qed.
Lemma loose_plain x : Forall (fun b => b <> 34 /\ b <> 92) x -> loose x.
Proof.
  induction 1 as [|b x [H1 H2] Hx IH]; [apply loose_nil|]. intros acc s. cbn [app contents_of].
  assert (b =? 92 = false) as -> by lia. assert (b =? 34 = false) as -> by lia. rewrite IH, <- app_assoc. reflexivity.
Qed.
Lemma loose_escape b : loose [92; b].
Proof. intros acc s. cbn [app contents_of N.eqb Pos.eqb]. rewrite <- app_assoc. reflexivity. Qed.

Lemma loose_body raw cs : str_body raw cs -> loose raw.
Proof.
  assert (E : forall b x, Forall (fun c => c <> 34 /\ c <> 92) x -> loose (92 :: b :: x))
    by (intros b x Hx; apply (loose_app [92; b]); [apply loose_escape|apply loose_plain; exact Hx]).
  induction 1 as [|a c r cs Ha Hr IH]; [apply loose_nil|]. apply loose_app; [|exact IH]. clear IH Hr.
  destruct Ha as [c Hs H1 H2 H3|b c Hb|h u Hh Hu|h1 hi h2 lo H1 R1 H2 R2].
  - apply loose_plain, encode_inside; assumption.
  - apply loose_escape.
  - apply E. eapply hex_inside; eassumption.
  - change (loose ((92 :: 117 :: h1) ++ 92 :: 117 :: h2)). apply loose_app; apply E; eapply hex_inside; eassumption.
Qed.

Lemma nibble_inside n : n < 16 -> nibble_char n <> 34 /\ nibble_char n <> 92.
Proof. intro H. unfold nibble_char. destruct (n <? 10) eqn:E; lia. Qed.

Lemma escaped1_range c : must_escape c = true -> c < 32 \/ c = 34 \/ c = 92.
Proof. unfold must_escape. lia. Qed.

Lemma loose_escaped cs : scalars cs -> loose (utf8_string (escaped cs)).
Proof.
  induction 1 as [|c cs Hc Hcs IH]; [apply loose_nil|]. unfold escaped in *. cbn [flat_map]. rewrite utf8_string_app.
  apply loose_app; [|exact IH]. unfold escaped1. destruct (must_escape c) eqn:Em; cbn [negb].
  - apply escaped1_range in Em.
    assert (K : forall b, b < 128 -> loose (utf8_string [92; b])).
    { intros b Hb. unfold utf8_string. cbn [flat_map]. rewrite !utf8_encode_ascii, app_nil_r by lia. apply (loose_escape b). }
    destruct ((c =? 34) || (c =? 92)) eqn:E1; [apply K; lia|].
    destruct (c =? 7); [apply K; lia|]. destruct (c =? 10); [apply K; lia|]. destruct (c =? 13); [apply K; lia|].
    destruct (c =? 9); [apply K; lia|]. destruct (c =? 12); [apply K; lia|].
    assert (Hm : c mod 16 < 16) by (apply N.mod_lt; lia). assert (Hd : c / 16 < 16) by (apply N.div_lt_upper_bound; lia).
    pose proof (nibble_inside _ Hm). pose proof (nibble_inside _ Hd).
    assert (B : forall n, n < 16 -> nibble_char n < 128) by (intros n Hn; unfold nibble_char; destruct (n <? 10); lia).
    pose proof (B _ Hm). pose proof (B _ Hd).
    unfold utf8_string. cbn [flat_map]. rewrite !utf8_encode_ascii, app_nil_r by lia. cbn [app].
    apply (loose_app [92; 117]); [apply loose_escape|]. apply loose_plain. repeat constructor; try assumption; try lia; tauto.
  - unfold utf8_string. cbn [flat_map]. rewrite app_nil_r. apply loose_plain. unfold must_escape in Em. apply encode_inside; [exact Hc|lia|lia].
Qed.

Lemma outside_plain x s : Forall (fun b => b <> 34) x -> contents_of Outside [] (x ++ s) = contents_of Outside [] s.
Proof. induction 1 as [|b x H1 Hx IH]; [reflexivity|]. cbn [app contents_of]. assert (b =? 34 = false) as -> by lia. exact IH. Qed.
Lemma outside_string raw s : loose raw -> contents_of Outside [] (([34] ++ raw ++ [34]) ++ s) = raw :: contents_of Outside [] s.
Proof.
  intro H. cbn [app contents_of N.eqb Pos.eqb]. rewrite <- app_assoc, H. cbn [app contents_of N.eqb Pos.eqb]. reflexivity.
Qed.

Definition body (raw : list N) : Prop := exists cs, str_body raw cs.

(** In a text made of lexemes every string literal is well-formed. *)
Lemma spaced_contents ls s : spaced ls s -> Forall body (contents_of Outside [] s).
Proof.
  assert (W : forall w, ws w -> Forall (fun b => b <> 34) w) by (intros w H; eapply Forall_impl; [|exact H]; cbv beta; unfold ws_byte; intros; lia).
  assert (N : forall n, number n -> Forall (fun b => b <> 34) n) by (intros n H; eapply Forall_impl; [|apply number_plain; exact H]; cbv beta; tauto).
  induction 1 as [w Hw|w x ls s Hw Hx Hs IH _].
  - rewrite <- (app_nil_r w), outside_plain by auto. constructor.
  - rewrite outside_plain by auto.
    assert (L : forall l, forallb (fun b => negb (b =? 34)) l = true -> contents_of Outside [] (l ++ s) = contents_of Outside [] s).
    { intros l H. apply outside_plain. rewrite forallb_forall in H. apply Forall_forall. intros b Hb. apply H in Hb. lia. }
    destruct Hx as [b Hb| | | |n Hn|raw cs Hb].
    + rewrite outside_plain; [exact IH|]. constructor; [|constructor]. cbn [In] in Hb. lia.
    + rewrite L by reflexivity. exact IH.
    + rewrite L by reflexivity. exact IH.
    + rewrite L by reflexivity. exact IH.
    + rewrite outside_plain by auto. exact IH.
    + change (34 :: raw ++ [34]) with ([34] ++ raw ++ [34]). rewrite outside_string by (eapply loose_body; exact Hb).
      constructor; [exists cs; exact Hb|exact IH].
Qed.

(** A laid-out tree whose text contains only well-formed string literals consists of such. *)
Section Layout.
  Variables indent eol colon : list N.
  Hypothesis Hi : Forall (fun b => b <> 34) indent.
  Hypothesis He : Forall (fun b => b <> 34) eol.
  Hypothesis Hc : Forall (fun b => b <> 34) colon.

  Lemma pad_plain n : Forall (fun b => b <> 34) (pad indent n).
  Proof. unfold pad. induction n as [|n IH]; cbn [repeat List.concat]; [constructor|]. apply Forall_app. auto. Qed.

  Lemma layout_contents : forall t, tree_all loose number t -> forall lvl s,
    Forall body (contents_of Outside [] (layout indent eol colon lvl t ++ s)) ->
    tree_all body number t /\ Forall body (contents_of Outside [] s).
  Proof.
    assert (L : forall l s, forallb (fun b => negb (b =? 34)) l = true -> contents_of Outside [] (l ++ s) = contents_of Outside [] s).
    { intros l s H. apply outside_plain. rewrite forallb_forall in H. apply Forall_forall. intros b Hb. apply H in Hb. lia. }
    assert (J : forall (A : Type) (f : A -> list N) (P : A -> Prop) (l : list A) (b : N), b <> 34 ->
      (forall x, In x l -> forall s, Forall body (contents_of Outside [] (f x ++ s)) -> P x /\ Forall body (contents_of Outside [] s)) ->
      forall lvl s, Forall body (contents_of Outside [] (join ([44] ++ eol) (map f l) ++ eol ++ pad indent lvl ++ [b] ++ s)) ->
      Forall P l /\ Forall body (contents_of Outside [] s)).
    { intros A f P l b Hb Hf lvl s.
      assert (Etail : forall s, contents_of Outside [] (eol ++ pad indent lvl ++ [b] ++ s) = contents_of Outside [] s).
      { intro s0. rewrite outside_plain by exact He. rewrite outside_plain by apply pad_plain. apply outside_plain. repeat constructor. exact Hb. }
      induction l as [|x l IH]; cbn [map join].
      - intro H. rewrite app_nil_l in H. rewrite Etail in H. split; [constructor|exact H].
      - destruct l as [|y l]; cbn [map] in *.
        + cbn [join]. intro H. apply Hf in H as [H1 H2]; [|left; reflexivity]. rewrite Etail in H2. split; [repeat constructor; exact H1|exact H2].
        + intro H. rewrite <- app_assoc in H. apply Hf in H as [H1 H2]; [|left; reflexivity].
          rewrite <- !app_assoc in H2. rewrite (outside_plain [44]) in H2 by (repeat constructor; lia). rewrite outside_plain in H2 by exact He.
          destruct IH as [H3 H4]; [intros z Hz; apply Hf; right; exact Hz|exact H2|]. split; [constructor; assumption|exact H4]. }
    induction t as [ |b|n|raw|l IH|l IH] using tree_ind'; intros Ht lvl s H; inversion Ht as [ | |? Hn|? Hs|? Hl|? Hl]; subst; cbn [layout] in H.
    - rewrite L in H by reflexivity. split; [constructor|exact H].
    - destruct b; rewrite L in H by reflexivity; (split; [constructor|exact H]).
    - rewrite outside_plain in H by (eapply Forall_impl; [|apply number_plain; exact Hn]; cbv beta; tauto).
      split; [constructor; exact Hn|exact H].
    - rewrite outside_string in H by exact Hs. inversion H; subst. split; [constructor; assumption|assumption].
    - destruct l as [|x l]; [rewrite L in H by reflexivity; split; [repeat constructor|exact H]|].
      rewrite <- !app_assoc in H. rewrite L in H by reflexivity. rewrite outside_plain in H by exact He.
      apply (J _ _ (tree_all body number)) in H as [H1 H2]; [split; [constructor; exact H1|exact H2]|lia|].
      intros z Hz s0 H0. rewrite <- app_assoc, outside_plain in H0 by apply pad_plain. rewrite Forall_forall in IH, Hl. eapply IH; eauto.
    - destruct l as [|x l]; [rewrite L in H by reflexivity; split; [repeat constructor|exact H]|].
      rewrite <- !app_assoc in H. rewrite L in H by reflexivity. rewrite outside_plain in H by exact He.
      apply (J _ _ (fun e => body (fst e) /\ tree_all body number (snd e))) in H as [H1 H2]; [split; [constructor; exact H1|exact H2]|lia|].
      intros z Hz s0 H0. rewrite <- app_assoc, outside_plain in H0 by apply pad_plain. rewrite <- app_assoc in H0.
      assert (Hz' := Hz). rewrite Forall_forall in IH, Hl. pose proof (IH z Hz) as IHz. apply Hl in Hz' as [K1 K2].
      rewrite outside_string in H0 by exact K1. inversion H0 as [|? ? HB HR]; subst. rewrite <- ?app_assoc, outside_plain in HR by exact Hc.
      apply IHz in HR as [H3 H4]; [|exact K2]. auto.
  Qed.
End Layout.
