(** The parsing entry points in terms of the grammar. *)
From Verif Require Import Base Utf8 Utf8Facts StrModel ErrorModel Tokenizer Parser ValueModel DocModel NumModel Spec
  TokBase TokStr TokFacts Trace ParserGen ParserSound ParserComplete Sim SimInst StrSpec View.
Local Open Scope N_scope.

Lemma rust_slice_good pw s : rust_slice pw s -> good false pw s.
Proof. intros [_ H]. split; [exact H|discriminate]. Qed.
Lemma rust_str_good pw s : rust_str pw s -> good true pw s.
Proof. intros [H1 H]. split; [exact H|]. intros _. apply utf8_valid_iff. exact H1. Qed.
Lemma rust_str_slice pw s : rust_str pw s -> rust_slice pw s.
Proof. intros [H1 H]. split; [|exact H]. apply utf8_valid_bytes, utf8_valid_iff. exact H1. Qed.

Lemma value_repr_tree pw : forall t v, value_repr pw t v -> tree_of v = t.
Proof.
  fix IH 3. intros t v [ |b|n|raw cs H|l vs H|l vs H]; try reflexivity; cbn [tree_of]; f_equal.
  - induction H as [|x y l vs Hx H IHl]; cbn; [reflexivity|]. rewrite (IH _ _ Hx), IHl. reflexivity.
  - induction H as [|[k x] [k' y] l vs [(cs & Hk & Ek) Hx] H IHl]; cbn in *; [reflexivity|].
    rewrite (IH _ _ Hx), IHl, Ek. reflexivity.
Qed.

Lemma string_for_det pw raw cs cs' : str_body raw cs -> str_body raw cs' -> string_for pw raw cs = string_for pw raw cs'.
Proof. intros H H'. rewrite (str_body_det _ _ _ H H'). reflexivity. Qed.

Lemma value_repr_fun pw : forall t v v', value_repr pw t v -> value_repr pw t v' -> v = v'.
Proof.
  fix IH 4. intros t v v' [ |b|n|raw cs H|l vs H|l vs H] H'; inversion H'; subst; try reflexivity; f_equal.
  - eapply string_for_det; eassumption.
  - match goal with H1 : Forall2 _ l ?x |- _ = ?x => clear H'; revert x H1; induction H as [|a y l vs Hx H IHl]; intros x H1; inversion H1; subst end;
      [reflexivity|]. f_equal; [eapply IH; eassumption|]. apply IHl. assumption.
  - match goal with H1 : Forall2 _ l ?x |- _ = ?x => clear H'; revert x H1;
      induction H as [|[k a] [k' y] l vs [(cs & Hk & Ek) Hx] H IHl]; intros x H1; inversion H1 as [|? [k'' z] ? ? [(cs2 & Hk2 & Ek2) Hx2]]; subst end;
      [reflexivity|]. cbn in *. f_equal; [|apply IHl; assumption].
    f_equal; [|eapply IH; eassumption]. rewrite Ek, Ek2. eapply string_for_det; eassumption.
Qed.

Lemma accepted_iff cfg t s : accepted cfg t s <->
  json_text (allow_trailing_commas cfg) t s /\ depth_ok cfg t /\ root_ok cfg t.
Proof. reflexivity. Qed.

(** The reference parse accepts exactly the accepted texts. *)
Theorem parse_iff g pw cfg s v : good g pw s ->
  (fst (parse_bytes g pw cfg trace_delegate s []) = Ok v <-> exists t, accepted cfg t s /\ value_repr pw t v).
Proof.
  intro Hg. split.
  - destruct (parse_bytes g pw cfg trace_delegate s []) as [r tr] eqn:E. cbn. intros ->.
    destruct (trace_sound g pw cfg s v tr Hg E) as (t & H1 & H2 & H3 & H4 & _). exists t. rewrite accepted_iff. auto.
  - intros (t & (H1 & H2 & H3) & Hr). destruct (trace_complete g pw cfg t s Hg H1 H2 H3) as (v' & Hr' & E).
    rewrite E. cbn. f_equal. eapply value_repr_fun; eassumption.
Qed.

Lemma parse_total g pw cfg s : good g pw s ->
  (exists v, fst (parse_bytes g pw cfg trace_delegate s []) = Ok v) \/
  (exists e, fst (parse_bytes g pw cfg trace_delegate s []) = Err e).
Proof.
  intro Hg. pose proof (trace_no_fault g pw cfg s Hg) as H.
  destruct (fst (parse_bytes g pw cfg trace_delegate s [])) as [v|e|f]; eauto. destruct (H f eq_refl).
Qed.

Lemma accepted_repr pw g cfg t s : good g pw s -> accepted cfg t s -> exists v, value_repr pw t v.
Proof. intros Hg (H1 & H2 & H3). destruct (trace_complete g pw cfg t s Hg H1 H2 H3) as (v & Hr & _). eauto. Qed.

Theorem value_bytes_iff pw cfg s v : rust_slice pw s ->
  (value_from_json_bytes_with_config pw s cfg = Ok v <-> exists t, accepted cfg t s /\ value_repr pw t v).
Proof.
  intro H. apply rust_slice_good in H. unfold value_from_json_bytes_with_config, parse_json_bytes_with_config.
  rewrite value_parse_eq. apply parse_iff. exact H.
Qed.

Theorem value_str_iff pw cfg s v : rust_str pw s ->
  (value_from_json_with_config pw s cfg = Ok v <-> exists t, accepted cfg t s /\ value_repr pw t v).
Proof.
  intro H. apply rust_str_good in H. unfold value_from_json_with_config, parse_json_with_config.
  rewrite value_parse_eq. apply parse_iff. exact H.
Qed.

(** [accepted] texts are UTF-8 as a whole. *)
Lemma ws_ascii w : ws w -> Forall (fun b => b < 0x80) w.
Proof. intro H. eapply Forall_impl; [|exact H]. intros b Hb. unfold ws_byte in Hb. cbv beta. lia. Qed.
Lemma digit_ascii w : Forall digit w -> Forall (fun b => b < 0x80) w.
Proof. intro H. eapply Forall_impl; [|exact H]. intros b Hb. unfold digit in Hb. cbv beta. lia. Qed.
Lemma number_ascii n : number n -> Forall (fun b => b < 0x80) n.
Proof.
  intros (m & i & f & e & Hm & Hi & Hf & He & ->). rewrite !Forall_app. repeat split.
  - destruct Hm as [->| ->]; repeat constructor; lia.
  - destruct Hi as [->|(d & r & Hd & Hr & ->)]; [repeat constructor; lia|]. constructor; [lia|apply digit_ascii; exact Hr].
  - destruct Hf as [->|(ds & [_ Hds] & ->)]; [constructor|]. constructor; [lia|apply digit_ascii; exact Hds].
  - destruct He as [->|(c & sg & ds & Hc & Hsg & [_ Hds] & ->)]; [constructor|]. constructor; [lia|].
    apply Forall_app. split; [|apply digit_ascii; exact Hds].
    destruct Hsg as [->|[->| ->]]; repeat constructor; lia.
Qed.

Lemma valid_app a b : utf8_valid a = true -> utf8_valid b = true -> utf8_valid (a ++ b) = true.
Proof. intros H1 H2. rewrite utf8_valid_app; assumption. Qed.
Lemma valid_cons a b : a < 0x80 -> utf8_valid b = true -> utf8_valid (a :: b) = true.
Proof. intros H1 H2. rewrite utf8_valid_ascii_cons; assumption. Qed.
Lemma ws_valid w : ws w -> utf8_valid w = true.
Proof. intro H. apply utf8_valid_ascii, ws_ascii. exact H. Qed.

Ltac vld := repeat first [ eassumption | apply valid_app | apply valid_cons; [lia|] | apply ws_valid; assumption
  | eapply str_body_valid; eassumption | reflexivity ].

Lemma text_valid tc :
  (forall t s, value_text tc t s -> utf8_valid s = true) /\
  (forall l s, elements tc l s -> utf8_valid s = true) /\
  (forall l s, members tc l s -> utf8_valid s = true).
Proof.
  assert (Htr : forall tr, trailing tc tr -> utf8_valid tr = true).
  { intros tr [|w _ Hw]; [reflexivity|]. vld. }
  apply text_mutind; intros; try reflexivity; try (vld; fail); try (vld; apply Htr; assumption).
  apply utf8_valid_ascii, number_ascii. assumption.
Qed.

Lemma json_text_valid tc t s : json_text tc t s -> is_utf8 s.
Proof.
  intros (w1 & b & w2 & H1 & H & H2 & ->). apply utf8_valid_iff. pose proof (proj1 (text_valid tc) _ _ H). vld.
Qed.

(** Every string and number text of an accepted text occurs in it. *)
Inductive tree_all (PS PN : list N -> Prop) : tree -> Prop :=
| ta_null : tree_all PS PN TNull
| ta_bool b : tree_all PS PN (TBool b)
| ta_num n : PN n -> tree_all PS PN (TNum n)
| ta_str s : PS s -> tree_all PS PN (TStr s)
| ta_arr l : Forall (tree_all PS PN) l -> tree_all PS PN (TArr l)
| ta_obj l : Forall (fun e => PS (fst e) /\ tree_all PS PN (snd e)) l -> tree_all PS PN (TObj l).

Lemma tree_all_impl (P P' Q Q' : list N -> Prop) : (forall s, P s -> P' s) -> (forall s, Q s -> Q' s) ->
  forall t, tree_all P Q t -> tree_all P' Q' t.
Proof.
  intros HP HQ. induction t as [ | | | |l IH|l IH] using tree_ind'; intro H; inversion H; subst; constructor; auto.
  - rewrite Forall_forall in *. auto.
  - rewrite Forall_forall in *. intros e He. specialize (IH e He). destruct (H1 e He). auto.
Qed.

Lemma part_app_l x a b : part_of x a -> part_of x (a ++ b).
Proof. intros (p & q & ->). exists p, (q ++ b). rewrite <- !app_assoc. reflexivity. Qed.
Lemma part_app_r x a b : part_of x b -> part_of x (a ++ b).
Proof. intros (p & q & ->). exists (a ++ p), q. rewrite <- !app_assoc. reflexivity. Qed.
Lemma part_cons x a b : part_of x b -> part_of x (a :: b).
Proof. apply (part_app_r x [a] b). Qed.
Lemma part_refl x : part_of x x.
Proof. exists [], []. rewrite app_nil_r. reflexivity. Qed.

Definition parts (s : list N) := tree_all (fun x => (exists cs, str_body x cs) /\ part_of (34 :: x ++ [34]) s) (fun x => number x /\ part_of x s).

Lemma parts_mono s s' t : (forall x, part_of x s -> part_of x s') -> parts s t -> parts s' t.
Proof. intro H. apply tree_all_impl; intros x [H1 H2]; auto. Qed.

Ltac pt := repeat first [ assumption | apply part_refl | match goal with
  | |- part_of ?x (_ :: _) => apply part_cons
  | H : part_of ?x ?a |- part_of ?x (?a ++ _) => apply part_app_l; exact H
  | |- part_of ?x (?x ++ _) => apply part_app_l; apply part_refl
  | |- part_of ?x (_ ++ _) => apply part_app_r
  end ].

Lemma text_parts tc :
  (forall t s, value_text tc t s -> parts s t) /\
  (forall l s, elements tc l s -> Forall (parts s) l) /\
  (forall l s, members tc l s -> Forall (fun e => ((exists cs, str_body (fst e) cs) /\ part_of (34 :: fst e ++ [34]) s) /\ parts s (snd e)) l).
Proof.
  apply text_mutind.
  - constructor.
  - constructor.
  - constructor.
  - intros n Hn. constructor. split; [exact Hn|apply part_refl].
  - intros raw cs H. constructor. split; [eauto|apply part_refl].
  - intros w Hw. constructor. constructor.
  - intros l s Hl IH. constructor. eapply Forall_impl; [|exact IH]. intros t. apply parts_mono. intros x Hx. pt.
  - intros w Hw. constructor. constructor.
  - intros l s Hl IH. constructor. eapply Forall_impl; [|exact IH].
    intros e [[H1 H2] H3]. split; [split; [exact H1|pt]|]. revert H3. apply parts_mono. intros x Hx. pt.
  - intros t w1 s w2 tr H1 Hv IH H2 Ht. constructor; [|constructor]. revert IH. apply parts_mono. intros x Hx. pt.
  - intros t l w1 s w2 r H1 Hv IH H2 Hl IHl. constructor.
    + revert IH. apply parts_mono. intros x Hx. pt.
    + eapply Forall_impl; [|exact IHl]. intros t'. apply parts_mono. intros x Hx. pt.
  - intros k cs t w1 w2 w3 s w4 tr H1 Hk H2 H3 Hv IH H4 Ht. constructor; [|constructor]. cbn [fst snd]. split.
    + split; [eauto|]. apply part_app_r, part_app_l, part_refl.
    + revert IH. apply parts_mono. intros x Hx. pt.
  - intros k cs t l w1 w2 w3 s w4 r H1 Hk H2 H3 Hv IH H4 Hl IHl. constructor; cbn [fst snd].
    + split.
      * split; [eauto|]. apply part_app_r, part_app_l, part_refl.
      * revert IH. apply parts_mono. intros x Hx. pt.
    + eapply Forall_impl; [|exact IHl]. intros e [[Ha Hb] Hc]. split; [split; [exact Ha|pt]|].
      revert Hc. apply parts_mono. intros x Hx. pt.
Qed.

Lemma json_text_parts tc t s : json_text tc t s -> parts s t.
Proof.
  intros (w1 & b & w2 & H1 & H & H2 & ->). pose proof (proj1 (text_parts tc) _ _ H) as Hp.
  revert Hp. apply parts_mono. intros x Hx. pt.
Qed.

Lemma repr_all pw (P : json_string -> Prop) (Q : json_number -> Prop) (PS PN : list N -> Prop) :
  (forall raw cs, str_body raw cs -> PS raw -> P (string_for pw raw cs)) ->
  (forall n, PN n -> Q (JNum (Borrowed n))) ->
  forall t v, value_repr pw t v -> tree_all PS PN t -> all_strings P v /\ all_numbers Q v.
Proof.
  intros HP HQ. fix IH 3. intros t v [ |b|n|raw cs H|l vs H|l vs H] HT; inversion HT; subst; try (split; constructor; auto; fail).
  - rename H1 into HT'. assert (Forall (fun v => all_strings P v /\ all_numbers Q v) vs).
    { clear HT. induction H as [|x y l vs Hx H IHl]; [constructor|]. inversion HT'; subst. constructor; [eapply IH; eassumption|auto]. }
    split; constructor; (eapply Forall_impl; [|eassumption]); intros ? []; assumption.
  - rename H1 into HT'. assert (Forall (fun e => P (fst e) /\ all_strings P (snd e) /\ all_numbers Q (snd e)) vs).
    { clear HT. induction H as [|[k x] [k' y] l vs [(cs & Hk & Ek) Hx] H IHl]; [constructor|]. inversion HT' as [|? ? [Ha Hb]]; subst.
      cbn in *. constructor; [|auto]. cbn. destruct (IH _ _ Hx Hb). rewrite Ek. auto. }
    split; constructor; (eapply Forall_impl; [|eassumption]); intros ? (? & ? & ?); auto.
Qed.
