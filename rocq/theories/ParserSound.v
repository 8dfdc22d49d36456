(** Soundness: what the parser accepts is JSON text, and the value and callbacks are those of the text. *)
From Verif Require Import Base Utf8 Utf8Facts StrModel ErrorModel Tokenizer Parser ValueModel Spec TokBase TokStr
  TokNum TokFacts Trace.

(** Normalize concatenations. *)
Ltac asc := cbn [app member_events element_events flat_map fst snd]; rewrite ?app_nil_r; repeat (rewrite <- ?app_assoc; cbn [app]); reflexivity.

Lemma pbind_ok {D A B} (m : pm D A) (k : A -> pm D B) s b s' :
  pbind D m k s = (Ok b, s') -> exists a s1, m s = (Ok a, s1) /\ k a s1 = (Ok b, s').
Proof. unfold pbind. destruct (m s) as [[a|e|f] s1]; [eauto|discriminate..]. Qed.

Section Sound.
  Variables (g : bool) (pw : pwidth) (cfg : parse_config).
  Notation T := trace_delegate.
  Notation tc := (allow_trailing_commas cfg).
  Notation St := (@PS T).

  (** The depth budget [d] covers nesting [k] (only when a limit is configured). *)
  Definition fits (d k : N) : Prop := match recursion_limit cfg with Some _ => (k <= d)%N | None => True end.

  Lemma tok_ok conv pre r tr d tk s' : good g pw (pre ++ r) ->
    p_tok_err T conv (next_or_eof g pw) (St (mk pre r) tr d) = (Ok tk, s') ->
    exists w x r', r = w ++ x ++ r' /\ ws w /\ token_text pw tk x /\ s' = St (mk (pre ++ w ++ x) r') tr d /\
      token_stop tk x r'.
  Proof.
    intros Hg. unfold p_tok_err. cbn [ps_iter ps_del ps_depth].
    pose proof (next_or_eof_spec g pw pre r Hg) as H.
    destruct (next_or_eof g pw (mk pre r)) as [[tk'|e|f] it']; cbn; intro E; [|discriminate..].
    injection E as -> <-. destruct H as (w & x & r' & -> & Hw & Ht & -> & Hst). exists w, x, r'. auto.
  Qed.

  Lemma peek_ok pre r tr d b s' :
    peek_array_end T (St (mk pre r) tr d) = (Ok b, s') ->
    (b = true -> exists w r', r = w ++ 93%N :: r' /\ ws w /\ s' = St (mk (pre ++ w ++ [93%N]) r') tr d) /\
    (b = false -> exists w r', r = w ++ r' /\ ws w /\ s' = St (mk (pre ++ w) r') tr d).
  Proof.
    unfold peek_array_end, tokenizer_peek. cbn [ps_iter ps_del ps_depth]. rewrite skip_ws_mk. cbn zeta.
    pose proof (take_drop is_ws r) as E. pose proof (ws_take r) as Hw.
    set (w := take_while is_ws r) in *. set (r1 := drop_while is_ws r) in *. clearbody w r1. subst r.
    rewrite bi_peek_mk. destruct r1 as [|c r1].
    - intro H. injection H as <- <-. split; [discriminate|]. intros _. exists w, []. auto.
    - assert (Hd : peek_kind_of c = PkArrayEnd -> c = 93%N).
      { unfold peek_kind_of.
        repeat match goal with |- context [if ?x then _ else _] => destruct x eqn:?; [try discriminate|] end;
          try discriminate. intros _. lia. }
      destruct (peek_kind_of c) eqn:K; intro H; injection H as <- <-;
        (split; [try discriminate; intros _|first [discriminate|intros _; exists w, (c :: r1); auto]]).
      rewrite (Hd eq_refl). exists w, r1. split; [reflexivity|]. split; [exact Hw|].
      unfold mk. cbn [bi_bytes bi_offset]. rewrite <- !app_assoc. cbn [app]. rewrite !app_length. cbn. do 2 f_equal. lia.
  Qed.

  Definition rv_sound (rv : pm T value) : Prop := forall pre r tr d v s',
    good g pw (pre ++ r) -> rv (St (mk pre r) tr d) = (Ok v, s') ->
    exists w x r' t, r = w ++ x ++ r' /\ ws w /\ value_text tc t x /\ value_repr pw t v /\
      s' = St (mk (pre ++ w ++ x) r') (tr ++ events v) d /\ fits d (tree_depth t) /\
      (forall n, t = TNum n -> num_token x r').

  Lemma good_app pre w x r : good g pw (pre ++ w ++ x ++ r) -> good g pw ((pre ++ w ++ x) ++ r).
  Proof. rewrite <- !app_assoc. exact (fun H => H). Qed.

  Definition depth_max (l : list N) : N := fold_right N.max 0%N l.

  Definition fits_members d (ms : list (list N * tree)) := forall e, In e ms -> fits d (tree_depth (snd e)).
  Definition fits_elements d (ts : list tree) := forall t, In t ts -> fits d (tree_depth t).

  Lemma fits_arr d ts : fits_elements d ts -> fits (d + 1) (tree_depth (TArr ts)).
  Proof.
    unfold fits_elements, fits. destruct (recursion_limit cfg); [|auto]. intro H. cbn [tree_depth].
    assert (fold_right (fun t m => N.max (tree_depth t) m) 0 ts <= d)%N; [|lia].
    induction ts as [|t ts IH]; cbn; [lia|].
    specialize (IH ltac:(intros; apply H; right; assumption)). pose proof (H t (or_introl eq_refl)). lia.
  Qed.

  Lemma fits_obj d ms : fits_members d ms -> fits (d + 1) (tree_depth (TObj ms)).
  Proof.
    unfold fits_members, fits. destruct (recursion_limit cfg); [|auto]. intro H. cbn [tree_depth].
    assert (fold_right (fun e m => N.max (tree_depth (snd e)) m) 0 ms <= d)%N; [|lia].
    induction ms as [|t ms IH]; cbn; [lia|].
    specialize (IH ltac:(intros; apply H; right; assumption)). pose proof (H t (or_introl eq_refl)). lia.
  Qed.

  Lemma query_ok {A} (q : list event -> res infallible A) pre r tr d a s' :
    p_query T q (St (mk pre r) tr d) = (Ok a, s') -> q tr = Ok a /\ s' = St (mk pre r) tr d.
  Proof.
    unfold p_query. cbn. destruct (q tr) as [x|[]|f]; intro H; [|discriminate].
    injection H as -> <-. auto.
  Qed.

  (** The end of a container directly at the start of an iteration. *)
  Definition closing {A} (o : list A) : Prop := o = [] \/ tc = true.

  Lemma sound_object_loop rv : rv_sound rv -> forall n o pre r tr d o' s',
    good g pw (pre ++ r) ->
    object_loop g pw cfg T rv n o (St (mk pre r) tr d) = (Ok o', s') ->
    (exists w r', r = w ++ 125%N :: r' /\ ws w /\ o' = o /\ closing o /\
       s' = St (mk (pre ++ w ++ [125%N]) r') tr d) \/
    (exists ms mt vs r', members tc ms mt /\ r = mt ++ 125%N :: r' /\ o' = o ++ vs /\
       Forall2 (member_repr pw) ms vs /\ s' = St (mk (pre ++ mt ++ [125%N]) r') (tr ++ member_events vs) d /\
       fits_members d ms).
  Proof.
    intro Hrv. induction n as [|n IH]; intros o pre r tr d o' s' Hg H; [discriminate|].
    cbn [object_loop] in H.
    apply pbind_ok in H as (off & s1 & E1 & H). injection E1 as <- <-.
    apply pbind_ok in H as (tk & s2 & E2 & H). apply tok_ok in E2 as (w1 & x1 & r1 & -> & Hw1 & Ht1 & -> & _); [|exact Hg].
    apply good_app in Hg.
    inversion Ht1 as [| | | | | | | | |k cs Hk|]; subst; try discriminate.
    - (* end of object *)
      left. apply pbind_ok in H as (ok & s3 & E3 & H).
      assert (Hok : ok = true -> closing o /\ s3 = St (mk (pre ++ w1 ++ [125%N]) r1) tr d).
      { unfold closing. intro Hok. destruct tc.
        - injection E3 as _ <-. auto.
        - apply query_ok in E3 as [E3 ->]. split; [|reflexivity]. left. subst ok. destruct o; [reflexivity|discriminate]. }
      destruct ok; [|discriminate]. destruct (Hok eq_refl) as [Hcl ->]. injection H as <- <-.
      exists w1, r1. auto.
    - (* key *)
      right. apply pbind_ok in H as (ok & s3 & E3 & H). injection E3 as <- <-.
      cbn [ps_iter ps_del ps_depth] in H.
      apply pbind_ok in H as (off2 & s4 & E4 & H). injection E4 as <- <-.
      apply pbind_ok in H as (tk2 & s5 & E5 & H). apply tok_ok in E5 as (w2 & x2 & r2 & -> & Hw2 & Ht2 & -> & _); [|exact Hg].
      apply good_app in Hg.
      inversion Ht2; subst; try discriminate.
      apply pbind_ok in H as (off3 & s6 & E6 & H). injection E6 as <- <-.
      apply pbind_ok in H as (v & s7 & E7 & H).
      destruct (Hrv _ _ _ _ _ _ Hg E7) as (w3 & x3 & r3 & t & -> & Hw3 & Htxt & Hrep & -> & Hfit & _).
      apply good_app in Hg. clear E7.
      apply pbind_ok in H as (o2 & s8 & E8 & H). injection E8 as <- <-. cbn [ps_iter ps_del ps_depth] in H.
      apply pbind_ok in H as (off4 & s9 & E9 & H). injection E9 as <- <-.
      apply pbind_ok in H as (tk3 & s10 & E10 & H). apply tok_ok in E10 as (w4 & x4 & r4 & -> & Hw4 & Ht4 & -> & _); [|exact Hg].
      apply good_app in Hg.
      inversion Ht4; subst; try discriminate.
      + (* end *)
        injection H as <- <-.
        exists [(k, t)], (w1 ++ (34%N :: k ++ [34%N]) ++ w2 ++ 58%N :: w3 ++ x3 ++ w4 ++ []), [(string_for pw k cs, v)], r4.
        split; [eapply me_last; eauto; constructor|].
        split; [asc|].
        split; [reflexivity|]. split; [constructor; [split; [exists cs; auto|exact Hrep]|constructor]|].
        split; [|intros e [<-|[]]; exact Hfit].
        f_equal; [f_equal; asc|].
        asc.
      + (* comma *)
        apply IH in H; [|exact Hg].
        destruct H as [(w5 & r5 & -> & Hw5 & -> & Hcl & ->)|(ms & mt & vs & r5 & Hms & -> & -> & Hall & -> & Hfits)].
        * destruct Hcl as [Hcl|Hcl]; [destruct o; discriminate|].
          exists [(k, t)], (w1 ++ (34%N :: k ++ [34%N]) ++ w2 ++ 58%N :: w3 ++ x3 ++ w4 ++ 44%N :: w5), [(string_for pw k cs, v)], r5.
          split; [eapply me_last; eauto; constructor; assumption|].
          split; [asc|].
          split; [reflexivity|]. split; [constructor; [split; [exists cs; auto|exact Hrep]|constructor]|].
          split; [|intros e [<-|[]]; exact Hfit].
          f_equal; [f_equal; asc|].
          asc.
        * exists ((k, t) :: ms), (w1 ++ (34%N :: k ++ [34%N]) ++ w2 ++ 58%N :: w3 ++ x3 ++ w4 ++ 44%N :: mt), ((string_for pw k cs, v) :: vs), r5.
          split; [eapply me_cons; eauto|].
          split; [asc|].
          split; [rewrite <- app_assoc; reflexivity|].
          split; [constructor; [split; [exists cs; auto|exact Hrep]|exact Hall]|].
          split; [|intros e [<-|He]; [exact Hfit|apply Hfits; exact He]].
          f_equal; [f_equal; asc|].
          asc.
  Qed.

  Lemma sound_array_loop rv : rv_sound rv -> forall n o pre r tr d o' s',
    good g pw (pre ++ r) ->
    array_loop g pw cfg T rv n o (St (mk pre r) tr d) = (Ok o', s') ->
    (exists w r', r = w ++ 93%N :: r' /\ ws w /\ o' = o /\ closing o /\
       s' = St (mk (pre ++ w ++ [93%N]) r') tr d) \/
    (exists ts mt vs r', elements tc ts mt /\ r = mt ++ 93%N :: r' /\ o' = o ++ vs /\
       Forall2 (value_repr pw) ts vs /\ s' = St (mk (pre ++ mt ++ [93%N]) r') (tr ++ element_events vs) d /\
       fits_elements d ts).
  Proof.
    intro Hrv. induction n as [|n IH]; intros o pre r tr d o' s' Hg H; [discriminate|].
    cbn [array_loop] in H.
    apply pbind_ok in H as (off & s1 & E1 & H). injection E1 as <- <-.
    apply pbind_ok in H as (b & s2 & E2 & H). apply peek_ok in E2 as [Hpt Hpf].
    destruct b.
    - left. clear Hpf. destruct (Hpt eq_refl) as (w1 & r1 & -> & Hw1 & ->). clear Hpt.
      apply pbind_ok in H as (ok & s3 & E3 & H).
      assert (Hok : ok = true -> closing o /\ s3 = St (mk (pre ++ w1 ++ [93%N]) r1) tr d).
      { unfold closing. intro Hok. destruct tc.
        - injection E3 as _ <-. auto.
        - apply query_ok in E3 as [E3 ->]. split; [|reflexivity]. left. subst ok. destruct o; [reflexivity|discriminate]. }
      destruct ok; [|discriminate]. destruct (Hok eq_refl) as [Hcl ->]. injection H as <- <-.
      exists w1, r1. auto.
    - right. clear Hpt. destruct (Hpf eq_refl) as (w0 & r1 & -> & Hw0 & ->). clear Hpf.
      rewrite app_assoc in Hg.
      apply pbind_ok in H as (v & s7 & E7 & H).
      destruct (Hrv _ _ _ _ _ _ Hg E7) as (w3 & x3 & r3 & t & -> & Hw3 & Htxt & Hrep & -> & Hfit & _).
      apply good_app in Hg. clear E7.
      apply pbind_ok in H as (off3 & s6 & E6 & H). injection E6 as <- <-.
      apply pbind_ok in H as (o2 & s8 & E8 & H). injection E8 as <- <-. cbn [ps_iter ps_del ps_depth] in H.
      apply pbind_ok in H as (off4 & s9 & E9 & H). injection E9 as <- <-.
      apply pbind_ok in H as (tk3 & s10 & E10 & H). apply tok_ok in E10 as (w4 & x4 & r4 & -> & Hw4 & Ht4 & -> & _); [|exact Hg].
      apply good_app in Hg.
      assert (Hw : ws (w0 ++ w3)) by (apply Forall_app; auto).
      inversion Ht4; subst; try discriminate.
      + injection H as <- <-.
        exists [t], ((w0 ++ w3) ++ x3 ++ w4 ++ []), [v], r4.
        split; [eapply el_last; eauto; constructor|].
        split; [asc|].
        split; [reflexivity|]. split; [constructor; [exact Hrep|constructor]|].
        split; [|intros e [<-|[]]; exact Hfit].
        f_equal; [f_equal; asc|].
        asc.
      + apply IH in H; [|exact Hg].
        destruct H as [(w5 & r5 & -> & Hw5 & -> & Hcl & ->)|(ms & mt & vs & r5 & Hms & -> & -> & Hall & -> & Hfits)].
        * destruct Hcl as [Hcl|Hcl]; [destruct o; discriminate|].
          exists [t], ((w0 ++ w3) ++ x3 ++ w4 ++ 44%N :: w5), [v], r5.
          split; [eapply el_last; eauto; constructor; assumption|].
          split; [asc|].
          split; [reflexivity|]. split; [constructor; [exact Hrep|constructor]|].
          split; [|intros e [<-|[]]; exact Hfit].
          f_equal; [f_equal; asc|].
          asc.
        * exists (t :: ms), ((w0 ++ w3) ++ x3 ++ w4 ++ 44%N :: mt), (v :: vs), r5.
          split; [eapply el_cons; eauto|].
          split; [asc|].
          split; [rewrite <- app_assoc; reflexivity|].
          split; [constructor; [exact Hrep|exact Hall]|].
          split; [|intros e [<-|He]; [exact Hfit|apply Hfits; exact He]].
          f_equal; [f_equal; asc|].
          asc.
  Qed.

  Lemma map_err_ok {A} f (m : pm T A) s a s' : p_map_err T f m s = (Ok a, s') -> m s = (Ok a, s').
  Proof. unfold p_map_err. destruct (m s) as [[x|e|ft] s1]; cbn; intro H; [exact H|discriminate..]. Qed.

  (** The budget inside a container. *)
  Definition inner (d : N) : N := match recursion_limit cfg with Some _ => (d - 1)%N | None => d end.

  Lemma begin_nest_ok o it tr d u s' : begin_nest cfg T o (St it tr d) = (Ok u, s') ->
    s' = St it tr (inner d) /\ (recursion_limit cfg <> None -> (0 < d)%N).
  Proof.
    unfold begin_nest, inner. cbn [ps_depth ps_iter ps_del].
    destruct (recursion_limit cfg); [destruct (N.ltb_spec 0 d)|]; intro E; try discriminate; injection E as _ <-.
    - split; [reflexivity|lia].
    - split; [reflexivity|congruence].
  Qed.

  Lemma end_nest_ok it tr d u s' : end_nest cfg T (St it tr (inner d)) = (Ok u, s') ->
    (recursion_limit cfg <> None -> (0 < d)%N) -> s' = St it tr d.
  Proof.
    unfold end_nest, inner. cbn [ps_depth ps_iter ps_del].
    destruct (recursion_limit cfg); intros E Hd; injection E as _ <-; [|reflexivity].
    specialize (Hd ltac:(discriminate)). f_equal. lia.
  Qed.

  Lemma fits_inner d k : fits (inner d + 1) k -> (recursion_limit cfg <> None -> (0 < d)%N) -> fits d k.
  Proof.
    unfold fits, inner. destruct (recursion_limit cfg); [|auto]. intros H Hd.
    specialize (Hd ltac:(discriminate)). lia.
  Qed.

  Lemma fits_0 d : fits d 0.
  Proof. unfold fits. destruct (recursion_limit cfg); [lia|exact I]. Qed.

  Lemma sound_read_tokens loops fuel : rv_sound (read_tokens g pw cfg T loops fuel).
  Proof.
    induction fuel as [|fuel IH]; intros pre r tr d v s' Hg H; [discriminate|]. cbn [read_tokens] in H.
    apply pbind_ok in H as (off & s1 & E1 & H). injection E1 as <- <-.
    apply pbind_ok in H as (tk & s2 & E2 & H). apply tok_ok in E2 as (w1 & x1 & r1 & -> & Hw1 & Ht1 & -> & Hstop); [|exact Hg].
    apply good_app in Hg.
    assert (Hsc : forall t v0 ev, value_text tc t x1 -> value_repr pw t v0 -> tree_depth t = 0%N -> events v0 = [ev] ->
      (forall n, t = TNum n -> num_token x1 r1) ->
      (Ok v0, St (mk (pre ++ w1 ++ x1) r1) (tr ++ [ev]) d) = ((Ok v : res (error infallible) value), s') ->
      exists w x r' t, w1 ++ x1 ++ r1 = w ++ x ++ r' /\ ws w /\ value_text tc t x /\ value_repr pw t v /\
      s' = St (mk (pre ++ w ++ x) r') (tr ++ events v) d /\ fits d (tree_depth t) /\
      (forall n, t = TNum n -> num_token x r')).
    { intros t v0 ev Hvt Hvr Hd Hev Hns E. injection E as <- <-. exists w1, x1, r1, t. rewrite Hev, Hd.
      repeat (split; [auto; fail|]). split; [apply fits_0|exact Hns]. }
    inversion Ht1 as [| | | | | | | | |k cs Hk|]; subst; try discriminate.
    - eapply Hsc in H; [exact H|constructor..|reflexivity|reflexivity|discriminate].
    - eapply Hsc in H; [exact H|constructor..|reflexivity|reflexivity|discriminate].
    - eapply Hsc in H; [exact H|constructor..|reflexivity|reflexivity|discriminate].
    - (* object *)
      clear Hsc. apply pbind_ok in H as ([] & s3 & E3 & H). apply begin_nest_ok in E3 as [-> Hd].
      apply map_err_ok in H. unfold read_object in H.
      apply pbind_ok in H as (off2 & s4 & E4 & H). injection E4 as <- <-.
      apply pbind_ok in H as (o & s5 & E5 & H). injection E5 as <- <-. cbn [ps_iter ps_del ps_depth] in H.
      apply pbind_ok in H as (o' & s6 & E6 & H). apply (sound_object_loop _ IH) in E6; [|exact Hg].
      apply pbind_ok in H as (off3 & s7 & E7 & H). injection E7 as <- <-.
      apply pbind_ok in H as (v0 & s8 & E8 & H).
      apply pbind_ok in H as (u & s9 & E9 & H). injection H as <- <-.
      destruct E6 as [(w2 & r2 & -> & Hw2 & -> & Hcl & ->)|(ms & mt & vs & r2 & Hms & -> & -> & Hall & -> & Hfits)];
        injection E8 as <- <-; cbn [ps_iter ps_del ps_depth] in E9; apply end_nest_ok in E9; try exact Hd; subst s9.
      + exists w1, (123%N :: w2 ++ [125%N]), r2, (TObj []).
        split; [asc|]. split; [exact Hw1|].
        split; [constructor; exact Hw2|]. split; [constructor; constructor|].
        split; [|split; [apply fits_inner; [|exact Hd]; apply fits_obj; intros ? []|discriminate]].
        asc.
      + exists w1, (123%N :: mt ++ [125%N]), r2, (TObj ms).
        split; [asc|]. split; [exact Hw1|].
        split; [constructor; exact Hms|]. split; [constructor; exact Hall|].
        split; [|split; [apply fits_inner; [|exact Hd]; apply fits_obj; exact Hfits|discriminate]].
        rewrite events_object. asc.
    - (* array *)
      clear Hsc. apply pbind_ok in H as ([] & s3 & E3 & H). apply begin_nest_ok in E3 as [-> Hd].
      apply map_err_ok in H. unfold read_array in H.
      apply pbind_ok in H as (off2 & s4 & E4 & H). injection E4 as <- <-.
      apply pbind_ok in H as (o & s5 & E5 & H). injection E5 as <- <-. cbn [ps_iter ps_del ps_depth] in H.
      apply pbind_ok in H as (o' & s6 & E6 & H). apply (sound_array_loop _ IH) in E6; [|exact Hg].
      apply pbind_ok in H as (v0 & s8 & E8 & H).
      apply pbind_ok in H as (u & s9 & E9 & H). injection H as <- <-.
      destruct E6 as [(w2 & r2 & -> & Hw2 & -> & Hcl & ->)|(ms & mt & vs & r2 & Hms & -> & -> & Hall & -> & Hfits)];
        injection E8 as <- <-; cbn [ps_iter ps_del ps_depth] in E9; apply end_nest_ok in E9; try exact Hd; subst s9.
      + exists w1, (91%N :: w2 ++ [93%N]), r2, (TArr []).
        split; [asc|]. split; [exact Hw1|].
        split; [constructor; exact Hw2|]. split; [constructor; constructor|].
        split; [|split; [apply fits_inner; [|exact Hd]; apply fits_arr; intros ? []|discriminate]].
        asc.
      + exists w1, (91%N :: mt ++ [93%N]), r2, (TArr ms).
        split; [asc|]. split; [exact Hw1|].
        split; [constructor; exact Hms|]. split; [constructor; exact Hall|].
        split; [|split; [apply fits_inner; [|exact Hd]; apply fits_arr; exact Hfits|discriminate]].
        rewrite events_array. asc.
    - eapply Hsc in H; [exact H|econstructor; eassumption|constructor; eassumption|reflexivity|reflexivity|discriminate].
    - eapply Hsc in H; [exact H|constructor; assumption|constructor|reflexivity|reflexivity|intros ? _; exact Hstop].
  Qed.

  (** The nesting limit of the configuration. *)
  Definition depth_ok (t : tree) : Prop :=
    match recursion_limit cfg with Some n => (tree_depth t <= n)%N | None => True end.
  (** The root restriction of the configuration. *)
  Definition root_ok (t : tree) : Prop := allow_all_types_at_root cfg = true \/ is_container t = true.

  Lemma repr_kind t v : value_repr pw t v ->
    is_container t = match value_kind v with JkObject | JkArray => true | _ => false end.
  Proof. intros [ | | | | | ]; reflexivity. Qed.

  Theorem trace_sound source v tr : good g pw source ->
    parse_bytes g pw cfg T source [] = (Ok v, tr) ->
    exists t, json_text tc t source /\ depth_ok t /\ root_ok t /\ value_repr pw t v /\ tr = events v.
  Proof.
    intros Hg H. unfold parse_bytes in H.
    destruct (parse_body g pw cfg T (S (length source)) (S (length source)) (parse_state pw cfg T source [])) as [r s] eqn:E.
    injection H as -> <-. unfold parse_body in E.
    apply (@pbind_ok T) in E as (v0 & s1 & E1 & E).
    unfold parse_state in E1. rewrite bi_new_mk in E1.
    apply sound_read_tokens in E1; [|exact Hg].
    destruct E1 as (w & x & r' & t & -> & Hw & Htxt & Hrep & -> & Hfit & _).
    apply (@pbind_ok T) in E as ([] & s2 & E2 & E).
    assert (Hroot : root_ok t /\ s2 = St (mk ([] ++ w ++ x) r') ([] ++ events v0)
        (match recursion_limit cfg with Some n => n | None => usize_max pw end)).
    { unfold check_root, root_ok in *. rewrite (repr_kind _ _ Hrep). destruct (allow_all_types_at_root cfg); cbn [negb] in E2.
      - injection E2 as <-. auto.
      - cbn in E2. unfold pbind, p_query in E2. cbn in E2.
        destruct (value_kind v0); try discriminate; injection E2 as <-; auto. }
    destruct Hroot as [Hroot ->]. clear E2.
    apply (@pbind_ok T) in E as ([] & s3 & E3 & E). injection E as -> <-.
    unfold check_trailing, next_non_ws in E3. cbn [ps_iter] in E3. rewrite skip_ws_mk, bi_next_mk in E3.
    pose proof (take_drop is_ws r') as Er. pose proof (ws_take r') as Hw2.
    set (w2 := take_while is_ws r') in *. set (r2 := drop_while is_ws r') in *. clearbody w2 r2. subst r'.
    destruct r2 as [|b r2]; [|discriminate]. injection E3 as <-.
    exists t. split; [|split; [|split; [exact Hroot|split; [exact Hrep|reflexivity]]]].
    - exists w, x, w2. rewrite app_nil_r. auto.
    - unfold depth_ok, fits in *. destruct (recursion_limit cfg); exact Hfit.
  Qed.
End Sound.
