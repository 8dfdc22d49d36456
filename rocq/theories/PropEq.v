(** C96: tokens, errors, configurations and parse results compare as their contents. *)
From Verif Require Import Base Utf8 Utf8Facts StrModel ErrorModel Tokenizer Parser ValueModel View PropTok StrWf StrObt PropParse PropStr PropValue PropWrite EqModel.
Local Open Scope N_scope.

(** A token some tokenizer returned. *)
Definition returned_token (pw : pwidth) (t : token) : Prop :=
  exists utf8 s it it', input_ok utf8 pw s /\ reachable utf8 pw s it /\ tokenizer_next utf8 pw it = (Some (Ok t), it').

(** What it means for two tokens to be the same: the same sign or literal, the same decoded text, the same number text. *)
Inductive same_token (pw : pwidth) : token -> token -> Prop :=
| st_string x y cs : js_decoded pw x = Ok cs -> js_decoded pw y = Ok cs -> same_token pw (TkString x) (TkString y)
| st_number n m : jn_str n = jn_str m -> same_token pw (TkNumber n) (TkNumber m)
| st_other t : (forall x, t <> TkString x) -> (forall n, t <> TkNumber n) -> same_token pw t t.

Lemma token_eq_refl_other pw t : (forall x, t <> TkString x) -> (forall n, t <> TkNumber n) -> token_eq pw t t = Ok true.
Proof.
  intros H1 H2. destruct t; cbn [token_eq]; try reflexivity; [rewrite Bool.eqb_reflx; reflexivity| |].
  - exfalso. eapply H1. reflexivity.
  - exfalso. eapply H2. reflexivity.
Qed.

Lemma returned_parsed pw x : returned_token pw (TkString x) -> parsed pw x.
Proof. intros (u & s & it & it' & H1 & H2 & H3). eapply parsed_token; eassumption. Qed.

(** [==] on tokens never panics and decides sameness. *)
Theorem C96_token_equality pw a b : returned_token pw a -> returned_token pw b ->
  exists r, token_eq pw a b = Ok r /\ (r = true <-> same_token pw a b).
Proof.
  intros Ha Hb. destruct a, b; cbn [token_eq];
    try (exists false; split; [reflexivity|split; [discriminate|intro H; inversion H]]);
    try (exists true; split; [reflexivity|split; [intros _; apply st_other; discriminate|reflexivity]]).
  - exists (Bool.eqb b0 b). split; [reflexivity|]. rewrite Bool.eqb_true_iff. split.
    + intros ->. apply st_other; discriminate.
    + intro H. inversion H; reflexivity.
  - apply returned_parsed in Ha. apply returned_parsed in Hb.
    destruct (obtainable_wf pw s (or_introl Ha)) as (cs & Wa). destruct (obtainable_wf pw s0 (or_introl Hb)) as (ds & Wb).
    pose proof (C26_parsed_strings pw s s0 cs ds Ha Hb (jwf_decoded _ _ _ Wa) (jwf_decoded _ _ _ Wb)) as H.
    destruct (C26_eq_exactly pw s s0 cs ds (or_introl Ha) (or_introl Hb) (jwf_decoded _ _ _ Wa) (jwf_decoded _ _ _ Wb)) as (r & E & _).
    exists r. split; [exact E|]. rewrite E in H. split.
    + intros ->. apply (st_string pw s s0 cs); [apply (jwf_decoded _ _ _ Wa)|].
      rewrite (proj1 H eq_refl). apply (jwf_decoded _ _ _ Wb).
    + intro S. assert (K : cs = ds).
      { inversion S as [x y c E1 E2| |t H1 H2]; subst.
        - rewrite (jwf_decoded _ _ _ Wa) in E1. rewrite (jwf_decoded _ _ _ Wb) in E2. congruence.
        - exfalso. eapply H1. reflexivity. }
      apply H in K. congruence.
  - exists (jn_eq n n0). split; [reflexivity|]. unfold jn_eq, any_eq. rewrite bytes_eqb_eq. split.
    + intro H. apply st_number. exact H.
    + intro H. inversion H as [|x y E|t H1 H2]; subst; [exact E|reflexivity].
Qed.

(** On the tokens tokenizers return it is an equivalence relation. *)
Theorem C96_token_equality_is_equivalence pw :
  (forall a, returned_token pw a -> token_eq pw a a = Ok true) /\
  (forall a b, returned_token pw a -> returned_token pw b -> token_eq pw a b = token_eq pw b a) /\
  (forall a b c, returned_token pw a -> returned_token pw b -> returned_token pw c ->
     token_eq pw a b = Ok true -> token_eq pw b c = Ok true -> token_eq pw a c = Ok true).
Proof.
  assert (SY : forall a b, same_token pw a b -> same_token pw b a).
  { intros a b H. destruct H as [x y cs E1 E2|n m E|t H1 H2].
    - apply (st_string pw y x cs); assumption.
    - apply st_number. symmetry. exact E.
    - apply st_other; assumption. }
  split; [|split].
  - intros a Ha. destruct (C96_token_equality pw a a Ha Ha) as (r & E & H). rewrite E. f_equal. apply H.
    destruct a; try (apply st_other; discriminate).
    + apply returned_parsed in Ha. destruct (obtainable_wf pw s (or_introl Ha)) as (cs & Wa).
      apply (st_string pw s s cs); apply (jwf_decoded _ _ _ Wa).
    + apply st_number. reflexivity.
  - intros a b Ha Hb. destruct (C96_token_equality pw a b Ha Hb) as (r & E & H). destruct (C96_token_equality pw b a Hb Ha) as (r' & E' & H').
    rewrite E, E'. f_equal. apply Bool.eq_true_iff_eq. rewrite H, H'. split; apply SY.
  - intros a b c Ha Hb Hc E1 E2. destruct (C96_token_equality pw a b Ha Hb) as (r1 & F1 & H1).
    destruct (C96_token_equality pw b c Hb Hc) as (r2 & F2 & H2). destruct (C96_token_equality pw a c Ha Hc) as (r3 & F3 & H3).
    rewrite F3. f_equal. apply H3. rewrite E1 in F1. injection F1 as <-. rewrite E2 in F2. injection F2 as <-.
    assert (S1 := proj1 H1 eq_refl). assert (S2 := proj1 H2 eq_refl). clear - S1 S2.
    inversion S1 as [x y cs A1 A2|n m A|t A1 A2]; subst; [| |exact S2].
    + inversion S2 as [x' y' cs' B1 B2| |t B1 B2]; subst; [|exact S1].
      rewrite A2 in B1. injection B1 as <-. apply (st_string pw x y' cs); assumption.
    + inversion S2 as [|n' m' B|t B1 B2]; subst; [|exact S1]. apply st_number. congruence.
Qed.

(** The comparisons of the parser with a fixed sign (src/parser.rs 744, 764, 766, 827, 829): they hold for exactly that
    sign, and never look into a string. *)
Theorem C96_sign_tests pw sign t : In sign [TkObject; TkObjectEnd; TkArray; TkArrayEnd; TkColon; TkComma; TkNull] ->
  (t = sign -> token_eq pw t sign = Ok true) /\ (t <> sign -> token_eq pw t sign = Ok false).
Proof.
  intro H. cbn [In] in H. destruct H as [<-|[<-|[<-|[<-|[<-|[<-|[<-|[]]]]]]]]; (split; [intros ->; reflexivity|]);
    intro N; destruct t; try reflexivity; exfalso; apply N; reflexivity.
Qed.

(** [==] on errors: same offset, same kind, delegate errors compared with their own [==]. *)
Theorem C96_error_equality D (deq : D -> D -> bool) (a b : error D) :
  error_eq deq a b = true <->
  err_offset a = err_offset b /\
  ((exists d d', err_kind a = KErrorFromDelegate d /\ err_kind b = KErrorFromDelegate d' /\ deq d d' = true) \/
   ((forall d, err_kind a <> KErrorFromDelegate d) /\ err_kind a = err_kind b)).
Proof.
  destruct a as [o k], b as [o' k']. unfold error_eq. cbn [err_offset err_kind]. rewrite Bool.andb_true_iff, Nat.eqb_eq.
  split; (intros [E H]; split; [exact E|]); clear E.
  - destruct k, k'; cbn [error_kind_eq] in H; try discriminate H;
      try (right; split; [intros ? X; discriminate X|reflexivity]).
    + right. split; [intros ? X; discriminate X|]. apply N.eqb_eq in H. rewrite H. reflexivity.
    + left. exists d, d0. auto.
  - destruct H as [(d & d' & -> & -> & H)|[H1 <-]]; [exact H|].
    destruct k; cbn [error_kind_eq]; try reflexivity; [apply N.eqb_refl|exfalso; eapply H1; reflexivity].
Qed.
(** For the errors of the parsing functions (no delegate errors) and for delegates whose [==] is equality, [==] is equality. *)
Corollary C96_error_equality_is_equality : (forall a b : error infallible, error_eq infallible_eq a b = true <-> a = b) /\
  (forall D (deq : D -> D -> bool), (forall x y, deq x y = true <-> x = y) -> forall a b, error_eq deq a b = true <-> a = b).
Proof.
  split.
  - intros [o k] [o' k']. rewrite C96_error_equality. cbn [err_offset err_kind]. split.
    + intros [-> [([] & _)|[_ ->]]]. reflexivity.
    + intro E. injection E as -> ->. split; [reflexivity|]. right. split; [intros []|reflexivity].
  - intros D deq Hd [o k] [o' k']. rewrite C96_error_equality. cbn [err_offset err_kind]. split.
    + intros [-> [(d & d' & -> & -> & H)|[_ ->]]]; [|reflexivity]. apply Hd in H. rewrite H. reflexivity.
    + intro E. injection E as -> ->. split; [reflexivity|].
      destruct k'; try (right; split; [intros ? X; discriminate X|reflexivity]).
      left. exists d, d. repeat split. apply Hd. reflexivity.
Qed.

(** Configurations and kinds. *)
Theorem C96_plain_data : (forall a b, config_eq a b = true <-> a = b) /\
  (forall a b, json_kind_eq a b = true <-> a = b) /\
  (forall a b, peek_kind_eq a b = true <-> a = b).
Proof.
  split; [|split].
  - intros [t l r] [t' l' r']. unfold config_eq. cbn [allow_trailing_commas recursion_limit allow_all_types_at_root].
    rewrite !Bool.andb_true_iff, !Bool.eqb_true_iff. split.
    + intros [[-> H] ->]. f_equal. destruct l, l'; cbn in H; try discriminate H; [|reflexivity]. apply N.eqb_eq in H. congruence.
    + intro E. injection E as -> -> ->. repeat split. destruct l'; [apply N.eqb_refl|reflexivity].
  - intros [] []; vm_compute; split; intro H; try reflexivity; discriminate H.
  - intros [] []; vm_compute; split; intro H; try reflexivity; discriminate H.
Qed.

(** Comparing the results of two parses (of any texts, under any configurations, from [str] or bytes) never panics; it
    holds exactly if both failed with the same error at the same offset, or both succeeded with the same structure. *)
Definition parse_outcome (pw : pwidth) (r : res (error infallible) value) : Prop :=
  (exists s cfg, rust_slice pw s /\ r = value_from_json_bytes_with_config pw s cfg) \/
  (exists s cfg, rust_str pw s /\ r = value_from_json_with_config pw s cfg).
Lemma outcome_cases pw r : parse_outcome pw r -> (exists v, r = Ok v /\ all_strings (parsed pw) v) \/ (exists e, r = Err e).
Proof.
  intros [(s & cfg & Hs & E)|(s & cfg & Hs & E)].
  - destruct (proj1 (C05_parsing_returns pw cfg None s Hs)) as [(v & F)|(e & F)].
    + left. exists v. split; [exact (eq_trans E F)|]. apply (parsed_from_strings pw cfg s v). left. split; assumption.
    + right. exists e. exact (eq_trans E F).
  - destruct (proj1 (C05_parsing_returns_str pw cfg None s Hs)) as [(v & F)|(e & F)].
    + left. exists v. split; [exact (eq_trans E F)|]. apply (parsed_from_strings pw cfg s v). right. split; assumption.
    + right. exists e. exact (eq_trans E F).
Qed.
Theorem C96_parse_results pw a b : parse_outcome pw a -> parse_outcome pw b ->
  exists r, parse_result_eq (value_eq pw) a b = Ok r /\
  (r = true <->
     (exists e, a = Err e /\ b = Err e) \/
     (exists v w, a = Ok v /\ b = Ok w /\ related (fun x y => js_decoded pw x = js_decoded pw y) same_text v w)).
Proof.
  intros Ha Hb. apply outcome_cases in Ha as [(v & -> & Hv)|(e & ->)]; apply outcome_cases in Hb as [(w & -> & Hw)|(f & ->)]; cbn [parse_result_eq].
  - destruct (C54_never_panics pw v w (parsed_obtainable pw v Hv) (parsed_obtainable pw w Hw)) as (r & E). exists r. split; [exact E|].
    pose proof (C54_parsed_values pw v w Hv Hw) as H. rewrite E in H. split.
    + intros ->. right. exists v, w. repeat split. apply H. reflexivity.
    + intros [(e & X & _)|(v' & w' & E1 & E2 & R)]; [discriminate X|]. injection E1 as <-. injection E2 as <-. apply H in R. congruence.
  - exists false. split; [reflexivity|]. split; [discriminate|]. intros [(g & X & _)|(v' & w' & _ & X & _)]; discriminate X.
  - exists false. split; [reflexivity|]. split; [discriminate|]. intros [(g & _ & X)|(v' & w' & X & _)]; discriminate X.
  - exists (error_eq infallible_eq e f). split; [reflexivity|]. rewrite (proj1 C96_error_equality_is_equality). split.
    + intros ->. left. exists f. auto.
    + intros [(g & E1 & E2)|(v' & w' & X & _)]; [congruence|discriminate X].
Qed.
