(** Facts about SpecError: an error strictly inside the text does not go away when the text is extended. *)
From Verif Require Import Base Utf8 Utf8Facts StrModel ErrorModel Tokenizer Parser ValueModel Spec SpecError TokBase TokStr
  TokNum TokFacts ErrTok StrSpec ParserSound ParserComplete View ParseMain.
Local Open Scope N_scope.

Lemma starts_app (P : N -> Prop) a b : starts P (a ++ b) <-> starts P a \/ (a = [] /\ starts P b).
Proof. destruct a; cbn; intuition congruence. Qed.

Lemma starts_ext (P : N -> Prop) a y : a <> [] -> (starts P (a ++ y) <-> starts P a).
Proof. destruct a; cbn; [congruence|reflexivity]. Qed.

(** [y] does not continue a number. *)
Definition stable (y : list N) : Prop := ~ starts (fun c => digit c \/ In c [46; 101; 69; 43; 45]) y.

Lemma number_then_ext t r y : number_then t r -> r <> [] \/ stable y -> number_then t (r ++ y).
Proof.
  intros [m i f e r' Hm Hi Hf He H1 H2 H3 H4 H5] Hy.
  assert (K : forall (P : N -> Prop) a, (forall c, P c -> digit c \/ In c [46; 101; 69; 43; 45]) ->
    ~ starts P (a ++ r') -> ~ starts P (a ++ r' ++ y)).
  { intros P a HP Hn. rewrite app_assoc, starts_app. intros [H|[E H]]; [auto|].
    apply app_eq_nil in E as [_ ->]. destruct Hy as [Hy|Hy]; [congruence|]. apply Hy.
    destruct y; cbn in *; auto. }
  constructor; [assumption..| | | | |].
  - intro E. rewrite app_assoc. apply K; [auto|]. rewrite <- app_assoc. auto.
  - intro E. apply K; [|auto]. intros c ->. cbn. auto.
  - intro E. apply K; auto.
  - intro E. apply (K (fun c => c = 101 \/ c = 69) []); [|exact (H4 E)]. cbn. intros c [->| ->]; auto 6.
  - intro E. apply (K digit []); auto.
Qed.

Lemma token_then_ext x r y : token_then x r -> r <> [] \/ stable y -> token_then x (r ++ y).
Proof.
  intros H Hy. destruct H; try (econstructor; eassumption). apply th_number, number_then_ext; assumption.
Qed.

(** * Tokens *)
Lemma hex_error_ext c x n k y : hex_error c x n k -> (n < length x)%nat -> hex_error c (x ++ y) n k.
Proof.
  intros [h Hh Hl|h b z Hh Hl Hb] Hn; [lia|]. rewrite <- app_assoc. cbn [app]. constructor; assumption.
Qed.

Lemma second_ext x n k y : second_half_error x n k -> (n < 5 + length x)%nat -> second_half_error (x ++ y) n k.
Proof.
  intros [ | | | |z m k' Hh|h v z Hh Hl] Hn; cbn [app length] in *; try lia; try (constructor; assumption).
  - constructor. apply hex_error_ext; [exact Hh|lia].
  - rewrite <- app_assoc. eapply sh_not_low; eassumption.
Qed.

Lemma escape_ext x n k y : escape_error x n k -> (n < length x)%nat -> escape_error (x ++ y) n k.
Proof.
  intros [ |c z Hc|z m k' Hh|h v z Hh Hl|h v z m k' Hh Hl Hs] Hn; cbn [app length] in *; try lia.
  - constructor; assumption.
  - constructor. apply hex_error_ext; [exact Hh|lia].
  - rewrite <- app_assoc. eapply ee_low; eassumption.
  - rewrite <- app_assoc. eapply ee_high; [eassumption..|]. apply second_ext; [exact Hs|].
    rewrite app_length, (hex4_length _ _ Hh) in Hn. lia.
Qed.

Lemma string_ext x n k y : string_error x n k -> (n < length x)%nat -> (k = KUtf8 -> utf8_valid x = true) ->
  string_error (x ++ y) n k.
Proof.
  intros [b cs Hb|b cs c z Hb Hc|b cs z m k' Hb He|b cs h z Hb Hlast Hne Hh Hz Hu] Hn HU.
  - lia.
  - rewrite <- app_assoc. cbn [app]. econstructor; eassumption.
  - rewrite <- app_assoc. cbn [app]. econstructor; [eassumption|]. apply escape_ext; [exact He|].
    rewrite app_length in Hn. cbn [length] in Hn. lia.
  - exfalso. apply Hu, utf8_valid_iff. specialize (HU eq_refl). rewrite utf8_valid_app in HU by (eapply str_body_valid; exact Hb).
    apply utf8_valid_split in HU as [HU _]; [exact HU|]. destruct z as [|c z]; [exact I|]. cbn in Hz. lia.
Qed.

Lemma number_error_ext x n k y : number_error x n k -> (n < length x)%nat -> number_error (x ++ y) n k.
Proof.
  intros [r Hr|m i r Hm Hi Hr|m i f e sg r Hm Hi Hf He Hsg Hr] Hn.
  - cbn [app length] in *. constructor. rewrite starts_ext; [exact Hr|]. intros ->. cbn in Hn. lia.
  - replace ((m ++ i ++ 46 :: r) ++ y) with (m ++ i ++ 46 :: (r ++ y)) by (rewrite <- !app_assoc; reflexivity).
    constructor; [assumption..|]. rewrite starts_ext; [exact Hr|]. intros ->. rewrite !app_length in Hn. cbn in Hn. lia.
  - replace ((m ++ i ++ f ++ e :: sg ++ r) ++ y) with (m ++ i ++ f ++ e :: sg ++ (r ++ y))
      by (rewrite <- !app_assoc; cbn [app]; rewrite <- !app_assoc; reflexivity).
    assert (r <> []).
    { intros ->. rewrite !app_length in Hn. cbn [length] in Hn. rewrite app_length in Hn. cbn in Hn. lia. }
    constructor; auto.
    + destruct Hsg as [->|[->|[-> Hs]]]; auto. right. right. split; [reflexivity|]. rewrite starts_ext by assumption. exact Hs.
    + rewrite starts_ext by assumption. exact Hr.
Qed.

Lemma token_error_ext x n k y : token_error x n k -> (n < length x)%nat -> (k = KUtf8 -> utf8_valid x = true) ->
  token_error (x ++ y) n k.
Proof.
  intros [z m k' He|z m k' He|lit z m k' Hin He|b z Hw Hb] Hn HU.
  - cbn [app length] in *. constructor. apply string_ext; [exact He|lia|]. intro E. specialize (HU E).
    rewrite utf8_valid_ascii_cons in HU by lia. exact HU.
  - apply te_number, number_error_ext; assumption.
  - apply te_literal with (lit := lit); [exact Hin|]. destruct He as [p c q E Hp|p c q b z E Hp Hb]; [lia|].
    rewrite <- app_assoc. cbn [app]. econstructor; eassumption.
  - cbn [app]. constructor; assumption.
Qed.

Lemma token_total pw r : small pw (length r) ->
  (exists n k, next_error r n k) \/ exists w x r', r = w ++ x ++ r' /\ ws w /\ token_then x r'.
Proof.
  intro Hs. assert (Hg : good false pw ([] ++ r)) by (split; [exact Hs|discriminate]).
  pose proof (next_or_eof_spec false pw [] r Hg) as H. pose proof (next_raises false pw [] r Hg) as He.
  destruct (next_or_eof false pw (mk [] r)) as [[tk|e|f] it'].
  - right. destruct H as (w & x & r' & -> & Hw & Ht & _ & Hst). exists w, x, r'. split; [reflexivity|]. split; [exact Hw|].
    apply (token_then_text pw). eauto.
  - left. destruct (He _ _ eq_refl) as (n & k & Hn & _). eauto.
  - destruct H.
Qed.

Lemma token_then_head x r : token_then x r -> exists b z, x = b :: z /\ ~ ws_byte b /\
  (In b [91; 93; 123; 125; 58; 44] -> x = [b]) /\ (digit b \/ b = 45 -> number_then x r).
Proof.
  unfold ws_byte, digit. intros [b y Hb|lit y Hin|raw cs y Hb|t y Ht].
  - exists b, []. cbn [In] in *. split; [reflexivity|]. split; [lia|]. split; [reflexivity|]. intros. exfalso. lia.
  - cbn [In] in Hin. destruct Hin as [<-|[<-|[<-|[]]]]; (eexists _, _; split; [reflexivity|]; split; [lia|]; cbn [In]; split; intros; exfalso; lia).
  - eexists _, _. split; [reflexivity|]. split; [lia|]. cbn [In]. split; intros; exfalso; lia.
  - pose proof (proj1 (number_then_iff t y) Ht) as Hn. pose proof (num_token_number _ _ Hn) as Hnum.
    pose proof (number_nonnil _ Hnum) as Hne. destruct t as [|c t]; [congruence|]. apply number_head_cases in Hnum.
    exists c, t. split; [reflexivity|]. split; [lia|]. cbn [In]. split; [intros; exfalso; lia|auto].
Qed.

(** A token at the end of the text: what it becomes when the text is extended. *)
Lemma token_grow pw x r y : token_then x r -> small pw (length (x ++ r ++ y)) ->
  (exists n k, token_error (x ++ r ++ y) n k) \/
  exists x' r', x ++ r ++ y = x' ++ r' /\ token_then x' r' /\ hd 0 x = hd 0 x' /\ x' <> [] /\ x <> [].
Proof.
  intros Ht Hs. destruct (token_then_head _ _ Ht) as (b & z & -> & Hb & _).
  destruct (token_total pw _ Hs) as [(n & k & He)|(w & x' & r' & E & Hw & Ht')].
  - left. remember ((b :: z) ++ r ++ y) as s eqn:Es. destruct He as [w Hw|w x' n k Hw He].
    + subst w. cbn [app] in Hw. inversion Hw; subst. contradiction.
    + destruct w as [|c w]; [eauto|]. cbn [app] in Es. injection Es as -> _. inversion Hw; subst. contradiction.
  - right. destruct (token_then_head _ _ Ht') as (b' & z' & -> & Hb' & _).
    destruct w as [|c w].
    + cbn [app] in E. injection E as <- E. exists (b :: z'), r'. cbn [app hd]. rewrite E. repeat split; auto; discriminate.
    + cbn [app] in E. injection E as <- E. inversion Hw; subst. contradiction.
Qed.

Lemma same_punct x r x' r' c : token_then x r -> token_then x' r' -> hd 0 x = hd 0 x' -> x <> [] -> x' <> [] ->
  In c [91; 93; 123; 125; 58; 44] -> x <> [c] -> x' <> [c].
Proof.
  intros Ht Ht' Eh Hx Hx' Hc Hn ->. destruct x as [|b x]; [congruence|]. cbn [hd] in Eh. subst b.
  destruct (token_then_head _ _ Ht) as (b & z & E & _ & K & _). injection E as <- <-. apply Hn, K, Hc.
Qed.

Section Final.
  Variables (tc : bool) (limit : option N) (pw : pwidth) (y : list N).

  Definition persists (R : list N -> nat -> kind -> Prop) (s : list N) (n : nat) (k : kind) : Prop :=
    (n < length s)%nat -> (k = KUtf8 -> utf8_valid s = true) -> small pw (length (s ++ y)) ->
    (stable y -> (k = KExpectedColon -> utf8_valid s = true) -> R (s ++ y) n k) /\ exists n' k', R (s ++ y) n' k'.

  Lemma value_then_ext d t v r : value_then tc limit d t v r -> r <> [] \/ stable y -> value_then tc limit d t v (r ++ y).
  Proof. intros (H1 & H2 & H3) Hr. split; [exact H1|]. split; [|exact H3]. intros n E. apply number_then_ext; eauto. Qed.

  Lemma persists_map (R R' : list N -> nat -> kind -> Prop) f p s n k s' n' k' :
    persists R s n k ->
    s' = p ++ s -> n' = (length p + n)%nat -> k' = f k ->
    (s <> [] -> forall n' k', R (s ++ y) n' k' -> R' (p ++ s ++ y) (length p + n')%nat (f k')) ->
    utf8_valid p = true -> (forall k, f k = KExpectedColon <-> k = KExpectedColon) -> f KUtf8 = KUtf8 ->
    persists R' s' n' k'.
  Proof.
    intros H -> -> -> HR Hp Hf2 Hf3 Hn HU Hs. rewrite app_length in Hn.
    assert (Hne : s <> []) by (intros ->; cbn in Hn; lia). specialize (HR Hne). rewrite <- app_assoc in *.
    destruct H as [H1 (n1 & k1 & H2)].
    - lia.
    - intros ->. rewrite <- (utf8_valid_app p) by exact Hp. auto.
    - eapply small_le; [|exact Hs]. rewrite !app_length. lia.
    - split; [|eauto]. intros Hst HC. apply HR, H1; [exact Hst|]. intros ->. rewrite <- (utf8_valid_app p) by exact Hp.
      apply HC, Hf2. reflexivity.
  Qed.

  Lemma persists_same (R : list N -> nat -> kind -> Prop) s n k : 
    ((n < length s)%nat -> (k = KUtf8 -> utf8_valid s = true) -> R (s ++ y) n k) -> persists R s n k.
  Proof. intros H Hn HU _. split; eauto. Qed.

  Lemma persists_token (R : list N -> nat -> kind -> Prop) w x n k :
    ws w -> token_error x n k -> (forall n k, token_error (x ++ y) n k -> R (w ++ x ++ y) (length w + n)%nat k) ->
    persists R (w ++ x) (length w + n)%nat k.
  Proof.
    intros Hw He HR. apply persists_same. intros Hn HU. rewrite <- app_assoc. apply HR, token_error_ext; [exact He|..].
    - rewrite app_length in Hn. lia.
    - intro E. rewrite <- (utf8_valid_app w) by (apply ws_valid; exact Hw). auto.
  Qed.

  Lemma persists_other (R : list N -> nat -> kind -> Prop) w x r k :
    ws w -> token_then x r ->
    (forall x' r', token_then x' r' -> hd 0 x = hd 0 x' -> x <> [] -> x' <> [] -> R (w ++ x' ++ r') 0%nat k) ->
    (forall n k, token_error (x ++ r ++ y) n k -> exists n' k', R (w ++ x ++ r ++ y) n' k') ->
    persists R (w ++ x ++ r) 0 k.
  Proof.
    intros Hw Ht H1 H2 Hn HU Hs. rewrite <- !app_assoc in *. split.
    - intros Hst _. destruct (token_then_head _ _ Ht) as (b & z & E & _). apply H1; [|reflexivity|subst; discriminate..].
      apply token_then_ext; auto.
    - assert (Hs' : small pw (length (x ++ r ++ y))) by (eapply small_le; [|exact Hs]; rewrite !app_length; lia).
      destruct (token_grow pw x r y Ht Hs') as [(n & k' & He)|(x' & r' & E & Ht' & Eh & Hx' & Hx)].
      + eauto.
      + rewrite E. exists 0%nat, k. auto.
  Qed.

  Lemma hd_starts (P : N -> Prop) (x x' : list N) : hd 0 x = hd 0 x' -> x <> [] -> x' <> [] -> starts P x' -> starts P x.
  Proof. destruct x, x'; cbn; congruence. Qed.

  Lemma value_valid t v : value_text tc t v -> utf8_valid v = true.
  Proof. apply (text_valid tc). Qed.
  Lemma ws_value_valid d w t v r : ws w -> value_then tc limit d t v r -> utf8_valid (w ++ v) = true.
  Proof. intros Hw (Hv & _). apply valid_app; [apply ws_valid; exact Hw|eapply value_valid; exact Hv]. Qed.

  Ltac idf := try (intro k0; tauto); try reflexivity.
  Ltac len := rewrite ?app_length; cbn [length]; rewrite ?app_length; cbn [length]; lia.

  Lemma errors_persist : forall d,
    (forall r n k, value_error tc limit d r n k -> persists (value_error tc limit d) r n k) /\
    (forall first r n k, array_error tc limit d first r n k -> persists (array_error tc limit d first) r n k) /\
    (forall r n k, array_next_error tc limit d r n k -> persists (array_next_error tc limit d) r n k) /\
    (forall first r n k, object_error tc limit d first r n k -> persists (object_error tc limit d first) r n k) /\
    (forall r n k, colon_error tc limit d r n k -> persists (colon_error tc limit d) r n k) /\
    (forall r n k, member_next_error tc limit d r n k -> persists (member_next_error tc limit d) r n k).
  Proof.
    intro d0. apply (error_mutind tc limit (fun d r n k _ => persists (value_error tc limit d) r n k)
      (fun d f r n k _ => persists (array_error tc limit d f) r n k)
      (fun d r n k _ => persists (array_next_error tc limit d) r n k)
      (fun d f r n k _ => persists (object_error tc limit d f) r n k)
      (fun d r n k _ => persists (colon_error tc limit d) r n k)
      (fun d r n k _ => persists (member_next_error tc limit d) r n k)).
    (* values *)
    - intros d w Hw Hn. lia.
    - intros d w x n k Hw He. apply persists_token; auto. intros. constructor; assumption.
    - intros d w b x Hw Hb. apply persists_same. intros _ _. rewrite <- app_assoc. cbn [app]. constructor; assumption.
    - intros d w b x Hw Hb Hl. apply persists_same. intros _ _. rewrite <- app_assoc. cbn [app]. constructor; assumption.
    - intros d w x n k Hw Hl He IH. eapply persists_map with (f := inside KUnclosedArray) (p := w ++ [91]); [exact IH|..].
      + rewrite <- app_assoc. reflexivity.
      + len.
      + reflexivity.
      + intros _ n' k' H. replace (length (w ++ [91%N]) + n')%nat with (length w + 1 + n')%nat by len.
        rewrite <- app_assoc. cbn [app]. constructor; assumption.
      + apply valid_app; [apply ws_valid; exact Hw|reflexivity].
      + intro k0. destruct k0; cbn; split; intro E; congruence.
      + reflexivity.
    - intros d w x n k Hw Hl He IH. eapply persists_map with (f := inside KUnclosedObject) (p := w ++ [123]); [exact IH|..].
      + rewrite <- app_assoc. reflexivity.
      + len.
      + reflexivity.
      + intros _ n' k' H. replace (length (w ++ [123%N]) + n')%nat with (length w + 1 + n')%nat by len.
        rewrite <- app_assoc. cbn [app]. constructor; assumption.
      + apply valid_app; [apply ws_valid; exact Hw|reflexivity].
      + intro k0. destruct k0; cbn; split; intro E; congruence.
      + reflexivity.
    (* arrays *)
    - intros d w x Hw Htc. apply persists_same. intros _ _. rewrite <- app_assoc. cbn [app]. constructor; assumption.
    - intros d first w x n k Hw Hx He IH. eapply persists_map with (f := fun k => k) (p := w); [exact IH|reflexivity..| | |tauto|reflexivity].
      + intros Hne n' k' H. apply ae_value; [exact Hw| |exact H]. rewrite starts_ext; assumption.
      + apply ws_valid, Hw.
    - intros d first w t v r n k Hw Hv He IH. eapply persists_map with (f := fun k => k) (p := w ++ v); [exact IH|apply app_assoc|reflexivity..| | |tauto|reflexivity].
      + intros Hne n' k' H. rewrite <- app_assoc. eapply ae_after; [exact Hw| |exact H]. apply value_then_ext; [exact Hv|auto].
      + eapply ws_value_valid; eassumption.
    (* after an element *)
    - intros d w Hw Hn. lia.
    - intros d w x n k Hw He. apply persists_token; auto. intros. constructor; assumption.
    - intros d w x r Hw Ht H1 H2. apply persists_other; [exact Hw|exact Ht|..].
      + intros x' r' Ht' Eh Hx Hx'. constructor; auto; eapply (same_punct x r x'); eauto; cbn; auto 7.
      + intros n k He. eexists _, _. apply an_token; eassumption.
    - intros d w x n k Hw He IH. eapply persists_map with (f := fun k => k) (p := w ++ [44]); [exact IH|..].
      + rewrite <- app_assoc. reflexivity.
      + len.
      + reflexivity.
      + intros _ n' k' H. replace (length (w ++ [44%N]) + n')%nat with (length w + 1 + n')%nat by len.
        rewrite <- app_assoc. cbn [app]. constructor; assumption.
      + apply valid_app; [apply ws_valid; exact Hw|reflexivity].
      + tauto.
      + reflexivity.
    (* objects *)
    - intros d first w Hw Hn. lia.
    - intros d first w x n k Hw He. apply persists_token; auto. intros. constructor; assumption.
    - intros d w x Hw Htc. apply persists_same. intros _ _. rewrite <- app_assoc. cbn [app]. constructor; assumption.
    - intros d first w b x Hw Hb. apply persists_same. intros _ _. rewrite <- app_assoc. cbn [app]. constructor; assumption.
    - intros d first w x r Hw Ht Hs. apply persists_other; [exact Hw|exact Ht|..].
      + intros x' r' Ht' Eh Hx Hx'. constructor; auto. intro Hs'. apply Hs. eapply hd_starts; eassumption.
      + intros n k He. eexists _, _. apply oe_token; eassumption.
    - intros d first w key cs r n k Hw Hk He IH.
      eapply persists_map with (f := fun k => k) (p := w ++ 34 :: key ++ [34]); [exact IH|apply app_assoc| |reflexivity|..].
      + len.
      + intros _ n' k' H. replace (length (w ++ 34%N :: key ++ [34%N]) + n')%nat with (length w + (length key + 2) + n')%nat by len.
        rewrite <- app_assoc. eapply oe_key; eassumption.
      + apply valid_app; [apply ws_valid; exact Hw|]. apply valid_cons; [lia|]. apply valid_app; [eapply str_body_valid; exact Hk|reflexivity].
      + tauto.
      + reflexivity.
    (* after a key *)
    - intros d w Hw Hn. lia.
    - (* a bad token after a key *)
      intros d w x n k Hw He Hn _ Hs. rewrite <- app_assoc in *. rewrite app_length in Hn. split.
      + intros _ HU. eapply ce_token; [exact Hw|]. apply token_error_ext; [exact He|lia|]. intros _.
        rewrite <- (utf8_valid_app w) by (apply ws_valid; exact Hw). auto.
      + destruct (token_error_raised pw _ _ _ He) as (b & z & -> & Hb & Hr).
        assert (Hs' : small pw (length ((b :: z) ++ y))) by (eapply small_le; [|exact Hs]; rewrite !app_length; lia).
        destruct (token_total pw _ Hs') as [(n' & k' & Hx)|(w' & x' & r' & E & Hw' & Ht')].
        * exists (length w + n')%nat, KExpectedColon. remember ((b :: z) ++ y) as s eqn:Es.
          destruct Hx as [w' Hw'|w' x' n' k' Hw' Hx].
          { subst w'. cbn [app] in Hw'. inversion Hw'; subst. contradiction. }
          destruct w' as [|c w']; [eapply ce_token; eassumption|]. cbn [app] in Es. injection Es as -> _. inversion Hw'; subst. contradiction.
        * exists 0%nat, KExpectedColon. rewrite E.
          destruct w' as [|c w']; [|cbn [app] in E; injection E as <- _; inversion Hw'; subst; contradiction].
          rewrite app_nil_l. apply ce_other; [exact Hw|exact Ht'|]. intros ->. cbn [app] in E. injection E as -> _.
          specialize (Hr []). unfold raised, read_peek in Hr.
          destruct Hr as (it' & Hr); [|revert Hr; cbn; discriminate].
          eapply small_le; [|exact Hs']. rewrite !app_length. cbn [length]. lia.
    - intros d w x r Hw Ht H1. apply persists_other; [exact Hw|exact Ht|..].
      + intros x' r' Ht' Eh Hx Hx'. constructor; auto; eapply (same_punct x r x'); eauto; cbn; auto 7.
      + intros n k He. eexists _, _. eapply ce_token; eassumption.
    - intros d w x n k Hw He IH. eapply persists_map with (f := fun k => k) (p := w ++ [58]); [exact IH|..].
      + rewrite <- app_assoc. reflexivity.
      + len.
      + reflexivity.
      + intros _ n' k' H. replace (length (w ++ [58%N]) + n')%nat with (length w + 1 + n')%nat by len.
        rewrite <- app_assoc. cbn [app]. constructor; assumption.
      + apply valid_app; [apply ws_valid; exact Hw|reflexivity].
      + tauto.
      + reflexivity.
    - intros d w w' t v r n k Hw Hw' Hv He IH.
      eapply persists_map with (f := fun k => k) (p := w ++ 58 :: w' ++ v); [exact IH|..].
      + rewrite <- app_assoc. cbn [app]. rewrite <- app_assoc. reflexivity.
      + len.
      + reflexivity.
      + intros Hne n' k' H. replace (length (w ++ 58%N :: w' ++ v) + n')%nat with (length w + 1 + length (w' ++ v) + n')%nat by len.
        rewrite <- app_assoc. cbn [app]. rewrite <- app_assoc. eapply ce_after; [exact Hw|exact Hw'| |exact H].
        apply value_then_ext; [exact Hv|auto].
      + apply valid_app; [apply ws_valid; exact Hw|]. apply valid_cons; [lia|]. eapply ws_value_valid; eassumption.
      + tauto.
      + reflexivity.
    (* after a member *)
    - intros d w Hw Hn. lia.
    - intros d w x n k Hw He. apply persists_token; auto. intros. constructor; assumption.
    - intros d w x r Hw Ht H1 H2. apply persists_other; [exact Hw|exact Ht|..].
      + intros x' r' Ht' Eh Hx Hx'. constructor; auto; eapply (same_punct x r x'); eauto; cbn; auto 7.
      + intros n k He. eexists _, _. apply mn_token; eassumption.
    - intros d w x n k Hw He IH. eapply persists_map with (f := fun k => k) (p := w ++ [44]); [exact IH|..].
      + rewrite <- app_assoc. reflexivity.
      + len.
      + reflexivity.
      + intros _ n' k' H. replace (length (w ++ [44%N]) + n')%nat with (length w + 1 + n')%nat by len.
        rewrite <- app_assoc. cbn [app]. constructor; assumption.
      + apply valid_app; [apply ws_valid; exact Hw|reflexivity].
      + tauto.
      + reflexivity.
  Qed.

  Theorem text_error_persists roots s n k : text_error tc limit roots s n k -> persists (text_error tc limit roots) s n k.
  Proof.
    intros [z m k' He|w t v r Hw Hv Hr Hc|w t v w' b r Hw Hv Hr Hw' Hb].
    - intros Hn HU Hs. destruct (proj1 (errors_persist 0) _ _ _ He Hn HU Hs) as [H1 (n' & k2 & H2)].
      split; [intros; apply xe_value; auto|]. exists n', k2. apply xe_value, H2.
    - intros Hn HU Hs. rewrite <- !app_assoc in *. split.
      + intros Hst _. eapply xe_root; try eassumption. apply value_then_ext; auto.
      + destruct (match t with TNum _ => true | _ => false end) eqn:Et.
        * destruct t as [| |nn| | |]; try discriminate. destruct Hv as (Hv & Hnum & Hd). specialize (Hnum _ eq_refl).
          assert (Hs' : small pw (length (v ++ r ++ y))) by (eapply small_le; [|exact Hs]; rewrite !app_length; lia).
          destruct (token_grow pw v r y (th_number _ _ Hnum) Hs') as [(n0 & k' & He)|(x' & r' & E & Ht' & Eh & Hx' & Hx)].
          { eexists _, _. apply xe_value, ve_token; eassumption. }
          rewrite E. eexists _, _. apply xe_root with (t := TNum x'); [exact Hw| |exact Hr|reflexivity].
          assert (Hn' : number_then x' r').
          { destruct (token_then_head _ _ Ht') as (b & z & -> & _ & _ & K). apply K.
            inversion Hv; subst. destruct v as [|c v]; [congruence|]. cbn [hd] in Eh. subst c.
            match goal with Hx : number (b :: v) |- _ => apply number_head_cases in Hx; unfold digit; lia end. }
          split; [|split].
          -- constructor. eapply num_token_number. apply number_then_iff. exact Hn'.
          -- intros; assumption.
          -- intros n0 E'. specialize (Hd _ E'). cbn in *. lia.
        * eexists _, _. apply xe_root with (t := t); try assumption. destruct Hv as (Hv & _ & Hd). split; [exact Hv|]. split; [|exact Hd].
          intros n0 ->. discriminate.
    - apply persists_same. intros _ _.
      replace ((w ++ v ++ w' ++ b :: r) ++ y) with (w ++ v ++ w' ++ b :: (r ++ y)) by (rewrite <- !app_assoc; reflexivity).
      apply xe_trailing with (t := t); auto.
      replace (w' ++ b :: r ++ y) with ((w' ++ b :: r) ++ y) by (rewrite <- !app_assoc; reflexivity).
      apply value_then_ext; [exact Hv|left]. destruct w'; discriminate.
  Qed.
End Final.
