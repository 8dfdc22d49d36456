(** The text the writer writes, as a JSON text. *)
From Verif Require Import Base Utf8 Utf8Facts StrModel ErrorModel Tokenizer Parser ValueModel Spec SpecLex SpecWrite
  TokBase TokStr TokNum TokFacts ParserGen Trace SimInst StrSpec View ParseMain GrammarFacts Lexemes WriteFacts.
Local Open Scope N_scope.

Theorem to_json_text pw v t : written_as pw v t -> to_json pw v = Ok (compact t).
Proof.
  intro H. unfold to_json, write_json_to, write_json. pose proof (writes_value pw false [] [] v t H 0 true []) as E.
  cbn [andb app] in E. rewrite E. reflexivity.
Qed.
Theorem to_json_pretty_text pw indent eol v t : written_as pw v t ->
  to_json_pretty_custom pw indent eol v = Ok (pretty_layout indent eol t).
Proof.
  intro H. unfold to_json_pretty_custom, pretty_write_json_to_custom, write_json.
  pose proof (writes_value pw true indent eol v t H 0 true []) as E. cbn [andb app pad repeat List.concat] in E. rewrite E. reflexivity.
Qed.

(** * Layouts are JSON texts *)
Definition tree_ok : tree -> Prop := tree_all (fun raw => exists cs, str_body raw cs) number.

Lemma ws_pad indent n : ws indent -> ws (pad indent n).
Proof. intro H. induction n as [|n IH]; [constructor|]. unfold pad in *. cbn. apply Forall_app. auto. Qed.

Section Layouts.
  Variables indent eol cl : list N.
  Hypothesis Hindent : ws indent.
  Hypothesis Heol : ws eol.
  Hypothesis Hcl : ws cl.

  Lemma join_elements tc (lay : tree -> list N) P Q l : ws P -> ws Q -> l <> [] -> Forall (fun t => value_text tc t (lay t)) l ->
    elements tc l (eol ++ join ([44] ++ eol) (map (fun x => P ++ lay x) l) ++ eol ++ Q).
  Proof.
    intros HP HQ Hne H. assert (HE : ws (eol ++ P)) by (apply Forall_app; auto). assert (HQ' : ws (eol ++ Q)) by (apply Forall_app; auto).
    induction H as [|t l Ht H IH]; [congruence|]. cbn [map join]. destruct l as [|t' l].
    - cbn [map]. replace (eol ++ (P ++ lay t) ++ eol ++ Q) with ((eol ++ P) ++ lay t ++ (eol ++ Q) ++ []) by (rewrite app_nil_r, <- !app_assoc; reflexivity).
      constructor; auto. constructor.
    - cbn [map] in *. set (j := join _ _) in *.
      replace (eol ++ ((P ++ lay t) ++ ([44] ++ eol) ++ j) ++ eol ++ Q) with ((eol ++ P) ++ lay t ++ [] ++ 44 :: (eol ++ j ++ eol ++ Q))
        by (rewrite <- !app_assoc; cbn [app]; rewrite <- ?app_assoc; reflexivity).
      constructor; auto; [constructor|]. apply IH. discriminate.
  Qed.

  Lemma join_members tc (lay : tree -> list N) P Q l : ws P -> ws Q -> l <> [] ->
    Forall (fun e => (exists cs, str_body (fst e) cs) /\ value_text tc (snd e) (lay (snd e))) l ->
    members tc l (eol ++ join ([44] ++ eol) (map (fun e => P ++ ([34] ++ fst e ++ [34]) ++ (58 :: cl) ++ lay (snd e)) l) ++ eol ++ Q).
  Proof.
    intros HP HQ Hne H. assert (HE : ws (eol ++ P)) by (apply Forall_app; auto). assert (HQ' : ws (eol ++ Q)) by (apply Forall_app; auto).
    assert (W0 : ws []) by constructor.
    induction H as [|[k t] l [(cs & Hk) Ht] H IH]; [congruence|]. cbn [map join fst snd] in *. destruct l as [|e l].
    - cbn [map].
      replace (eol ++ (P ++ ([34] ++ k ++ [34]) ++ (58 :: cl) ++ lay t) ++ eol ++ Q)
        with ((eol ++ P) ++ (34 :: k ++ [34]) ++ [] ++ 58 :: cl ++ lay t ++ (eol ++ Q) ++ [])
        by (rewrite app_nil_r, <- !app_assoc; cbn [app]; rewrite <- ?app_assoc; cbn [app]; rewrite <- ?app_assoc; reflexivity).
      econstructor; eauto. constructor.
    - cbn [map] in *. set (j := join _ _) in *.
      replace (eol ++ ((P ++ ([34] ++ k ++ [34]) ++ (58 :: cl) ++ lay t) ++ ([44] ++ eol) ++ j) ++ eol ++ Q)
        with ((eol ++ P) ++ (34 :: k ++ [34]) ++ [] ++ 58 :: cl ++ lay t ++ [] ++ 44 :: (eol ++ j ++ eol ++ Q))
        by (rewrite <- !app_assoc; cbn [app]; rewrite <- ?app_assoc; cbn [app]; rewrite <- ?app_assoc; reflexivity).
      econstructor; eauto. apply IH. discriminate.
  Qed.

  Theorem layout_text tc : forall t, tree_ok t -> forall lvl, value_text tc t (layout indent eol (58 :: cl) lvl t).
  Proof.
    induction t as [ |b|n|s|l IH|l IH] using tree_ind'; intros H lvl; inversion H as [ | | |? (cs & Hs)|? Hl|? Hl]; subst; clear H.
    - apply vt_null.
    - destruct b; constructor.
    - constructor. assumption.
    - cbn [layout app]. econstructor. exact Hs.
    - destruct l as [|t l]; [apply (vt_arr_empty tc []); constructor|].
      cbn [layout]. match goal with |- value_text _ _ ([91] ++ eol ++ ?j ++ eol ++ ?p ++ [93]) =>
        replace ([91] ++ eol ++ j ++ eol ++ p ++ [93]) with (91 :: (eol ++ j ++ eol ++ p) ++ [93]) by (rewrite <- !app_assoc; reflexivity) end.
      constructor. apply (join_elements tc (layout indent eol (58 :: cl) (S lvl)));
        [apply ws_pad; exact Hindent|apply ws_pad; exact Hindent|discriminate|].
      rewrite Forall_forall in *. intros x Hx. apply (IH x Hx). exact (Hl x Hx).
    - destruct l as [|t l]; [apply (vt_obj_empty tc []); constructor|].
      cbn [layout]. match goal with |- value_text _ _ ([123] ++ eol ++ ?j ++ eol ++ ?p ++ [125]) =>
        replace ([123] ++ eol ++ j ++ eol ++ p ++ [125]) with (123 :: (eol ++ j ++ eol ++ p) ++ [125]) by (rewrite <- !app_assoc; reflexivity) end.
      constructor. apply (join_members tc (layout indent eol (58 :: cl) (S lvl)));
        [apply ws_pad; exact Hindent|apply ws_pad; exact Hindent|discriminate|].
      rewrite Forall_forall in *. intros x Hx. destruct (Hl x Hx) as [H1 H2]. split; [exact H1|]. apply (IH x Hx). exact H2.
  Qed.
End Layouts.

Lemma value_json_text tc t s : value_text tc t s -> json_text tc t s.
Proof. intro H. exists [], s, []. rewrite app_nil_r. repeat split; try constructor. exact H. Qed.

Theorem compact_text tc t : tree_ok t -> json_text tc t (compact t).
Proof. intro H. apply value_json_text, layout_text; [constructor..|exact H]. Qed.
Theorem pretty_text tc indent eol t : ws indent -> ws eol -> tree_ok t -> json_text tc t (pretty_layout indent eol t).
Proof. intros H1 H2 H. apply value_json_text. apply (layout_text indent eol [32]); auto. repeat constructor. Qed.

(** * The compact layout is the lexemes *)
Lemma pad_nil n : pad [] n = [].
Proof. induction n as [|n IH]; [reflexivity|exact IH]. Qed.

Lemma compact_lex :
  (forall t ls, value_lex false t ls -> forall lvl, layout [] [] [58] lvl t = List.concat ls) /\
  (forall l ls, elements_lex false l ls -> forall lvl, join [44] (map (layout [] [] [58] lvl) l) = List.concat ls) /\
  (forall l ls, members_lex false l ls -> forall lvl,
     join [44] (map (fun e => ([34] ++ fst e ++ [34]) ++ [58] ++ layout [] [] [58] lvl (snd e)) l) = List.concat ls).
Proof.
  apply lex_mutind; try reflexivity.
  - intros n _ lvl. cbn. rewrite app_nil_r. reflexivity.
  - intros raw cs _ lvl. cbn. rewrite app_nil_r. reflexivity.
  - intros l ls Hl IH lvl. cbn [List.concat]. rewrite concat_app. cbn [List.concat].
    specialize (IH (S lvl)). destruct l as [|t l]; [inversion Hl|]. cbn [layout]. rewrite !pad_nil. cbn [app].
    rewrite <- IH. reflexivity.
  - intros l ls Hl IH lvl. cbn [List.concat]. rewrite concat_app. cbn [List.concat].
    specialize (IH (S lvl)). destruct l as [|t l]; [inversion Hl|]. cbn [layout]. rewrite !pad_nil. cbn [app].
    rewrite <- IH. reflexivity.
  - intros t ls tr Ht IH Htr lvl. destruct Htr as [|K]; [|discriminate]. rewrite app_nil_r. cbn. apply IH.
  - intros t l ls r Ht IH Hl IHl lvl. rewrite concat_app. cbn [List.concat]. rewrite <- (IHl lvl), <- (IH lvl).
    destruct l; [inversion Hl|]. reflexivity.
  - intros k cs t ls tr Hk Ht IH Htr lvl. destruct Htr as [|K]; [|discriminate]. rewrite app_nil_r. cbn [map join fst snd List.concat app].
    rewrite <- (IH lvl). reflexivity.
  - intros k cs t l ls r Hk Ht IH Hl IHl lvl. cbn [map join fst snd List.concat app]. rewrite concat_app. cbn [List.concat app].
    rewrite <- (IHl lvl), <- (IH lvl). destruct l; [inversion Hl|]. cbn [map fst snd]. rewrite <- !app_assoc. cbn [app]. rewrite <- ?app_assoc. reflexivity.
Qed.

(** * Trailing commas *)
Definition closer (x : list N) : Prop := x = [93] \/ x = [125].
Lemma drop_keep x r : x <> [44] \/ (forall y r', r = y :: r' -> ~ closer y) -> drop_trailing_commas (x :: r) = x :: drop_trailing_commas r.
Proof.
  intro H. cbn [drop_trailing_commas].
  destruct (list_eq_dec N.eq_dec x [44]) as [->|Hx].
  - destruct H as [H|H]; [congruence|]. destruct r as [|y r]; [reflexivity|]. specialize (H y r eq_refl). unfold closer in H.
    destruct y as [|y [|? ?]]; try reflexivity.
    + destruct (N.eq_dec y 93) as [->|N1]; [tauto|]. destruct (N.eq_dec y 125) as [->|N2]; [tauto|].
      destruct y as [|p]; [reflexivity|]. repeat (destruct p as [p|p|]; try reflexivity); congruence.
    + destruct y as [|p]; [reflexivity|]. repeat (destruct p as [p|p|]; try reflexivity).
  - clear H. destruct x as [|y [|? ?]]; try reflexivity.
    + destruct y as [|p]; [reflexivity|]. repeat (destruct p as [p|p|]; try reflexivity). congruence.
    + destruct y as [|p]; [reflexivity|]. repeat (destruct p as [p|p|]; try reflexivity).
Qed.
Lemma drop_drop y r : closer y -> drop_trailing_commas ([44] :: y :: r) = drop_trailing_commas (y :: r).
Proof. intros [-> | ->]; reflexivity. Qed.

Lemma head_of tc : (forall t ls, value_lex tc t ls -> exists x r, ls = x :: r /\ ~ closer x) /\
  (forall l ls, elements_lex tc l ls -> exists x r, ls = x :: r /\ ~ closer x) /\
  (forall l ls, members_lex tc l ls -> exists x r, ls = x :: r /\ ~ closer x).
Proof.
  apply lex_mutind.
  1-3: eexists _, _; (split; [reflexivity|]); unfold closer; intros [K|K]; discriminate K.
  - intros n Hn. eexists _, _. split; [reflexivity|]. unfold closer; intros [K|K]; subst; apply number_head_cases in Hn; lia.
  - intros raw cs Hb. eexists _, _. split; [reflexivity|]. unfold closer; intros [K|K]; discriminate K.
  - eexists _, _; (split; [reflexivity|]); unfold closer; intros [K|K]; discriminate K.
  - intros. eexists _, _; (split; [reflexivity|]); unfold closer; intros [K|K]; discriminate K.
  - eexists _, _; (split; [reflexivity|]); unfold closer; intros [K|K]; discriminate K.
  - intros. eexists _, _; (split; [reflexivity|]); unfold closer; intros [K|K]; discriminate K.
  - intros t ls tr _ (x & r & -> & Hx) _. cbn. eauto.
  - intros t l ls r _ (x & r' & -> & Hx) _ _. cbn. eauto.
  - intros. eexists _, _; (split; [reflexivity|]); unfold closer; intros [K|K]; discriminate K.
  - intros. eexists _, _; (split; [reflexivity|]); unfold closer; intros [K|K]; discriminate K.
Qed.

Lemma drop_lex :
  (forall t ls, value_lex true t ls -> exists ls', value_lex false t ls' /\
     forall rest, drop_trailing_commas (ls ++ rest) = ls' ++ drop_trailing_commas rest) /\
  (forall l ls, elements_lex true l ls -> exists ls', elements_lex false l ls' /\
     forall c rest, closer c -> drop_trailing_commas (ls ++ c :: rest) = ls' ++ drop_trailing_commas (c :: rest)) /\
  (forall l ls, members_lex true l ls -> exists ls', members_lex false l ls' /\
     forall c rest, closer c -> drop_trailing_commas (ls ++ c :: rest) = ls' ++ drop_trailing_commas (c :: rest)).
Proof.
  assert (One : forall x rest, x <> [44] -> drop_trailing_commas (x :: rest) = x :: drop_trailing_commas rest).
  { intros x rest Hx. apply drop_keep. auto. }
  apply lex_mutind.
  - eexists; split; [constructor|]. intro rest. apply One. discriminate.
  - eexists; split; [constructor|]. intro rest. apply One. discriminate.
  - eexists; split; [constructor|]. intro rest. apply One. discriminate.
  - intros n Hn. exists [n]. split; [constructor; exact Hn|]. intro rest. apply One. intros ->. apply number_head_cases in Hn. lia.
  - intros raw cs Hb. eexists; split; [econstructor; exact Hb|]. intro rest. apply One. discriminate.
  - eexists; split; [constructor|]. intro rest. cbn [app]. rewrite !One by discriminate. reflexivity.
  - intros l ls _ (ls' & Hl' & IH). eexists; split; [apply vl_arr; exact Hl'|]. intro rest. cbn [app]. rewrite One by discriminate.
    rewrite <- !app_assoc. cbn [app]. rewrite IH by (left; reflexivity). rewrite One by discriminate. reflexivity.
  - eexists; split; [constructor|]. intro rest. cbn [app]. rewrite !One by discriminate. reflexivity.
  - intros l ls _ (ls' & Hl' & IH). eexists; split; [apply vl_obj; exact Hl'|]. intro rest. cbn [app]. rewrite One by discriminate.
    rewrite <- !app_assoc. cbn [app]. rewrite IH by (right; reflexivity). rewrite One by discriminate. reflexivity.
  - intros t ls tr Ht (ls' & Hl' & IH) Htr. exists (ls' ++ []). split; [constructor; [exact Hl'|constructor]|].
    intros c rest Hc. rewrite app_nil_r. destruct Htr as [|_].
    + rewrite app_nil_r. apply IH.
    + rewrite <- app_assoc, IH. cbn [app]. rewrite drop_drop by exact Hc. reflexivity.
  - intros t l ls r Ht (ls' & Hl' & IH) Hr (r' & Hr' & IHr). exists (ls' ++ [44] :: r'). split; [constructor; assumption|].
    intros c rest Hc. rewrite <- app_assoc, IH. cbn [app]. rewrite drop_keep.
    + rewrite IHr by exact Hc. rewrite <- app_assoc. reflexivity.
    + right. intros y r0 E. apply (proj1 (proj2 (head_of true))) in Hr as (x & r1 & -> & Hx). cbn in E. injection E as <- _. exact Hx.
  - intros k cs t ls tr Hk Ht (ls' & Hl' & IH) Htr. exists ((34 :: k ++ [34]) :: [58] :: ls' ++ []). split; [econstructor; [exact Hk|exact Hl'|constructor]|].
    intros c rest Hc. cbn [app]. rewrite !One by discriminate. do 2 f_equal.
    rewrite app_nil_r. destruct Htr as [|_].
    + rewrite app_nil_r. apply IH.
    + rewrite <- app_assoc, IH. cbn [app]. rewrite drop_drop by exact Hc. reflexivity.
  - intros k cs t l ls r Hk Ht (ls' & Hl' & IH) Hr (r' & Hr' & IHr). exists ((34 :: k ++ [34]) :: [58] :: ls' ++ [44] :: r'). split; [econstructor; eassumption|].
    intros c rest Hc. cbn [app]. rewrite !One by discriminate. do 2 f_equal. rewrite <- app_assoc, IH. cbn [app]. rewrite drop_keep.
    + rewrite IHr by exact Hc. rewrite <- app_assoc. reflexivity.
    + right. intros y r0 E. apply (proj2 (proj2 (head_of true))) in Hr as (x & r1 & -> & Hx). cbn in E. injection E as <- _. exact Hx.
Qed.

(** The compact layout of the tree of a text is its lexemes, without trailing commas. *)
Theorem compact_lexemes tc t ls : value_lex tc t ls ->
  compact t = List.concat (if tc then drop_trailing_commas ls else ls).
Proof.
  intro H. destruct tc; [|apply (proj1 compact_lex); exact H].
  destruct (proj1 drop_lex t ls H) as (ls' & Hl' & E). specialize (E []). cbn [drop_trailing_commas] in E. rewrite !app_nil_r in E.
  rewrite E. apply (proj1 compact_lex). exact Hl'.
Qed.

Lemma spaced_length ls s : spaced ls s -> (length (List.concat ls) <= length s)%nat.
Proof. induction 1 as [w Hw|w x ls s Hw Hx Hs IH _]; cbn [List.concat length]; [lia|]. rewrite !app_length. lia. Qed.

Lemma drop_length : forall ls, (length (List.concat (drop_trailing_commas ls)) <= length (List.concat ls))%nat.
Proof.
  induction ls as [|x r IH]; [reflexivity|].
  assert (H : drop_trailing_commas (x :: r) = drop_trailing_commas r \/ drop_trailing_commas (x :: r) = x :: drop_trailing_commas r).
  { destruct (list_eq_dec N.eq_dec x [44]) as [->|Hx]; [|right; apply drop_keep; auto].
    destruct r as [|y r']; [right; reflexivity|].
    destruct (list_eq_dec N.eq_dec y [93]) as [->|H1]; [left; reflexivity|].
    destruct (list_eq_dec N.eq_dec y [125]) as [->|H2]; [left; reflexivity|].
    right. apply drop_keep. right. intros z r0 E. injection E as <- _. intros [K|K]; contradiction. }
  destruct H as [->| ->]; cbn [List.concat]; rewrite ?app_length; lia.
Qed.

Theorem compact_shorter tc t s : json_text tc t s -> (length (compact t) <= length s)%nat.
Proof.
  intro H. apply json_text_to_lex in H as (ls & Hl & Hs). rewrite (compact_lexemes _ _ _ Hl). apply spaced_length in Hs.
  destruct tc; [pose proof (drop_length ls)|]; lia.
Qed.

(** * The lexemes are what the whitespace-removing scan leaves *)
Lemma minify_plain x s : Forall (fun b => ~ ws_byte b /\ b <> 34) x -> minify Outside (x ++ s) = x ++ minify Outside s.
Proof.
  induction 1 as [|b x [H1 H2] Hx IH]; [reflexivity|]. cbn [app minify]. unfold ws_byte in H1.
  assert ((b =? 32) || (b =? 9) || (b =? 10) || (b =? 13) = false) as -> by lia.
  assert (b =? 34 = false) as -> by lia. rewrite IH. reflexivity.
Qed.
Lemma minify_ws w s : ws w -> minify Outside (w ++ s) = minify Outside s.
Proof.
  induction 1 as [|b w Hb Hw IH]; [reflexivity|]. cbn [app minify]. unfold ws_byte in Hb.
  assert ((b =? 32) || (b =? 9) || (b =? 10) || (b =? 13) = true) as -> by lia. exact IH.
Qed.
Lemma minify_inside x s : Forall (fun b => b <> 34 /\ b <> 92) x -> minify InString (x ++ s) = x ++ minify InString s.
Proof.
  induction 1 as [|b x [H1 H2] Hx IH]; [reflexivity|]. cbn [app minify].
  assert (b =? 92 = false) as -> by lia. assert (b =? 34 = false) as -> by lia. rewrite IH. reflexivity.
Qed.
Lemma encode_inside c : is_scalar c = true -> c <> 34 -> c <> 92 -> Forall (fun b => b <> 34 /\ b <> 92) (utf8_encode c).
Proof.
  intros Hs H1 H2. destruct (N.lt_ge_cases c 128) as [H|H].
  - rewrite utf8_encode_ascii by exact H. repeat constructor; assumption.
  - eapply Forall_impl; [|apply utf8_encode_high; exact H]. cbv beta. intros b Hb. lia.
Qed.
Lemma hex_inside h u : hex4 h u -> Forall (fun b => b <> 34 /\ b <> 92) h.
Proof.
  intros [a b c d x y z w Ha Hb Hc Hd]. assert (K : forall p q, hex_digit_val p q -> p <> 34 /\ p <> 92) by (intros p q []; lia).
  repeat constructor; eapply K; eassumption.
Qed.
Lemma minify_body raw cs s : str_body raw cs -> minify InString (raw ++ s) = raw ++ minify InString s.
Proof.
  induction 1 as [|a c r cs Ha Hr IH]; [reflexivity|]. rewrite <- !app_assoc.
  destruct Ha as [c Hs H1 H2 H3|b c Hb|h u Hh Hu|h1 hi h2 lo H1 R1 H2 R2].
  - rewrite minify_inside by (apply encode_inside; assumption). rewrite IH. reflexivity.
  - cbn [app minify N.eqb Pos.eqb]. rewrite IH. reflexivity.
  - cbn [app minify N.eqb Pos.eqb]. rewrite minify_inside by (eapply hex_inside; eassumption). rewrite IH. reflexivity.
  - cbn [app minify N.eqb Pos.eqb]. rewrite <- !app_assoc. rewrite minify_inside by (eapply hex_inside; eassumption). cbn [app minify N.eqb Pos.eqb].
    rewrite minify_inside by (eapply hex_inside; eassumption). rewrite IH. reflexivity.
Qed.
Lemma number_plain n : number n -> Forall (fun b => ~ ws_byte b /\ b <> 34) n.
Proof.
  intros (m & i & f & e & Hm & Hi & Hf & He & ->).
  assert (D : forall l, Forall digit l -> Forall (fun b => ~ ws_byte b /\ b <> 34) l).
  { intros l Hl. eapply Forall_impl; [|exact Hl]. cbv beta. unfold digit, ws_byte. intros; lia. }
  assert (One : forall b, 36 < b -> ~ ws_byte b /\ b <> 34) by (unfold ws_byte; intros; lia).
  repeat (apply Forall_app; split).
  - destruct Hm as [->| ->]; repeat constructor; apply One; lia.
  - destruct Hi as [->|(d & r & Hd & Hr & ->)]; constructor; auto; apply One; lia.
  - destruct Hf as [->|(ds & [_ Hds] & ->)]; constructor; auto; apply One; lia.
  - destruct He as [->|(c & sg & ds & Hc & Hsg & [_ Hds] & ->)]; constructor; [apply One; lia|].
    apply Forall_app. split; auto. destruct Hsg as [->|[->| ->]]; repeat constructor; apply One; lia.
Qed.
Lemma minify_lexeme x s : lexeme x -> minify Outside (x ++ s) = x ++ minify Outside s.
Proof.
  assert (P : forall l, forallb (fun b => (34 <? b)) l = true -> Forall (fun b => ~ ws_byte b /\ b <> 34) l).
  { intros l H. rewrite forallb_forall in H. apply Forall_forall. intros b Hb. apply H in Hb. unfold ws_byte. lia. }
  intros [b Hb| | | |n Hn|raw cs Hb].
  - apply minify_plain. constructor; [|constructor]. cbn [In] in Hb. unfold ws_byte. lia.
  - apply minify_plain, P. reflexivity.
  - apply minify_plain, P. reflexivity.
  - apply minify_plain, P. reflexivity.
  - apply minify_plain, number_plain. exact Hn.
  - cbn [app minify N.eqb Pos.eqb orb]. rewrite <- app_assoc, (minify_body _ cs) by exact Hb. cbn [app minify N.eqb Pos.eqb].
    rewrite <- app_assoc. reflexivity.
Qed.
Theorem minify_spaced ls s : spaced ls s -> minify Outside s = List.concat ls.
Proof.
  induction 1 as [w Hw|w x ls s Hw Hx Hs IH _].
  - rewrite <- (app_nil_r w), minify_ws by exact Hw. reflexivity.
  - rewrite minify_ws, minify_lexeme, IH by assumption. reflexivity.
Qed.
