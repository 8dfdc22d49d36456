(** C94: an error offset is a place where the input can be cut. *)
From Verif Require Import Base Utf8 Utf8Facts StrModel ErrorModel Tokenizer Parser ValueModel DocModel NumModel Spec SpecError
  TokBase TokStr TokNum TokFacts ParserGen ParseMain ErrTok View PropTok PropDelegate.
Local Open Scope N_scope.

(** * Specification *)

(** [std::str::from_utf8(&s[..o])] is Ok. *)
Definition text_before (s : list N) (o : nat) : Prop := exists a b, s = a ++ b /\ length a = o /\ is_utf8 a.
(** [s.is_char_boundary(o)]: neither [&s[..o]] nor [&s[o..]] panics. *)
Definition char_boundary (s : list N) (o : nat) : Prop := exists a b, s = a ++ b /\ length a = o /\ is_utf8 a /\ is_utf8 b.

(** * Proofs *)
Definition cut (s : list N) (o : nat) : Prop := exists a b, s = a ++ b /\ length a = o /\ utf8_valid a = true.

Lemma cut_text s o : cut s o -> text_before s o.
Proof. intros (a & b & E & L & V). exists a, b. split; [exact E|]. split; [exact L|]. apply utf8_valid_iff. exact V. Qed.
Lemma cut_boundary s o : is_utf8 s -> cut s o -> char_boundary s o.
Proof.
  intros H (a & b & -> & L & V). exists a, b. split; [reflexivity|]. split; [exact L|]. split; [apply utf8_valid_iff; exact V|].
  apply utf8_valid_iff. apply utf8_valid_iff in H. rewrite utf8_valid_app in H by exact V. exact H.
Qed.
Lemma cut_here a b : utf8_valid a = true -> cut (a ++ b) (length a).
Proof. intro V. exists a, b. auto. Qed.
Lemma cut_0 s : cut s 0.
Proof. exists [], s. auto. Qed.
Lemma cut_app p s o : utf8_valid p = true -> cut s o -> cut (p ++ s) (length p + o).
Proof.
  intros V (a & b & -> & L & W). exists (p ++ a), b. split; [apply app_assoc|]. split; [rewrite app_length; lia|]. apply valid_app; assumption.
Qed.
Lemma cut_cons c s o : c < 128 -> cut s o -> cut (c :: s) (1 + o).
Proof. intros H K. apply (cut_app [c]); [|exact K]. apply utf8_valid_ascii. repeat constructor. exact H. Qed.
Lemma cut_end s : utf8_valid s = true -> cut s (length s).
Proof. intro V. exists s, []. rewrite app_nil_r. auto. Qed.

Lemma is_hex_ascii h : Forall is_hex h -> utf8_valid h = true.
Proof. intro H. apply utf8_valid_ascii. eapply Forall_impl; [|exact H]. intros c K. unfold is_hex, digit in K. lia. Qed.

Lemma hex_cut n x m k : hex_error n x m k -> cut x m.
Proof. intros [h H _|h c y H _ _]; [apply cut_end|apply cut_here]; apply is_hex_ascii; exact H. Qed.

Lemma second_cut h v x n k : hex4 h v -> second_half_error x n k -> cut (117 :: h ++ x) n.
Proof.
  intros Hh H. pose proof (utf8_valid_ascii _ (hex4_ascii _ _ Hh)) as V. assert (L : length h = 4%nat) by (destruct Hh; reflexivity).
  destruct H as [|c y Hc| |c y Hc|y m k Hy|g u y Hg Hu]; try apply cut_0.
  - replace 5%nat with (1 + (length h + 0))%nat by lia. apply cut_cons; [lia|]. apply cut_app; [exact V|apply cut_0].
  - replace 6%nat with (1 + (length h + (1 + 0)))%nat by lia. apply cut_cons; [lia|]. apply cut_app; [exact V|]. apply cut_cons; [lia|apply cut_0].
  - replace (7 + m)%nat with (1 + (length h + (1 + (1 + m))))%nat by lia. apply cut_cons; [lia|]. apply cut_app; [exact V|].
    apply cut_cons; [lia|]. apply cut_cons; [lia|]. eapply hex_cut. exact Hy.
Qed.

Lemma escape_cut x n k : escape_error x n k -> cut x n.
Proof.
  intros [|c y H|y m j H|h v y H1 H2|h v y m j H1 _ H2]; try apply cut_0.
  - apply cut_cons; [lia|]. eapply hex_cut. exact H.
  - eapply second_cut; eassumption.
Qed.

Lemma string_cut x n k : string_error x n k -> cut x n.
Proof.
  intros [b cs H|b cs c y H Hc|b cs y m j H He|b cs h y H _ _ _ _ _]; pose proof (str_body_valid _ _ H) as V.
  - apply cut_end. exact V.
  - apply cut_here. exact V.
  - rewrite <- Nat.add_assoc. apply cut_app; [exact V|]. apply cut_cons; [lia|]. eapply escape_cut. exact He.
  - apply cut_here. exact V.
Qed.

Lemma num_minus_ascii m : num_minus m -> Forall (fun c => c < 128) m.
Proof. intros [->| ->]; repeat constructor. Qed.

Lemma minus_int_valid m i : num_minus m -> num_int i -> utf8_valid (m ++ i) = true.
Proof.
  intros Hm Hi. apply utf8_valid_ascii, number_ascii. exists m, i, [], [].
  split; [exact Hm|]. split; [exact Hi|]. split; [left; reflexivity|]. split; [left; reflexivity|]. rewrite !app_nil_r; reflexivity.
Qed.
Lemma minus_int_frac_valid m i f : num_minus m -> num_int i -> num_frac f -> utf8_valid (m ++ i ++ f) = true.
Proof.
  intros Hm Hi Hf. apply utf8_valid_ascii, number_ascii. exists m, i, f, [].
  split; [exact Hm|]. split; [exact Hi|]. split; [exact Hf|]. split; [left; reflexivity|]. rewrite !app_nil_r; reflexivity.
Qed.

Lemma number_cut x n k : number_error x n k -> cut x n.
Proof.
  intros [r H|m i r Hm Hi H|m i f e sg r Hm Hi Hf He Hs H].
  - apply (cut_here [45]). reflexivity.
  - rewrite app_assoc. apply cut_app; [apply minus_int_valid; assumption|]. apply (cut_here [46]). reflexivity.
  - replace (m ++ i ++ f ++ e :: sg ++ r) with ((m ++ i ++ f) ++ (e :: sg) ++ r) by (rewrite <- !app_assoc; reflexivity).
    replace (length (m ++ i ++ f) + 1 + length sg)%nat with (length (m ++ i ++ f) + length (e :: sg))%nat by (cbn [length]; lia).
    apply cut_app; [apply minus_int_frac_valid; assumption|].
    apply cut_here. apply utf8_valid_ascii. constructor; [lia|]. destruct Hs as [->|[->|[-> _]]]; repeat constructor.
Qed.

Lemma literal_cut lit x n k : In lit [lit_true; lit_false; lit_null] -> literal_error lit x n k -> cut x n.
Proof.
  intros Hl H. assert (K : forall p c q, lit = p ++ c :: q -> utf8_valid p = true).
  { intros p c q E. apply utf8_valid_ascii. assert (A : Forall (fun c => c < 128) lit).
    { destruct Hl as [<-|[<-|[<-|[]]]]; repeat constructor. }
    rewrite E in A. apply Forall_app in A. apply A. }
  destruct H as [p c q E _|p c q b y E _ _]; [apply cut_end|apply cut_here]; eapply K; exact E.
Qed.

Lemma token_cut x n k : token_error x n k -> cut x n.
Proof.
  intros [y m j H|y m j H|lit y m j Hl H|b y _ _].
  - apply cut_cons; [lia|]. eapply string_cut. exact H.
  - eapply number_cut. exact H.
  - eapply literal_cut; eassumption.
  - apply cut_0.
Qed.

Lemma next_cut x n k : next_error x n k -> cut x n.
Proof.
  intros [w Hw|w y m j Hw H]; [apply cut_end, ws_valid, Hw|]. apply cut_app; [apply ws_valid, Hw|]. eapply token_cut. exact H.
Qed.

Lemma token_text_valid pw tk x : token_text pw tk x -> utf8_valid x = true.
Proof.
  intro H. apply token_text_spelled in H. inversion H as [| | | | | | | | |str cs H1 H2|num H1]; subst; try reflexivity.
  - apply valid_app; [reflexivity|]. apply valid_app; [eapply str_body_valid; exact H2|reflexivity].
  - apply utf8_valid_ascii, number_ascii. exact H1.
Qed.

(** The tokenizer at a cut. *)
Lemma next_at_cut g pw s n : good g pw s -> cut s n ->
  match next_or_eof g pw (BI s n) with
  | (Ok _, it') => exists n', it' = BI s n' /\ cut s n'
  | (Err e, _) => cut s (err_offset e)
  | (Fault _, _) => False
  end.
Proof.
  intros Hg (a & b & -> & <- & V). change (BI (a ++ b) (length a)) with (mk a b).
  pose proof (next_or_eof_spec g pw a b Hg) as H. pose proof (next_raises g pw a b Hg) as R.
  destruct (next_or_eof g pw (mk a b)) as [[tk|e|f] it'].
  - destruct H as (w & x & r' & -> & Hw & Ht & -> & _). exists (length (a ++ w ++ x)). split.
    + unfold mk. rewrite <- !app_assoc. reflexivity.
    + replace (a ++ w ++ x ++ r') with ((a ++ w ++ x) ++ r') by (rewrite <- !app_assoc; reflexivity). apply cut_here.
      apply valid_app; [exact V|]. apply valid_app; [apply ws_valid, Hw|eapply token_text_valid; exact Ht].
  - destruct (R e it' eq_refl) as (m & k & Hm & ->). apply cut_app; [exact V|]. eapply next_cut. exact Hm.
  - exact H.
Qed.

Lemma skip_at_cut s n : cut s n -> exists n', skip_ws (BI s n) = BI s n' /\ cut s n' /\
  forall b, nth_error s n' = Some b -> b < 128 -> cut s (n' + 1).
Proof.
  intros (a & b & -> & <- & V). change (BI (a ++ b) (length a)) with (mk a b). rewrite skip_ws_mk.
  pose proof (take_drop is_ws b) as E. pose proof (ws_take b) as Hw.
  set (w := take_while is_ws b) in *. set (d := drop_while is_ws b) in *. clearbody w d. subst b.
  exists (length (a ++ w)). split; [unfold mk; rewrite <- app_assoc; reflexivity|].
  rewrite app_assoc. assert (V' : utf8_valid (a ++ w) = true) by (apply valid_app; [exact V|apply ws_valid, Hw]).
  split; [apply cut_here; exact V'|]. intros c Hc Hb. rewrite nth_error_app2, Nat.sub_diag in Hc by lia. destruct d as [|c' d]; [discriminate|].
  cbn in Hc. injection Hc as ->. apply cut_app; [exact V'|]. apply (cut_cons c d 0); [exact Hb|apply cut_0].
Qed.

Section Cut.
  Variables (g : bool) (pw : pwidth) (cfg : parse_config) (D : delegate) (source : list N).
  Hypothesis Hgood : good g pw source.

  Definition stands (s : pstate D) : Prop := exists n, ps_iter s = BI source n /\ cut source n.

  (** From a cut, [m] ends at a cut; errors are at cuts. *)
  Definition B {A} (m : pm D A) (Q : A -> Prop) : Prop := forall s, stands s ->
    match m s with
    | (Ok a, s') => stands s' /\ Q a
    | (Err e, _) => cut source (err_offset e)
    | _ => True
    end.

  Definition any {A : Type} (a : A) : Prop := True.

  Lemma B_bind {A C} (m : pm D A) (k : A -> pm D C) R Q : B m R -> (forall a, R a -> B (k a) Q) -> B (pbind D m k) Q.
  Proof.
    intros Hm Hk s Hs. unfold pbind. specialize (Hm s Hs). destruct (m s) as [[a|e|f] s']; [|exact Hm|exact I].
    destruct Hm as [Hs' Ha]. apply Hk; assumption.
  Qed.
  Lemma B_ret {A} (a : A) (Q : A -> Prop) : Q a -> B (pret D a) Q.
  Proof. intros H s Hs. cbn. auto. Qed.
  Lemma B_err {A} o k (Q : A -> Prop) : cut source o -> B (@perr D A o k) Q.
  Proof. intros H s Hs. exact H. Qed.
  Lemma B_offset : B (p_offset D) (cut source).
  Proof. intros s (n & E & H). cbn. rewrite E. split; [exists n; auto|exact H]. Qed.
  Lemma B_tok conv : (forall e, err_offset (conv e) = err_offset e) -> B (p_tok_err D conv (next_or_eof g pw)) any.
  Proof.
    intros Hc s (n & E & H). unfold p_tok_err. rewrite E. pose proof (next_at_cut g pw source n Hgood H) as K.
    destruct (next_or_eof g pw (BI source n)) as [[tk|e|f] it']; cbn [map_err]; [|rewrite Hc; exact K|destruct K].
    destruct K as (n' & -> & K). split; [exists n'; auto|exact I].
  Qed.
  Lemma B_del {A} o (m : d_st D -> res (d_error D) A * d_st D) : cut source o -> B (p_del D o m) any.
  Proof.
    intros H s (n & E & K). unfold p_del. destruct (m (ps_del s)) as [[a|e|f] st]; cbn [map_err]; [|exact H|exact I].
    split; [exists n; auto|exact I].
  Qed.
  Lemma B_query {A} (m : d_st D -> res infallible A) : B (p_query D m) any.
  Proof. intros s Hs. unfold p_query. destruct (m (ps_del s)) as [a|[]|f]; [|exact I]. split; [exact Hs|exact I]. Qed.
  Lemma B_map_err {A} k (m : pm D A) Q : B m Q -> B (p_map_err D (eof_to D k) m) Q.
  Proof.
    intros H s Hs. unfold p_map_err. specialize (H s Hs). destruct (m s) as [[a|e|f] s']; cbn [map_err]; [exact H| |exact I].
    unfold eof_to. destruct (err_kind e); exact H.
  Qed.
  Lemma B_begin o : cut source o -> B (begin_nest cfg D o) any.
  Proof.
    intros H s (n & E & K). unfold begin_nest. destruct (recursion_limit cfg); [destruct (0 <? ps_depth s)|]; cbn; try exact H;
      (split; [exists n; auto|exact I]).
  Qed.
  Lemma B_end : B (end_nest cfg D) any.
  Proof. intros s (n & E & K). unfold end_nest. destruct (recursion_limit cfg); cbn; (split; [exists n; auto|exact I]). Qed.
  Lemma B_peek : B (peek_array_end D) any.
  Proof.
    intros s (n & E & K). unfold peek_array_end, tokenizer_peek. rewrite E. destruct (skip_at_cut source n K) as (n' & -> & Hn & H1).
    cbn zeta. unfold bi_peek. cbn [bi_bytes bi_offset]. destruct (nth_error source n') as [b|] eqn:Eb.
    - destruct (peek_kind_of b) eqn:Ep; try solve [split; [exists n'; auto|exact I]].
      split; [|exact I]. exists (n' + 1)%nat. split; [reflexivity|]. apply (H1 b eq_refl).
      destruct (N.ltb_spec b 128) as [L|L]; [exact L|exfalso]. revert Ep. unfold peek_kind_of.
      repeat match goal with |- context [N.eqb b ?d] => destruct (N.eqb_spec b d); [lia|] end.
      intro Ep. repeat match type of Ep with context [if ?c then _ else _] => destruct c end; discriminate Ep.
    - split; [exists n'; auto|exact I].
  Qed.
  Lemma B_trailing : B (check_trailing D) any.
  Proof.
    intros s (n & E & K). unfold check_trailing, next_non_ws. rewrite E. destruct (skip_at_cut source n K) as (n' & -> & Hn & H1).
    unfold bi_next. cbn [bi_bytes bi_offset]. destruct (nth_error source n') as [b|] eqn:Eb; cbn; [exact Hn|].
    split; [exists n'; auto|exact I].
  Qed.
  Lemma B_mono {A} (m : pm D A) (Q Q' : A -> Prop) : (forall a, Q a -> Q' a) -> B m Q -> B m Q'.
  Proof. intros H K s Hs. specialize (K s Hs). destruct (m s) as [[a|e|f] s']; [|exact K|exact K]. destruct K; split; auto. Qed.
  Lemma B_fault {A} f (Q : A -> Prop) : B (fun s => (@Fault (error (d_error D)) A f, s)) Q.
  Proof. intros s Hs. exact I. Qed.

  Ltac bs := repeat match goal with
    | |- B (pbind D (p_offset D) _) _ => eapply B_bind; [apply B_offset|intros ? ?]
    | |- B (pbind D (p_tok D _) _) _ => eapply B_bind; [apply B_tok; reflexivity|intros ? _]
    | |- B (pbind D (p_tok_err D _ _) _) _ => eapply B_bind; [apply B_tok; reflexivity|intros ? _]
    | |- B (pbind D (p_query D _) _) _ => eapply B_bind; [apply B_query|intros ? _]
    | |- B (pbind D (p_del D _ _) _) _ => eapply B_bind; [apply B_del; assumption|intros ? _]
    | |- B (pbind D (begin_nest _ _ _) _) _ => eapply B_bind; [apply B_begin; assumption|intros ? _]
    | |- B (pbind D (end_nest _ _) _) _ => eapply B_bind; [apply B_end|intros ? _]
    | |- B (pbind D (peek_array_end _) _) _ => eapply B_bind; [apply B_peek|intros ? _]
    | |- B (p_map_err D (eof_to D _) _) _ => apply B_map_err
    | |- B (perr D _ _) _ => apply B_err; assumption
    | |- B (p_del D _ _) _ => apply B_del; assumption
    | |- B (pret D _) _ => apply B_ret; exact I
    | |- B (match ?t with TkNull => _ | _ => _ end) _ => destruct t
    | |- B (if ?b then _ else _) _ => destruct b
    end.

  Lemma B_ok {A} (c : bool) (q : pm D bool) (k : bool -> pm D A) : B q any -> (forall b, B (k b) any) ->
    B (pbind D (if c then pret D true else q) k) any.
  Proof. intros Hq Hk. eapply B_bind with (R := any); [|intros b _; apply Hk]. destruct c; [apply B_ret; exact I|exact Hq]. Qed.

  Lemma B_object_loop rv : B rv any -> forall k o, B (object_loop g pw cfg D rv k o) any.
  Proof.
    intro Hrv. induction k as [|k IH]; intro o; cbn [object_loop]; [apply B_fault|]. bs.
    - match goal with a : (d_object D * d_key D)%type |- _ => destruct a as [object key] end. bs.
      eapply B_bind; [exact Hrv|intros v _]. bs. apply IH.
    - apply B_ok; [apply B_query|]. intros b. bs.
  Qed.
  Lemma B_array_loop rv : B rv any -> forall k o, B (array_loop g pw cfg D rv k o) any.
  Proof.
    intro Hrv. induction k as [|k IH]; intro o; cbn [array_loop]; [apply B_fault|]. bs.
    - apply B_ok; [apply B_query|]. intros b. bs.
    - eapply B_bind; [exact Hrv|intros v _]. bs. apply IH.
  Qed.
  Lemma B_read_tokens loops : forall fuel, B (read_tokens g pw cfg D loops fuel) any.
  Proof.
    induction fuel as [|fuel IH]; cbn [read_tokens]; [apply B_fault|]. bs.
    - unfold read_object. bs. eapply B_bind; [apply B_object_loop; exact IH|intros ? _]. bs.
    - unfold read_array. bs. eapply B_bind; [apply B_array_loop; exact IH|intros ? _]. bs.
  Qed.
  Lemma B_parse_body loops fuel : B (parse_body g pw cfg D loops fuel) any.
  Proof.
    unfold parse_body. eapply B_bind; [apply B_read_tokens|intros v _].
    eapply B_bind with (R := any).
    - unfold check_root. destruct (negb (allow_all_types_at_root cfg)); [|apply B_ret; exact I]. bs.
      pose proof (cut_0 source). match goal with k : json_kind |- _ => destruct k end; bs.
    - intros _ _. eapply B_bind; [apply B_trailing|intros _ _]. bs.
  Qed.

  Lemma parse_cut st e : fst (parse_bytes g pw cfg D source st) = Err e -> cut source (err_offset e).
  Proof.
    unfold parse_bytes. pose proof (B_parse_body (S (length source)) (S (length source)) (parse_state pw cfg D source st)) as K.
    destruct (parse_body g pw cfg D (S (length source)) (S (length source)) (parse_state pw cfg D source st)) as [[v|e'|f] s]; cbn [fst]; intro E; try discriminate E.
    injection E as <-. apply K. exists 0%nat. split; [reflexivity|apply cut_0].
  Qed.
End Cut.

(** * C94: parsing *)

(** Whatever the input, the configuration and the delegate (truthful or not): the input before the
    reported offset is UTF-8. *)
Theorem C94_input_before_an_error_is_text pw cfg D s st e : rust_slice pw s ->
  fst (parse_json_bytes_with_config pw D s cfg st) = Err e -> text_before s (err_offset e).
Proof. intros H E. apply cut_text. eapply parse_cut; [apply rust_slice_good; exact H|exact E]. Qed.

(** For a [&str] the offset is a char boundary. *)
Theorem C94_str_errors_at_char_boundaries pw cfg D s st e : rust_str pw s ->
  fst (parse_json_with_config pw D s cfg st) = Err e -> char_boundary s (err_offset e).
Proof. intros H E. apply cut_boundary; [apply H|]. eapply parse_cut; [apply rust_str_good; exact H|exact E]. Qed.

Definition errors_at (P : list N -> nat -> Prop) {A} (s : list N) (r : res (error infallible) A) : Prop :=
  forall e, r = Err e -> P s (err_offset e).

Lemma document_cut g pw cfg cap s : good g pw s -> forall e,
  document_of (parse_bytes g pw cfg (nodes_delegate cap) s []) = Err e -> cut s (err_offset e).
Proof.
  intros H e E. pose proof (parse_cut g pw cfg (nodes_delegate cap) s H []) as K.
  destruct (parse_bytes g pw cfg (nodes_delegate cap) s []) as [[n|e'|f] st]; cbn [document_of] in E; try discriminate E.
  injection E as <-. exact (K e' eq_refl).
Qed.

Theorem C94_all_entry_points_bytes pw cfg cap s : rust_slice pw s ->
  errors_at text_before s (value_from_json_bytes_with_config pw s cfg) /\
  errors_at text_before s (document_from_json_bytes_with_config pw cap s cfg) /\
  errors_at text_before s (validate_json_bytes_with_config pw s cfg).
Proof.
  intro H. pose proof (rust_slice_good _ _ H) as G. split; [|split]; intros e E; apply cut_text.
  - eapply (parse_cut false pw cfg value_delegate); [exact G|exact E].
  - eapply (document_cut false); [exact G|exact E].
  - eapply (parse_cut false pw cfg unit_delegate); [exact G|exact E].
Qed.

Theorem C94_all_entry_points_str pw cfg cap s : rust_str pw s ->
  errors_at char_boundary s (value_from_json_with_config pw s cfg) /\
  errors_at char_boundary s (document_from_json_with_config pw cap s cfg) /\
  errors_at char_boundary s (validate_json_with_config pw s cfg) /\
  errors_at char_boundary s (string_from_json pw s) /\
  errors_at char_boundary s (number_from_json pw s).
Proof.
  intro H. pose proof (rust_str_good _ _ H) as G.
  assert (X : forall (D : delegate) (conv : error (d_error D) -> error infallible) st, (forall e, err_offset (conv e) = err_offset e) ->
    errors_at char_boundary s (map_err conv (fst (parse_json pw D s st)))).
  { intros D conv st Hc e E. destruct (fst (parse_json pw D s st)) as [v|e'|f] eqn:E'; try discriminate E. injection E as <-. rewrite Hc.
    apply (C94_str_errors_at_char_boundaries pw config_default D s st e' H E'). }
  split; [|split; [|split; [|split]]].
  - intros e E. apply cut_boundary; [apply H|]. eapply (parse_cut true pw cfg value_delegate); [exact G|exact E].
  - intros e E. apply cut_boundary; [apply H|]. eapply (document_cut true); [exact G|exact E].
  - intros e E. apply cut_boundary; [apply H|]. eapply (parse_cut true pw cfg unit_delegate); [exact G|exact E].
  - apply (X string_delegate into_infallable tt). reflexivity.
  - apply (X number_delegate into_infallable tt). reflexivity.
Qed.

(** * C94: the tokenizer, up to and including its first error *)
Definition no_error (o : tok_obs) : Prop :=
  match o with ObsNext (Some (Err _)) _ | ObsNextOrEof (Err _) _ => False | _ => True end.

Lemma next_vs_or_eof g pw it : tokenizer_next g pw it = (None, skip_ws it) \/
  tokenizer_next g pw it = (Some (fst (next_or_eof g pw it)), snd (next_or_eof g pw it)).
Proof.
  unfold tokenizer_next, next_or_eof, next_non_ws, read_non_ws, bi_next, bi_read. generalize (skip_ws it) as i. intro i. unfold bi_next, bi_peek.
  destruct (nth_error (bi_bytes i) (bi_offset i)) as [b|]; [right|left; reflexivity].
  destruct (read_peek g pw (bi_offset i) b (BI (bi_bytes i) (bi_offset i + 1))); reflexivity.
Qed.

Lemma step_cut g pw s n c : good g pw s -> cut s n ->
  match tok_step g pw (BI s n) c with
  | (ObsNext (Some (Err e)) _, _) | (ObsNextOrEof (Err e) _, _) => cut s (err_offset e)
  | (ObsNext (Some (Fault _)) _, _) | (ObsNextOrEof (Fault _) _, _) => False
  | (_, it') => exists n', it' = BI s n' /\ cut s n'
  end.
Proof.
  intros Hg Hn. destruct (skip_at_cut s n Hn) as (n' & E & H1 & _). pose proof (next_at_cut g pw s n Hg Hn) as K. destruct c; unfold tok_step.
  - destruct (next_vs_or_eof g pw (BI s n)) as [->| ->]; [exists n'; auto|].
    destruct (next_or_eof g pw (BI s n)) as [[tk|e|f] it']; exact K.
  - destruct (next_or_eof g pw (BI s n)) as [[tk|e|f] it']; exact K.
  - unfold tokenizer_peek. rewrite E. cbv zeta. destruct (bi_peek (BI s n')); exists n'; auto.
Qed.

Lemma run_cut g pw s : good g pw s -> forall calls n, cut s n -> Forall no_error (fst (tok_run g pw (BI s n) calls)) ->
  exists n', snd (tok_run g pw (BI s n) calls) = BI s n' /\ cut s n'.
Proof.
  intro Hg. induction calls as [|c calls IH]; intros n Hn Hq; cbn [tok_run] in *; [exists n; auto|].
  pose proof (step_cut g pw s n c Hg Hn) as K. destruct (tok_step g pw (BI s n) c) as [o it1].
  destruct (tok_run g pw it1 calls) as [os it2] eqn:E. cbn [fst snd] in *.
  apply Forall_cons_iff in Hq as [Ho Hq].
  assert (X : exists n', it1 = BI s n' /\ cut s n') by (destruct o as [[[tk|e|f]|] m|[tk|e|f] m|k m]; try exact K; destruct Ho + destruct K).
  destruct X as (n' & -> & Hn'). specialize (IH n' Hn'). rewrite E in IH. exact (IH Hq).
Qed.

Definition obs_error (o : tok_obs) : option (error infallible) :=
  match o with ObsNext (Some (Err e)) _ | ObsNextOrEof (Err e) _ => Some e | _ => None end.

(** As long as no call has returned an error, [offset()] stands behind UTF-8 text, and so does the
    first error; over a [&str] these are char boundaries. *)
Theorem C94_tokenizer_until_first_error utf8 pw s calls c : input_ok utf8 pw s ->
  Forall (fun o => obs_error o = None) (fst (tok_run utf8 pw (tokenizer_new s) calls)) ->
  let it := snd (tok_run utf8 pw (tokenizer_new s) calls) in
  (text_before s (tokenizer_offset it) /\ (is_utf8 s -> char_boundary s (tokenizer_offset it))) /\
  forall e, obs_error (fst (tok_step utf8 pw it c)) = Some e ->
    text_before s (err_offset e) /\ (is_utf8 s -> char_boundary s (err_offset e)).
Proof.
  intros H Hq it. apply input_good in H.
  destruct (run_cut utf8 pw s H calls 0 (cut_0 s)) as (n & E & Hn).
  { eapply Forall_impl; [|exact Hq]. intros [[[tk|e|f]|] m|[tk|e|f] m|k m]; cbn; auto; discriminate. }
  change (it = BI s n) in E. clearbody it. subst it. split.
  - split; [apply cut_text; exact Hn|intro U; apply cut_boundary; assumption].
  - intros e Ee. pose proof (step_cut utf8 pw s n c H Hn) as K.
    assert (X : cut s (err_offset e)).
    { destruct (tok_step utf8 pw (BI s n) c) as [[[[tk|e'|f]|] m|[tk|e'|f] m|k m] it']; cbn [fst obs_error] in Ee; try discriminate Ee;
        injection Ee as <-; exact K. }
    split; [apply cut_text; exact X|intro U; apply cut_boundary; assumption].
Qed.

(** * Samples *)
(** Errors behind multi-byte characters: a bad escape, a bad literal, a bad key, trailing text. *)
Definition e_acute := utf8_encode 0xE9.
Definition smile := utf8_encode 0x1F600.
Example sample_boundary : Forall (fun x => rust_str W64 (fst x) /\
    exists k, value_from_json W64 (fst x) = Err (Error (snd x) k) /\ char_boundary (fst x) (snd x))
  [(bs "[""" ++ smile ++ bs "\" ++ e_acute ++ bs """]", 7%nat); (bs "{""" ++ e_acute ++ bs """:tr" ++ smile, 8%nat);
   (bs "{""" ++ e_acute ++ bs """" ++ smile, 5%nat); (bs """" ++ smile ++ bs """ " ++ e_acute, 7%nat)].
Proof.
  assert (X : forall s o k, utf8_valid s = true -> N.of_nat (length s) <= isize_max W64 -> value_from_json W64 s = Err (Error o k) ->
    rust_str W64 s /\ exists k, value_from_json W64 s = Err (Error o k) /\ char_boundary s o).
  { intros s o k V L E. assert (H : rust_str W64 s) by (split; [apply utf8_valid_iff; exact V|exact L]). split; [exact H|].
    exists k. split; [exact E|]. exact (proj1 (C94_all_entry_points_str W64 config_default None s H) _ E). }
  repeat (apply Forall_cons; [eapply X; [vm_compute; reflexivity|vm_compute; discriminate|vm_compute; reflexivity]|]). apply Forall_nil.
Qed.

(** After its first error a tokenizer may stand inside a character: over a lone U+00E9 the second error is at offset 1. *)
Example after_an_error : let s := e_acute in
  fst (tok_run true W64 (tokenizer_new s) [CallNext; CallNext]) =
    [ObsNext (Some (Err (Error 0 (KUnexpected 195)))) 1; ObsNext (Some (Err (Error 1 (KUnexpected 169)))) 2] /\
  ~ text_before s 1.
Proof.
  split; [vm_compute; reflexivity|]. intros (a & b & E & L & U). apply utf8_valid_iff in U. destruct a as [|x [|y a]]; try discriminate L.
  vm_compute in E. injection E as <- _. vm_compute in U. discriminate U.
Qed.
