(** Property theorem C80: what a delegate is told does not depend on what comes later. *)
From Verif Require Import Base Utf8 Utf8Facts StrModel ErrorModel Tokenizer Parser ValueModel DocModel Spec TokBase TokStr TokNum TokFacts ParserGen Trace View PropDelegate ParseMain PropEsc PropTok.

Definition ends_in_digit (p : list N) : Prop := exists q d, p = q ++ [d] /\ digit d.

(** * The tokenizer on an input and on a longer one *)
Lemma not_digit_head_app a b : a <> [] -> not_digit_head a -> not_digit_head (a ++ b).
Proof. destruct a; [congruence|]. intros _ H. exact H. Qed.
Lemma num_token_longer t r y : r <> [] -> num_token t r -> num_token t (r ++ y).
Proof.
  intros Hr [m i f e E Hm Hi Hf He]. exists m i f e; auto.
  - destruct Hi as [Hi|[Hi Hd]]; [left; exact Hi|right; split; [exact Hi|]]. rewrite !app_assoc in *.
    apply not_digit_head_app; [|exact Hd]. destruct (f ++ e); [exact Hr|discriminate].
  - destruct Hf as [[Hf Hd]|[Hf Hd]]; [left; split; [exact Hf|]|right; split; [exact Hf|]]; rewrite app_assoc.
    + destruct (e ++ r) as [|b z] eqn:K; [|exact Hd]. apply app_eq_nil in K. destruct K. contradiction.
    + apply not_digit_head_app; [|exact Hd]. intro K. apply app_eq_nil in K. destruct K. contradiction.
  - destruct He as [[He Hd]|[He Hd]]; [left; split; [exact He|]|right; split; [exact He|]].
    + destruct r as [|b z]; [contradiction|exact Hd].
    + apply not_digit_head_app; assumption.
Qed.
Lemma digits_end_in_digit q ds : digits ds -> ends_in_digit (q ++ ds).
Proof.
  intros [Hn H]. destruct (exists_last Hn) as (l & d & ->). apply Forall_app in H. destruct H as [_ H]. inversion H; subst.
  exists (q ++ l), d. rewrite app_assoc. auto.
Qed.
Lemma number_ends_in_digit q t : number t -> ends_in_digit (q ++ t).
Proof.
  intros (m & i & f & e & Hm & Hi & Hf & He & ->).
  assert (Di : digits i).
  { destruct Hi as [->|(d & r & Hd & Hr & ->)]; (split; [discriminate|]); constructor; auto; unfold digit; lia. }
  destruct He as [->|(e0 & sg & ds & _ & _ & Hd & ->)].
  - rewrite app_nil_r. destruct Hf as [->|(ds & Hd & ->)].
    + rewrite app_nil_r, app_assoc. apply digits_end_in_digit, Di.
    + replace (q ++ m ++ i ++ 46%N :: ds) with ((q ++ m ++ i ++ [46%N]) ++ ds) by (rewrite <- !app_assoc; reflexivity).
      apply digits_end_in_digit, Hd.
  - replace (q ++ m ++ i ++ f ++ e0 :: sg ++ ds) with ((q ++ m ++ i ++ f ++ e0 :: sg) ++ ds) by (rewrite <- !app_assoc; reflexivity).
    apply digits_end_in_digit, Hd.
Qed.

Lemma next_longer g pw p y n tk it' : good g pw p -> good g pw (p ++ y) -> ~ ends_in_digit p -> (n <= length p)%nat ->
  next_or_eof g pw (BI p n) = (Ok tk, it') ->
  exists n', (n' <= length p)%nat /\ it' = BI p n' /\ next_or_eof g pw (BI (p ++ y) n) = (Ok tk, BI (p ++ y) n').
Proof.
  intros Hg Hg2 Hd Hn E. rewrite (BI_mk p n Hn) in E.
  assert (Hg' : good g pw (firstn n p ++ skipn n p)) by (rewrite firstn_skipn; exact Hg).
  pose proof (next_or_eof_spec g pw _ _ Hg') as H. rewrite E in H. destruct H as (w & x & r & Er & Hw & Ht & -> & Hst).
  assert (Ep : p = firstn n p ++ w ++ x ++ r) by (rewrite <- Er, firstn_skipn; reflexivity).
  set (a := firstn n p) in *. assert (La : length a = n) by (unfold a; rewrite firstn_length; lia). clearbody a. subst n.
  exists (length a + length (w ++ x))%nat. subst p.
  assert (Hst2 : token_stop tk x (r ++ y)).
  { unfold token_stop in *. destruct tk; cbn [token_is_number] in *; auto. apply num_token_longer; [|exact Hst].
    intros ->. apply Hd. rewrite app_nil_r, app_assoc. apply number_ends_in_digit. apply num_token_number in Hst. exact Hst. }
  split; [rewrite !app_length; lia|]. split.
  - rewrite mk_BI, <- !app_assoc. reflexivity.
  - rewrite <- !app_assoc in Hg2. pose proof (next_or_eof_complete g pw a w x tk (r ++ y) Hg2 Hw Ht Hst2) as K.
    unfold mk in K. rewrite <- !app_assoc in *. rewrite K. f_equal. f_equal. rewrite !app_length. reflexivity.
Qed.

Lemma skip_longer p y n : (n <= length p)%nat -> exists n', (n <= n' <= length p)%nat /\ skip_ws (BI p n) = BI p n' /\
  ((n' < length p)%nat -> skip_ws (BI (p ++ y) n) = BI (p ++ y) n').
Proof.
  intro H. destruct (skip_ws_pos p n H) as (n' & Hn' & E). exists n'. split; [exact Hn'|]. split; [exact E|]. intro L.
  unfold skip_ws, bi_rest in *. cbn [bi_bytes bi_offset] in *. rewrite skip_ws_loop_spec in *. injection E as E. f_equal.
  rewrite skipn_app. replace (n - length p)%nat with 0%nat by lia. cbn [skipn].
  assert (K : take_while is_ws (skipn n p ++ y) = take_while is_ws (skipn n p)); [|rewrite K; exact E].
  assert (Hd : drop_while is_ws (skipn n p) <> []).
  { intro K. pose proof (take_drop is_ws (skipn n p)) as T. rewrite K, app_nil_r in T. apply (f_equal (@length N)) in T.
    rewrite skipn_length in T. lia. }
  clear - Hd. revert Hd. generalize (skipn n p). intros l0 Hd. induction l0 as [|b l IH]; [cbn in Hd; congruence|]. cbn [app take_while drop_while] in *. destruct (is_ws b); [|reflexivity].
  rewrite IH by exact Hd. reflexivity.
Qed.

Lemma prefix_refl {A} (l : list A) : prefix_of l l.
Proof. exists []. rewrite app_nil_r. reflexivity. Qed.
Lemma prefix_trans {A} (a b c : list A) : prefix_of a b -> prefix_of b c -> prefix_of a c.
Proof. intros (x & ->) (z & ->). exists (x ++ z). rewrite app_assoc. reflexivity. Qed.

(** * Two runs *)
Section Causal.
  Variables (g : bool) (pw : pwidth) (cfg : parse_config) (D : delegate) (p y : list N).
  Hypothesis Hgood : good g pw p.
  Hypothesis Hgood2 : good g pw (p ++ y).
  Hypothesis Hdigit : ~ ends_in_digit p.
  Notation R := (recording D).

  Definition log_of (s : pstate R) : list event := snd (ps_del s).
  Definition grows {A} (m : pm R A) : Prop := forall s, prefix_of (log_of s) (log_of (snd (m s))).
  Definition ext (s1 s2 : pstate R) : Prop :=
    exists n, (n <= length p)%nat /\ ps_iter s1 = BI p n /\ ps_iter s2 = BI (p ++ y) n /\ ps_del s1 = ps_del s2 /\ ps_depth s1 = ps_depth s2.
  Definition not_del {E} (e : error E) : Prop := forall d, err_kind e <> KErrorFromDelegate d.
  Definition cut {A} (m1 m2 : pm R A) : Prop := forall s1 s2, ext s1 s2 ->
    match m1 s1 with
    | (Ok a, t1) => exists t2, m2 s2 = (Ok a, t2) /\ ext t1 t2
    | (Err e, t1) => (exists t2, m2 s2 = (Err e, t2) /\ ps_del t1 = ps_del t2) \/ (not_del e /\ prefix_of (log_of t1) (log_of (snd (m2 s2))))
    | (Fault _, t1) => prefix_of (log_of t1) (log_of (snd (m2 s2)))
    end.

  Lemma gr_bind {A B} (m : pm R A) (k : A -> pm R B) : grows m -> (forall a, grows (k a)) -> grows (pbind R m k).
  Proof.
    intros Hm Hk s. specialize (Hm s). unfold pbind. destruct (m s) as [[a|e|f] s1]; cbn [snd] in *; [|exact Hm..].
    eapply prefix_trans; [exact Hm|apply Hk].
  Qed.
  Lemma gr_del {A} o ev (call : d_st D -> res (d_error D) A * d_st D) : grows (p_del R o (fun st => note ev (snd st) (call (fst st)))).
  Proof.
    intros s. unfold p_del, note, log_of. destruct (ps_del s) as [st log]. cbn [fst snd]. destruct (call st). cbn [fst snd ps_del]. eexists. reflexivity.
  Qed.
  Lemma gr_same {A} (m : pm R A) : (forall s, ps_del (snd (m s)) = ps_del s) -> grows m.
  Proof. intros H s. unfold log_of. rewrite H. apply prefix_refl. Qed.
  Lemma gr_map_err {A} f (m : pm R A) : grows m -> grows (p_map_err R f m).
  Proof. intros H s. specialize (H s). unfold p_map_err. destruct (m s). exact H. Qed.
  Lemma gr_offset : grows (p_offset R). Proof. apply gr_same. reflexivity. Qed.
  Lemma gr_ret {A} (a : A) : grows (pret R a). Proof. apply gr_same. reflexivity. Qed.
  Lemma gr_err {A} o k : grows (@perr R A o k). Proof. apply gr_same. reflexivity. Qed.
  Lemma gr_fault {A} f : grows (A := A) (fun s => (Fault f, s)). Proof. apply gr_same. reflexivity. Qed.
  Lemma gr_tok {A} c (m : tok A) : grows (p_tok_err R c m). Proof. apply gr_same. intro s. unfold p_tok_err. destruct (m (ps_iter s)). reflexivity. Qed.
  Lemma gr_query {A} (m : d_st R -> res infallible A) : grows (p_query R m). Proof. apply gr_same. reflexivity. Qed.
  Lemma gr_begin o : grows (begin_nest cfg R o).
  Proof. apply gr_same. intro s. unfold begin_nest. destruct (recursion_limit cfg); [destruct (0 <? ps_depth s)%N|]; reflexivity. Qed.
  Lemma gr_end : grows (end_nest cfg R).
  Proof. apply gr_same. intro s. unfold end_nest. destruct (recursion_limit cfg); reflexivity. Qed.
  Lemma gr_peek : grows (peek_array_end R).
  Proof. apply gr_same. intro s. unfold peek_array_end. destruct (tokenizer_peek (ps_iter s)) as [o it]. destruct o as [[]|]; reflexivity. Qed.

  Lemma cut_bind {A B} (m1 m2 : pm R A) (k1 k2 : A -> pm R B) : cut m1 m2 -> (forall a, cut (k1 a) (k2 a)) -> (forall a, grows (k2 a)) ->
    cut (pbind R m1 k1) (pbind R m2 k2).
  Proof.
    intros Hm Hk Hg s1 s2 Hs. specialize (Hm s1 s2 Hs). unfold pbind.
    assert (L : prefix_of (log_of (snd (m2 s2))) (log_of (snd (match m2 s2 with (Ok a, s') => k2 a s' | (Err e, s') => (Err e, s') | (Fault f, s') => (Fault f, s') end)))).
    { destruct (m2 s2) as [[a|e|f] t2]; cbn [snd]; [apply Hg|apply prefix_refl..]. }
    destruct (m1 s1) as [[a|e|f] t1].
    - destruct Hm as (t2 & E & Ht). rewrite E. exact (Hk a t1 t2 Ht).
    - destruct Hm as [(t2 & -> & Ht)|[He Hm]]; [left; eauto|right]. split; [exact He|]. eapply prefix_trans; [exact Hm|exact L].
    - eapply prefix_trans; [exact Hm|exact L].
  Qed.
  Lemma cut_ret {A} (a : A) : cut (pret R a) (pret R a).
  Proof. intros s1 s2 Hs. exists s2. auto. Qed.
  Lemma cut_err {A} o k : cut (@perr R A o k) (perr R o k).
  Proof. intros s1 s2 (n & _ & _ & _ & Hd & _). left. exists s2. auto. Qed.
  Lemma cut_fault {A} f (m2 : pm R A) : grows m2 -> cut (fun s => (Fault f, s)) m2.
  Proof. intros Hm s1 s2 (n & _ & _ & _ & Hd & _). unfold log_of at 1. rewrite Hd. apply Hm. Qed.
  Lemma cut_offset : cut (p_offset R) (p_offset R).
  Proof. intros s1 s2 Hs. pose proof Hs as (n & Hn & H1 & H2 & Hd & Hp). unfold p_offset. exists s2. rewrite H1, H2. auto. Qed.
  Lemma into_fallable_not_del e : not_del (into_fallable (D := d_error D) e).
  Proof. intro d. destruct e as [o k]. destruct k as [| | | | | | | | | | | | | | | | | | | | | | | |[]]; discriminate. Qed.
  Lemma cut_tok conv : (forall e, not_del (conv e)) -> cut (p_tok_err R conv (next_or_eof g pw)) (p_tok_err R conv (next_or_eof g pw)).
  Proof.
    intros Hc s1 s2 (n & Hn & H1 & H2 & Hd & Hp). unfold p_tok_err. rewrite H1, H2.
    destruct (next_or_eof g pw (BI p n)) as [[tk|e|f] it'] eqn:E; cbn [map_err].
    - destruct (next_longer g pw p y n tk it' Hgood Hgood2 Hdigit Hn E) as (n' & Hn' & -> & ->). cbn [map_err].
      eexists. split; [reflexivity|]. exists n'. cbn. auto.
    - right. split; [apply Hc|]. destruct (next_or_eof g pw (BI (p ++ y) n)) as [r it2]. cbn. unfold log_of. cbn. rewrite Hd. apply prefix_refl.
    - destruct (next_or_eof g pw (BI (p ++ y) n)) as [r it2]. cbn. unfold log_of. cbn. rewrite Hd. apply prefix_refl.
  Qed.
  Lemma cut_del {A} o (m : d_st R -> res (d_error D) A * d_st R) : cut (p_del R o m) (p_del R o m).
  Proof.
    intros s1 s2 (n & Hn & H1 & H2 & Hd & Hp). unfold p_del. rewrite Hd. destruct (m (ps_del s2)) as [[a|e|f] st]; cbn [map_err].
    - eexists. split; [reflexivity|]. exists n. cbn. auto.
    - left. eexists. split; reflexivity.
    - apply prefix_refl.
  Qed.
  Lemma cut_query {A} (m : d_st R -> res infallible A) : cut (p_query R m) (p_query R m).
  Proof.
    intros s1 s2 Hs. pose proof Hs as (n & Hn & H1 & H2 & Hd & Hp). unfold p_query. rewrite Hd. destruct (m (ps_del s2)) as [a|[]|f].
    - exists s2. auto.
    - cbn. unfold log_of. rewrite Hd. apply prefix_refl.
  Qed.
  Lemma cut_begin o : cut (begin_nest cfg R o) (begin_nest cfg R o).
  Proof.
    intros s1 s2 Hs. pose proof Hs as (n & Hn & H1 & H2 & Hd & Hp). unfold begin_nest. rewrite Hp.
    destruct (recursion_limit cfg); [destruct (0 <? ps_depth s2)%N|].
    - eexists. split; [reflexivity|]. exists n. cbn. auto.
    - left. eexists. split; [reflexivity|exact Hd].
    - exists s2. auto.
  Qed.
  Lemma cut_end : cut (end_nest cfg R) (end_nest cfg R).
  Proof.
    intros s1 s2 Hs. pose proof Hs as (n & Hn & H1 & H2 & Hd & Hp). unfold end_nest. rewrite Hp.
    destruct (recursion_limit cfg); [|exists s2; auto]. eexists. split; [reflexivity|]. exists n. cbn. auto.
  Qed.
  Lemma cut_map_err {A} k (m1 m2 : pm R A) : (forall d, k <> KErrorFromDelegate d) -> cut m1 m2 -> cut (p_map_err R (eof_to R k) m1) (p_map_err R (eof_to R k) m2).
  Proof.
    intros Hk H s1 s2 Hs. specialize (H s1 s2 Hs). unfold p_map_err. destruct (m1 s1) as [[a|e|f] t1]; cbn [map_err].
    - destruct H as (t2 & -> & Ht). eauto.
    - destruct H as [(t2 & -> & Ht)|[He H]]; [left; eauto|right]. split.
      + intro d. unfold eof_to. specialize (He d). destruct e as [o' k']. destruct k'; cbn in *; try exact He; apply Hk.
      + destruct (m2 s2). exact H.
    - destruct (m2 s2). exact H.
  Qed.
  (** At the end of the shorter input, reading a value fails without a callback. *)
  Definition dies {A} (m : pm R A) : Prop := forall s, ps_iter s = BI p (length p) ->
    match m s with (Ok _, _) => False | (Err e, t) => not_del e /\ ps_del t = ps_del s | (Fault _, t) => ps_del t = ps_del s end.
  Lemma dies_bind {A B} (m : pm R A) (k : A -> pm R B) : dies m -> dies (pbind R m k).
  Proof. intros H s Hs. specialize (H s Hs). unfold pbind. destruct (m s) as [[a|e|f] t]; [destruct H|exact H|exact H]. Qed.
  Lemma cut_peek {A} (a1 a2 b1 b2 : pm R A) : cut a1 a2 -> cut b1 b2 -> grows a2 -> grows b2 -> dies b1 ->
    cut (pbind R (peek_array_end R) (fun e => if (e : bool) then a1 else b1)) (pbind R (peek_array_end R) (fun e => if (e : bool) then a2 else b2)).
  Proof.
    intros Ha Hb Ga Gb Db s1 s2 (n & Hn & H1 & H2 & Hd & Hp).
    assert (G2 : grows (pbind R (peek_array_end R) (fun e => if (e : bool) then a2 else b2))) by (apply gr_bind; [apply gr_peek|intros []; assumption]).
    specialize (G2 s2). unfold pbind, peek_array_end at 1, tokenizer_peek at 1. rewrite H1.
    destruct (skip_longer p y n Hn) as (n' & Hn' & E1 & E2). rewrite E1. cbn zeta. unfold bi_peek at 1. cbn [bi_bytes bi_offset].
    destruct (nth_error p n') as [b|] eqn:Eb.
    - assert (L : (n' < length p)%nat) by (apply nth_error_Some; rewrite Eb; discriminate). unfold peek_array_end, tokenizer_peek. rewrite H2, (E2 L).
      cbn zeta. unfold bi_peek. cbn [bi_bytes bi_offset]. rewrite nth_error_app1, Eb by exact L.
      destruct (peek_kind_of b);
        try (apply Hb; exists n'; cbn [ps_iter ps_del ps_depth]; split; [lia|auto]).
      apply Ha. exists (n' + 1)%nat. cbn [ps_iter ps_del ps_depth]. split; [lia|auto].
    - apply nth_error_None in Eb. assert (n' = length p) by lia. subst n'. specialize (Db (PS (D := R) (BI p (length p)) (ps_del s1) (ps_depth s1)) eq_refl).
      destruct (b1 _) as [[v|e|f] t]; cbn [ps_del] in Db; [destruct Db| |].
      + right. split; [apply Db|]. unfold log_of at 1. rewrite (proj2 Db), Hd. exact G2.
      + unfold log_of at 1. rewrite Db, Hd. exact G2.
  Qed.

  Ltac gr := repeat match goal with
    | |- grows (pbind R _ _) => apply gr_bind; [|intro]
    | |- grows (p_offset R) => apply gr_offset
    | |- grows (p_tok R _) => apply gr_tok
    | |- grows (p_tok_err R _ _) => apply gr_tok
    | |- grows (p_del R _ _) => first [apply (gr_del _ _ (fun st => d_null D st))|apply (gr_del _ _ (fun st => d_boolean D st _))|apply (gr_del _ _ (fun st => d_number D st _))|apply (gr_del _ _ (fun st => d_string D st _))
        |apply (gr_del _ _ (fun st => d_begin_object D st))|apply (gr_del _ _ (fun st => d_object_key D st _ _))|apply (gr_del _ _ (fun st => d_object_value D st _ _ _))|apply (gr_del _ _ (fun st => d_end_object D st _))
        |apply (gr_del _ _ (fun st => d_begin_array D st))|apply (gr_del _ _ (fun st => d_array_value D st _ _))|apply (gr_del _ _ (fun st => d_end_array D st _))]
    | |- grows (p_query R _) => apply gr_query
    | |- grows (begin_nest _ _ _) => apply gr_begin
    | |- grows (end_nest _ _) => apply gr_end
    | |- grows (peek_array_end _) => apply gr_peek
    | |- grows (pret _ _) => apply gr_ret
    | |- grows (perr _ _ _) => apply gr_err
    | |- grows (fun s => (Fault _, s)) => apply gr_fault
    | |- grows (p_map_err _ _ _) => apply gr_map_err
    | |- grows (match ?t with TkNull => _ | _ => _ end) => destruct t
    | |- grows (let '(_, _) := ?p in _) => destruct p
    | |- grows (if ?b then _ else _) => destruct b
    end.
  Lemma gr_object_loop rv : grows rv -> forall n o, grows (object_loop g pw cfg R rv n o).
  Proof. intros H. induction n as [|n IH]; intro o; cbn [object_loop]; gr; auto. Qed.
  Lemma gr_array_loop rv : grows rv -> forall n o, grows (array_loop g pw cfg R rv n o).
  Proof. intros H. induction n as [|n IH]; intro o; cbn [array_loop]; gr; auto. Qed.
  Lemma gr_read_tokens loops fuel : grows (read_tokens g pw cfg R loops fuel).
  Proof.
    induction fuel as [|fuel IH]; cbn [read_tokens]; gr; unfold read_object, read_array; gr; [apply gr_object_loop, IH|apply gr_array_loop, IH].
  Qed.

  Lemma dies_read loops fuel : dies (read_tokens g pw cfg R loops fuel).
  Proof.
    destruct fuel as [|fuel]; intros s Hs; cbn [read_tokens]; [reflexivity|].
    unfold pbind, p_offset, p_tok, p_tok_err. rewrite Hs. rewrite BI_mk by lia. rewrite firstn_all, skipn_all, next_or_eof_mk. cbn [take_while drop_while map_err].
    split; [apply into_fallable_not_del|reflexivity].
  Qed.

  Ltac cu := repeat match goal with
    | |- cut (pbind R (peek_array_end _) _) _ => apply cut_peek; [| | | |]
    | |- cut (pbind R _ _) (pbind R _ _) => apply cut_bind; [|intro|intro]
    | |- cut (p_offset R) _ => apply cut_offset
    | |- cut (p_tok R _) _ => apply cut_tok, into_fallable_not_del
    | |- cut (p_tok_err R _ _) _ => apply cut_tok
    | |- cut (p_del R _ _) _ => apply cut_del
    | |- cut (p_query R _) _ => apply cut_query
    | |- cut (begin_nest _ _ _) _ => apply cut_begin
    | |- cut (end_nest _ _) _ => apply cut_end
    | |- cut (pret _ _) _ => apply cut_ret
    | |- cut (perr _ _ _) _ => apply cut_err
    | |- cut (p_map_err _ _ _) _ => apply cut_map_err; [discriminate|]
    | |- cut (match ?t with TkNull => _ | _ => _ end) _ => destruct t
    | |- cut (let '(_, _) := ?p in _) _ => destruct p
    | |- cut (if ?b then _ else _) _ => destruct b
    end.
  Lemma cut_object_loop rv1 rv2 : cut rv1 rv2 -> grows rv2 -> forall n1 n2 o, (n1 <= n2)%nat -> cut (object_loop g pw cfg R rv1 n1 o) (object_loop g pw cfg R rv2 n2 o).
  Proof.
    intros H Hg. induction n1 as [|n1 IH]; intros n2 o Hn; [apply cut_fault, gr_object_loop, Hg|].
    destruct n2 as [|n2]; [lia|]. cbn [object_loop]. cu; gr; auto; try (apply IH; lia); try (apply gr_object_loop; assumption).
    intros e dd. unfold to_expected_colon. try destruct e; cbn; discriminate.
  Qed.
  Lemma cut_array_loop rv1 rv2 : cut rv1 rv2 -> grows rv2 -> dies rv1 -> forall n1 n2 o, (n1 <= n2)%nat -> cut (array_loop g pw cfg R rv1 n1 o) (array_loop g pw cfg R rv2 n2 o).
  Proof.
    intros H Hg Hd. induction n1 as [|n1 IH]; intros n2 o Hn; [apply cut_fault, gr_array_loop, Hg|].
    destruct n2 as [|n2]; [lia|]. cbn [array_loop]. cu; gr; auto; try (apply IH; lia); try (apply gr_array_loop; assumption).
    apply dies_bind, Hd.
  Qed.
  Lemma cut_read_tokens l1 l2 : (l1 <= l2)%nat -> forall f1 f2, (f1 <= f2)%nat -> cut (read_tokens g pw cfg R l1 f1) (read_tokens g pw cfg R l2 f2).
  Proof.
    intro Hl. induction f1 as [|f1 IH]; intros f2 Hf; [apply cut_fault, gr_read_tokens|].
    destruct f2 as [|f2]; [lia|]. cbn [read_tokens]. assert (Hf' : (f1 <= f2)%nat) by lia. specialize (IH f2 Hf').
    cu; unfold read_object, read_array; cu; gr;
      try (apply cut_object_loop; [exact IH|apply gr_read_tokens|exact Hl]);
      try (apply cut_array_loop; [exact IH|apply gr_read_tokens|apply dies_read|exact Hl]);
      try (apply gr_object_loop, gr_read_tokens); try (apply gr_array_loop, gr_read_tokens).
  Qed.
  Lemma cut_root v : cut (check_root cfg R v) (check_root cfg R v).
  Proof. unfold check_root. destruct (negb _); [|apply cut_ret]. apply cut_bind; [apply cut_query|intros []|intros []]; cu; gr. Qed.
End Causal.

(** A delegate that was told [log1] about [p] is told the same, in the same order, at the beginning of every input that starts
    with [p] -- unless [p] ends in a digit, where the last number may go on.  If it stopped the run with an error of its own, or
    if [p] is accepted, nothing is added and the delegate ends up in the same state. *)
Theorem C80_callbacks_are_causal utf8 pw cfg D p y st r1 st1 log1 r2 st2 log2 :
  input_ok utf8 pw p -> input_ok utf8 pw (p ++ y) -> ~ ends_in_digit p ->
  parse_with utf8 pw (recording D) p cfg (st, []) = (r1, (st1, log1)) ->
  parse_with utf8 pw (recording D) (p ++ y) cfg (st, []) = (r2, (st2, log2)) ->
  prefix_of log1 log2 /\
  (forall v, r1 = Ok v -> st2 = st1 /\ log2 = log1 /\ (r2 = Ok v \/ exists o, r2 = Err (Error o KTrailingNonWhitespace))) /\
  (forall o e, r1 = Err (Error o (KErrorFromDelegate e)) -> r2 = r1 /\ st2 = st1 /\ log2 = log1).
Proof.
  intros H1 H2 Hd. rewrite !parse_with_eq. unfold parse_bytes.
  set (s1 := parse_state pw cfg (recording D) p (st, [])). set (s2 := parse_state pw cfg (recording D) (p ++ y) (st, [])).
  assert (Hs : ext D p y s1 s2) by (exists 0%nat; split; [lia|]; repeat split).
  pose (m1 := pbind (recording D) (read_tokens utf8 pw cfg (recording D) (S (length p)) (S (length p))) (fun value => pbind (recording D) (check_root cfg (recording D) value) (fun _ => pret (recording D) value))).
  pose (m2 := pbind (recording D) (read_tokens utf8 pw cfg (recording D) (S (length (p ++ y))) (S (length (p ++ y)))) (fun value => pbind (recording D) (check_root cfg (recording D) value) (fun _ => pret (recording D) value))).
  assert (C : cut D p y m1 m2).
  { unfold m1, m2. apply cut_bind; [|intro|intro].
    - apply cut_read_tokens; [apply input_good, H1|apply input_good, H2|exact Hd|rewrite app_length; lia..].
    - apply cut_bind; [apply cut_root|intro; apply cut_ret|intro; apply gr_ret].
    - apply gr_bind; [|intro; apply gr_ret]. unfold check_root. destruct (negb _); [|apply gr_ret].
      apply gr_bind; [apply gr_query|]. intros []; try apply gr_ret; apply gr_err. }
  assert (P : forall n s, parse_body utf8 pw cfg (recording D) n n s =
    pbind (recording D) (pbind (recording D) (read_tokens utf8 pw cfg (recording D) n n) (fun value => pbind (recording D) (check_root cfg (recording D) value) (fun _ => pret (recording D) value)))
      (fun v => pbind (recording D) (check_trailing (recording D)) (fun _ => pret (recording D) v)) s).
  { intros n s. unfold parse_body, pbind. destruct (read_tokens _ _ _ _ _ _ s) as [[v|e|f] t]; [|reflexivity..].
    destruct (check_root _ _ _ t) as [[u|e|f] t']; reflexivity. }
  rewrite !P. change (pbind (recording D) (read_tokens utf8 pw cfg (recording D) (S (length p)) (S (length p))) (fun value => pbind (recording D) (check_root cfg (recording D) value) (fun _ => pret (recording D) value))) with m1.
  change (pbind (recording D) (read_tokens utf8 pw cfg (recording D) (S (length (p ++ y))) (S (length (p ++ y)))) (fun value => pbind (recording D) (check_root cfg (recording D) value) (fun _ => pret (recording D) value))) with m2.
  clearbody m1 m2 s1 s2. specialize (C s1 s2 Hs). unfold pbind.
  assert (T : forall (v : d_value D) t, let x := match check_trailing (recording D) t with (Ok _, s') => pret (recording D) v s' | (Err e, s') => (Err e, s') | (Fault f, s') => (Fault f, s') end in
    ps_del (snd x) = ps_del t /\ (fst x = Ok v \/ exists o, fst x = Err (Error o KTrailingNonWhitespace))).
  { intros v t. unfold check_trailing. destruct (next_non_ws (ps_iter t)) as [[[o b]|] it]; cbn; eauto. }
  assert (T2 : forall (r : res (error (d_error D)) (d_value D)) t, let x := match r with Ok v => match check_trailing (recording D) t with (Ok _, s') => pret (recording D) v s' | (Err e, s') => (Err e, s') | (Fault f, s') => (Fault f, s') end | Err e => (Err e, t) | Fault f => (Fault f, t) end in
    ps_del (snd x) = ps_del t).
  { intros [v|e|f] t; [apply T|reflexivity..]. }
  destruct (m1 s1) as [[v|e|f] t1].
  - destruct C as (t2 & -> & (n & Hn & _ & _ & Hdel & _)).
    destruct (T v t1) as [Q1 Q2]. destruct (T v t2) as [Q3 Q4]. cbv zeta in *.
    match goal with |- (let (_, _) := ?X in _) = _ -> (let (_, _) := ?Y in _) = _ -> _ =>
      change (ps_del (snd X) = ps_del t1) in Q1; change (fst X = Ok v \/ exists o, fst X = Err (Error o KTrailingNonWhitespace)) in Q2;
      change (ps_del (snd Y) = ps_del t2) in Q3; change (fst Y = Ok v \/ exists o, fst Y = Err (Error o KTrailingNonWhitespace)) in Q4;
      revert Q1 Q2 Q3 Q4; destruct X as [x1 u1], Y as [x2 u2] end.
    cbn [fst snd] in *. intros Q1 Q2 Q3 Q4 E1 E2. injection E1 as <- E1. injection E2 as <- E2. rewrite Q1 in E1. rewrite Q3, <- Hdel, E1 in E2. injection E2 as -> ->.
    split; [apply prefix_refl|]. split.
    + intros w ->. split; [reflexivity|]. split; [reflexivity|]. destruct Q2 as [Q2|(o & Q2)]; [injection Q2 as <-; exact Q4|discriminate].
    + intros o e ->. destruct Q2 as [Q2|(o' & Q2)]; discriminate.
  - intros E1. injection E1 as <- E1. intro E2.
    destruct C as [(t2 & C & Hdel)|[He C]].
    + rewrite C in E2. injection E2 as <- E2. rewrite <- Hdel, E1 in E2. injection E2 as -> ->.
      split; [apply prefix_refl|]. split; [discriminate|]. auto.
    + assert (L : log2 = log_of D (snd (m2 s2))).
      { unfold log_of. destruct (m2 s2) as [r t2]. cbn [snd]. rewrite <- (T2 r t2). destruct r as [v|e0|f0]; [destruct (check_trailing _ t2) as [[|e1|f1] t3]|..]; cbn in E2 |- *; injection E2 as _ ->; reflexivity. }
      subst log2. unfold log_of in C at 1. rewrite E1 in C. split; [exact C|]. split; [discriminate|]. intros o d E. injection E as E. exfalso. apply (He d). rewrite E. reflexivity.
  - intros E1. injection E1 as <- E1. intro E2.
    assert (L : log2 = log_of D (snd (m2 s2))).
    { unfold log_of. destruct (m2 s2) as [r t2]. cbn [snd]. rewrite <- (T2 r t2). destruct r as [v|e0|f0]; [destruct (check_trailing _ t2) as [[|e1|f1] t3]|..]; cbn in E2 |- *; injection E2 as _ ->; reflexivity. }
    subst log2. unfold log_of in C at 1. rewrite E1 in C. split; [exact C|]. split; discriminate.
Qed.

(** The same for the tokens: the first [k] calls of [next], if they all give tokens. *)
Lemma tokenizer_next_ok g pw it tk it' : tokenizer_next g pw it = (Some (Ok tk), it') <-> next_or_eof g pw it = (Ok tk, it').
Proof.
  unfold tokenizer_next, next_or_eof, next_non_ws, read_non_ws, bi_read. destruct (bi_next (skip_ws it)) as [[[o b]|] it1].
  - destruct (read_peek g pw o b it1) as [r it2]. split; congruence.
  - split; discriminate.
Qed.
Theorem C80_tokens_are_causal utf8 pw p y k ts :
  input_ok utf8 pw p -> input_ok utf8 pw (p ++ y) -> ~ ends_in_digit p ->
  fst (next_n utf8 pw k (tokenizer_new p)) = map (fun t => Some (Ok t)) ts ->
  fst (next_n utf8 pw k (tokenizer_new (p ++ y))) = map (fun t => Some (Ok t)) ts /\
  tokenizer_offset (snd (next_n utf8 pw k (tokenizer_new (p ++ y)))) = tokenizer_offset (snd (next_n utf8 pw k (tokenizer_new p))).
Proof.
  intros H1 H2 Hd. apply input_good in H1, H2. unfold tokenizer_new, bi_new.
  assert (K : forall k n ts, (n <= length p)%nat -> fst (next_n utf8 pw k (BI p n)) = map (fun t => Some (Ok t)) ts ->
    fst (next_n utf8 pw k (BI (p ++ y) n)) = map (fun t => Some (Ok t)) ts /\
    tokenizer_offset (snd (next_n utf8 pw k (BI (p ++ y) n))) = tokenizer_offset (snd (next_n utf8 pw k (BI p n)))).
  2: { apply K. lia. }
  clear k ts. induction k as [|k IH]; intros n ts Hn E; cbn [next_n] in *.
  - split; [exact E|reflexivity].
  - destruct (tokenizer_next utf8 pw (BI p n)) as [r it1] eqn:E1. destruct (next_n utf8 pw k it1) as [rs it2] eqn:E2. cbn [fst snd] in *.
    destruct ts as [|t ts]; [discriminate|]. cbn [map] in E. injection E as -> Er.
    apply tokenizer_next_ok in E1. destruct (next_longer utf8 pw p y n t it1 H1 H2 Hd Hn E1) as (n' & Hn' & -> & E3).
    apply tokenizer_next_ok in E3. rewrite E3. destruct (IH n' ts Hn') as [A B]; [rewrite E2; exact Er|]. rewrite E2 in B. cbn [snd] in B.
    destruct (next_n utf8 pw k (BI (p ++ y) n')) as [rs' it2']. cbn [fst snd map] in *. subst. auto.
Qed.

(** Concrete cases: the callbacks for an unfinished text begin those for the finished one; after a digit they need not. *)
Example C80_sample :
  let p := bs "{""a"":[1," in let y := bs "2]} x" in
  let l1 := snd (snd (parse_with true W64 (recording unit_delegate) p config_new (tt, []))) in
  let l2 := snd (snd (parse_with true W64 (recording unit_delegate) (p ++ y) config_new (tt, []))) in
  input_ok true W64 p /\ input_ok true W64 (p ++ y) /\ ~ ends_in_digit p /\
  length l1 = 5%nat /\ length l2 = 10%nat /\ firstn 5 l2 = l1.
Proof.
  cbv zeta. split; [apply utf8_checked; [vm_compute; reflexivity|vm_compute; discriminate]|].
  split; [apply utf8_checked; [vm_compute; reflexivity|vm_compute; discriminate]|].
  split.
  { intros (q & d & E & Hd). apply (f_equal (@rev N)) in E. rewrite rev_app_distr in E. vm_compute in E. injection E as <- _.
    destruct Hd as [Hd _]. vm_compute in Hd. congruence. }
  split; [vm_compute; reflexivity|]. split; vm_compute; reflexivity.
Qed.
Example C80_after_a_digit :
  let p := bs "[1" in let y := bs "2]" in
  let l1 := snd (snd (parse_with true W64 (recording unit_delegate) p config_new (tt, []))) in
  let l2 := snd (snd (parse_with true W64 (recording unit_delegate) (p ++ y) config_new (tt, []))) in
  ends_in_digit p /\ ~ prefix_of l1 l2.
Proof.
  cbv zeta. split; [exists [91%N], 49%N; split; [reflexivity|split; discriminate]|]. intros (r & E). vm_compute in E. discriminate.
Qed.
