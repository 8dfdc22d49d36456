(** Facts about the parser that hold for EVERY delegate: positions, error offsets, absence of panics,
    agreement of the str and bytes parsers. *)
From Verif Require Import Base Utf8 Utf8Facts StrModel ErrorModel Tokenizer Parser Spec TokBase TokStr TokNum TokFacts.

(** [delegate_faults D f]: some method of [D] can panic with [f]. *)
Inductive delegate_faults (D : delegate) (f : fault) : Prop :=
| df_null st : fst (d_null D st) = Fault f -> delegate_faults D f
| df_boolean st b : fst (d_boolean D st b) = Fault f -> delegate_faults D f
| df_number st n : fst (d_number D st n) = Fault f -> delegate_faults D f
| df_string st s : fst (d_string D st s) = Fault f -> delegate_faults D f
| df_begin_object st : fst (d_begin_object D st) = Fault f -> delegate_faults D f
| df_object_key st o k : fst (d_object_key D st o k) = Fault f -> delegate_faults D f
| df_object_value st o k v : fst (d_object_value D st o k v) = Fault f -> delegate_faults D f
| df_object_is_empty st o : d_object_is_empty D st o = Fault f -> delegate_faults D f
| df_end_object st o : fst (d_end_object D st o) = Fault f -> delegate_faults D f
| df_begin_array st : fst (d_begin_array D st) = Fault f -> delegate_faults D f
| df_array_value st a v : fst (d_array_value D st a v) = Fault f -> delegate_faults D f
| df_array_is_empty st a : d_array_is_empty D st a = Fault f -> delegate_faults D f
| df_end_array st a : fst (d_end_array D st a) = Fault f -> delegate_faults D f
| df_kind_of st v : d_kind_of D st v = Fault f -> delegate_faults D f.

(** * The tokenizer by positions *)
Lemma BI_mk source n : (n <= length source)%nat -> BI source n = mk (firstn n source) (skipn n source).
Proof.
  intro H. unfold mk. rewrite firstn_skipn, firstn_length. f_equal. lia.
Qed.

Lemma mk_BI pre x r : mk (pre ++ x) r = BI (pre ++ x ++ r) (length pre + length x).
Proof. symmetry. apply mk_eq. Qed.

Lemma kind_into_fallable_eof D k : eof_kind (@kind_into_fallable D k) = eof_kind k.
Proof. destruct k as [| | | | | | | | | | | | | | | | | | | | | | | |[]]; reflexivity. Qed.

Definition err_at (len n n' : nat) {D} (e : error D) : Prop :=
  (n <= err_offset e <= n')%nat /\ (eof_kind (err_kind e) = true -> n' = len /\ err_offset e = len).

Lemma next_or_eof_pos g pw source n : good g pw source -> (n <= length source)%nat ->
  exists n', (n <= n' <= length source)%nat /\
  match next_or_eof g pw (BI source n) with
  | (Ok tk, it') => it' = BI source n' /\ (n < n')%nat
  | (Err e, it') => it' = BI source n' /\ err_at (length source) n n' e
  | (Fault _, _) => False
  end.
Proof.
  intros Hg Hn. rewrite (BI_mk source n Hn).
  assert (Hg' : good g pw (firstn n source ++ skipn n source)) by (rewrite firstn_skipn; exact Hg).
  pose proof (next_or_eof_spec g pw _ _ Hg') as H.
  assert (Hl : length (firstn n source) = n) by (rewrite firstn_length; lia).
  assert (Hs : length source = (n + length (skipn n source))%nat) by (rewrite skipn_length; lia).
  pose proof (firstn_skipn n source) as Hfs.
  destruct (next_or_eof g pw (mk (firstn n source) (skipn n source))) as [[tk|e|f] it'].
  - destruct H as (w & x & r' & E & _ & Ht & -> & _).
    destruct (token_text_head _ _ _ Ht) as (b & y & -> & _).
    exists (n + length (w ++ b :: y))%nat. rewrite E in Hs. rewrite !app_length in *. cbn [length] in *.
    split; [lia|]. rewrite mk_BI, <- app_assoc, <- E, Hfs, Hl, app_length. cbn [length]. split; [reflexivity|lia].
  - destruct H as (x & r' & E & -> & Ho & Hk). exists (n + length x)%nat.
    rewrite E, app_length in Hs. rewrite Hl in *. split; [lia|].
    rewrite mk_BI, <- E, Hfs, Hl. split; [reflexivity|]. split; [lia|].
    intro K. destruct (Hk K) as [-> ->]. cbn in Hs. lia.
  - destruct H.
Qed.

Lemma skip_ws_pos source n : (n <= length source)%nat ->
  exists n', (n <= n' <= length source)%nat /\ skip_ws (BI source n) = BI source n'.
Proof.
  intro H. unfold skip_ws, bi_rest. cbn [bi_bytes bi_offset]. rewrite skip_ws_loop_spec.
  eexists; split; [|reflexivity]. split; [lia|].
  pose proof (take_drop is_ws (skipn n source)) as E. apply (f_equal (@length N)) in E.
  rewrite app_length, skipn_length in E. lia.
Qed.

(** * A Hoare logic over positions *)
Section Gen.
  Variables (g : bool) (pw : pwidth) (cfg : parse_config) (D : delegate) (source : list N).
  Hypothesis Hgood : good g pw source.
  Let len := length source.

  (** From position [n], [m] ends at a later position; errors are raised within the range read. *)
  Definition G {A} (n : nat) (m : pm D A) (Q : A -> nat -> Prop) : Prop :=
    forall s, ps_iter s = BI source n ->
    exists n', (n <= n' <= len)%nat /\ ps_iter (snd (m s)) = BI source n' /\
      match fst (m s) with
      | Ok a => Q a n'
      | Err e => err_at len n n' e
      | Fault f => delegate_faults D f
      end.

  Lemma G_ret {A} n (a : A) (Q : A -> nat -> Prop) : (n <= len)%nat -> Q a n -> G n (pret D a) Q.
  Proof. intros Hn HQ s Hs. exists n. cbn. auto. Qed.

  Lemma G_bind {A B} n (m : pm D A) (k : A -> pm D B) R (Q : B -> nat -> Prop) :
    G n m R -> (forall a n', (n <= n' <= len)%nat -> R a n' -> G n' (k a) Q) -> G n (pbind D m k) Q.
  Proof.
    intros Hm Hk s Hs. destruct (Hm s Hs) as (n1 & Hn1 & Hi & Hr). unfold pbind.
    destruct (m s) as [[a|e|f] s1]; cbn [fst snd] in *.
    - destruct (Hk a n1 Hn1 Hr s1 Hi) as (n2 & Hn2 & Hi2 & Hr2). exists n2.
      split; [lia|]. split; [exact Hi2|]. destruct (fst (k a s1)); try exact Hr2.
      unfold err_at in *. destruct Hr2 as [? ?]. split; [lia|assumption].
    - exists n1. auto.
    - exists n1. auto.
  Qed.

  Lemma G_offset n : (n <= len)%nat -> G n (p_offset D) (fun o n' => o = n /\ n' = n).
  Proof. intros Hn s Hs. exists n. cbn. rewrite Hs. auto. Qed.

  Lemma G_err {A} n o k (Q : A -> nat -> Prop) : (n <= len)%nat -> (o <= n)%nat -> eof_kind k = false ->
    forall n0, (n0 <= o)%nat -> forall s, ps_iter s = BI source n ->
    exists n', (n <= n' <= len)%nat /\ ps_iter (snd (@perr D A o k s)) = BI source n' /\
      match fst (@perr D A o k s) with
      | Ok a => Q a n'
      | Err e => err_at len n0 n' e
      | Fault f => delegate_faults D f
      end.
  Proof.
    intros Hn Ho Hk n0 Hn0 s Hs. exists n. cbn. split; [lia|]. split; [exact Hs|].
    split; [cbn; lia|]. cbn. rewrite Hk. discriminate.
  Qed.

  Lemma G_tok n : (n <= len)%nat -> G n (p_tok D (next_or_eof g pw)) (fun _ n' => (n < n')%nat).
  Proof.
    intros Hn s Hs. destruct (next_or_eof_pos g pw source n Hgood Hn) as (n' & Hn' & H).
    exists n'. unfold p_tok, p_tok_err. rewrite Hs.
    destruct (next_or_eof g pw (BI source n)) as [[tk|e|f] it']; cbn.
    - destruct H as [-> H]. auto.
    - destruct H as [-> [H1 H2]]. split; [exact Hn'|]. split; [reflexivity|]. split; [exact H1|].
      cbn. rewrite kind_into_fallable_eof. exact H2.
    - destruct H.
  Qed.

  Lemma G_tok_colon n : (n <= len)%nat ->
    G n (p_tok_err D (to_expected_colon D) (next_or_eof g pw)) (fun _ n' => (n < n')%nat).
  Proof.
    intros Hn s Hs. destruct (next_or_eof_pos g pw source n Hgood Hn) as (n' & Hn' & H).
    exists n'. unfold p_tok_err. rewrite Hs.
    destruct (next_or_eof g pw (BI source n)) as [[tk|e|f] it']; cbn.
    - destruct H as [-> H]. auto.
    - destruct H as [-> [H1 H2]]. split; [exact Hn'|]. split; [reflexivity|]. split; [exact H1|].
      cbn. discriminate.
    - destruct H.
  Qed.

  (** A variant where errors may be reported at an earlier offset [n0]. *)
  Definition G0 {A} (n0 n : nat) (m : pm D A) (Q : A -> nat -> Prop) : Prop :=
    forall s, ps_iter s = BI source n ->
    exists n', (n <= n' <= len)%nat /\ ps_iter (snd (m s)) = BI source n' /\
      match fst (m s) with
      | Ok a => Q a n'
      | Err e => err_at len n0 n' e
      | Fault f => delegate_faults D f
      end.

  Lemma G_G0 {A} n0 n (m : pm D A) Q : (n0 <= n)%nat -> G n m Q -> G0 n0 n m Q.
  Proof.
    intros Hn H s Hs. destruct (H s Hs) as (n' & H1 & H2 & H3). exists n'.
    split; [exact H1|]. split; [exact H2|]. destruct (fst (m s)); try exact H3.
    destruct H3. split; [lia|assumption].
  Qed.

  Lemma G0_G {A} n (m : pm D A) Q : G0 n n m Q -> G n m Q.
  Proof. exact (fun H => H). Qed.

  Lemma G0_weaken {A} n0 n1 n (m : pm D A) Q : (n0 <= n1)%nat -> G0 n1 n m Q -> G0 n0 n m Q.
  Proof.
    intros Hn H s Hs. destruct (H s Hs) as (n' & H1 & H2 & H3). exists n'.
    split; [exact H1|]. split; [exact H2|]. destruct (fst (m s)); try exact H3.
    destruct H3. split; [lia|assumption].
  Qed.

  Lemma G0_mono {A} n0 n (m : pm D A) (Q Q' : A -> nat -> Prop) :
    (forall a n', (n <= n' <= len)%nat -> Q a n' -> Q' a n') -> G0 n0 n m Q -> G0 n0 n m Q'.
  Proof.
    intros HQ H s Hs. destruct (H s Hs) as (n' & H1 & H2 & H3). exists n'.
    split; [exact H1|]. split; [exact H2|]. destruct (fst (m s)); auto.
  Qed.

  Lemma G0_ret {A} n0 n (a : A) (Q : A -> nat -> Prop) : (n <= len)%nat -> Q a n -> G0 n0 n (pret D a) Q.
  Proof. intros Hn HQ s Hs. exists n. cbn. auto. Qed.

  Lemma G0_bind {A B} n0 n (m : pm D A) (k : A -> pm D B) R (Q : B -> nat -> Prop) :
    G0 n0 n m R -> (forall a n', (n <= n' <= len)%nat -> R a n' -> G0 n0 n' (k a) Q) ->
    G0 n0 n (pbind D m k) Q.
  Proof.
    intros Hm Hk s Hs. destruct (Hm s Hs) as (n1 & Hn1 & Hi & Hr). unfold pbind.
    destruct (m s) as [[a|e|f] s1]; cbn [fst snd] in *.
    - destruct (Hk a n1 Hn1 Hr s1 Hi) as (n2 & Hn2 & Hi2 & Hr2). exists n2.
      split; [lia|]. split; [exact Hi2|]. exact Hr2.
    - exists n1. auto.
    - exists n1. auto.
  Qed.

  Lemma G0_err {A} n0 n o k (Q : A -> nat -> Prop) :
    (n <= len)%nat -> (n0 <= o <= n)%nat -> eof_kind k = false -> G0 n0 n (@perr D A o k) Q.
  Proof.
    intros Hn Ho Hk s Hs. exists n. cbn. split; [lia|]. split; [exact Hs|].
    split; [cbn; lia|]. cbn. rewrite Hk. discriminate.
  Qed.

  Lemma G0_offset n0 n : (n <= len)%nat -> G0 n0 n (p_offset D) (fun o n' => o = n /\ n' = n).
  Proof. intros Hn s Hs. exists n. cbn. rewrite Hs. auto. Qed.

  Lemma G0_tok n0 n : (n0 <= n <= len)%nat -> G0 n0 n (p_tok D (next_or_eof g pw)) (fun _ n' => (n < n')%nat).
  Proof. intros Hn. apply G_G0; [lia|]. apply G_tok. lia. Qed.

  Lemma G0_tok_colon n0 n : (n0 <= n <= len)%nat ->
    G0 n0 n (p_tok_err D (to_expected_colon D) (next_or_eof g pw)) (fun _ n' => (n < n')%nat).
  Proof. intros Hn. apply G_G0; [lia|]. apply G_tok_colon. lia. Qed.

  Lemma G0_del {A} n0 n o (m : d_st D -> res (d_error D) A * d_st D) :
    (n <= len)%nat -> (n0 <= o <= n)%nat ->
    (forall st f, fst (m st) = Fault f -> delegate_faults D f) ->
    G0 n0 n (p_del D o m) (fun _ n' => n' = n).
  Proof.
    intros Hn Ho Hf s Hs. exists n. unfold p_del. destruct (m (ps_del s)) as [[a|e|f] st] eqn:E; cbn.
    - auto.
    - split; [lia|]. split; [exact Hs|]. split; [cbn; lia|]. cbn. discriminate.
    - split; [lia|]. split; [exact Hs|]. apply (Hf (ps_del s)). rewrite E. reflexivity.
  Qed.

  Lemma G0_query {A} n0 n (m : d_st D -> res infallible A) :
    (n <= len)%nat -> (forall st f, m st = Fault f -> delegate_faults D f) ->
    G0 n0 n (p_query D m) (fun _ n' => n' = n).
  Proof.
    intros Hn Hf s Hs. exists n. unfold p_query. destruct (m (ps_del s)) as [a|[]|f] eqn:E; cbn.
    - auto.
    - split; [lia|]. split; [exact Hs|]. apply (Hf (ps_del s)). rewrite E. reflexivity.
  Qed.

  Lemma G0_begin_nest n0 n o : (n <= len)%nat -> (n0 <= o <= n)%nat ->
    G0 n0 n (begin_nest cfg D o) (fun _ n' => n' = n).
  Proof.
    intros Hn Ho s Hs. exists n. unfold begin_nest.
    destruct (recursion_limit cfg); [destruct (0 <? ps_depth s)%N|]; cbn; try (split; [lia|split; [exact Hs|reflexivity]]).
    split; [lia|]. split; [exact Hs|]. split; [cbn; lia|]. cbn. discriminate.
  Qed.

  Lemma G0_end_nest n0 n : (n <= len)%nat -> G0 n0 n (end_nest cfg D) (fun _ n' => n' = n).
  Proof.
    intros Hn s Hs. exists n. unfold end_nest. destruct (recursion_limit cfg); cbn; auto.
  Qed.

  Lemma G0_map_err {A} n0 n k (m : pm D A) Q :
    eof_kind k = true -> G0 n0 n m Q -> G0 n0 n (p_map_err D (eof_to D k) m) Q.
  Proof.
    intros Hk H s Hs. destruct (H s Hs) as (n' & H1 & H2 & H3). exists n'. unfold p_map_err.
    destruct (m s) as [[a|e|f] s']; cbn [fst snd map_err] in *.
    - auto.
    - split; [exact H1|]. split; [exact H2|]. destruct e as [o k0]. unfold eof_to, err_at in *.
      cbn [err_offset err_kind] in *. destruct H3 as [H3 H4].
      destruct k0; cbn in *; (split; [exact H3|auto]).
    - auto.
  Qed.

  Lemma G0_peek n0 n : (n <= len)%nat ->
    G0 n0 n (peek_array_end D) (fun b n' => b = true -> (n < n')%nat).
  Proof.
    intros Hn s Hs. unfold peek_array_end, tokenizer_peek. rewrite Hs.
    destruct (skip_ws_pos source n Hn) as (n' & Hn' & ->). cbn zeta.
    unfold bi_peek. cbn [bi_bytes bi_offset].
    destruct (nth_error source n') as [b|] eqn:E.
    - assert (n' < len)%nat by (apply nth_error_Some; rewrite E; discriminate).
      destruct (peek_kind_of b); try (exists n'; cbn; split; [lia|split; [reflexivity|discriminate]]).
      exists (n' + 1)%nat. cbn. split; [lia|]. split; [reflexivity|lia].
    - exists n'. cbn. split; [lia|]. split; [reflexivity|discriminate].
  Qed.

  Ltac gs := repeat match goal with
    | |- G0 _ _ (pbind D (p_offset D) _) _ =>
        eapply G0_bind; [apply G0_offset; lia | intros ? ? ? [-> ->]]
    | |- G0 _ _ (pbind D (p_tok D _) _) _ =>
        eapply G0_bind; [apply G0_tok; lia | intros ? ? ? ?]
    | |- G0 _ _ (pbind D (p_tok_err D _ _) _) _ =>
        eapply G0_bind; [apply G0_tok_colon; lia | intros ? ? ? ?]
    | |- G0 _ _ (pbind D (p_query D _) _) _ =>
        eapply G0_bind; [apply G0_query; [lia|intros; eauto using delegate_faults] | intros ? ? ? ->]
    | |- G0 _ _ (pbind D (p_del D _ _) _) _ =>
        eapply G0_bind; [apply G0_del; [lia|lia|intros; eauto using delegate_faults] | intros ? ? ? ->]
    | |- G0 _ _ (perr D _ _) _ => apply G0_err; [lia|lia|reflexivity]
    | |- G0 _ _ (pret D _) _ => apply G0_ret; [lia|try lia]
    | |- G0 _ _ (match ?t with TkNull => _ | _ => _ end) _ => destruct t
    | |- G0 _ _ (if ?b then _ else _) _ => destruct b
    end.

  Lemma G_object_loop (rv : pm D (d_value D)) n0 (lim : nat) :
    (forall n, (n0 <= n <= len)%nat -> G n rv (fun _ n' => (n < n')%nat)) ->
    forall k n o, (n0 <= n <= len)%nat -> (len - n < k)%nat ->
    G0 n0 n (object_loop g pw cfg D rv k o) (fun _ n' => (n < n')%nat).
  Proof.
    intros Hrv. induction k as [|k IH]; intros n o Hn Hk; [lia|]. cbn [object_loop].
    gs.
    - match goal with a : (d_object D * d_key D)%type |- _ => destruct a as [object key] end. gs.
      eapply G0_bind; [eapply G_G0; [|apply Hrv; lia]; lia|]. intros v n2 Hn2 Hlt. gs.
      eapply G0_mono; [|apply IH; lia]. cbn. intros. lia.
    - apply G0_bind with (R := fun _ n'' => n'' = n').
      + destruct (allow_trailing_commas cfg); [apply G0_ret; [lia|reflexivity]|].
        apply G0_query; [lia|intros; eauto using delegate_faults].
      + intros ok n2 Hn2 ->. gs.
  Qed.

  Lemma G_array_loop (rv : pm D (d_value D)) n0 :
    (forall n, (n0 <= n <= len)%nat -> G n rv (fun _ n' => (n < n')%nat)) ->
    forall k n o, (n0 <= n <= len)%nat -> (len - n < k)%nat ->
    G0 n0 n (array_loop g pw cfg D rv k o) (fun _ n' => (n < n')%nat).
  Proof.
    intros Hrv. induction k as [|k IH]; intros n o Hn Hk; [lia|]. cbn [array_loop]. gs.
    eapply G0_bind; [apply G0_peek; lia|]. intros [|] n1 Hn1 Hb.
    - apply G0_bind with (R := fun _ n'' => n'' = n1).
      + destruct (allow_trailing_commas cfg); [apply G0_ret; [lia|reflexivity]|].
        apply G0_query; [lia|intros; eauto using delegate_faults].
      + intros ok n2 Hn2 ->. gs.
    - eapply G0_bind; [eapply G_G0; [|apply Hrv; lia]; lia|]. intros v n2 Hn2 Hlt. gs.
      eapply G0_mono; [|apply IH; lia]. cbn. intros. lia.
  Qed.

  Lemma G_read_tokens loops : (len < loops)%nat -> forall fuel n, (n <= len)%nat -> (len - n < fuel)%nat ->
    G n (read_tokens g pw cfg D loops fuel) (fun _ n' => (n < n')%nat).
  Proof.
    intro Hl. induction fuel as [|fuel IH]; intros n Hn Hf; [lia|]. cbn [read_tokens].
    apply G0_G. gs; try (eapply G0_mono; [|apply G0_del; [lia|lia|intros; eauto using delegate_faults]]; cbn; intros; lia).
    - eapply G0_bind; [apply G0_begin_nest; lia|]. intros _ n1 Hn1 ->.
      apply G0_map_err; [reflexivity|]. unfold read_object. gs.
      eapply G0_bind; [eapply G0_weaken; [|apply (G_object_loop (read_tokens g pw cfg D loops fuel) n' 0)]|]; try lia.
      { intros n2 Hn2. apply IH; lia. }
      intros o n2 Hn2 Hlt. gs. eapply G0_bind; [apply G0_end_nest; lia|]. intros _ n3 Hn3 ->. gs.
    - eapply G0_bind; [apply G0_begin_nest; lia|]. intros _ n1 Hn1 ->.
      apply G0_map_err; [reflexivity|]. unfold read_array. gs.
      eapply G0_bind; [eapply G0_weaken; [|apply (G_array_loop (read_tokens g pw cfg D loops fuel) n')]|]; try lia.
      { intros n2 Hn2. apply IH; lia. }
      intros o n2 Hn2 Hlt. gs. eapply G0_bind; [apply G0_end_nest; lia|]. intros _ n3 Hn3 ->. gs.
  Qed.

  Lemma G_check_root v n n0 : (n <= len)%nat -> n0 = 0%nat -> G0 n0 n (check_root cfg D v) (fun _ n' => n' = n).
  Proof.
    intros Hn ->. unfold check_root. destruct (negb (allow_all_types_at_root cfg)); [|gs; reflexivity].
    gs. destruct a; gs; reflexivity.
  Qed.

  Lemma G_check_trailing n n0 : (n0 <= n <= len)%nat -> G0 n0 n (check_trailing D) (fun _ n' => n' = len).
  Proof.
    intros Hn s Hs. unfold check_trailing, next_non_ws. rewrite Hs.
    destruct (skip_ws_pos source n ltac:(lia)) as (n' & Hn' & ->). unfold bi_next. cbn [bi_bytes bi_offset].
    destruct (nth_error source n') as [b|] eqn:E.
    - assert (n' < len)%nat by (apply nth_error_Some; rewrite E; discriminate).
      exists (n' + 1)%nat. cbn. split; [lia|]. split; [reflexivity|]. split; [cbn; lia|]. cbn. discriminate.
    - exists n'. cbn. split; [lia|]. split; [reflexivity|].
      apply nth_error_None in E. fold len in E. lia.
  Qed.

  Lemma G_parse_body loops fuel : (len < loops)%nat -> (len < fuel)%nat ->
    G 0 (parse_body g pw cfg D loops fuel) (fun _ n' => n' = len).
  Proof.
    intros Hl Hf. unfold parse_body. apply G0_G.
    eapply G0_bind; [apply G_read_tokens; lia|]. intros v n Hn _.
    eapply G0_bind; [apply G_check_root; [lia|reflexivity]|]. intros _ n1 _ ->.
    eapply G0_bind; [apply G_check_trailing; lia|]. intros _ n1 Hn1 ->. gs.
  Qed.

  (** Every delegate: no panic of the parser itself, no exhausted loop bound; error offsets inside the
      input; end-of-input errors at the end. *)
  Theorem parse_bytes_gen st :
    match fst (parse_bytes g pw cfg D source st) with
    | Ok _ => True
    | Err e => (err_offset e <= len)%nat /\ (eof_kind (err_kind e) = true -> err_offset e = len)
    | Fault f => delegate_faults D f
    end.
  Proof.
    unfold parse_bytes. fold len.
    destruct (G_parse_body (S len) (S len) ltac:(lia) ltac:(lia) (parse_state pw cfg D source st) eq_refl)
      as (n' & Hn' & _ & H).
    destruct (parse_body g pw cfg D (S len) (S len) (parse_state pw cfg D source st)) as [[v|e|f] s]; cbn [fst] in *.
    - exact I.
    - destruct H as [H1 H2]. split; [lia|]. intro K. apply H2. exact K.
    - exact H.
  Qed.
End Gen.

(** * The str and bytes parsers agree on valid UTF-8, for every delegate *)
Section Agree.
  Variables (pw : pwidth) (cfg : parse_config) (D : delegate) (source : list N).
  Hypothesis Hgood : good true pw source.
  Let len := length source.

  Let Hgoodf : good false pw source.
  Proof. destruct Hgood as [H _]. split; [exact H|discriminate]. Qed.

  Lemma next_or_eof_BI_agree n : (n <= len)%nat ->
    next_or_eof true pw (BI source n) = next_or_eof false pw (BI source n).
  Proof.
    intro Hn. rewrite (BI_mk source n Hn). destruct Hgood as [H1 H2].
    apply next_or_eof_agree; rewrite firstn_skipn; auto.
  Qed.

  Definition same {A} (m1 m2 : pm D A) : Prop :=
    forall n s, (n <= len)%nat -> ps_iter s = BI source n -> m1 s = m2 s.

  (** [Pres m]: positions are preserved by [m] (from the generic theorem). *)
  Definition pres {A} (m : pm D A) : Prop :=
    forall n s, (n <= len)%nat -> ps_iter s = BI source n ->
    exists n', (n <= n' <= len)%nat /\ ps_iter (snd (m s)) = BI source n'.

  Lemma G0_pres {A} (m : pm D A) : (forall n, (n <= len)%nat -> exists Q, G0 D source n n m Q) -> pres m.
  Proof. intros H n s Hn Hs. destruct (H n Hn) as [Q HQ]. destruct (HQ s Hs) as (n' & H1 & H2 & _). eauto. Qed.

  Lemma same_refl {A} (m : pm D A) : same m m.
  Proof. intros n s _ _. reflexivity. Qed.

  Lemma same_bind {A B} (m1 m2 : pm D A) (k1 k2 : A -> pm D B) :
    same m1 m2 -> pres m2 -> (forall a, same (k1 a) (k2 a)) -> same (pbind D m1 k1) (pbind D m2 k2).
  Proof.
    intros Hm Hp Hk n s Hn Hs. unfold pbind. rewrite (Hm n s Hn Hs).
    destruct (Hp n s Hn Hs) as (n' & Hn' & Hi). destruct (m2 s) as [[a|e|f] s']; [|reflexivity..].
    apply (Hk a n'); [lia|exact Hi].
  Qed.

  Lemma same_map_err {A} f (m1 m2 : pm D A) : same m1 m2 -> same (p_map_err D f m1) (p_map_err D f m2).
  Proof. intros H n s Hn Hs. unfold p_map_err. rewrite (H n s Hn Hs). reflexivity. Qed.

  Lemma same_tok_err conv :
    same (p_tok_err D conv (next_or_eof true pw)) (p_tok_err D conv (next_or_eof false pw)).
  Proof. intros n s Hn Hs. unfold p_tok_err. rewrite Hs, next_or_eof_BI_agree by exact Hn. reflexivity. Qed.

  Lemma pres_offset : pres (p_offset D).
  Proof. apply G0_pres. intros n Hn. eexists. apply G0_offset. exact Hn. Qed.
  Lemma pres_tok conv : pres (p_tok_err D conv (next_or_eof false pw)).
  Proof.
    intros n s Hn Hs. destruct (next_or_eof_pos false pw source n Hgoodf Hn) as (n' & Hn' & H).
    exists n'. unfold p_tok_err. rewrite Hs.
    destruct (next_or_eof false pw (BI source n)) as [[tk|e|f] it']; cbn.
    - destruct H as [-> H]. auto.
    - destruct H as [-> H]. auto.
    - destruct H.
  Qed.
  Lemma pres_del {A} o (m : d_st D -> res (d_error D) A * d_st D) : pres (p_del D o m).
  Proof.
    intros n s Hn Hs. exists n. unfold p_del. destruct (m (ps_del s)) as [r st]. cbn. split; [lia|exact Hs].
  Qed.
  Lemma pres_query {A} (m : d_st D -> res infallible A) : pres (p_query D m).
  Proof. intros n s Hn Hs. exists n. cbn. split; [lia|exact Hs]. Qed.
  Lemma pres_begin_nest o : pres (begin_nest cfg D o).
  Proof.
    intros n s Hn Hs. exists n. split; [lia|]. unfold begin_nest.
    destruct (recursion_limit cfg); [destruct (0 <? ps_depth s)%N|]; exact Hs.
  Qed.
  Lemma pres_ret {A} (a : A) : pres (pret D a).
  Proof. intros n s Hn Hs. exists n. cbn. split; [lia|exact Hs]. Qed.
  Lemma pres_peek : pres (peek_array_end D).
  Proof. apply G0_pres. intros n Hn. eexists. apply G0_peek. exact Hn. Qed.
  Lemma pres_check_trailing : pres (check_trailing D).
  Proof. apply G0_pres. intros n Hn. eexists. apply G_check_trailing. fold len. lia. Qed.
  Lemma pres_check_root v : pres (check_root cfg D v).
  Proof.
    intros n s Hn Hs. exists n. split; [lia|]. unfold check_root.
    destruct (negb (allow_all_types_at_root cfg)); [|exact Hs].
    unfold pbind, p_query. destruct (d_kind_of D (ps_del s) v) as [k|[]|f]; [destruct k|]; exact Hs.
  Qed.

  Ltac sm := repeat first
    [ match goal with
      | |- same ?a ?a => apply same_refl
      | |- same (pbind D (p_offset D) _) _ => apply same_bind; [apply same_refl|apply pres_offset|intros ?]
      | |- same (pbind D (p_tok D _) _) _ => apply same_bind; [apply same_tok_err|apply pres_tok|intros ?]
      | |- same (pbind D (p_tok_err D _ _) _) _ => apply same_bind; [apply same_tok_err|apply pres_tok|intros ?]
      | |- same (pbind D (p_del D _ _) _) _ => apply same_bind; [apply same_refl|apply pres_del|intros ?]
      | |- same (pbind D (begin_nest _ D _) _) _ => apply same_bind; [apply same_refl|apply pres_begin_nest|intros ?]
      | |- same (match ?t with TkNull => _ | _ => _ end) _ => destruct t
      | |- same (if ?b then _ else _) _ => destruct b
      | |- same (let '(_, _) := ?p in _) _ => destruct p
      end ].

  Lemma same_object_loop rv1 rv2 : same rv1 rv2 -> pres rv2 ->
    forall k o, same (object_loop true pw cfg D rv1 k o) (object_loop false pw cfg D rv2 k o).
  Proof.
    intros Hs Hp. induction k as [|k IH]; intro o; cbn [object_loop]; sm.
    apply same_bind; [exact Hs|exact Hp|]. intro v. sm. apply IH.
  Qed.

  Lemma same_array_loop rv1 rv2 : same rv1 rv2 -> pres rv2 ->
    forall k o, same (array_loop true pw cfg D rv1 k o) (array_loop false pw cfg D rv2 k o).
  Proof.
    intros Hs Hp. induction k as [|k IH]; intro o; cbn [array_loop]; sm.
    apply same_bind; [apply same_refl|apply pres_peek|]. intro b. sm.
    apply same_bind; [exact Hs|exact Hp|]. intro v. sm. apply IH.
  Qed.


  Lemma pres_bind {A B} (m : pm D A) (k : A -> pm D B) :
    pres m -> (forall a, pres (k a)) -> pres (pbind D m k).
  Proof.
    intros Hp Hk n s Hn Hs. unfold pbind. destruct (Hp n s Hn Hs) as (n' & Hn' & Hi).
    destruct (m s) as [[a|e|f] s']; cbn [snd] in Hi; [|exists n'; auto..].
    destruct (Hk a n' s' ltac:(lia) Hi) as (n2 & Hn2 & Hi2). exists n2. split; [lia|exact Hi2].
  Qed.
  Lemma pres_err {A} o k : pres (@perr D A o k).
  Proof. intros n s Hn Hs. exists n. cbn. split; [lia|exact Hs]. Qed.
  Lemma pres_end_nest : pres (end_nest cfg D).
  Proof. intros n s Hn Hs. exists n. split; [lia|]. unfold end_nest. destruct (recursion_limit cfg); exact Hs. Qed.
  Lemma pres_map_err {A} f (m : pm D A) : pres m -> pres (p_map_err D f m).
  Proof.
    intros H n s Hn Hs. destruct (H n s Hn Hs) as (n' & Hn' & Hi). exists n'. unfold p_map_err.
    destruct (m s) as [r s']. auto.
  Qed.
  Lemma pres_fault {A} f : pres (fun s => (@Fault (error (d_error D)) A f, s)).
  Proof. intros n s Hn Hs. exists n. cbn. split; [lia|exact Hs]. Qed.

  Ltac ps := repeat match goal with
      | H : pres ?m |- pres ?m => exact H
      | |- pres (pbind D _ _) => apply pres_bind; [|intros ?]
      | |- pres (p_offset D) => apply pres_offset
      | |- pres (p_tok D _) => apply pres_tok
      | |- pres (p_tok_err D _ _) => apply pres_tok
      | |- pres (p_del D _ _) => apply pres_del
      | |- pres (p_query D _) => apply pres_query
      | |- pres (begin_nest cfg D _) => apply pres_begin_nest
      | |- pres (end_nest cfg D) => apply pres_end_nest
      | |- pres (pret D _) => apply pres_ret
      | |- pres (perr D _ _) => apply pres_err
      | |- pres (peek_array_end D) => apply pres_peek
      | |- pres (p_map_err D _ _) => apply pres_map_err
      | |- pres (fun s => (Fault _, s)) => apply pres_fault
      | |- pres (match ?t with TkNull => _ | _ => _ end) => destruct t
      | |- pres (if ?b then _ else _) => destruct b
      | |- pres (let '(_, _) := ?p in _) => destruct p
      end.

  Lemma pres_object_loop rv : pres rv -> forall k o, pres (object_loop false pw cfg D rv k o).
  Proof. intros Hp. induction k as [|k IH]; intro o; cbn [object_loop]; ps. apply IH. Qed.
  Lemma pres_array_loop rv : pres rv -> forall k o, pres (array_loop false pw cfg D rv k o).
  Proof. intros Hp. induction k as [|k IH]; intro o; cbn [array_loop]; ps. apply IH. Qed.

  Lemma pres_read_tokens loops fuel : pres (read_tokens false pw cfg D loops fuel).
  Proof.
    induction fuel as [|fuel IH]; cbn [read_tokens]; ps; unfold read_object, read_array; ps;
      [apply pres_object_loop|apply pres_array_loop]; exact IH.
  Qed.

  Lemma same_read_tokens loops fuel :
    same (read_tokens true pw cfg D loops fuel) (read_tokens false pw cfg D loops fuel).
  Proof.
    induction fuel as [|fuel IH]; cbn [read_tokens]; sm; apply same_map_err; unfold read_object, read_array; sm.
    - apply same_bind; [apply same_object_loop; [exact IH|apply pres_read_tokens]
                       |apply pres_object_loop, pres_read_tokens|]. intro o. apply same_refl.
    - apply same_bind; [apply same_array_loop; [exact IH|apply pres_read_tokens]
                       |apply pres_array_loop, pres_read_tokens|]. intro o. apply same_refl.
  Qed.

  Theorem parse_bytes_agree st :
    parse_bytes true pw cfg D source st = parse_bytes false pw cfg D source st.
  Proof.
    unfold parse_bytes. fold len.
    assert (H : same (parse_body true pw cfg D (S len) (S len)) (parse_body false pw cfg D (S len) (S len))).
    { apply same_bind; [apply same_read_tokens|apply pres_read_tokens|]. intro v. apply same_refl. }
    rewrite (H 0%nat (parse_state pw cfg D source st)); [reflexivity|lia|reflexivity].
  Qed.
End Agree.
