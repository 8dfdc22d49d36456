(** Property theorems C78, C79: how much a delegate is called; what the configuration can change. *)
From Verif Require Import Base Utf8 Utf8Facts StrModel ErrorModel Tokenizer Parser ValueModel DocModel Spec TokBase TokFacts ParserGen Trace View PropDelegate ParseMain.

(** * C78: the number of callbacks *)
Section Work.
  Variables (g : bool) (pw : pwidth) (cfg : parse_config) (D : delegate) (source : list N).
  Hypothesis Hgood : good g pw source.
  Notation R := (recording D).

  (** [c] units of credit are left after [n] bytes and the callbacks in the log: a byte earns 3, a callback costs 2. *)
  Definition credit (c : nat) (s : pstate R) : Prop :=
    exists n, (n <= length source)%nat /\ ps_iter s = BI source n /\ (2 * length (snd (ps_del s)) + c <= 3 * n)%nat.
  Definition W {A} (c : nat) (m : pm R A) (c' : A -> nat) : Prop :=
    forall s, credit c s -> match m s with (Ok a, s') => credit (c' a) s' | (_, s') => credit 0 s' end.

  Lemma credit_le c c' s : (c' <= c)%nat -> credit c s -> credit c' s.
  Proof. intros H (n & H1 & H2 & H3). exists n. repeat (split; [assumption|]). lia. Qed.
  Lemma W_bind {A B} c (m : pm R A) (k : A -> pm R B) c1 c2 : W c m c1 -> (forall a, W (c1 a) (k a) c2) -> W c (pbind R m k) c2.
  Proof. intros Hm Hk s Hs. specialize (Hm s Hs). unfold pbind. destruct (m s) as [[a|e|f] s1]; [exact (Hk a s1 Hm)|exact Hm|exact Hm]. Qed.
  Lemma W_le {A} c c0 (m : pm R A) c1 c2 : (c0 <= c)%nat -> (forall a, c2 a <= c1 a)%nat -> W c0 m c1 -> W c m c2.
  Proof.
    intros H0 H1 H s Hs. specialize (H s (credit_le _ _ _ H0 Hs)). destruct (m s) as [[a|e|f] s1]; try exact H.
    eapply credit_le; [apply H1|exact H].
  Qed.
  Lemma W_ret {A} c (a : A) c' : (c' a <= c)%nat -> W c (pret R a) c'.
  Proof. intros H s Hs. eapply credit_le; eassumption. Qed.
  Lemma W_err {A} c o k (c' : A -> nat) : W c (perr R o k) c'.
  Proof. intros s Hs. eapply credit_le; [|exact Hs]. lia. Qed.
  Lemma W_fault {A} c f (c' : A -> nat) : W c (fun s => (Fault f, s)) c'.
  Proof. intros s Hs. eapply credit_le; [|exact Hs]. lia. Qed.
  Lemma W_offset c : W c (p_offset R) (fun _ => c).
  Proof. intros s Hs. exact Hs. Qed.
  Lemma W_tok_err c conv : W c (p_tok_err R conv (next_or_eof g pw)) (fun _ => c + 3)%nat.
  Proof.
    intros s (n & Hn & Hi & Hc). unfold p_tok_err. rewrite Hi. destruct (next_or_eof_pos g pw source n Hgood Hn) as (n' & Hn' & H).
    destruct (next_or_eof g pw (BI source n)) as [[tk|e|f] it']; cbn [map_err].
    - destruct H as [-> H]. exists n'. cbn [ps_iter ps_del]. split; [lia|]. split; [reflexivity|]. lia.
    - destruct H as [-> _]. exists n'. cbn [ps_iter ps_del]. split; [lia|]. split; [reflexivity|]. lia.
    - destruct H.
  Qed.
  Lemma W_del {A} c o ev (call : d_st D -> res (d_error D) A * d_st D) :
    W (c + 2) (p_del R o (fun st => note ev (snd st) (call (fst st)))) (fun _ => c).
  Proof.
    intros s (n & Hn & Hi & Hc). unfold p_del, note. destruct (ps_del s) as [st log]. cbn [fst snd] in *. destruct (call st) as [r st'].
    assert (K : credit c (PS (D := R) (ps_iter s) (st', log ++ [ev]) (ps_depth s))).
    { exists n. cbn [ps_iter ps_del snd]. rewrite app_length. cbn [length]. split; [exact Hn|]. split; [exact Hi|]. lia. }
    destruct r; cbn [map_err fst snd]; [exact K| |]; (eapply credit_le; [|exact K]; lia).
  Qed.
  Lemma W_query {A} c (m : d_st R -> res infallible A) : W c (p_query R m) (fun _ => c).
  Proof. intros s Hs. unfold p_query. destruct (m (ps_del s)) as [a|[]|f]; [exact Hs|]. eapply credit_le; [|exact Hs]. lia. Qed.
  Lemma W_begin c o : W c (begin_nest cfg R o) (fun _ => c).
  Proof.
    intros s Hs. unfold begin_nest. destruct (recursion_limit cfg); [destruct (0 <? ps_depth s)%N|]; try exact Hs.
    eapply credit_le; [|exact Hs]. lia.
  Qed.
  Lemma W_end c : W c (end_nest cfg R) (fun _ => c).
  Proof. intros s Hs. unfold end_nest. destruct (recursion_limit cfg); exact Hs. Qed.
  Lemma W_map_err {A} c f (m : pm R A) c' : W c m c' -> W c (p_map_err R f m) c'.
  Proof. intros H s Hs. specialize (H s Hs). unfold p_map_err. destruct (m s) as [[a|e|x] s']; exact H. Qed.
  Lemma W_peek c : W c (peek_array_end R) (fun b => if b : bool then c + 3 else c)%nat.
  Proof.
    intros s (n & Hn & Hi & Hc). unfold peek_array_end, tokenizer_peek. rewrite Hi.
    destruct (skip_ws_pos source n Hn) as (n' & Hn' & ->). cbn zeta. unfold bi_peek. cbn [bi_bytes bi_offset].
    assert (K : credit c (PS (D := R) (BI source n') (ps_del s) (ps_depth s))).
    { exists n'. cbn [ps_iter ps_del]. split; [lia|]. split; [reflexivity|]. lia. }
    destruct (nth_error source n') as [b|] eqn:E; [|exact K].
    assert (n' < length source)%nat by (apply nth_error_Some; rewrite E; discriminate).
    destruct (peek_kind_of b); try exact K. exists (n' + 1)%nat. cbn [ps_iter ps_del]. split; [lia|]. split; [reflexivity|]. lia.
  Qed.
  Lemma W_trailing c : W c (check_trailing R) (fun _ => c).
  Proof.
    intros s (n & Hn & Hi & Hc). unfold check_trailing, next_non_ws. rewrite Hi.
    destruct (skip_ws_pos source n Hn) as (n' & Hn' & ->). unfold bi_next. cbn [bi_bytes bi_offset].
    destruct (nth_error source n') as [b|] eqn:E.
    - assert (n' < length source)%nat by (apply nth_error_Some; rewrite E; discriminate).
      exists (n' + 1)%nat. cbn [ps_iter ps_del]. split; [lia|]. split; [reflexivity|]. lia.
    - exists n'. cbn [ps_iter ps_del]. split; [lia|]. split; [reflexivity|]. lia.
  Qed.

  Ltac tok := eapply W_bind; [apply W_tok_err|intro].
  Ltac off := eapply W_bind; [apply W_offset|intro].
  Definition earns (rv : pm R (d_value D)) : Prop := forall c, W c rv (fun _ => S c).

  Lemma W_object_loop rv : earns rv -> forall n o c, W (A := d_object D) c (object_loop g pw cfg R rv n o) (fun _ => c + 3)%nat.
  Proof.
    intro Hrv. induction n as [|n IH]; intros o c; cbn [object_loop]; [apply W_fault|]. off. unfold p_tok. tok.
    match goal with |- W _ (match ?t with TkNull => _ | _ => _ end) _ => destruct t as [|b|k|x| | | | | |] end; try apply W_err.
    - eapply W_bind; [eapply W_le; [|intro; apply Nat.le_refl|apply (W_del (c + 1) _ (EObjectKey k) (fun st => d_object_key D st o k))]; lia|].
      intros [o1 key]. off. tok.
      match goal with |- W _ (match ?t with TkNull => _ | _ => _ end) _ => destruct t end; try apply W_err. off.
      eapply W_bind; [apply Hrv|]. intro v.
      eapply W_bind; [eapply W_le; [|intro; apply Nat.le_refl|apply (W_del (c + 3) _ EObjectValue (fun st => d_object_value D st o1 key v))]; lia|].
      intro o2. off. tok.
      match goal with |- W _ (match ?t with TkNull => _ | _ => _ end) _ => destruct t end; try apply W_err.
      + apply W_ret. cbv beta. lia.
      + eapply W_le; [| |apply (IH o2 c)]; intros; cbv beta; lia.
    - apply W_bind with (c1 := fun _ => (c + 3)%nat).
      + destruct (allow_trailing_commas cfg); [apply W_ret; cbv beta; lia|apply W_query].
      + intros [|]; [apply W_ret; cbv beta; lia|apply W_err].
  Qed.
  Lemma W_array_loop rv : earns rv -> forall n o c, W (A := d_array D) (c + 1) (array_loop g pw cfg R rv n o) (fun _ => c + 3)%nat.
  Proof.
    intro Hrv. induction n as [|n IH]; intros o c; cbn [array_loop]; [apply W_fault|]. off.
    eapply W_bind; [apply W_peek|]. intros [|]; cbv beta iota.
    - apply W_bind with (c1 := fun _ => (c + 1 + 3)%nat).
      + destruct (allow_trailing_commas cfg); [apply W_ret; cbv beta; lia|apply W_query].
      + intros [|]; [apply W_ret; cbv beta; lia|apply W_err].
    - eapply W_bind; [apply Hrv|]. intro v. off.
      eapply W_bind; [eapply W_le; [|intro; apply Nat.le_refl|apply (W_del c _ EArrayValue (fun st => d_array_value D st o v))]; lia|].
      intro o2. off. unfold p_tok. tok.
      match goal with |- W _ (match ?t with TkNull => _ | _ => _ end) _ => destruct t end; try apply W_err.
      + apply W_ret. cbv beta. lia.
      + eapply W_le; [| |apply (IH o2 c)]; intros; cbv beta; lia.
  Qed.
  Lemma earns_tokens loops fuel : earns (read_tokens g pw cfg R loops fuel).
  Proof.
    induction fuel as [|fuel IH]; intro c; cbn [read_tokens]; [apply W_fault|]. off. unfold p_tok. tok.
    assert (Hs : forall ev (call : d_st D -> res (d_error D) (d_value D) * d_st D),
      W (c + 3) (p_del R a (fun st => note ev (snd st) (call (fst st)))) (fun _ => S c)).
    { intros ev call. eapply W_le; [|intro; apply Nat.le_refl|apply (W_del (S c) a ev call)]. lia. }
    match goal with |- W _ (match ?t with TkNull => _ | _ => _ end) _ => destruct t as [|b|k|x| | | | | |] end; try apply W_err.
    - apply (Hs ENull (fun st => d_null D st)).
    - apply (Hs (EBoolean b) (fun st => d_boolean D st b)).
    - apply (Hs (EString k) (fun st => d_string D st k)).
    - apply (Hs (ENumber x) (fun st => d_number D st x)).
    - eapply W_bind; [apply W_begin|]. intro. apply W_map_err. unfold read_object. off.
      eapply W_bind; [eapply W_le; [|intro; apply Nat.le_refl|apply (W_del (c + 1) _ EBeginObject (fun st => d_begin_object D st))]; lia|].
      intro o. eapply W_bind; [apply W_object_loop, IH|]. intro o2. off.
      eapply W_bind; [eapply W_le; [|intro; apply Nat.le_refl|apply (W_del (c + 1) _ EEndObject (fun st => d_end_object D st o2))]; lia|].
      intro v. eapply W_bind; [apply W_end|]. intro. apply W_ret. cbv beta. lia.
    - eapply W_bind; [apply W_begin|]. intro. apply W_map_err. unfold read_array. off.
      eapply W_bind; [eapply W_le; [|intro; apply Nat.le_refl|apply (W_del (c + 1) _ EBeginArray (fun st => d_begin_array D st))]; lia|].
      intro o. eapply W_bind; [apply W_array_loop, IH|]. intro o2.
      eapply W_bind; [eapply W_le; [|intro; apply Nat.le_refl|apply (W_del (c + 1) _ EEndArray (fun st => d_end_array D st o2))]; lia|].
      intro v. eapply W_bind; [apply W_end|]. intro. apply W_ret. cbv beta. lia.
  Qed.
End Work.

(** However the delegate behaves, and however the run ends, it receives at most three callbacks for two bytes of input; on
    success strictly fewer.  (The log of [recording D] holds every callback made, in order; C15 shows that recording changes
    nothing.) *)
Theorem C78_callbacks_are_linear utf8 pw cfg D s st : input_ok utf8 pw s ->
  match parse_with utf8 pw (recording D) s cfg (st, []) with
  | (Ok _, (_, log)) => (2 * length log < 3 * length s)%nat
  | (_, (_, log)) => (2 * length log <= 3 * length s)%nat
  end.
Proof.
  intro Hin. rewrite parse_with_eq.
  assert (H : W D s 0 (parse_body utf8 pw cfg (recording D) (S (length s)) (S (length s))) (fun _ => 1%nat)).
  { unfold parse_body. eapply W_bind; [apply (earns_tokens utf8 pw cfg D s (input_good _ _ _ Hin))|]. intro v.
    apply W_bind with (c1 := fun _ => 1%nat).
    - unfold check_root. destruct (negb _); [|apply W_ret; cbv beta; lia]. eapply W_bind; [apply W_query|]. intros []; try apply W_err; apply W_ret; cbv beta; lia.
    - intros _. eapply W_bind; [apply W_trailing|]. intro. apply W_ret. cbv beta. lia. }
  unfold parse_bytes, parse_state. set (s0 := PS (bi_new s) _ _). specialize (H s0).
  assert (K : credit D s 0 s0) by (exists 0%nat; split; [lia|]; split; [reflexivity|]; cbn; lia). specialize (H K).
  destruct (parse_body _ _ _ _ _ _ s0) as [r s1]. destruct (ps_del s1) as [st1 log] eqn:E.
  destruct r as [v|e|f]; destruct H as (n & Hn & _ & Hc); rewrite E in Hc; cbn [snd] in Hc; lia.
Qed.

(** The bound is attained: an unfinished array of one digit. *)
Example C78_bound_is_attained :
  let r := parse_with true W64 (recording unit_delegate) (bs "[1") config_new (tt, []) in
  length (snd (snd r)) = 3%nat /\ length (bs "[1") = 2%nat.
Proof. vm_compute. split; reflexivity. Qed.
Example C78_sample :
  let r := parse_with true W64 (recording unit_delegate) (bs "[[[]],[1]]") config_new (tt, []) in
  fst r = Ok JkArray /\ length (snd (snd r)) = 13%nat /\ length (bs "[[[]],[1]]") = 10%nat.
Proof. vm_compute. repeat split. Qed.

(** * C79: a more permissive configuration *)

(** [c2] forbids nothing that [c1] allows. *)
Definition allows_more (c1 c2 : parse_config) : Prop :=
  (allow_trailing_commas c1 = true -> allow_trailing_commas c2 = true) /\
  (allow_all_types_at_root c1 = true -> allow_all_types_at_root c2 = true) /\
  match recursion_limit c1, recursion_limit c2 with
  | _, None => True
  | Some n1, Some n2 => (n1 <= n2)%N
  | None, Some _ => False
  end.

(** The error kinds by which a configuration forbids something. *)
Definition forbidden {E} (k : error_kind E) : Prop :=
  k = KIllegalTrailingComma \/ k = KRecursionLimitReached \/ k = KPayloadsShouldBeObjectOrArray.

Section More.
  Variables (g : bool) (pw : pwidth) (c1 c2 : parse_config) (D : delegate).
  Hypothesis Hmore : allows_more c1 c2.

  Definition nested (s1 s2 : pstate D) : Prop :=
    ps_iter s1 = ps_iter s2 /\ ps_del s1 = ps_del s2 /\
    match recursion_limit c1, recursion_limit c2 with Some _, Some _ => (ps_depth s1 <= ps_depth s2)%N | _, _ => True end.
  Definition follows {A} (m1 m2 : pm D A) : Prop :=
    forall s1 s2, nested s1 s2 ->
    match m1 s1 with
    | (Ok a, t1) => exists t2, m2 s2 = (Ok a, t2) /\ nested t1 t2
    | (Err e, t1) => forbidden (err_kind e) \/ exists t2, m2 s2 = (Err e, t2) /\ nested t1 t2
    | (Fault _, _) => True
    end.

  Lemma fl_bind {A B} (m1 m2 : pm D A) (k1 k2 : A -> pm D B) : follows m1 m2 -> (forall a, follows (k1 a) (k2 a)) -> follows (pbind D m1 k1) (pbind D m2 k2).
  Proof.
    intros Hm Hk s1 s2 Hs. specialize (Hm s1 s2 Hs). unfold pbind. destruct (m1 s1) as [[a|e|f] t1]; [| |exact I].
    - destruct Hm as (t2 & -> & Ht). exact (Hk a t1 t2 Ht).
    - destruct Hm as [Hm|(t2 & -> & Ht)]; [left; exact Hm|right; eauto].
  Qed.
  Lemma fl_ret {A} (a : A) : follows (pret D a) (pret D a).
  Proof. intros s1 s2 Hs. exists s2. split; [reflexivity|exact Hs]. Qed.
  Lemma fl_err {A} o k : follows (@perr D A o k) (perr D o k).
  Proof. intros s1 s2 Hs. right. exists s2. split; [reflexivity|exact Hs]. Qed.
  Lemma fl_fault {A} f (m2 : pm D A) : follows (fun s => (Fault f, s)) m2.
  Proof. intros s1 s2 Hs. exact I. Qed.
  Lemma fl_offset : follows (p_offset D) (p_offset D).
  Proof. intros s1 s2 Hs. unfold p_offset. exists s2. rewrite (proj1 Hs). split; [reflexivity|exact Hs]. Qed.
  Lemma fl_tok_err {A} conv (m : tok A) : follows (p_tok_err D conv m) (p_tok_err D conv m).
  Proof.
    intros s1 s2 (Hi & Hd & Hl). unfold p_tok_err. rewrite Hi, Hd. destruct (m (ps_iter s2)) as [[a|e|f] it]; cbn [map_err]; [| |exact I].
    - eexists. split; [reflexivity|]. split; [reflexivity|]. split; [reflexivity|exact Hl].
    - right. eexists. split; [reflexivity|]. split; [reflexivity|]. split; [reflexivity|exact Hl].
  Qed.
  Lemma fl_del {A} o (m : d_st D -> res (d_error D) A * d_st D) : follows (p_del D o m) (p_del D o m).
  Proof.
    intros s1 s2 (Hi & Hd & Hl). unfold p_del. rewrite Hi, Hd. destruct (m (ps_del s2)) as [[a|e|f] it]; cbn [map_err]; [| |exact I].
    - eexists. split; [reflexivity|]. split; [reflexivity|]. split; [reflexivity|exact Hl].
    - right. eexists. split; [reflexivity|]. split; [reflexivity|]. split; [reflexivity|exact Hl].
  Qed.
  Lemma fl_map_err {A} k (m1 m2 : pm D A) : follows m1 m2 -> follows (p_map_err D (eof_to D k) m1) (p_map_err D (eof_to D k) m2).
  Proof.
    intros H s1 s2 Hs. specialize (H s1 s2 Hs). unfold p_map_err. destruct (m1 s1) as [[a|e|f] t1]; cbn [map_err]; [| |exact I].
    - destruct H as (t2 & -> & Ht). eauto.
    - destruct H as [H|(t2 & -> & Ht)]; [left|right; eauto]. unfold eof_to. destruct H as [H|[H|H]]; rewrite H; unfold forbidden; auto.
  Qed.
  Lemma fl_begin o : follows (begin_nest c1 D o) (begin_nest c2 D o).
  Proof.
    intros s1 s2 (Hi & Hd & Hl). destruct Hmore as (_ & _ & Hm). unfold begin_nest, nested in *.
    destruct (recursion_limit c1) as [n1|], (recursion_limit c2) as [n2|]; [| | |].
    - destruct (N.ltb_spec 0 (ps_depth s1)); [|left; cbn; unfold forbidden; auto].
      destruct (N.ltb_spec 0 (ps_depth s2)); [|lia]. eexists. split; [reflexivity|]. cbn. split; [exact Hi|]. split; [exact Hd|lia].
    - destruct (N.ltb_spec 0 (ps_depth s1)); [|left; cbn; unfold forbidden; auto]. eexists. split; [reflexivity|]. cbn. auto.
    - destruct Hm.
    - eexists. split; [reflexivity|]. auto.
  Qed.
  Lemma fl_end : follows (end_nest c1 D) (end_nest c2 D).
  Proof.
    intros s1 s2 (Hi & Hd & Hl). destruct Hmore as (_ & _ & Hm). unfold end_nest, nested in *.
    destruct (recursion_limit c1) as [n1|], (recursion_limit c2) as [n2|]; [| |destruct Hm|]; (eexists; split; [reflexivity|]); cbn; auto.
    split; [exact Hi|]. split; [exact Hd|lia].
  Qed.
  Lemma fl_peek : follows (peek_array_end D) (peek_array_end D).
  Proof.
    intros s1 s2 (Hi & Hd & Hl). unfold peek_array_end. rewrite Hi. destruct (tokenizer_peek (ps_iter s2)) as [o it].
    destruct o as [[]|]; (eexists; split; [reflexivity|]; split; [reflexivity|]; split; [exact Hd|exact Hl]).
  Qed.
  (** The query for an empty container is only made by the configuration that forbids trailing commas. *)
  Lemma fl_comma {A} (q : d_st D -> res infallible bool) (a : A) o :
    follows (pbind D (if allow_trailing_commas c1 then pret D true else p_query D q) (fun ok => if ok then pret D a else perr D o KIllegalTrailingComma))
            (pbind D (if allow_trailing_commas c2 then pret D true else p_query D q) (fun ok => if ok then pret D a else perr D o KIllegalTrailingComma)).
  Proof.
    destruct Hmore as (Hm & _ & _). intros s1 s2 Hs. pose proof Hs as (Hi & Hd & Hl). unfold pbind, p_query, pret, perr.
    destruct (allow_trailing_commas c1).
    - rewrite (Hm eq_refl). exists s2. split; [reflexivity|exact Hs].
    - rewrite Hd. destruct (q (ps_del s2)) as [[|]|[]|f] eqn:E; [| |exact I].
      + exists s2. split; [|exact Hs]. destruct (allow_trailing_commas c2); [reflexivity|rewrite E; reflexivity].
      + left. left. reflexivity.
  Qed.

  Ltac fl := repeat match goal with
    | |- follows (pbind D (if allow_trailing_commas _ then _ else _) _) _ => apply fl_comma
    | |- follows (pbind D _ _) (pbind D _ _) => apply fl_bind; [|intro]
    | |- follows (p_offset D) _ => apply fl_offset
    | |- follows (p_tok D _) _ => apply fl_tok_err
    | |- follows (p_tok_err D _ _) _ => apply fl_tok_err
    | |- follows (p_del D _ _) _ => apply fl_del
    | |- follows (begin_nest _ _ _) _ => apply fl_begin
    | |- follows (end_nest _ _) _ => apply fl_end
    | |- follows (peek_array_end _) _ => apply fl_peek
    | |- follows (pret _ _) _ => apply fl_ret
    | |- follows (perr _ _ _) _ => apply fl_err
    | |- follows (p_map_err _ _ _) _ => apply fl_map_err
    | |- follows (match ?t with TkNull => _ | _ => _ end) _ => destruct t
    | |- follows (let '(_, _) := ?p in _) _ => destruct p
    | |- follows (if ?b then _ else _) _ => destruct b
    end.
  Lemma fl_object_loop rv1 rv2 : follows rv1 rv2 -> forall n o, follows (object_loop g pw c1 D rv1 n o) (object_loop g pw c2 D rv2 n o).
  Proof. intros H. induction n as [|n IH]; intro o; cbn [object_loop]; [apply fl_fault|]. fl; auto. Qed.
  Lemma fl_array_loop rv1 rv2 : follows rv1 rv2 -> forall n o, follows (array_loop g pw c1 D rv1 n o) (array_loop g pw c2 D rv2 n o).
  Proof. intros H. induction n as [|n IH]; intro o; cbn [array_loop]; [apply fl_fault|]. fl; auto. Qed.
  Lemma fl_read_tokens loops fuel : follows (read_tokens g pw c1 D loops fuel) (read_tokens g pw c2 D loops fuel).
  Proof.
    induction fuel as [|fuel IH]; cbn [read_tokens]; [apply fl_fault|]. fl; unfold read_object, read_array; fl;
      [apply fl_object_loop, IH|apply fl_array_loop, IH].
  Qed.
  Lemma fl_trailing : follows (check_trailing D) (check_trailing D).
  Proof.
    intros s1 s2 (Hi & Hd & Hl). unfold check_trailing. rewrite Hi. destruct (next_non_ws (ps_iter s2)) as [[[o b]|] it].
    - right. eexists. split; [reflexivity|]. split; [reflexivity|]. split; [exact Hd|exact Hl].
    - eexists. split; [reflexivity|]. split; [reflexivity|]. split; [exact Hd|exact Hl].
  Qed.
  Lemma fl_root v : follows (check_root c1 D v) (check_root c2 D v).
  Proof.
    destruct Hmore as (_ & Hm & _). intros s1 s2 Hs. pose proof Hs as (Hi & Hd & Hl). unfold check_root, pbind, p_query.
    destruct (allow_all_types_at_root c1) eqn:E1; cbn [negb].
    - rewrite (Hm eq_refl). cbn [negb]. exists s2. split; [reflexivity|exact Hs].
    - rewrite Hd. destruct (d_kind_of D (ps_del s2) v) as [k|[]|f] eqn:E; [|exact I].
      assert (Ke : forall o, @forbidden (d_error D) (err_kind (Error o KPayloadsShouldBeObjectOrArray))) by (intro; unfold forbidden; auto).
      destruct k; cbn [pret perr]; try (left; apply Ke); (exists s2; split; [|exact Hs]); destruct (allow_all_types_at_root c2); cbn [negb]; try rewrite E; reflexivity.
  Qed.
End More.

(** With every delegate, on every input: unless the run under [c1] ended in an error by which a configuration forbids something
    (or the delegate panicked), the run under [c2] ends with the same result and leaves the delegate in the same state. *)
Theorem C79_more_permissive utf8 pw c1 c2 D s st r st' : allows_more c1 c2 ->
  parse_with utf8 pw D s c1 st = (r, st') ->
  match r with Ok _ => True | Err e => ~ forbidden (err_kind e) | Fault _ => False end ->
  parse_with utf8 pw D s c2 st = (r, st').
Proof.
  intros Hm. rewrite !parse_with_eq. unfold parse_bytes.
  assert (H : follows c1 c2 D (parse_body utf8 pw c1 D (S (length s)) (S (length s))) (parse_body utf8 pw c2 D (S (length s)) (S (length s)))).
  { unfold parse_body. apply fl_bind; [apply fl_read_tokens, Hm|intro]. apply fl_bind; [apply fl_root, Hm|intro].
    apply fl_bind; [apply fl_trailing|intro]. apply fl_ret. }
  specialize (H (parse_state pw c1 D s st) (parse_state pw c2 D s st)).
  assert (K : nested c1 c2 D (parse_state pw c1 D s st) (parse_state pw c2 D s st)).
  { split; [reflexivity|]. split; [reflexivity|]. destruct Hm as (_ & _ & Hm). unfold parse_state. cbn [ps_depth].
    destruct (recursion_limit c1), (recursion_limit c2); auto. }
  specialize (H K). destruct (parse_body _ _ c1 _ _ _ _) as [x t1]. intros E Hr. injection E as <- <-. destruct x as [a|e|f].
  - destruct H as (t2 & -> & Hi & Hd & _). rewrite Hd. reflexivity.
  - destruct H as [H|(t2 & -> & Hi & Hd & _)]; [contradiction|]. rewrite Hd. reflexivity.
  - destruct Hr.
Qed.

(** What a run that nothing forbade looks like. *)
Definition not_forbidden {E A} (r : res (error E) A) : Prop :=
  match r with Ok _ => True | Err e => ~ forbidden (err_kind e) | Fault _ => False end.

Lemma more_bytes pw c1 c2 D s st : allows_more c1 c2 -> not_forbidden (fst (parse_json_bytes_with_config pw D s c1 st)) ->
  parse_json_bytes_with_config pw D s c2 st = parse_json_bytes_with_config pw D s c1 st.
Proof.
  intros Hm H. destruct (parse_json_bytes_with_config pw D s c1 st) as [r st'] eqn:E.
  exact (C79_more_permissive false pw c1 c2 D s st r st' Hm E H).
Qed.
Lemma more_str pw c1 c2 D s st : allows_more c1 c2 -> not_forbidden (fst (parse_json_with_config pw D s c1 st)) ->
  parse_json_with_config pw D s c2 st = parse_json_with_config pw D s c1 st.
Proof.
  intros Hm H. destruct (parse_json_with_config pw D s c1 st) as [r st'] eqn:E.
  exact (C79_more_permissive true pw c1 c2 D s st r st' Hm E H).
Qed.
Lemma document_of_not_forbidden r : not_forbidden (document_of r) -> not_forbidden (fst r).
Proof.
  destruct r as [[n|[o k]|f] c]; cbn [document_of fst not_forbidden]; auto. intros H K. apply H.
  destruct K as [K|[K|K]]; cbn in K; subst k; unfold forbidden; auto.
Qed.

(** ... for the ready-made results. *)
Theorem C79_values_and_documents pw c1 c2 s : allows_more c1 c2 ->
  (not_forbidden (value_from_json_with_config pw s c1) -> value_from_json_with_config pw s c2 = value_from_json_with_config pw s c1) /\
  (not_forbidden (value_from_json_bytes_with_config pw s c1) ->
     value_from_json_bytes_with_config pw s c2 = value_from_json_bytes_with_config pw s c1) /\
  (forall cap, not_forbidden (document_from_json_with_config pw cap s c1) ->
     document_from_json_with_config pw cap s c2 = document_from_json_with_config pw cap s c1) /\
  (forall cap, not_forbidden (document_from_json_bytes_with_config pw cap s c1) ->
     document_from_json_bytes_with_config pw cap s c2 = document_from_json_bytes_with_config pw cap s c1) /\
  (not_forbidden (validate_json_with_config pw s c1) -> validate_json_with_config pw s c2 = validate_json_with_config pw s c1) /\
  (not_forbidden (validate_json_bytes_with_config pw s c1) ->
     validate_json_bytes_with_config pw s c2 = validate_json_bytes_with_config pw s c1).
Proof.
  intros Hm. split; [|split; [|split; [|split; [|split]]]].
  - intros H. unfold value_from_json_with_config in *. rewrite (more_str _ _ _ _ _ _ Hm H). reflexivity.
  - intros H. unfold value_from_json_bytes_with_config in *. rewrite (more_bytes _ _ _ _ _ _ Hm H). reflexivity.
  - intros cap H. unfold document_from_json_with_config in *. rewrite (more_str pw c1 c2 (nodes_delegate cap) s [] Hm (document_of_not_forbidden _ H)). reflexivity.
  - intros cap H. unfold document_from_json_bytes_with_config in *. rewrite (more_bytes pw c1 c2 (nodes_delegate cap) s [] Hm (document_of_not_forbidden _ H)). reflexivity.
  - intros H. unfold validate_json_with_config in *. rewrite (more_str _ _ _ _ _ _ Hm H). reflexivity.
  - intros H. unfold validate_json_bytes_with_config in *.
    change (parse_bytes false pw c2 unit_delegate s tt) with (parse_json_bytes_with_config pw unit_delegate s c2 tt).
    rewrite (more_bytes _ _ _ _ _ _ Hm H). reflexivity.
Qed.

(** The builder methods only make a configuration more permissive, or leave it as it is. *)
Theorem C79_builders c n m : allows_more c c /\
  allows_more c (allowing_trailing_commas c) /\ allows_more c (without_recursion_limit c) /\
  allows_more c (allowing_all_types_at_root c true) /\ allows_more (allowing_all_types_at_root c false) c /\
  ((n <= m)%N -> allows_more (with_recursion_limit c n) (with_recursion_limit c m)) /\
  allows_more config_strict config_new.
Proof.
  destruct c as [tc [l|] ar]; unfold allows_more, allowing_trailing_commas, without_recursion_limit, allowing_all_types_at_root, with_recursion_limit;
    cbn; try pose proof (N.le_refl l); pose proof (N.le_refl 128); intuition discriminate.
Qed.

(** Two configurations that both accept, agree. *)
Theorem C79_accepted_once pw c1 c2 s v1 v2 :
  value_from_json_bytes_with_config pw s c1 = Ok v1 -> value_from_json_bytes_with_config pw s c2 = Ok v2 -> v1 = v2.
Proof.
  intros H1 H2. pose (top := Config true None true).
  assert (T : forall c, allows_more c top).
  { intro c. unfold allows_more, top. cbn. split; [auto|]. split; [auto|]. destruct (recursion_limit c); exact I. }
  destruct (C79_values_and_documents pw c1 top s (T c1)) as (_ & K1 & _). destruct (C79_values_and_documents pw c2 top s (T c2)) as (_ & K2 & _).
  rewrite H1 in K1. rewrite H2 in K2. specialize (K1 I). specialize (K2 I). congruence.
Qed.

(** A concrete case: an error that no configuration is responsible for stays; one that the strict configuration raises goes. *)
Example C79_sample :
  allows_more config_strict config_new /\
  not_forbidden (value_from_json_bytes_with_config W64 (bs "[1,2}") config_strict) /\
  value_from_json_bytes_with_config W64 (bs "[1,2}") config_new = Err (Error 4 KExpectedCommaOrEndOfArray) /\
  ~ not_forbidden (value_from_json_bytes_with_config W64 (bs "1") config_strict) /\
  value_from_json_bytes_with_config W64 (bs "1") config_new = Ok (VNumber (JNum (Borrowed (bs "1")))).
Proof.
  split; [apply (C79_builders config_strict 0 0)|]. split; [vm_compute; intros [H|[H|H]]; discriminate|].
  split; [vm_compute; reflexivity|]. split; [vm_compute; intro H; apply H; auto|]. vm_compute; reflexivity.
Qed.
