(** Where the callbacks are made: soundness with respect to SpecCall, for every delegate. *)
From Verif Require Import Base Utf8 Utf8Facts StrModel ErrorModel Tokenizer Parser ValueModel Spec SpecError SpecCall TokBase
  TokStr TokNum TokFacts ErrTok Trace ParserSound ParserComplete ErrSound View PropDelegate.

(** The callback [ev] is the one described by [c]. *)
Definition call_event (c : call) (ev : event) : Prop :=
  match c, ev with
  | CNull, ENull | CBeginObj, EBeginObject | CMember, EObjectValue | CEndObj, EEndObject
  | CBeginArr, EBeginArray | CElement, EArrayValue | CEndArr, EEndArray => True
  | CBool b, EBoolean b' => b = b'
  | CNum n, ENumber m => jn_str m = n
  | CStr raw, EString s => is_json_form s /\ stored s = raw
  | CKey raw, EObjectKey s => is_json_form s /\ stored s = raw
  | _, _ => False
  end.
Definition calls_events (cs : list (nat * call)) (evs : list event) : Prop := Forall2 (fun c => call_event (snd c)) cs evs.

Lemma at_offset_app n a b : at_offset n (a ++ b) = at_offset n a ++ at_offset n b.
Proof. apply map_app. Qed.
Lemma at_offset_add n m a : at_offset n (at_offset m a) = at_offset (n + m) a.
Proof. unfold at_offset. rewrite map_map. apply map_ext. intros [o c]. cbn. f_equal. lia. Qed.
Lemma at_offset_0 a : at_offset 0 a = a.
Proof. unfold at_offset. rewrite <- (map_id a) at 2. apply map_ext. intros [o c]. reflexivity. Qed.
Lemma at_offset_one n o c : at_offset n [(o, c)] = [((n + o)%nat, c)]. Proof. reflexivity. Qed.

(** A value starting with whitespace only reads as one value. *)
Lemma number_ends w n r : number_then n r -> ws w -> ends (w ++ n) r.
Proof.
  intros Hn Hw w' n' Hw' Hn' E.
  assert (H : forall a x b y, ws a -> ws b -> number x -> number y -> a ++ x = b ++ y -> x = y).
  { clear. induction a as [|c a IH]; intros x b y Ha Hb Hx Hy E.
    - destruct b as [|d b]; [exact E|]. exfalso. cbn in E. subst x. apply number_head_cases in Hx.
      apply Forall_inv in Hb. unfold ws_byte in Hb. lia.
    - destruct b as [|d b].
      + exfalso. cbn in E. subst y. apply number_head_cases in Hy. apply Forall_inv in Ha. unfold ws_byte in Ha. lia.
      + cbn in E. injection E as <- E. apply (IH x b y); auto; [apply Forall_inv_tail in Ha; exact Ha|apply Forall_inv_tail in Hb; exact Hb]. }
  assert (Hnn : number n) by (eapply num_token_number, number_then_iff, Hn).
  rewrite (H w n w' n' Hw Hw' Hnn Hn' E) in Hn. exact Hn.
Qed.

Section CallSound.
  Variables (g : bool) (pw : pwidth) (cfg : parse_config) (D : delegate).
  Notation R := (recording D).
  Notation St := (@PS R).

  (** Running [m] at [pre | r] : on success [x] was read and the callbacks [cs] (absolute offsets) were made; on a delegate
      error [F] holds of the callbacks made, the last of which failed and gives the offset. *)
  Definition at_ {A} (pre r : list N) (m : pm R A) (P : A -> list N -> list N -> list (nat * call) -> Prop)
    (F : list (nat * call) -> Prop) : Prop :=
    forall st log b, match m (St (mk pre r) (st, log) b) with
    | (Ok a, s') => exists x r' cs evs st' b', r = x ++ r' /\ s' = St (mk (pre ++ x) r') (st', log ++ evs) b' /\
        calls_events cs evs /\ P a x r' cs
    | (Err (Error o (KErrorFromDelegate _)), s') => exists cs c evs,
        snd (ps_del s') = log ++ evs /\ calls_events (cs ++ [(o, c)]) evs /\ F (cs ++ [(o, c)])
    | _ => True
    end.

  Lemma at_bind {A B} pre r (m : pm R A) (k : A -> pm R B) (P : A -> list N -> list N -> list (nat * call) -> Prop)
    (F : list (nat * call) -> Prop) (Q : B -> list N -> list N -> list (nat * call) -> Prop) (G : list (nat * call) -> Prop) :
    at_ pre r m P F -> (forall cs, F cs -> G cs) ->
    (forall a x r' cs, r = x ++ r' -> P a x r' cs ->
       at_ (pre ++ x) r' (k a) (fun b y r'' ds => Q b (x ++ y) r'' (cs ++ ds)) (fun ds => G (cs ++ ds))) ->
    at_ pre r (pbind R m k) Q G.
  Proof.
    intros Hm HG Hk st log b. specialize (Hm st log b). unfold pbind.
    destruct (m (St (mk pre r) (st, log) b)) as [[a|[o kd]|f] s'].
    - destruct Hm as (x & r' & cs & evs & st' & b' & -> & -> & He & HP).
      specialize (Hk a x r' cs eq_refl HP st' (log ++ evs) b').
      destruct (k a (St (mk (pre ++ x) r') (st', log ++ evs) b')) as [[bb|[o kd]|f] s''].
      + destruct Hk as (y & r'' & ds & evs' & st'' & b'' & -> & -> & He' & HQ).
        exists (x ++ y), r'', (cs ++ ds), (evs ++ evs'), st'', b''. rewrite !app_assoc. repeat split; auto.
        apply Forall2_app; assumption.
      + destruct kd; auto. destruct Hk as (ds & c & evs' & E & He' & HF).
        exists (cs ++ ds), c, (evs ++ evs'). rewrite E, <- !app_assoc. repeat split; auto. apply Forall2_app; assumption.
      + exact I.
    - destruct kd; auto. destruct Hm as (cs & c & evs & E & He & HF). exists cs, c, evs. auto.
    - exact I.
  Qed.

  (** Steps without callbacks that read nothing. *)
  Lemma at_still {A B} pre r (m : pm R A) (k : A -> pm R B) Q G :
    (forall s, match m s with (Ok _, s') => ps_iter s' = ps_iter s /\ ps_del s' = ps_del s | (Err (Error _ (KErrorFromDelegate _)), _) => False | _ => True end) ->
    (forall a, at_ pre r (k a) Q G) -> at_ pre r (pbind R m k) Q G.
  Proof.
    intros Hm Hk. eapply (at_bind _ _ _ _ (fun a x r' cs => x = [] /\ cs = []) (fun _ => False)).
    - intros st log b. specialize (Hm (St (mk pre r) (st, log) b)). destruct (m _) as [[a|[o kd]|f] s']; [|destruct kd; tauto|exact I].
      destruct s' as [it dl dp]. cbn in Hm. destruct Hm as [-> ->]. exists [], r, [], [], st, dp. rewrite !app_nil_r. repeat split; constructor.
    - tauto.
    - intros a x r' cs E [-> ->]. cbn [app] in E. subst r'. rewrite app_nil_r. apply Hk.
  Qed.

  Lemma at_offset_ {B} pre r (k : nat -> pm R B) Q G : at_ pre r (k (length pre)) Q G -> at_ pre r (pbind R (p_offset R) k) Q G.
  Proof. intros H st log b. unfold pbind, p_offset. exact (H st log b). Qed.

  Lemma fallable_not (k : error_kind infallible) : match @kind_into_fallable (d_error R) k with KErrorFromDelegate _ => False | _ => True end.
  Proof. destruct k as [| | | | | | | | | | | | | | | | | | | | | | | |[]]; exact I. Qed.

  Lemma at_tok {B} conv pre r (k : token -> pm R B) Q G : good g pw (pre ++ r) ->
    (forall e, match err_kind (conv e) with KErrorFromDelegate _ => False | _ => True end) ->
    (forall tk w x r', r = w ++ x ++ r' -> ws w -> token_text pw tk x -> token_stop tk x r' -> good g pw ((pre ++ w ++ x) ++ r') ->
       at_ (pre ++ w ++ x) r' (k tk) (fun b y r'' ds => Q b ((w ++ x) ++ y) r'' ds) G) ->
    at_ pre r (pbind R (p_tok_err R conv (next_or_eof g pw)) k) Q G.
  Proof.
    intros Hg Hc Hk. eapply (at_bind _ _ _ _ (fun tk y r' cs => cs = [] /\ exists w x, y = w ++ x /\ ws w /\ token_text pw tk x /\ token_stop tk x r') (fun _ => False)).
    - intros st log b. unfold p_tok_err. cbn [ps_iter ps_del ps_depth].
      pose proof (next_or_eof_spec g pw pre r Hg) as H.
      destruct (next_or_eof g pw (mk pre r)) as [[tk|e|f] it']; cbn [map_err].
      + destruct H as (w & x & r' & -> & Hw & Ht & -> & Hst). exists (w ++ x), r', [], [], st, b. rewrite !app_nil_r, <- !app_assoc.
        repeat split; eauto 8. constructor.
      + specialize (Hc e). destruct (conv e) as [o kd]. cbn in Hc. destruct kd; auto. destruct Hc.
      + exact I.
    - tauto.
    - intros tk y r' cs -> (-> & w & x & -> & Hw & Ht & Hst). cbn [app]. rewrite <- !app_assoc in Hg.
      apply Hk; auto; [rewrite <- app_assoc; reflexivity|rewrite <- !app_assoc; exact Hg].
  Qed.
  Lemma at_tok' {B} pre r (k : token -> pm R B) Q G : good g pw (pre ++ r) ->
    (forall tk w x r', r = w ++ x ++ r' -> ws w -> token_text pw tk x -> token_stop tk x r' -> good g pw ((pre ++ w ++ x) ++ r') ->
       at_ (pre ++ w ++ x) r' (k tk) (fun b y r'' ds => Q b ((w ++ x) ++ y) r'' ds) G) ->
    at_ pre r (pbind R (p_tok R (next_or_eof g pw)) k) Q G.
  Proof. intros Hg. apply at_tok; [exact Hg|]. intros [o kd]. cbn. pose proof (fallable_not kd) as H. destruct (kind_into_fallable kd); auto. Qed.

  (** A callback. *)
  Lemma at_del {A} pre r o (m : d_st R -> res (d_error R) A * d_st R) c ev (Q : A -> list N -> list N -> list (nat * call) -> Prop) (G : list (nat * call) -> Prop) :
    (forall st log, exists res st', m (st, log) = (res, (st', log ++ [ev]))) -> call_event c ev ->
    (forall a, Q a [] r [(o, c)]) -> G [(o, c)] ->
    at_ pre r (p_del R o m) Q G.
  Proof.
    intros Hm Hc HQ HG st log b. unfold p_del. cbn [ps_del ps_iter ps_depth]. destruct (Hm st log) as (res & st' & ->).
    destruct res as [a|e|f]; cbn [map_err]; [| |exact I].
    - exists [], r, [(o, c)], [ev], st', b. rewrite app_nil_r. repeat split; auto. constructor; [exact Hc|constructor].
    - exists [], c, [ev]. cbn. repeat split; auto. constructor; [exact Hc|constructor].
  Qed.
  Lemma at_del_bind {A B} pre r o (m : d_st R -> res (d_error R) A * d_st R) (k : A -> pm R B) c ev (Q : B -> list N -> list N -> list (nat * call) -> Prop) (G : list (nat * call) -> Prop) :
    (forall st log, exists res st', m (st, log) = (res, (st', log ++ [ev]))) -> call_event c ev ->
    G [(o, c)] ->
    (forall a, at_ pre r (k a) (fun b y r'' ds => Q b y r'' ((o, c) :: ds)) (fun ds => G ((o, c) :: ds))) ->
    at_ pre r (pbind R (p_del R o m) k) Q G.
  Proof.
    intros Hm Hc HG Hk. eapply (at_bind _ _ _ _ (fun a x r' cs => x = [] /\ cs = [(o, c)]) (fun cs => cs = [(o, c)])).
    - eapply at_del; eauto.
    - intros cs ->. exact HG.
    - intros a x r' cs E [-> ->]. cbn [app] in *. subst r'. rewrite app_nil_r. apply Hk.
  Qed.

  Lemma at_weaken {A} pre r (m : pm R A) P F (P' : A -> list N -> list N -> list (nat * call) -> Prop) (F' : list (nat * call) -> Prop) : at_ pre r m P F ->
    (forall a x r' cs, P a x r' cs -> P' a x r' cs) -> (forall cs, F cs -> F' cs) -> at_ pre r m P' F'.
  Proof.
    intros H HP HF st log b. specialize (H st log b). destruct (m _) as [[a|[o kd]|f] s']; [| |exact I].
    - destruct H as (x & r' & cs & evs & st' & b' & H1 & H2 & H3 & H4). exists x, r', cs, evs, st', b'. auto.
    - destruct kd; auto. destruct H as (cs & c & evs & H1 & H2 & H3). exists cs, c, evs. auto.
  Qed.
  Lemma at_ret {A} pre r (a : A) (Q : A -> list N -> list N -> list (nat * call) -> Prop) G : Q a [] r [] -> at_ pre r (pret R a) Q G.
  Proof. intros H st log b. cbn. exists [], r, [], [], st, b. rewrite !app_nil_r. repeat split; auto. constructor. Qed.
  Lemma at_perr {A} pre r o k (Q : A -> list N -> list N -> list (nat * call) -> Prop) G :
    match k with KErrorFromDelegate _ => False | _ => True end -> at_ pre r (perr R o k) Q G.
  Proof. intros H st log b. cbn. destruct k; auto. destruct H. Qed.
  Lemma at_fuel {A} pre r (Q : A -> list N -> list N -> list (nat * call) -> Prop) G : at_ pre r (fun s => (Fault FFuel, s)) Q G.
  Proof. intros st log b. exact I. Qed.
  Lemma at_map_err {A} pre r u (m : pm R A) Q G : match u with KErrorFromDelegate _ => False | _ => True end ->
    at_ pre r m Q G -> at_ pre r (p_map_err R (eof_to R u) m) Q G.
  Proof.
    intros Hu H st log b. specialize (H st log b). unfold p_map_err. destruct (m _) as [[a|[o kd]|f] s']; cbn [map_err]; [exact H| |exact I].
    unfold eof_to. cbn [err_kind err_offset]. destruct kd; try exact I; try exact H. destruct u; auto. destruct Hu.
  Qed.

  Lemma at_peek {B} pre r (k : bool -> pm R B) (Q : B -> list N -> list N -> list (nat * call) -> Prop) G :
    (forall w r', r = w ++ 93%N :: r' -> ws w -> at_ (pre ++ w ++ [93%N]) r' (k true) (fun b y r'' ds => Q b ((w ++ [93%N]) ++ y) r'' ds) G) ->
    (forall w r', r = w ++ r' -> ws w -> ~ starts ws_byte r' -> at_ (pre ++ w) r' (k false) (fun b y r'' ds => Q b (w ++ y) r'' ds) G) ->
    at_ pre r (pbind R (peek_array_end R) k) Q G.
  Proof.
    intros Ht Hf. eapply (at_bind _ _ _ _ (fun b x r' cs => cs = [] /\ exists w, ws w /\ x = (if b : bool then w ++ [93%N] else w) /\
      (b = false -> ~ starts ws_byte r')) (fun _ => False)).
    - intros st log b. unfold peek_array_end, tokenizer_peek. cbn [ps_iter ps_del ps_depth]. rewrite skip_ws_mk. cbn zeta.
      pose proof (take_drop is_ws r) as E. pose proof (ws_take r) as Hw. pose proof (drop_while_head is_ws r) as Hdr.
      set (w := take_while is_ws r) in *. set (r1 := drop_while is_ws r) in *. clearbody w r1. subst r.
      rewrite bi_peek_mk. destruct r1 as [|c r1].
      + exists w, [], [], [], st, b. rewrite !app_nil_r. repeat (split; [reflexivity|]). split; [constructor|].
        split; [reflexivity|]. exists w. cbn. auto.
      + assert (Hd : peek_kind_of c = PkArrayEnd -> c = 93%N).
        { unfold peek_kind_of.
          repeat match goal with |- context [if ?x then _ else _] => destruct x eqn:?; [try discriminate|] end;
            try discriminate. intros _. lia. }
        assert (Hnw : ~ starts ws_byte (c :: r1)).
        { cbn. intro Hc. apply is_ws_spec in Hc. congruence. }
        destruct (peek_kind_of c) eqn:K;
          try (exists w, (c :: r1), [], [], st, b; rewrite !app_nil_r; repeat (split; [reflexivity|]); split; [constructor|];
            split; [reflexivity|]; exists w; auto).
        rewrite (Hd eq_refl). exists (w ++ [93%N]), r1, [], [], st, b. rewrite app_nil_r.
        split; [rewrite <- app_assoc; reflexivity|]. split; [|split; [constructor|split; [reflexivity|exists w; split; [exact Hw|split; [reflexivity|discriminate]]]]].
        f_equal. unfold mk. cbn [bi_bytes bi_offset]. rewrite <- !app_assoc. cbn [app]. rewrite !app_length. cbn. f_equal. lia.
    - tauto.
    - intros b x r' cs -> (-> & w & Hw & -> & Hn). cbn [app]. destruct b.
      + apply Ht; [rewrite <- app_assoc; reflexivity|exact Hw].
      + apply Hf; [reflexivity|exact Hw|auto].
  Qed.

  (** What a call of [read_tokens] at [pre | r] does. *)
  Definition value_at (pre : list N) (A : Type) : A -> list N -> list N -> list (nat * call) -> Prop :=
    fun _ x r' cs => exists cs0, cs = at_offset (length pre) cs0 /\ value_calls x cs0 /\ ends x r'.
  Definition upto_at (pre : list N) (U : list N -> list (nat * call) -> Prop) (r : list N) : list (nat * call) -> Prop :=
    fun cs => exists cs0, cs = at_offset (length pre) cs0 /\ U r cs0.
  Definition value_reader (rv : pm R (d_value R)) : Prop := forall pre r, good g pw (pre ++ r) ->
    at_ pre r rv (value_at pre _) (upto_at pre value_upto r).

  Ltac del := match goal with |- forall st log, exists res st', _ = _ => intros ? ?; cbn; unfold note; cbn [fst snd]; eauto end.

  Lemma quiet_q {A} (b : bool) (a : A) (q : d_st R -> res infallible A) s :
    match (if b then pret R a else p_query R q) s with
    | (Ok _, s') => ps_iter s' = ps_iter s /\ ps_del s' = ps_del s
    | (Err (Error _ (KErrorFromDelegate _)), _) => False | _ => True end.
  Proof. destruct b; cbn; [auto|]. destruct (q (ps_del s)) as [x|[]|f]; cbn; auto. Qed.
  Lemma quiet_b o s :
    match begin_nest cfg R o s with
    | (Ok _, s') => ps_iter s' = ps_iter s /\ ps_del s' = ps_del s
    | (Err (Error _ (KErrorFromDelegate _)), _) => False | _ => True end.
  Proof. unfold begin_nest. destruct (recursion_limit cfg); [|cbn; auto]. destruct (0 <? ps_depth s)%N; cbn; auto. Qed.
  Lemma quiet_e s :
    match end_nest cfg R s with
    | (Ok _, s') => ps_iter s' = ps_iter s /\ ps_del s' = ps_del s
    | (Err (Error _ (KErrorFromDelegate _)), _) => False | _ => True end.
  Proof. unfold end_nest. destruct (recursion_limit cfg); cbn; auto. Qed.

  Definition array_at (pre : list N) (A : Type) : A -> list N -> list N -> list (nat * call) -> Prop :=
    fun _ x r' cs => exists cs0, cs = at_offset (length pre) cs0 /\ array_calls x cs0.
  Definition object_at (pre : list N) (A : Type) : A -> list N -> list N -> list (nat * call) -> Prop :=
    fun _ x r' cs => exists cs0, cs = at_offset (length pre) cs0 /\ object_calls x cs0.


  Ltac off := unfold at_offset; cbn [map fst snd app]; repeat rewrite map_app; cbn [map fst snd app]; rewrite ?map_map;
    repeat (rewrite <- ?app_assoc; cbn [app]).

  Lemma value_start v cs : value_calls v cs -> v <> [].
  Proof.
    intros [w x c Hw [ | | |n Hn|raw cs0 Hs]|w x cs0 Hw Hx|w x cs0 Hw Hx] E; apply app_eq_nil in E as [_ E]; try discriminate.
    apply number_nonnil in Hn. congruence.
  Qed.

  Lemma starts_app (P : N -> Prop) a b : a <> [] -> starts P (a ++ b) <-> starts P a.
  Proof. destruct a; [congruence|]. cbn. tauto. Qed.

  Lemma call_array_loop rv : value_reader rv -> forall n o pre r, good g pw (pre ++ r) ->
    at_ pre r (array_loop g pw cfg R rv n o) (array_at pre _) (upto_at pre array_upto r).
  Proof.
    intros Hrv. induction n as [|n IH]; intros o pre r Hg; cbn [array_loop]; [apply at_fuel|].
    apply at_offset_. apply at_peek.
    - intros w r' -> Hw. apply at_still; [intro s; apply quiet_q|]. intros [].
      + apply at_ret. exists []. split; [reflexivity|]. rewrite app_nil_r. constructor. exact Hw.
      + apply at_perr. exact I.
    - intros w r' -> Hw Hns. rewrite app_assoc in Hg.
      eapply at_bind; [apply Hrv; exact Hg| |].
      + intros cs (cs0 & -> & Hu). exists (at_offset (length w) cs0). rewrite app_length, at_offset_add. split; [reflexivity|].
        apply au_value; assumption.
      + intros v x r2 cs -> (cs0 & -> & Hx & He).
        assert (Hnx : ~ starts ws_byte x) by (rewrite starts_app in Hns; [exact Hns|eapply value_start; exact Hx]).
        apply at_offset_. eapply at_del_bind with (c := CElement); [del|exact I| |].
        * exists (at_offset (length w) (cs0 ++ [(length x, CElement)])). split; [|apply au_element; assumption].
          rewrite !at_offset_app, !at_offset_add, !app_length. cbn [length at_offset map fst snd app]. reflexivity.
        * intros a. apply at_offset_. apply at_tok'; [rewrite <- app_assoc; exact Hg|].
          intros tk w1 x1 r3 -> Hw1 Ht1 Hst1 Hg1.
          inversion Ht1; subst; try (apply at_perr; exact I).
          -- apply at_ret. exists (at_offset (length w) (cs0 ++ [(length x, CElement)])). split.
             ++ rewrite !at_offset_app, !at_offset_add, !app_length. cbn [length at_offset map fst snd app]. reflexivity.
             ++ rewrite app_nil_r. apply ac_last; assumption.
          -- eapply at_weaken; [apply IH; exact Hg1| |].
             ++ intros b y r4 ds (ds0 & -> & Hy). 
                exists (at_offset (length w) (cs0 ++ [(length x, CElement)]) ++ at_offset (length w + length x + length w1 + 1) ds0). split.
                ** rewrite !at_offset_app, !at_offset_add, !app_length. cbn [length]. rewrite <- !app_assoc. f_equal. cbn [at_offset map app fst snd].
                   do 2 f_equal. lia.
                ** rewrite <- app_assoc. cbn [app]. apply ac_more; assumption.
             ++ intros ds (ds0 & -> & Hy). 
                exists (at_offset (length w) (cs0 ++ [(length x, CElement)]) ++ at_offset (length w + length x + length w1 + 1) ds0). split.
                ** rewrite !at_offset_app, !at_offset_add, !app_length. cbn [length]. rewrite <- !app_assoc. f_equal. cbn [at_offset map app fst snd].
                   do 2 f_equal. lia.
                ** cbn [app]. apply au_comma; assumption.
  Qed.

  Lemma call_object_loop rv : value_reader rv -> forall n o pre r, good g pw (pre ++ r) ->
    at_ pre r (object_loop g pw cfg R rv n o) (object_at pre _) (upto_at pre object_upto r).
  Proof.
    intros Hrv. induction n as [|n IH]; intros o pre r Hg; cbn [object_loop]; [apply at_fuel|].
    apply at_offset_. apply at_tok'; [exact Hg|]. clear Hg.
    intros tk w x r1 -> Hw Ht Hst Hg. inversion Ht as [| | | | | | | | |raw cs Hb|]; subst; try (apply at_perr; exact I).
    - apply at_still; [intro s; apply quiet_q|]. intros [].
      + apply at_ret. exists []. split; [reflexivity|]. rewrite app_nil_r. constructor. exact Hw.
      + apply at_perr. exact I.
    - eapply at_del_bind with (c := CKey raw); [del|split; [exact I|reflexivity]| |].
      { exists [(0%nat, CKey raw)]. split; [cbn; rewrite Nat.add_0_r; reflexivity|]. eapply ou_key; eassumption. }
      intros [o' key]. apply at_offset_. apply at_tok; [exact Hg|intros [? ?]; exact I|]. clear Hg.
      intros tk2 w2 x2 r2 -> Hw2 Ht2 Hst2 Hg.
      inversion Ht2; subst; try (apply at_perr; exact I).
      set (p := w ++ (34%N :: raw ++ [34%N]) ++ w2 ++ [58%N]) in *.
      assert (Hp : key_colon p raw) by (econstructor; eassumption).
      assert (Ep : (pre ++ w ++ 34%N :: raw ++ [34%N]) ++ w2 ++ [58%N] = pre ++ p) by (unfold p; ascs; reflexivity).
      assert (Er : w ++ (34%N :: raw ++ [34%N]) ++ w2 ++ [58%N] ++ r2 = p ++ r2) by (unfold p; ascs; reflexivity).
      rewrite Ep in *. rewrite Er. apply at_offset_.
      assert (Ex : forall y, (w ++ 34%N :: raw ++ [34%N]) ++ (w2 ++ [58%N]) ++ y = p ++ y) by (intro y; unfold p; ascs; reflexivity).
      eapply at_weaken with (P := fun a y r'' ds => object_at pre _ a (p ++ y) r'' ((length pre, CKey raw) :: ds));
        [|intros a y r'' ds H; rewrite Ex; exact H|intros cs0 H; exact H].
      clearbody p. clear Ex Er Ep Hw Hb Hw2 Ht Ht2 Hst Hst2 w w2.
      eapply at_bind; [apply Hrv; exact Hg| |].
      { intros cs1 (cs0 & -> & Hu). exists ((0%nat, CKey raw) :: at_offset (length p) cs0). split.
        - cbn [at_offset map fst snd]. fold (at_offset (length pre) (at_offset (length p) cs0)). rewrite Nat.add_0_r, at_offset_add, app_length. reflexivity.
        - apply (ou_value p raw); assumption. }
      intros v x r3 cs1 -> (cs0 & -> & Hx & He).
      eapply at_del_bind with (c := CMember); [del|exact I| |].
      { exists ((0%nat, CKey raw) :: at_offset (length p) cs0 ++ [(length p, CMember)]). split; [|apply (ou_member p raw); assumption].
        cbn [at_offset map fst snd]. fold (at_offset (length pre) (at_offset (length p) cs0 ++ [(length p, CMember)])).
        rewrite at_offset_app, at_offset_add, app_length, Nat.add_0_r. reflexivity. }
      intros a. apply at_offset_. apply at_tok'; [rewrite <- app_assoc; exact Hg|]. clear Hg.
      intros tk3 w3 x3 r4 -> Hw3 Ht3 Hst3 Hg.
      inversion Ht3; subst; try (apply at_perr; exact I).
      + apply at_ret. exists ((0%nat, CKey raw) :: at_offset (length p) cs0 ++ [(length p, CMember)]). split.
        * cbn [at_offset map fst snd]. fold (at_offset (length pre) (at_offset (length p) cs0 ++ [(length p, CMember)])).
          rewrite at_offset_app, at_offset_add, app_length, Nat.add_0_r. reflexivity.
        * rewrite app_nil_r. apply (oc_last p raw); assumption.
      + assert (Ec : forall ds0, at_offset (length pre) ((0%nat, CKey raw) :: at_offset (length p) cs0 ++ [(length p, CMember)] ++
            at_offset (length p + length x + length w3 + 1) ds0) =
          (length pre, CKey raw) :: at_offset (length (pre ++ p)) cs0 ++ (length (pre ++ p), CMember) ::
            at_offset (length (((pre ++ p) ++ x) ++ w3 ++ [44%N])) ds0).
        { intro ds0. cbn [at_offset map fst snd].
          fold (at_offset (length pre) (at_offset (length p) cs0 ++ [(length p, CMember)] ++ at_offset (length p + length x + length w3 + 1) ds0)).
          rewrite !at_offset_app, !at_offset_add, !app_length, Nat.add_0_r. cbn [length at_offset map fst snd app]. do 4 f_equal.
          lia. }
        eapply at_weaken; [apply IH; exact Hg| |].
        * intros b y r5 ds (ds0 & -> & Hy). eexists. split; [symmetry; apply Ec|].
          rewrite <- !app_assoc. cbn [app]. apply (oc_more p raw); assumption.
        * intros ds (ds0 & -> & Hy). eexists. split; [symmetry; apply Ec|].
          cbn [app]. apply (ou_comma p raw); assumption.
  Qed.

  Lemma scalar_reader {A} pre r o (m : d_st R -> res (d_error R) A * d_st R) w x r1 c ev : o = length pre -> r = w ++ x ++ r1 -> ws w ->
    scalar_call x c -> call_event c ev -> ends (w ++ x) r1 ->
    (forall st log, exists res st', m (st, log) = (res, (st', log ++ [ev]))) ->
    at_ (pre ++ w ++ x) r1 (p_del R o m) (fun a y r'' ds => value_at pre _ a ((w ++ x) ++ y) r'' ds) (upto_at pre value_upto r).
  Proof.
    intros -> -> Hw Hs Hc He Hm. apply (at_del _ _ _ _ c ev); [exact Hm|exact Hc| |].
    - intro a. exists [(0%nat, c)]. rewrite app_nil_r. split; [cbn; rewrite Nat.add_0_r; reflexivity|]. split; [constructor; assumption|exact He].
    - exists [(0%nat, c)]. split; [cbn; rewrite Nat.add_0_r; reflexivity|]. rewrite app_assoc. apply vu_value; [constructor; assumption|exact He].
  Qed.

  (** Only numbers are numbers. *)
  Lemma ends_other w x r : ws w -> (forall c y, x = c :: y -> ~ ws_byte c /\ ~ digit c /\ c <> 45%N) -> x <> [] -> ends (w ++ x) r.
  Proof.
    intros Hw Hx Hne w' n Hw' Hn E. exfalso. revert w' Hw' E. induction w as [|c w IH]; intros w' Hw' E; cbn in E.
    - destruct x as [|c x]; [congruence|]. destruct (Hx c x eq_refl) as (H1 & H2 & H3). destruct w' as [|d w'].
      + cbn in E. subst n. apply number_head_cases in Hn. unfold digit in H2. lia.
      + injection E as <- _. apply Forall_inv in Hw'. contradiction.
    - destruct w' as [|d w'].
      + cbn in E. subst n. apply number_head_cases in Hn. apply Forall_inv in Hw. unfold ws_byte in Hw. lia.
      + injection E as <- E. apply (IH (Forall_inv_tail Hw) w'); [exact (Forall_inv_tail Hw')|exact E].
  Qed.

  Lemma call_read_tokens loops fuel : value_reader (read_tokens g pw cfg R loops fuel).
  Proof.
    induction fuel as [|fuel IH]; intros pre r Hg; cbn [read_tokens]; [apply at_fuel|].
    apply at_offset_. apply at_tok'; [exact Hg|]. clear Hg.
    intros tk w x r1 -> Hw Ht Hst Hg.
    assert (Ho : forall c0 y, x = c0 :: y -> ~ ws_byte c0 /\ ~ digit c0 /\ c0 <> 45%N -> ends (w ++ x) r1).
    { intros c0 y -> Hc. apply ends_other; [exact Hw|intros c1 y1 E; injection E as <- <-; exact Hc|discriminate]. }
    inversion Ht as [| | | | | | | | |raw cs Hb|nn Hn]; subst; try (apply at_perr; exact I).
    - eapply scalar_reader with (c := CNull) (ev := ENull); [reflexivity|reflexivity|exact Hw|constructor|exact I|eapply Ho; [reflexivity|unfold ws_byte, digit; lia]|del].
    - eapply scalar_reader with (c := CBool true) (ev := EBoolean true); [reflexivity|reflexivity|exact Hw|constructor|reflexivity|eapply Ho; [reflexivity|unfold ws_byte, digit; lia]|del].
    - eapply scalar_reader with (c := CBool false) (ev := EBoolean false); [reflexivity|reflexivity|exact Hw|constructor|reflexivity|eapply Ho; [reflexivity|unfold ws_byte, digit; lia]|del].
    - apply at_still; [intro s; apply quiet_b|]. intros _. apply at_map_err; [exact I|]. unfold read_object.
      apply at_offset_. eapply at_del_bind with (c := CBeginObj); [del|exact I| |].
      { exists [((length w + 1)%nat, CBeginObj)]. split; [cbn; rewrite !app_length; cbn; do 2 f_equal; lia|].
        exact (vu_object w r1 [] Hw (ou_start _)). }
      intros ob. eapply at_bind; [apply call_object_loop; [exact IH|exact Hg]| |].
      { intros cs (cs0 & -> & Hu). exists ([((length w + 1)%nat, CBeginObj)] ++ at_offset (length w + 1) cs0). split; [|apply vu_object; assumption].
        rewrite at_offset_app, at_offset_add, !app_length. cbn [length at_offset map fst snd app].
        replace (length pre + (length w + 1))%nat with (length pre + length w + 1)%nat by lia. reflexivity. }
      intros v y r2 cs -> (cs0 & -> & Hy). apply at_offset_.
      assert (Ec : at_offset (length pre) ([((length w + 1)%nat, CBeginObj)] ++ at_offset (length w + 1) cs0 ++ [((length w + 1 + length y)%nat, CEndObj)]) =
        (length (pre ++ w ++ [123%N]), CBeginObj) :: at_offset (length (pre ++ w ++ [123%N])) cs0 ++ [(length ((pre ++ w ++ [123%N]) ++ y), CEndObj)]).
      { rewrite !at_offset_app, at_offset_add, !app_length. cbn [length at_offset map fst snd app].
        replace (length pre + (length w + 1))%nat with (length pre + length w + 1)%nat by lia. 
        replace (length pre + (length w + 1 + length y))%nat with (length pre + length w + 1 + length y)%nat by lia. reflexivity. }
      assert (He : ends (w ++ 123%N :: y) r2).
      { apply ends_other; [exact Hw|intros c0 y0 E; injection E as <- _; unfold ws_byte, digit; lia|discriminate]. }
      eapply at_del_bind with (c := CEndObj); [del|exact I| |].
      { eexists. split; [symmetry; exact Ec|]. replace (w ++ [123%N] ++ y ++ r2) with ((w ++ 123%N :: y) ++ r2) by (rewrite <- app_assoc; reflexivity).
        apply vu_value; [constructor; assumption|exact He]. }
      intros vv. apply at_still; [intro s; apply quiet_e|]. intros _. apply at_ret. eexists. split; [symmetry; exact Ec|].
      rewrite app_nil_r. replace ((w ++ [123%N]) ++ y) with (w ++ 123%N :: y) by (rewrite <- app_assoc; reflexivity).
      split; [constructor; assumption|exact He].
    - apply at_still; [intro s; apply quiet_b|]. intros _. apply at_map_err; [exact I|]. unfold read_array.
      apply at_offset_. eapply at_del_bind with (c := CBeginArr); [del|exact I| |].
      { exists [((length w + 1)%nat, CBeginArr)]. split; [cbn; rewrite !app_length; cbn; do 2 f_equal; lia|].
        exact (vu_array w r1 [] Hw (au_start _)). }
      intros ob. eapply at_bind; [apply call_array_loop; [exact IH|exact Hg]| |].
      { intros cs (cs0 & -> & Hu). exists ([((length w + 1)%nat, CBeginArr)] ++ at_offset (length w + 1) cs0). split; [|apply vu_array; assumption].
        rewrite at_offset_app, at_offset_add, !app_length. cbn [length at_offset map fst snd app].
        replace (length pre + (length w + 1))%nat with (length pre + length w + 1)%nat by lia. reflexivity. }
      intros v y r2 cs -> (cs0 & -> & Hy).
      assert (Ec : at_offset (length pre) ([((length w + 1)%nat, CBeginArr)] ++ at_offset (length w + 1) cs0 ++ [((length w + 1)%nat, CEndArr)]) =
        (length (pre ++ w ++ [91%N]), CBeginArr) :: at_offset (length (pre ++ w ++ [91%N])) cs0 ++ [(length (pre ++ w ++ [91%N]), CEndArr)]).
      { rewrite !at_offset_app, at_offset_add, !app_length. cbn [length at_offset map fst snd app].
        replace (length pre + (length w + 1))%nat with (length pre + length w + 1)%nat by lia. reflexivity. }
      assert (He : ends (w ++ 91%N :: y) r2).
      { apply ends_other; [exact Hw|intros c0 y0 E; injection E as <- _; unfold ws_byte, digit; lia|discriminate]. }
      eapply at_del_bind with (c := CEndArr); [del|exact I| |].
      { eexists. split; [symmetry; exact Ec|]. replace (w ++ [91%N] ++ y ++ r2) with ((w ++ 91%N :: y) ++ r2) by (rewrite <- app_assoc; reflexivity).
        apply vu_value; [constructor; assumption|exact He]. }
      intros vv. apply at_still; [intro s; apply quiet_e|]. intros _. apply at_ret. eexists. split; [symmetry; exact Ec|].
      rewrite app_nil_r. replace ((w ++ [91%N]) ++ y) with (w ++ 91%N :: y) by (rewrite <- app_assoc; reflexivity).
      split; [constructor; assumption|exact He].
    - eapply scalar_reader with (c := CStr raw) (ev := EString (string_for pw raw cs)); [reflexivity|reflexivity|exact Hw|econstructor; exact Hb|split; [exact I|reflexivity]|eapply Ho; [reflexivity|unfold ws_byte, digit; lia]|del].
    - eapply scalar_reader with (c := CNum x) (ev := ENumber (JNum (Borrowed x))); [reflexivity|reflexivity|exact Hw|econstructor; assumption|reflexivity| |del].
      apply number_ends; [apply number_then_iff; exact Hst|exact Hw].
  Qed.
End CallSound.
