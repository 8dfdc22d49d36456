(** C93: what a destination of the writer sees, call by call. *)
From Verif Require Import Base Utf8 Utf8Facts StrModel ErrorModel Tokenizer Parser ValueModel NumModel Spec SpecStr SpecWrite
  TokBase TokStr TokNum View ParseMain WriteFacts StrFacts StrEsc StrWf AbnfFacts StrObt PropNumber PropWrite.
Local Open Scope N_scope.

(** * Specification *)

(** A call of the destination that hands over text: a [&str] that is UTF-8 and not empty, or a [char]. *)
Definition hands_text (c : write_call) : Prop :=
  match c with
  | CallStr s => utf8_valid s = true /\ s <> []
  | CallChar c => is_scalar c = true
  end.

(** * A destination that keeps the calls *)
Definition call_log : fmt_write := {| w_st := list write_call;
  w_write_str := fun l s => (true, l ++ [CallStr s]); w_write_char := fun l c => (true, l ++ [CallChar c]) |}.

Lemma log_calls cs : forall l, do_calls call_log l cs = (true, l ++ cs).
Proof.
  induction cs as [|c cs IH]; intro l; cbn [do_calls]; [rewrite app_nil_r; reflexivity|].
  destruct c; cbn [do_call w_write_str w_write_char call_log]; rewrite IH, <- app_assoc; reflexivity.
Qed.

Lemma log_replays calls text run : replays calls text run -> snd (run call_log []) = calls.
Proof.
  intros [_ H]. specialize (H call_log []). destruct (run call_log []) as [[[]|[]|f] w'].
  - destruct H as [[H _] _]. apply calls_ok_fun in H. rewrite log_calls in H. injection H as H. exact (eq_sym H).
  - destruct H as [(done & c & rest & w1 & _ & _ & E) _]. destruct c; cbn [do_call w_write_str w_write_char call_log] in E; discriminate E.
  - destruct H as [[H _] _]. apply calls_ok_fun in H. rewrite log_calls in H. injection H as H. exact (eq_sym H).
Qed.

(** * Every step of the writer keeps the log sound *)
Section Keep.
  Variable pw : pwidth.
  Variable pretty : bool.
  Variables indent eol : list N.

(** A call that hands over text, or a given indentation or line ending. *)
Definition piece (c : write_call) : Prop := hands_text c \/ pretty = true /\ (c = CallStr indent \/ c = CallStr eol).
Definition sound_log (l : list write_call) : Prop := Forall piece l.
Definition keeps (m : wm call_log) : Prop := forall s, sound_log (ws_writer call_log s) -> sound_log (ws_writer call_log (snd (m s))).

Lemma keeps_ret : keeps (wret call_log).
Proof. intros s H. exact H. Qed.
Lemma keeps_then m k : keeps m -> keeps k -> keeps (wthen call_log m k).
Proof.
  intros Hm Hk s H. unfold wthen. specialize (Hm s H). destruct (m s) as [[[]|[]|f] s'] eqn:E; cbn [snd] in *;
    [apply Hk; exact Hm|exact Hm|exact Hm].
Qed.
Lemma keeps_piece x : piece (CallStr x) -> keeps (w_str call_log x).
Proof.
  intros H1 s H. unfold w_str. cbn [call_log w_write_str snd ws_writer]. unfold sound_log in *. rewrite Forall_app. split; [exact H|].
  constructor; [assumption|constructor].
Qed.
Lemma keeps_str x : utf8_valid x = true -> x <> [] -> keeps (w_str call_log x).
Proof. intros H1 H2. apply keeps_piece. left. split; assumption. Qed.
Lemma keeps_char c : is_scalar c = true -> keeps (w_char call_log c).
Proof.
  intros H1 s H. unfold w_char. cbn [call_log w_write_char snd ws_writer]. unfold sound_log in *. rewrite Forall_app. split; [exact H|].
  constructor; [left; exact H1|constructor].
Qed.
Lemma keeps_repeat n m : keeps m -> keeps (w_repeat call_log n m).
Proof. intro H. induction n as [|n IH]; cbn [w_repeat]; [apply keeps_ret|apply keeps_then; assumption]. Qed.

(** The iterator behind [as_json()]: whatever its state, the next char is one. *)
Definition esc_ok (a : as_json) : Prop :=
  (exists cs, scalars cs /\ aj_chars a = utf8_string cs) /\
  match aj_state a with ESingle b => b < 128 | _ => True end.

Lemma small_scalar c : c < 256 -> is_scalar c = true.
Proof. intro H. unfold is_scalar. destruct (N.ltb_spec c 0xD800); [reflexivity|lia]. Qed.

Lemma as_json_next_ok a c a' : esc_ok a -> as_json_next pw a = Ok (Some c, a') -> is_scalar c = true /\ esc_ok a'.
Proof.
  intros [(cs & Hcs & E) Hst]. unfold as_json_next. destruct (aj_state a) as [| |b|[n|] cp] eqn:Es.
  - destruct Hcs as [|x cs Hx Hcs]; rewrite E; [discriminate|]. rewrite utf8_string_cons, next_char_encode by assumption.
    intro K. injection K as <- <-. split; [exact Hx|]. split; [exists cs; split; [assumption|reflexivity]|exact I].
  - destruct Hcs as [|x cs Hx Hcs]; rewrite E; [discriminate|]. rewrite utf8_string_cons, next_char_encode by assumption.
    assert (G : forall st i, (match st with ESingle b => b < 128 | _ => True end) -> esc_ok (AJ (utf8_string cs) st i))
      by (intros st i G; split; [exists cs; split; [assumption|reflexivity]|exact G]).
    cbv zeta. intro K.
    repeat match type of K with
    | (if ?b then _ else _) = _ => destruct b eqn:?
    | bind ?x _ = _ => destruct x as [|[]|] eqn:?; cbn [bind] in K
    end; try discriminate K; injection K as <- <-; (split; [try exact Hx; reflexivity|apply G; try exact I; try reflexivity]).
    repeat match goal with H : (_ || _) = true |- _ => apply orb_true_iff in H as [H|H] end;
      apply N.eqb_eq in Heqb1; subst; reflexivity.
  - intro K. injection K as <- <-. split; [apply small_scalar; lia|]. split; [exists cs; split; assumption|exact I].
  - cbv zeta. intro K.
    match type of K with bind ?x _ = _ => destruct x as [ch|[]|] eqn:E1; cbn [bind] in K; [|discriminate K] end.
    match type of K with bind ?x _ = _ => destruct x as [nib|[]|] eqn:E2; cbn [bind] in K; [|discriminate K] end.
    assert (Hch : ch < 256).
    { unfold u8_add in E1. destruct (_ <? 10); [destruct (_ <? 256) eqn:L in E1|destruct (_ <? 256) eqn:L in E1];
        try discriminate E1; apply N.ltb_lt in L; injection E1 as <-; exact L. }
    destruct (nib =? 4); injection K as <- <-; (split; [apply small_scalar; exact Hch|split; [exists cs; split; assumption|exact I]]).
  - intro K. injection K as <- <-. split; [reflexivity|]. split; [exists cs; split; assumption|exact I].
Qed.

Lemma keeps_as_json : forall fuel a, esc_ok a -> keeps (w_as_json pw call_log fuel a).
Proof.
  induction fuel as [|fuel IH]; intros a Ha s H; cbn [w_as_json]; [exact H|].
  destruct (as_json_next pw a) as [[[c|] a']|[]|f] eqn:E; [|exact H|exact H].
  destruct (as_json_next_ok _ _ _ Ha E) as [Hc Ha'].
  apply (keeps_then _ _ (keeps_char c Hc) (IH a' Ha')). exact H.
Qed.


  Lemma keeps_indent : keeps (w_indent call_log pretty indent).
  Proof.
    intros s H. unfold w_indent. destruct (pretty && ws_at_line_start _ s) eqn:E; [|exact H].
    apply andb_true_iff in E as [E _].
    apply (keeps_repeat (ws_level _ s) (w_str call_log indent)); [|exact H]. apply keeps_piece. right. split; [exact E|left; reflexivity].
  Qed.
  Lemma keeps_write x : utf8_valid x = true -> x <> [] -> keeps (w_write call_log pretty indent x).
  Proof. intros H1 H2. unfold w_write. apply keeps_then; [apply keeps_indent|apply keeps_str; assumption]. Qed.
  Lemma keeps_new_line : keeps (w_new_line call_log pretty indent eol).
  Proof.
    unfold w_new_line. destruct (Bool.bool_dec pretty true) as [E|E].
    - rewrite E at 1. apply keeps_then; [|intros s H; exact H]. unfold w_write. apply keeps_then; [apply keeps_indent|].
      apply keeps_piece. right. split; [exact E|right; reflexivity].
    - apply Bool.not_true_is_false in E. rewrite E at 1. apply keeps_ret.
  Qed.

  Lemma keeps_string x : obtainable pw x -> keeps (w_write_json pw call_log pretty indent x).
  Proof.
    intro Hx. unfold w_write_json. apply keeps_then; [apply keeps_indent|].
    apply keeps_then; [apply keeps_str; [reflexivity|discriminate]|].
    apply keeps_then; [|apply keeps_str; [reflexivity|discriminate]]. apply keeps_as_json.
    apply obtainable_wf in Hx as (cs & Hx). inversion Hx as [a i l H1 H2 H3 H4|a cs' H1 H2 H3 H4 H5]; subst; cbn [js_as_json_iter as_json_new js_source js_info].
    - split; [|exact I]. cbn [aj_chars]. apply items_valid, utf8_valid_iff in H1 as (us & H1 & E). exists us. split; assumption.
    - split; [|exact I]. cbn [aj_chars]. exists cs. split; assumption.
  Qed.
  Lemma keeps_number x : number_obtainable pw x -> keeps (w_write call_log pretty indent (jn_str x)).
  Proof.
    intro Hx. apply number_obtainable_shape in Hx as (n & Hn & ->). unfold jn_str. cbn [any_str]. apply keeps_write.
    - pose proof (number_ascii _ Hn) as A. apply utf8_valid_iff. exists n. split; [apply scalars_ascii; exact A|symmetry; apply utf8_ascii; exact A].
    - apply number_nonnil in Hn. exact Hn.
  Qed.
  Lemma keeps_comma (A : Type) (l : list A) : keeps (match l with [] => wret call_log | _ => w_write call_log pretty indent [44] end).
  Proof. destruct l; [apply keeps_ret|apply keeps_write; [reflexivity|discriminate]]. Qed.

  Lemma keeps_value v : constructible pw v -> keeps (write_json_value pw call_log pretty indent eol v).
  Proof.
    intros [Hs Hn]. revert Hs Hn.
    induction v as [n|x|b|o IH|l IH|] using value_ind'; intros Hs Hn; inversion Hs as [ | | |? Hx|? Hl|? Hl]; inversion Hn as [ | |? Hy| |? Hm|? Hm]; subst.
    - cbn [write_json_value]. apply keeps_number. assumption.
    - cbn [write_json_value]. apply keeps_string. assumption.
    - cbn [write_json_value]. apply keeps_write; destruct b; try reflexivity; discriminate.
    - rewrite write_object. clear Hs Hn. apply keeps_then.
      { unfold w_begin_object. apply keeps_then; [apply keeps_write; [reflexivity|discriminate]|intros s H; exact H]. }
      apply keeps_then.
      2:{ unfold w_end_object. apply keeps_then; [|apply keeps_write; [reflexivity|discriminate]].
          intros s H. unfold w_level_down. destruct (ws_level _ s); exact H. }
      assert (K : keeps (write_members pw call_log pretty indent eol o)).
      { induction IH as [|[k v] o IHv IHr IHo]; [apply keeps_ret|]. inversion Hl as [|? ? [Hk Hv] Hl']; inversion Hm as [|? ? Hv' Hm']; subst.
        cbn [fst snd] in *. cbn [write_members]. fold (write_members pw call_log pretty indent eol).
        apply keeps_then; [apply keeps_string; assumption|].
        apply keeps_then; [unfold w_object_key_end; apply keeps_write; destruct pretty; try reflexivity; discriminate|].
        apply keeps_then; [apply IHv; assumption|]. apply keeps_then; [apply keeps_comma|].
        apply keeps_then; [apply keeps_new_line|apply IHo; assumption]. }
      destruct o as [|e o]; [apply keeps_ret|apply keeps_then; [apply keeps_new_line|exact K]].
    - rewrite write_array. clear Hs Hn. apply keeps_then.
      { unfold w_begin_array. apply keeps_then; [apply keeps_write; [reflexivity|discriminate]|intros s H; exact H]. }
      apply keeps_then.
      2:{ unfold w_end_array. apply keeps_then; [|apply keeps_write; [reflexivity|discriminate]].
          intros s H. unfold w_level_down. destruct (ws_level _ s); exact H. }
      assert (K : keeps (write_elements pw call_log pretty indent eol l)).
      { induction IH as [|v l IHv IHr IHo]; [apply keeps_ret|]. inversion Hl as [|? ? Hv Hl']; inversion Hm as [|? ? Hv' Hm']; subst.
        cbn [write_elements]. fold (write_elements pw call_log pretty indent eol).
        apply keeps_then; [apply IHv; assumption|]. apply keeps_then; [apply keeps_comma|].
        apply keeps_then; [apply keeps_new_line|apply IHo; assumption]. }
      destruct l as [|e l]; [apply keeps_ret|apply keeps_then; [apply keeps_new_line|exact K]].
    - cbn [write_json_value]. apply keeps_write; [reflexivity|discriminate].
  Qed.

  Lemma keeps_run v : constructible pw v -> Forall piece (snd (write_json pw call_log pretty indent eol v [])).
  Proof.
    intro Hv. pose proof (keeps_value v Hv (WS call_log [] 0 true) (Forall_nil _)) as K. unfold write_json.
    destruct (write_json_value pw call_log pretty indent eol v (WS call_log [] 0 true)) as [r s]. exact K.
  Qed.
End Keep.

Lemma replays_pieces pw pretty indent eol v : constructible pw v ->
  exists calls, replays calls (expect_fmt (write_json pw string_write pretty indent eol v [])) (fun W w => write_json pw W pretty indent eol v w) /\
    Forall (piece pretty indent eol) calls.
Proof.
  intro Hv. destruct (replays_write pw pretty indent eol v) as (calls & H). exists calls. split; [exact H|].
  rewrite <- (log_replays _ _ _ H). apply keeps_run. exact Hv.
Qed.

(** * C93 *)

(** The destination is only ever given text: each call is a non-empty [&str] of UTF-8 or a [char]. *)
Theorem C93_calls_carry_text pw v : constructible pw v ->
  exists calls, replays calls (to_json pw v) (fun W w => write_json_to pw W v w) /\ Forall hands_text calls.
Proof.
  intro Hv. destruct (replays_pieces pw false [] [] v Hv) as (calls & H & K). exists calls. split; [exact H|].
  eapply Forall_impl; [|exact K]. intros c [G|[G _]]; [exact G|discriminate G].
Qed.

Theorem C93_pretty_calls_carry_text pw v : constructible pw v ->
  exists calls, replays calls (to_json_pretty pw v) (fun W w => pretty_write_json_to pw W v w) /\ Forall hands_text calls.
Proof.
  intro Hv. destruct (replays_pieces pw true [32; 32] [10] v Hv) as (calls & H & K). exists calls. split; [exact H|].
  eapply Forall_impl; [|exact K]. intros c [G|[_ [G|G]]]; [exact G| |]; subst c; split; try reflexivity; discriminate.
Qed.

(** With an indentation and a line ending of the caller's, the only other calls hand over these two. *)
Theorem C93_custom_calls_carry_text pw indent eol v : constructible pw v ->
  exists calls, replays calls (to_json_pretty_custom pw indent eol v) (fun W w => pretty_write_json_to_custom pw W indent eol v w) /\
    Forall (fun c => hands_text c \/ c = CallStr indent \/ c = CallStr eol) calls.
Proof.
  intro Hv. destruct (replays_pieces pw true indent eol v Hv) as (calls & H & K). exists calls. split; [exact H|].
  eapply Forall_impl; [|exact K]. intros c [G|[_ G]]; [left; exact G|right; exact G].
Qed.

Lemma hands_length c : hands_text c -> (1 <= length (call_bytes c))%nat /\ utf8_valid (call_bytes c) = true.
Proof.
  destruct c as [s|c]; cbn [hands_text call_bytes].
  - intros [H1 H2]. split; [|exact H1]. destruct s; [congruence|cbn; lia].
  - intro H. split; [|apply utf8_valid_iff; exists [c]; split; [constructor; [exact H|constructor]|cbn; rewrite app_nil_r; reflexivity]].
    rewrite utf8_encode_length. apply len_utf8_pos.
Qed.
Lemma calls_length calls : Forall hands_text calls -> (length calls <= length (List.concat (map call_bytes calls)))%nat.
Proof.
  induction 1 as [|c l Hc _ IH]; [cbn; lia|]. cbn [map List.concat length]. rewrite app_length. apply hands_length in Hc. lia.
Qed.
Lemma calls_valid calls : Forall hands_text calls -> utf8_valid (List.concat (map call_bytes calls)) = true.
Proof.
  induction 1 as [|c l Hc _ IH]; [reflexivity|]. cbn [map List.concat]. apply hands_length in Hc as [_ Hc].
  apply utf8_valid_iff in Hc as (us & H1 & ->). apply utf8_valid_iff in IH as (vs & H2 & ->). apply utf8_valid_iff. exists (us ++ vs).
  split; [apply Forall_app; split; assumption|symmetry; apply utf8_string_app].
Qed.

(** Hence there are at most as many calls as bytes, and a destination that fails has by then been
    given a prefix of the text that is UTF-8 itself. *)
Definition steady (text : res infallible (list N)) (run : forall W : fmt_write, w_st W -> res unit unit * w_st W) : Prop :=
  forall t, text = Ok t ->
  exists calls, t = List.concat (map call_bytes calls) /\ (length calls <= length t)%nat /\
    forall W w, match run W w with
    | (Ok _, w') => calls_ok W w calls w'
    | (Err _, w') => exists done c rest w1, calls = done ++ c :: rest /\ calls_ok W w done w1 /\ do_call W w1 c = (false, w') /\
        utf8_valid (List.concat (map call_bytes done)) = true /\
        exists after, t = List.concat (map call_bytes done) ++ after /\ after <> []
    | (Fault _, _) => False
    end.

Lemma replays_steady calls text run : replays calls text run -> Forall hands_text calls -> steady text run.
Proof.
  intros [H1 H2] Hc t Ht. exists calls. specialize (H1 t Ht). split; [exact H1|]. split; [rewrite H1; apply calls_length; exact Hc|].
  intros W w. specialize (H2 W w). destruct (run W w) as [[[]|[]|f] w'].
  - destruct H2 as [[H2 _] _]. exact H2.
  - destruct H2 as [(done & c & rest & w1 & E & K1 & K2) _]. exists done, c, rest, w1.
    split; [exact E|]. split; [exact K1|]. split; [exact K2|]. rewrite E in Hc. apply Forall_app in Hc as [Hd Hr].
    split; [apply calls_valid; exact Hd|]. exists (List.concat (map call_bytes (c :: rest))). split.
    + rewrite H1, E, map_app, concat_app. reflexivity.
    + cbn [map List.concat]. apply Forall_inv, hands_length in Hr. destruct (call_bytes c); [cbn in Hr; lia|discriminate].
  - destruct H2 as [[_ H2] _]. congruence.
Qed.

Theorem C93_steady pw v : constructible pw v ->
  steady (to_json pw v) (fun W w => write_json_to pw W v w) /\
  steady (to_json_pretty pw v) (fun W w => pretty_write_json_to pw W v w).
Proof.
  intro Hv. split.
  - destruct (C93_calls_carry_text pw v Hv) as (calls & H & K). exact (replays_steady _ _ _ H K).
  - destruct (C93_pretty_calls_carry_text pw v Hv) as (calls & H & K). exact (replays_steady _ _ _ H K).
Qed.

(** A built value (PropWrite's sample) on a destination that takes four calls and then fails: it has been given
    an opening brace, a quote, two chars. *)
Definition four_calls : fmt_write := {| w_st := nat * list N;
  w_write_str := fun w s => match fst w with O => (false, w) | S n => (true, (n, snd w ++ s)) end;
  w_write_char := fun w c => match fst w with O => (false, w) | S n => (true, (n, snd w ++ utf8_encode c)) end |}.
Example sample_calls : constructible W64 sample_built_value /\
  write_json_to W64 four_calls sample_built_value (4%nat, []) = (Err tt, (0%nat, bs "{""ke")) /\
  snd (write_json_to W64 call_log sample_built_value []) =
    [CallStr (bs "{"); CallStr [34]; CallChar 107; CallChar 101; CallChar 121; CallStr [34]; CallStr (bs ":"); CallStr (bs "[");
     CallStr [34]; CallChar 92; CallChar 110; CallChar 0x20AC; CallChar 92; CallChar 34; CallStr [34]; CallStr (bs ",");
     CallStr (bs "-0.5"); CallStr (bs "]"); CallStr (bs "}")].
Proof. split; [apply sample_constructible|]. split; vm_compute; reflexivity. Qed.
