(** Property theorem C71: how deep the recursion of the parser and of the document readers goes. *)
From Verif Require Import Base Utf8 StrModel ErrorModel Tokenizer Parser ValueModel DocModel Spec View PropParse PropDelegate ParseMain PropEsc
  TokBase TokStr TokNum TokFacts ParserGen ParserSound ParserComplete DocFacts PropWrite PropIter.
Local Open Scope N_scope.

(** [read_tokens loops rec] makes at most [rec] nested calls of itself (itself included): it stops with
    [Fault FFuel] if it would make more. *)

Section Depth.
  Variables (g : bool) (pw : pwidth) (cfg : parse_config) (D : delegate) (lim : N).
  Hypothesis Hl : recursion_limit cfg = Some lim.

  (** A successful computation leaves the remaining depth as it was. *)
  Definition keepsd {A} (m : pm D A) : Prop := forall s a s', m s = (Ok a, s') -> ps_depth s' = ps_depth s.
  Lemma kd_bind {A B} (m : pm D A) (k : A -> pm D B) : keepsd m -> (forall a, keepsd (k a)) -> keepsd (pbind D m k).
  Proof.
    intros Hm Hk s b s' E. unfold pbind in E. destruct (m s) as [[a|e|f] s1] eqn:E1; [|discriminate..].
    rewrite (Hk _ _ _ _ E). eapply Hm, E1.
  Qed.
  Lemma kd_tok {A} c (m : tok A) : keepsd (p_tok_err D c m).
  Proof. intros s a s' E. unfold p_tok_err in E. destruct (m (ps_iter s)) as [r it]. injection E as _ <-. reflexivity. Qed.
  Lemma kd_del {A} o (m : d_st D -> res (d_error D) A * d_st D) : keepsd (p_del D o m).
  Proof. intros s a s' E. unfold p_del in E. destruct (m (ps_del s)) as [r st]. injection E as _ <-. reflexivity. Qed.
  Lemma kd_query {A} (m : d_st D -> res infallible A) : keepsd (p_query D m).
  Proof. intros s a s' E. unfold p_query in E. injection E as _ <-. reflexivity. Qed.
  Lemma kd_peek : keepsd (peek_array_end D).
  Proof. intros s a s' E. unfold peek_array_end in E. destruct (tokenizer_peek (ps_iter s)) as [o it]. destruct o as [[]|]; injection E as _ <-; reflexivity. Qed.
  Lemma kd_ret {A} (a : A) : keepsd (pret D a).
  Proof. intros s b s' E. injection E as _ <-. reflexivity. Qed.
  Lemma kd_off : keepsd (p_offset D).
  Proof. intros s b s' E. injection E as _ <-. reflexivity. Qed.
  Lemma kd_err {A} o k : keepsd (@perr D A o k).
  Proof. intros s b s' E. discriminate. Qed.
  Lemma kd_fault {A} f : keepsd (fun s => (@Fault _ A f, s)).
  Proof. intros s b s' E. discriminate. Qed.
  Ltac kd := repeat match goal with
      | H : keepsd ?m |- keepsd ?m => exact H
      | |- keepsd (pbind D (begin_nest _ _ _) _) => fail 1
      | |- keepsd (pbind D _ _) => apply kd_bind; [|intros ?]
      | |- keepsd (p_offset D) => apply kd_off
      | |- keepsd (p_tok D _) => apply kd_tok
      | |- keepsd (p_tok_err D _ _) => apply kd_tok
      | |- keepsd (p_del D _ _) => apply kd_del
      | |- keepsd (p_query D _) => apply kd_query
      | |- keepsd (pret D _) => apply kd_ret
      | |- keepsd (perr D _ _) => apply kd_err
      | |- keepsd (fun s => (Fault _, s)) => apply kd_fault
      | |- keepsd (peek_array_end D) => apply kd_peek
      | |- keepsd (match ?t with TkNull => _ | _ => _ end) => destruct t
      | |- keepsd (if ?b then _ else _) => destruct b
      | |- keepsd (let '(_, _) := ?p in _) => destruct p
      | H : forall x, keepsd _ |- keepsd _ => apply H
      end.
  Lemma kd_object_loop rv n : keepsd rv -> forall o, keepsd (object_loop g pw cfg D rv n o).
  Proof. intros Hr. induction n as [|n IH]; intros o; cbn [object_loop]; kd. Qed.
  Lemma kd_array_loop rv n : keepsd rv -> forall o, keepsd (array_loop g pw cfg D rv n o).
  Proof. intros Hr. induction n as [|n IH]; intros o; cbn [array_loop]; kd. Qed.

  (** Reading the rest of a container gives back the level taken. *)
  Definition gives {A} (m : pm D A) : Prop := forall s a s', m s = (Ok a, s') -> ps_depth s' = ps_depth s + 1.
  Lemma gv_bind {A B} (m : pm D A) (k : A -> pm D B) : keepsd m -> (forall a, gives (k a)) -> gives (pbind D m k).
  Proof.
    intros Hm Hk s b s' E. unfold pbind in E. destruct (m s) as [[a|e|f] s1] eqn:E1; [|discriminate..].
    rewrite (Hk _ _ _ _ E). f_equal. eapply Hm, E1.
  Qed.
  Lemma gv_end {A} (v : A) : gives (pbind D (end_nest cfg D) (fun _ => pret D v)).
  Proof. intros s a s' E. unfold pbind, end_nest in E. rewrite Hl in E. injection E as _ <-. reflexivity. Qed.
  Lemma gv_object rv n : keepsd rv -> gives (read_object g pw cfg D rv n).
  Proof. intros Hr. unfold read_object. do 5 (apply gv_bind; [first [apply kd_object_loop, Hr|kd]|intros ?]). apply gv_end. Qed.
  Lemma gv_array rv n : keepsd rv -> gives (read_array g pw cfg D rv n).
  Proof. intros Hr. unfold read_array. do 4 (apply gv_bind; [first [apply kd_array_loop, Hr|kd]|intros ?]). apply gv_end. Qed.
  Lemma kd_nest {A} o u (m : pm D A) : gives m -> keepsd (pbind D (begin_nest cfg D o) (fun _ => p_map_err D (eof_to D u) m)).
  Proof.
    intros Hm s a s' E. unfold pbind, begin_nest in E. rewrite Hl in E. destruct (N.ltb_spec 0 (ps_depth s)) as [L|]; [|discriminate].
    unfold p_map_err in E. destruct (m _) as [[b|e|f] s1] eqn:E1; [|discriminate..]. injection E as _ <-.
    rewrite (Hm _ _ _ E1). cbn. lia.
  Qed.
  Lemma kd_read_tokens loops fuel : keepsd (read_tokens g pw cfg D loops fuel).
  Proof.
    induction fuel as [|fuel IH]; cbn [read_tokens]; kd.
    - apply kd_nest, gv_object, IH.
    - apply kd_nest, gv_array, IH.
  Qed.

  (** Two computations that agree while at most [d] levels remain. *)
  Definition eqd {A} (d : N) (m1 m2 : pm D A) : Prop := forall s, ps_depth s <= d -> m1 s = m2 s.
  Lemma eq_bind {A B} d (m : pm D A) (k1 k2 : A -> pm D B) : keepsd m -> (forall a, eqd d (k1 a) (k2 a)) -> eqd d (pbind D m k1) (pbind D m k2).
  Proof.
    intros Hm Hk s Hs. unfold pbind. destruct (m s) as [[a|e|f] s1] eqn:E; [|reflexivity..]. apply Hk. rewrite (Hm _ _ _ E). exact Hs.
  Qed.
  Lemma eq_bind2 {A B} d (m1 m2 : pm D A) (k1 k2 : A -> pm D B) : keepsd m1 -> eqd d m1 m2 -> (forall a, eqd d (k1 a) (k2 a)) ->
    eqd d (pbind D m1 k1) (pbind D m2 k2).
  Proof.
    intros Hm He Hk s Hs. unfold pbind. rewrite <- (He s Hs). destruct (m1 s) as [[a|e|f] s1] eqn:E; [|reflexivity..]. apply Hk.
    rewrite (Hm _ _ _ E). exact Hs.
  Qed.
  Lemma eq_refl_d {A} d (m : pm D A) : eqd d m m.
  Proof. intros s _. reflexivity. Qed.
  Ltac eqs := repeat match goal with
      | |- eqd _ ?m ?m => apply eq_refl_d
      | |- eqd _ (pbind D (begin_nest _ _ _) _) _ => fail 1
      | |- eqd _ (pbind D ?m _) (pbind D ?m _) => apply eq_bind; [kd|intros ?]
      | H : eqd ?d ?a ?b |- eqd ?d (pbind D ?a _) (pbind D ?b _) => apply eq_bind2; [kd|exact H|intros ?]
      | |- eqd _ (match ?t with TkNull => _ | _ => _ end) _ => destruct t
      | |- eqd _ (if ?b then _ else _) _ => destruct b
      | |- eqd _ (let '(_, _) := ?p in _) _ => destruct p
      | H : forall x, eqd _ _ _ |- eqd _ _ _ => apply H
      end.
  Lemma eq_object_loop d rv1 rv2 n : keepsd rv1 -> eqd d rv1 rv2 -> forall o,
    eqd d (object_loop g pw cfg D rv1 n o) (object_loop g pw cfg D rv2 n o).
  Proof. intros Hk He. induction n as [|n IH]; intros o; cbn [object_loop]; eqs. Qed.
  Lemma eq_array_loop d rv1 rv2 n : keepsd rv1 -> eqd d rv1 rv2 -> forall o,
    eqd d (array_loop g pw cfg D rv1 n o) (array_loop g pw cfg D rv2 n o).
  Proof. intros Hk He. induction n as [|n IH]; intros o; cbn [array_loop]; eqs. Qed.
  Lemma eq_object d rv1 rv2 n : keepsd rv1 -> eqd d rv1 rv2 -> eqd d (read_object g pw cfg D rv1 n) (read_object g pw cfg D rv2 n).
  Proof.
    intros Hk He. unfold read_object. do 2 (apply eq_bind; [kd|intros ?]).
    apply eq_bind2; [apply kd_object_loop, Hk|apply eq_object_loop; assumption|intros ?]. apply eq_refl_d.
  Qed.
  Lemma eq_array d rv1 rv2 n : keepsd rv1 -> eqd d rv1 rv2 -> eqd d (read_array g pw cfg D rv1 n) (read_array g pw cfg D rv2 n).
  Proof.
    intros Hk He. unfold read_array. do 2 (apply eq_bind; [kd|intros ?]).
    apply eq_bind2; [apply kd_array_loop, Hk|apply eq_array_loop; assumption|intros ?]. apply eq_refl_d.
  Qed.
  Lemma eq_nest {A} d o u (m1 m2 : pm D A) : (0 < d -> eqd (d - 1) m1 m2) ->
    eqd d (pbind D (begin_nest cfg D o) (fun _ => p_map_err D (eof_to D u) m1)) (pbind D (begin_nest cfg D o) (fun _ => p_map_err D (eof_to D u) m2)).
  Proof.
    intros H s Hs. unfold pbind, begin_nest. rewrite Hl. destruct (N.ltb_spec 0 (ps_depth s)) as [L|]; [|reflexivity].
    unfold p_map_err. rewrite H; [reflexivity|lia|cbn; lia].
  Qed.
  Lemma eq_read_tokens loops f1 : forall f2 d, d < N.of_nat f1 -> d < N.of_nat f2 ->
    eqd d (read_tokens g pw cfg D loops f1) (read_tokens g pw cfg D loops f2).
  Proof.
    induction f1 as [|f1 IH]; intros f2 d H1 H2; [lia|]. destruct f2 as [|f2]; [lia|]. cbn [read_tokens]. eqs; apply eq_nest; intros Hd.
    - apply eq_object; [apply kd_read_tokens|apply IH; lia].
    - apply eq_array; [apply kd_read_tokens|apply IH; lia].
  Qed.
End Depth.



(** * Enough fuel is enough *)
Section Fuel.
  Local Open Scope nat_scope.
  Variables (g : bool) (pw : pwidth) (cfg : parse_config) (D : delegate) (source : list N).
  Hypothesis Hgood : good g pw source.
  Let len := length source.
  Notation G0' := (G0 D source).
  Definition agree {A} (n : nat) (m1 m2 : pm D A) : Prop := forall s, ps_iter s = BI source n -> m1 s = m2 s.
  Lemma agree_refl {A} n (m : pm D A) : agree n m m.
  Proof. intros s _. reflexivity. Qed.
  Lemma agree_bind2 {A B} n (m1 m2 : pm D A) (k1 k2 : A -> pm D B) R : G0' 0 n m1 R -> agree n m1 m2 ->
    (forall a n', n <= n' <= len -> R a n' -> agree n' (k1 a) (k2 a)) -> agree n (pbind D m1 k1) (pbind D m2 k2).
  Proof.
    intros Hm He Hk s Hs. unfold pbind. rewrite <- (He s Hs). destruct (Hm s Hs) as (n' & Hn & Hi & HR).
    destruct (m1 s) as [[a|e|f] s1]; [|reflexivity..]. exact (Hk a n' Hn HR s1 Hi).
  Qed.
  Lemma agree_bind {A B} n (m : pm D A) (k1 k2 : A -> pm D B) R : G0' 0 n m R ->
    (forall a n', n <= n' <= len -> R a n' -> agree n' (k1 a) (k2 a)) -> agree n (pbind D m k1) (pbind D m k2).
  Proof. intros Hm Hk. eapply agree_bind2; [exact Hm|apply agree_refl|exact Hk]. Qed.
  Ltac ags := repeat match goal with
    | |- agree _ ?m ?m => apply agree_refl
    | |- agree _ (pbind D (p_offset D) _) _ =>
        eapply agree_bind; [apply G0_offset; lia | intros ? ? ? [-> ->]]
    | |- agree _ (pbind D (p_tok D _) _) _ =>
        eapply agree_bind; [apply G0_tok; [exact Hgood|lia] | intros ? ? ? ?]
    | |- agree _ (pbind D (p_tok_err D _ _) _) _ =>
        eapply agree_bind; [apply G0_tok_colon; [exact Hgood|lia] | intros ? ? ? ?]
    | |- agree _ (pbind D (p_del D _ _) _) _ =>
        eapply agree_bind; [apply G0_del; [lia|lia|intros; eauto using delegate_faults] | intros ? ? ? ->]
    | |- agree _ (match ?t with TkNull => _ | _ => _ end) _ => destruct t
    end.
  Definition runs (n : nat) (rv : pm D (d_value D)) : Prop := forall n', n <= n' <= len -> G D source n' rv (fun _ m => n' < m).
  Lemma agree_object_loop rv1 rv2 n0 : runs n0 rv1 -> (forall n, n0 <= n <= len -> agree n rv1 rv2) ->
    forall k1 k2 n o, n0 <= n <= len -> len - n < k1 -> len - n < k2 ->
    agree n (object_loop g pw cfg D rv1 k1 o) (object_loop g pw cfg D rv2 k2 o).
  Proof.
    intros Hrv He. induction k1 as [|k1 IH]; intros [|k2] n o Hn H1 H2; try lia. cbn [object_loop]. ags.
    match goal with a : (d_object D * d_key D)%type |- _ => destruct a as [object key] end. ags.
    eapply agree_bind2; [eapply G_G0; [|apply Hrv; lia]; lia|apply He; lia|]. intros v n2 Hn2 Hlt. ags.
    apply IH; lia.
  Qed.
  Lemma agree_array_loop rv1 rv2 n0 : runs n0 rv1 -> (forall n, n0 <= n <= len -> agree n rv1 rv2) ->
    forall k1 k2 n o, n0 <= n <= len -> len - n < k1 -> len - n < k2 ->
    agree n (array_loop g pw cfg D rv1 k1 o) (array_loop g pw cfg D rv2 k2 o).
  Proof.
    intros Hrv He. induction k1 as [|k1 IH]; intros [|k2] n o Hn H1 H2; try lia. cbn [array_loop]. ags.
    eapply agree_bind; [apply G0_peek; lia|]. intros [|] n1 Hn1 Hb; [apply agree_refl|].
    eapply agree_bind2; [eapply G_G0; [|apply Hrv; lia]; lia|apply He; lia|]. intros v n2 Hn2 Hlt. ags.
    apply IH; lia.
  Qed.
  Lemma agree_map_err {A} n f (m1 m2 : pm D A) : agree n m1 m2 -> agree n (p_map_err D f m1) (p_map_err D f m2).
  Proof. intros H s Hs. unfold p_map_err. rewrite (H s Hs). reflexivity. Qed.
  Lemma agree_read_tokens l1 l2 : len < l1 -> len < l2 -> forall f1 f2 n, n <= len -> len - n < f1 -> len - n < f2 ->
    agree n (read_tokens g pw cfg D l1 f1) (read_tokens g pw cfg D l2 f2).
  Proof.
    intros L1 L2. induction f1 as [|f1 IH]; intros [|f2] n Hn H1 H2; try lia. cbn [read_tokens]. ags.
    - eapply agree_bind; [apply G0_begin_nest; lia|]. intros _ n1 Hn1 ->. apply agree_map_err. unfold read_object. ags.
      assert (Hr : runs n' (read_tokens g pw cfg D l1 f1)) by (intros n2 Hn2; apply G_read_tokens; try exact Hgood; fold len; lia).
      eapply agree_bind2; [eapply G0_weaken; [|apply (G_object_loop g pw cfg D source Hgood (read_tokens g pw cfg D l1 f1) n' 0)]; try lia; exact Hr| |].
      + apply (agree_object_loop _ _ n'); try lia; [exact Hr|]. intros; apply IH; lia.
      + intros o n2 Hn2 _. apply agree_refl.
    - eapply agree_bind; [apply G0_begin_nest; lia|]. intros _ n1 Hn1 ->. apply agree_map_err. unfold read_array. ags.
      assert (Hr : runs n' (read_tokens g pw cfg D l1 f1)) by (intros n2 Hn2; apply G_read_tokens; try exact Hgood; fold len; lia).
      eapply agree_bind2; [eapply G0_weaken; [|apply (G_array_loop g pw cfg D source Hgood (read_tokens g pw cfg D l1 f1) n')]; try lia; exact Hr| |].
      + apply (agree_array_loop _ _ n'); try lia; [exact Hr|]. intros; apply IH; lia.
      + intros o n2 Hn2 _. apply agree_refl.
  Qed.
End Fuel.

(** * C71: nested calls *)

(** The parser with room for only [calls] nested calls of its recursive function on the stack; it stops with [FFuel] when it
    would need more. *)
Definition parse_within (calls : nat) (utf8 : bool) (pw : pwidth) (cfg : parse_config) (D : delegate) (s : list N) (st : d_st D) :=
  let '(r, st') := parse_body utf8 pw cfg D (S (length s)) calls (parse_state pw cfg D s st) in (r, ps_del st').

(** One call more than the recursion limit suffices, whatever the input and the delegate; so does one call more than the input
    has bytes (in particular without a limit). *)
Theorem C71_calls_bounded utf8 pw cfg D s st calls : input_ok utf8 pw s ->
  (exists lim, recursion_limit cfg = Some lim /\ lim < N.of_nat calls) \/ (length s < calls)%nat ->
  parse_within calls utf8 pw cfg D s st = parse_with utf8 pw D s cfg st.
Proof.
  intros Hi Hc. rewrite parse_with_eq. apply input_good in Hi. unfold parse_within, parse_bytes, parse_body, pbind, parse_state.
  assert (K : (length s < calls)%nat -> forall d, read_tokens utf8 pw cfg D (S (length s)) calls (PS (bi_new s) st d) =
    read_tokens utf8 pw cfg D (S (length s)) (S (length s)) (PS (bi_new s) st d)).
  { intros L d. apply (agree_read_tokens utf8 pw cfg D s Hi (S (length s)) (S (length s)) ltac:(lia) ltac:(lia) calls (S (length s)) 0%nat); [lia..|reflexivity]. }
  destruct Hc as [(lim & Hl & Hc)|Hc]; [|rewrite K by exact Hc; reflexivity].
  rewrite Hl. destruct (N.ltb_spec lim (N.of_nat (S (length s)))) as [L|L].
  - rewrite (eq_read_tokens utf8 pw cfg D lim Hl (S (length s)) calls (S (length s)) lim) by (cbn [ps_depth]; lia). reflexivity.
  - rewrite K by lia. reflexivity.
Qed.

(** The bound cannot be lowered: unfinished nested arrays need one call more than the limit (resp. than the input has bytes). *)
Lemma open_arrays g pw cfg loops calls : forall k pre st d, good g pw (pre ++ repeat 91 k) -> (calls <= k)%nat -> (0 < loops)%nat ->
  (recursion_limit cfg = None \/ N.of_nat calls <= d) ->
  fst (read_tokens g pw cfg unit_delegate loops calls (PS (mk pre (repeat 91 k)) st d)) = Fault FFuel.
Proof.
  induction calls as [|calls IH]; intros k pre st d Hg Hk Hl Hd; [reflexivity|]. destruct k as [|k]; [lia|]. destruct loops as [|loops]; [lia|].
  cbn [read_tokens repeat]. unfold pbind at 1. cbn [p_offset]. unfold pbind at 1. unfold p_tok, p_tok_err at 1. cbn [ps_iter].
  pose proof (next_or_eof_complete g pw pre [] [91] TkArray (repeat 91 k) Hg ltac:(constructor) ltac:(constructor) I) as E0. cbn [app] in E0.
  rewrite E0. clear E0. cbn [map_err ps_del ps_depth app].
  assert (E : exists d', begin_nest cfg unit_delegate (bi_offset (mk pre (91 :: repeat 91 k))) (@PS unit_delegate (mk (pre ++ [91]) (repeat 91 k)) st d) =
    (Ok tt, PS (mk (pre ++ [91]) (repeat 91 k)) st d') /\ (recursion_limit cfg = None \/ N.of_nat calls <= d')).
  { unfold begin_nest. cbn [ps_depth ps_iter ps_del]. destruct (recursion_limit cfg) as [n|]; [|eauto]. destruct Hd as [|Hd]; [discriminate|].
    destruct (N.ltb_spec 0 d) as [L|L]; [|lia]. eexists. split; [reflexivity|]. right. lia. }
  destruct E as (d' & E & Hd'). unfold pbind at 1. rewrite E. unfold p_map_err, read_array. unfold pbind at 1. cbn [p_offset]. unfold pbind at 1.
  cbn [p_del unit_delegate d_begin_array ps_iter ps_del ps_depth map_err].
  assert (E2 : peek_array_end unit_delegate (@PS unit_delegate (mk (pre ++ [91]) (repeat 91 k)) st d') = (Ok false, PS (mk (pre ++ [91]) (repeat 91 k)) st d')).
  { unfold peek_array_end, tokenizer_peek. cbn [ps_iter]. rewrite skip_ws_mk. destruct k as [|k]; cbn [repeat take_while drop_while is_ws N.eqb Pos.eqb orb app];
      rewrite app_nil_r, bi_peek_mk; reflexivity. }
  cbn [array_loop]. unfold pbind at 1. unfold pbind at 1. cbn [p_offset]. unfold pbind at 1. rewrite E2.
  specialize (IH k (pre ++ [91]) st d'). rewrite <- app_assoc in IH. specialize (IH Hg ltac:(lia) ltac:(lia) Hd').
  unfold pbind at 1. destruct (read_tokens _ _ _ _ _ calls _) as [r s1]. cbn [fst] in IH. rewrite IH. reflexivity.
Qed.
Theorem C71_bound_is_exact utf8 pw cfg k calls : N.of_nat k <= isize_max pw -> (calls <= k)%nat ->
  (forall lim, recursion_limit cfg = Some lim -> N.of_nat calls <= lim) ->
  input_ok utf8 pw (repeat 91 k) /\ fst (parse_within calls utf8 pw cfg unit_delegate (repeat 91 k) tt) = Fault FFuel.
Proof.
  intros Hp Hk Hl. assert (Hi : input_ok utf8 pw (repeat 91 k)).
  { assert (A : rust_str pw (repeat 91 k)).
    { split; [|rewrite repeat_length; exact Hp]. clear. exists (repeat 91 k). split.
      - induction k as [|k IH]; cbn [repeat]; [constructor|constructor; [reflexivity|exact IH]].
      - induction k as [|k IH]; [reflexivity|]. cbn [repeat]. change (utf8_string (91 :: repeat 91 k)) with (91 :: utf8_string (repeat 91 k)). rewrite <- IH. reflexivity. }
    destruct utf8; [exact A|apply rust_str_slice, A]. }
  split; [exact Hi|]. apply input_good in Hi.
  unfold parse_within, parse_body, pbind. pose proof (open_arrays utf8 pw cfg (S (length (repeat 91 k))) calls k [] tt
    (match recursion_limit cfg with Some n => n | None => usize_max pw end) Hi Hk ltac:(lia)) as H.
  change (mk [] (repeat 91 k)) with (bi_new (repeat 91 k)) in H. unfold parse_state. destruct (read_tokens _ _ _ _ _ calls _) as [r s1]. cbn [fst] in H. rewrite H; [reflexivity|].
  destruct (recursion_limit cfg) as [n|]; [right; apply Hl; reflexivity|left; reflexivity].
Qed.

(** ** Documents: converting and skipping a value needs one nested call per level of the value *)
Lemma hydrate_depth v : forall fuel n r rest, preorder v = n :: r -> tree_depth (tree_of v) < N.of_nat fuel ->
  hydrate fuel n (r ++ rest) = Ok (v, rest).
Proof.
  induction v as [x|s|b|o IH|l IH|] using value_ind'; intros fuel n r rest E Hf; cbn in E; injection E as <- <-;
    (destruct fuel as [|fuel]; [lia|]); try reflexivity; cbn [hydrate tree_of tree_depth] in *.
  - match goal with |- ?f (length o) [] _ = _ => assert (H : forall acc o' rest', 
       Forall (fun e => forall fuel n r rest, preorder (snd e) = n :: r -> tree_depth (tree_of (snd e)) < N.of_nat fuel -> hydrate fuel n (r ++ rest) = Ok (snd e, rest)) o' ->
       1 + fold_right (fun e m => N.max (tree_depth (snd e)) m) 0 (List.map (fun e => (stored (fst e), tree_of (snd e))) o') < N.of_nat (S fuel) ->
       f (length o') acc (flat_map (fun e => NString (fst e) :: preorder (snd e)) o' ++ rest') = Ok (VObject (acc ++ o'), rest')) end.
    { intros acc o'. revert acc. induction o' as [|[k v] o' IHo]; intros acc rest' HF Hl.
      - cbn. rewrite app_nil_r. reflexivity.
      - inversion HF as [|? ? Hv HF']; subst. destruct (preorder_nonnil v) as (n & r & E). 
        cbn [length flat_map fst snd List.map fold_right] in *. rewrite E in *. cbn [length app] in *.
        rewrite <- app_assoc.
        rewrite (Hv fuel n r _ eq_refl) by lia. cbn [bind].
        rewrite IHo; [|exact HF'|lia]. rewrite <- app_assoc. reflexivity. }
    apply (H [] o rest IH). lia.
  - match goal with |- ?f (length l) [] _ = _ => assert (H : forall acc l' rest', 
       Forall (fun v => forall fuel n r rest, preorder v = n :: r -> tree_depth (tree_of v) < N.of_nat fuel -> hydrate fuel n (r ++ rest) = Ok (v, rest)) l' ->
       1 + fold_right (fun t m => N.max (tree_depth t) m) 0 (List.map tree_of l') < N.of_nat (S fuel) ->
       f (length l') acc (flat_map preorder l' ++ rest') = Ok (VArray (acc ++ l'), rest')) end.
    { intros acc l'. revert acc. induction l' as [|v l' IHl]; intros acc rest' HF Hl.
      - cbn. rewrite app_nil_r. reflexivity.
      - inversion HF as [|? ? Hv HF']; subst. destruct (preorder_nonnil v) as (n & r & E).
        cbn [length flat_map List.map fold_right] in *. rewrite E in *. cbn [length app] in *.
        rewrite <- app_assoc. rewrite (Hv fuel n r _ eq_refl) by lia. cbn [bind].
        rewrite IHl; [|exact HF'|lia]. rewrite <- app_assoc. reflexivity. }
    apply (H [] l rest IH). lia.
Qed.
Lemma skip_depth v : forall fuel rest, tree_depth (tree_of v) < N.of_nat fuel -> skip_next_value_fuel fuel (preorder v ++ rest) = Ok rest.
Proof.
  induction v as [x|s|b|o IH|l IH|] using value_ind'; intros fuel rest Hf; cbn [preorder length tree_of tree_depth] in *;
    (destruct fuel as [|fuel]; [cbn in Hf; lia|]); try reflexivity; cbn [skip_next_value_fuel app preorder].
  - assert (H : forall rest, repeat_skip (length o) (fun it =>
        let? it1 := skip_next_value_fuel fuel it in skip_next_value_fuel fuel it1)
        (flat_map (fun e => NString (fst e) :: preorder (snd e)) o ++ rest) = Ok rest); [|apply H].
    clear rest. induction o as [|[k v] o IHo]; intro rest; [reflexivity|].
    inversion IH as [|? ? Hv HF]; subst. cbn [length flat_map repeat_skip fst snd app List.map fold_right] in *.
    destruct fuel as [|fuel]; [lia|]. cbn [skip_next_value_fuel bind]. fold (skip_next_value_fuel (S fuel)).
    rewrite <- app_assoc. pose proof (Hv (S fuel)) as Hv'. cbn [skip_next_value_fuel] in Hv'. rewrite Hv' by lia. cbn [bind].
    apply IHo; [exact HF|lia].
  - assert (H : forall rest, repeat_skip (length l) (skip_next_value_fuel fuel) (flat_map preorder l ++ rest) = Ok rest); [|apply H].
    clear rest. induction l as [|v l IHl]; intro rest; [reflexivity|].
    inversion IH as [|? ? Hv HF]; subst. cbn [length flat_map repeat_skip List.map fold_right] in *.
    rewrite <- app_assoc, Hv by lia. cbn [bind]. apply IHl; [exact HF|lia].
Qed.

(** Reading a parsed document ([Value::from], [next_value], [skip_next_value]) nests no deeper than parsing it did: [calls] is the
    room for nested calls of [hydrate_value_from_node] and of [skip_next_value]. *)
Theorem C71_document_readers pw cfg s doc v calls : document_for pw cfg s doc v ->
  (exists lim, recursion_limit cfg = Some lim /\ lim < N.of_nat calls) \/ N.of_nat (length s) < 2 * N.of_nat calls ->
  exists root rest, doc = root :: rest /\ hydrate calls root rest = Ok (v, []) /\ skip_next_value_fuel calls doc = Ok [].
Proof.
  intros H Hc. pose proof (document_preorder _ _ _ _ _ H) as ->.
  assert (K : parsed_from pw cfg s v) by (destruct H as (cap & [(A & _ & B)|(A & _ & B)]); [left|right]; auto).
  assert (Hd : tree_depth (tree_of v) < N.of_nat calls).
  { destruct Hc as [(lim & Hl & Hc)|Hc]; [|pose proof (C68_depth _ _ _ _ K); lia].
    apply parsed_from_repr in K as (_ & t & (_ & Ht & _) & Hr). rewrite Hl in Ht. rewrite (value_repr_tree _ _ _ Hr). lia. }
  destruct (preorder_nonnil v) as (n & r & E). exists n, r. split; [exact E|]. split.
  - rewrite <- (app_nil_r r). apply hydrate_depth; assumption.
  - rewrite <- (app_nil_r (preorder v)). apply skip_depth, Hd.
Qed.

(** Concrete case: the default limit, an input nested to it. *)
Example C71_sample : let s := repeat 91 128 ++ repeat 93 128 in
  input_ok false W64 s /\ parse_within 129 false W64 config_default unit_delegate s tt = (Ok JkArray, tt) /\
  parse_with false W64 unit_delegate s config_default tt = (Ok JkArray, tt) /\
  fst (parse_within 128 false W64 config_default unit_delegate (repeat 91 128) tt) = Fault FFuel.
Proof.
  cbv zeta. split; [apply rust_str_slice, utf8_checked; [vm_compute; reflexivity|vm_compute; discriminate]|].
  split; [vm_compute; reflexivity|]. split; vm_compute; reflexivity.
Qed.
