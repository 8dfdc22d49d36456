(** Property theorems C81: 32-bit and 64-bit targets observe the same. *)
From Verif Require Import Base Utf8 Utf8Facts StrModel ErrorModel Tokenizer Parser ValueModel DocModel NumModel Spec SpecError SpecStr TokBase TokStr TokNum
  TokFacts ErrTok ParserGen Trace View ParseMain StrFacts StrEsc StrWf StrObt PropParse PropEntry PropExact PropWrite PropEsc PropDelegate.

(** The 64-bit string with the same contents, flag and length as a 32-bit one. *)
Definition widen (x : json_string) : json_string :=
  JStr (js_source x) (info_new W64 (has_escapes W32 (js_info x)) (expected_length W32 (js_info x))).
Fixpoint widen_value (v : value) : value :=
  match v with
  | VString s => VString (widen s)
  | VArray l => VArray (List.map widen_value l)
  | VObject o => VObject (List.map (fun e => (widen (fst e), widen_value (snd e))) o)
  | v => v
  end.
Definition widen_node (n : node) : node := match n with NString s => NString (widen s) | n => n end.
Definition widen_token (t : token) : token := match t with TkString s => TkString (widen s) | t => t end.
Definition map_ok {E A B} (f : A -> B) (r : res E A) : res E B :=
  match r with Ok a => Ok (f a) | Err e => Err e | Fault x => Fault x end.
(** A delegate that is handed every string through [widen]. *)
Definition through_widen (D : delegate) : delegate := {|
  d_st := d_st D; d_value := d_value D; d_object := d_object D; d_array := d_array D; d_key := d_key D; d_error := d_error D;
  d_null := d_null D; d_boolean := d_boolean D; d_number := d_number D;
  d_string := fun st s => d_string D st (widen s);
  d_begin_object := d_begin_object D;
  d_object_key := fun st o k => d_object_key D st o (widen k);
  d_object_value := d_object_value D; d_object_is_empty := d_object_is_empty D; d_end_object := d_end_object D;
  d_begin_array := d_begin_array D; d_array_value := d_array_value D; d_array_is_empty := d_array_is_empty D; d_end_array := d_end_array D;
  d_kind_of := d_kind_of D |}.

(** * Strings: every observation is the same *)
Lemma length_32 i : (expected_length W32 i <= isize_max W64)%N.
Proof.
  unfold expected_length. cbn [unescaped_bytes_mask isize_max]. change 0x7FFFFFFF%N with (N.ones 31). rewrite N.land_ones.
  assert (i mod 2 ^ 31 < 2 ^ 31)%N by (apply N.mod_lt; discriminate). change (2 ^ 31)%N with 2147483648%N in *. lia.
Qed.
Lemma widen_escapes x : has_escapes W64 (js_info (widen x)) = has_escapes W32 (js_info x).
Proof. apply has_escapes_info, length_32. Qed.
Lemma widen_length x : expected_length W64 (js_info (widen x)) = expected_length W32 (js_info x).
Proof. apply expected_length_info, length_32. Qed.
Lemma widen_decoded_iter x y : decoded_new W64 (js_source (widen x)) (js_info (widen y)) = decoded_new W32 (js_source x) (js_info y).
Proof. unfold decoded_new. rewrite widen_escapes. reflexivity. Qed.

Theorem C81_string_observations x y t :
  js_decoded W64 (widen x) = js_decoded W32 x /\
  js_decode_if_needed W64 (widen x) = js_decode_if_needed W32 x /\
  js_decoded_len W64 (widen x) = js_decoded_len W32 x /\
  js_len W64 (widen x) = js_len W32 x /\
  js_is_empty W64 (widen x) = js_is_empty W32 x /\
  js_as_str W64 (widen x) = js_as_str W32 x /\
  js_as_json_str (widen x) = js_as_json_str x /\
  js_eq_str W64 (widen x) t = js_eq_str W32 x t /\
  js_eq W64 (widen x) (widen y) = js_eq W32 x y /\
  js_partial_cmp_str W64 (widen x) t = js_partial_cmp_str W32 x t /\
  js_cmp W64 (widen x) (widen y) = js_cmp W32 x y /\
  js_hash W64 (widen x) = js_hash W32 x /\
  js_display W64 (widen x) = js_display W32 x.
Proof.
  assert (D : forall x, js_decoded W64 (widen x) = js_decoded W32 x).
  { intro z. unfold js_decoded, js_decoded_iter. rewrite widen_decoded_iter. reflexivity. }
  assert (L : forall x, js_len W64 (widen x) = js_len W32 x).
  { intro z. unfold js_len. rewrite widen_length. reflexivity. }
  assert (Q : forall x t, js_eq_str W64 (widen x) t = js_eq_str W32 x t).
  { intros z u. unfold js_eq_str. rewrite widen_escapes, widen_length, widen_decoded_iter. reflexivity. }
  assert (C : forall x t, js_partial_cmp_str W64 (widen x) t = js_partial_cmp_str W32 x t).
  { intros z u. unfold js_partial_cmp_str, js_decoded_iter. rewrite widen_escapes, widen_decoded_iter. reflexivity. }
  split; [apply D|]. split; [unfold js_decode_if_needed; rewrite widen_escapes, D; reflexivity|].
  split; [unfold js_decoded_len; rewrite widen_length; reflexivity|]. split; [apply L|].
  split; [unfold js_is_empty; rewrite L; reflexivity|]. split; [unfold js_as_str; rewrite widen_escapes; reflexivity|].
  split; [reflexivity|]. split; [apply Q|].
  split. { unfold js_eq. rewrite !widen_escapes, !widen_length, !widen_decoded_iter.
    change (js_source (widen x)) with (js_source x). change (js_source (widen y)) with (js_source y).
    destruct (js_source x), (js_source y); rewrite ?Q, ?L; reflexivity. }
  split; [apply C|].
  split. { unfold js_cmp, js_decoded_iter. rewrite !widen_escapes, !widen_decoded_iter.
    change (js_source (widen x)) with (js_source x). change (js_source (widen y)) with (js_source y).
    destruct (js_source x), (js_source y); rewrite ?C; reflexivity. }
  split; [unfold js_hash; rewrite widen_escapes, D; reflexivity|]. unfold js_display. rewrite D. reflexivity.
Qed.

(** Building a string from text: what works on 32 bits gives the same string on 64 bits; so does escaping. *)
Lemma widen_info b n : (n <= isize_max W32)%N ->
  info_new W64 (has_escapes W32 (info_new W32 b n)) (expected_length W32 (info_new W32 b n)) = info_new W64 b n.
Proof. intro H. rewrite has_escapes_info, expected_length_info by exact H. reflexivity. Qed.
Lemma small_widths : (isize_max W32 <= isize_max W64)%N.
Proof. vm_compute. discriminate. Qed.
Lemma rust_str_64 s : rust_str W32 s -> rust_str W64 s.
Proof. intros [H1 H2]. split; [exact H1|]. pose proof small_widths. lia. Qed.
Lemma rust_slice_64 s : rust_slice W32 s -> rust_slice W64 s.
Proof. intros [H1 H2]. split; [exact H1|]. pose proof small_widths. lia. Qed.

Theorem C81_built_strings s x : rust_str W32 s ->
  (js_from_str W32 s = Ok x -> js_from_str W64 s = Ok (widen x)) /\
  (js_from_string W32 s = Ok x -> js_from_string W64 s = Ok (widen x)).
Proof.
  intros [(cs & Hcs & ->) Hl].
  assert (K : forall a, any_str a = utf8_string cs -> js_from_any W32 a = Ok x -> js_from_any W64 a = Ok (widen x)).
  { intros a Ea E. destruct (N.le_gt_cases (StrEsc.counted cs) (isize_max W32)) as [Hc|Hc].
    - rewrite (from_any_ok W32 a cs Hcs Ea Hc) in E. injection E as <-.
      rewrite (from_any_ok W64 a cs Hcs Ea) by (pose proof small_widths; lia). f_equal. unfold built_from, widen.
      destruct (existsb must_escape cs); cbn [js_source js_info]; rewrite widen_info by exact Hc; reflexivity.
    - rewrite (from_any_overflow W32 a cs Hcs Ea Hl Hc) in E. discriminate. }
  split; apply K; reflexivity.
Qed.
Theorem C81_escaping x out : obtainable W32 x ->
  (js_as_json W32 x = Ok out -> js_as_json W64 (widen x) = Ok out) /\
  (forall a, js_escape_if_needed W32 x = Ok a -> js_escape_if_needed W64 (widen x) = Ok a).
Proof.
  intro H. destruct (obtainable_wf _ _ H) as (cs & Hw).
  assert (K : forall out, js_as_json W32 x = Ok out -> js_as_json W64 (widen x) = Ok out).
  { clear out. intros out E. destruct Hw as [a i l Hi Hl He Hn|a cs Hcs Ea Hl Hc Hm].
    - pose proof (items_valid _ _ Hi) as Hv. apply chars_valid in Hv as [H1 H2].
      rewrite (as_json_json W32 a i _ H1 H2) in E. injection E as <-. apply as_json_json; assumption.
    - destruct (N.le_gt_cases (2 * StrEsc.counted cs) (isize_max W32)) as [Hd|Hd].
      + rewrite (as_json_raw W32 a cs Hcs Ea Hd) in E. injection E as <-. unfold widen. cbn [js_source js_info]. rewrite widen_info by exact Hc.
        apply as_json_raw; [exact Hcs|exact Ea|]. pose proof small_widths. lia.
      + rewrite (as_json_raw_overflow W32 a cs Hcs Ea Hc Hd) in E. discriminate. }
  split; [apply K|]. intro a. unfold js_escape_if_needed. change (js_source (widen x)) with (js_source x).
  destruct (js_source x); [auto|]. destruct (js_as_json W32 x) as [c|[]|f] eqn:E; cbn [bind]; [|discriminate]. rewrite (K _ eq_refl). auto.
Qed.

(** * Values and documents *)
Lemma widen_string_for raw cs : str_body raw cs -> (N.of_nat (length raw) <= isize_max W32)%N ->
  widen (string_for W32 raw cs) = string_for W64 raw cs.
Proof.
  intros H Hl. unfold string_for, widen. cbn [js_source js_info]. rewrite widen_info; [reflexivity|].
  pose proof (str_body_len _ _ H). lia.
Qed.
(** The strings of a tree fit. *)
Definition fits32 : tree -> Prop := tree_all (fun raw => (N.of_nat (length raw) <= isize_max W32)%N) (fun _ => True).
Lemma widen_repr : forall t v, fits32 t -> value_repr W32 t v -> value_repr W64 t (widen_value v).
Proof.
  fix IH 4. intros t v Hf H. destruct H as [ |b|n|raw cs H|l vs H|l vs H]; cbn [widen_value]; inversion Hf as [| | | |? HT|? HT]; subst.
  - constructor.
  - constructor.
  - constructor.
  - rewrite widen_string_for by assumption. constructor. exact H.
  - constructor. clear Hf. induction H as [|a y l vs Hx H IHl]; cbn [List.map]; [constructor|]. inversion HT; subst. constructor.
    + apply IH; assumption.
    + apply IHl; assumption.
  - constructor. clear Hf. induction H as [|[k a] [k' y] l vs [(cs & Hk & Ek) Hx] H IHl]; cbn [List.map]; [constructor|].
    inversion HT as [|? ? [Ha Hb]]; subst. constructor.
    + cbn [fst snd] in *. split; [|apply IH; assumption]. exists cs. split; [exact Hk|]. rewrite Ek. apply widen_string_for; assumption.
    + apply IHl; assumption.
Qed.
Lemma accepted_fits32 cfg t s : (N.of_nat (length s) <= isize_max W32)%N -> accepted cfg t s -> fits32 t.
Proof.
  intros Hl (H & _). apply json_text_parts in H. revert H. apply tree_all_impl; [|auto]. intros x [_ (a & b & E)].
  rewrite E in Hl. rewrite !app_length in Hl. cbn [length] in Hl. rewrite app_length in Hl. lia.
Qed.

(** The 64-bit parser gives the widened value, or the same error. *)
Theorem C81_values cfg s :
  (rust_slice W32 s -> value_from_json_bytes_with_config W64 s cfg = map_ok widen_value (value_from_json_bytes_with_config W32 s cfg)) /\
  (rust_str W32 s -> value_from_json_with_config W64 s cfg = map_ok widen_value (value_from_json_with_config W32 s cfg)).
Proof.
  assert (K : rust_slice W32 s -> value_from_json_bytes_with_config W64 s cfg = map_ok widen_value (value_from_json_bytes_with_config W32 s cfg)).
  { intro H. pose proof (rust_slice_64 _ H) as H'. destruct (C05_parsing_returns W32 cfg None s H) as (R & _).
    destruct (value_from_json_bytes_with_config W32 s cfg) as [v|[o k]|f] eqn:E; cbn [map_ok].
    - apply value_bytes_iff in E; [|exact H]. destruct E as (t & Ha & Hr). apply value_bytes_iff; [exact H'|]. exists t. split; [exact Ha|].
      apply widen_repr; [|exact Hr]. eapply accepted_fits32; [apply H|exact Ha].
    - apply C56_error_is_the_described_one; [exact H'|]. apply C56_error_is_the_described_one in E; assumption.
    - destruct R as [(v & R)|(e & R)]; discriminate. }
  split; [exact K|]. intro H. destruct (C03_entry_points_agree W32 cfg None s H) as (-> & _).
  destruct (C03_entry_points_agree W64 cfg None s (rust_str_64 _ H)) as (-> & _). apply K, rust_str_slice, H.
Qed.

Lemma widen_preorder : forall v, preorder (widen_value v) = List.map widen_node (preorder v).
Proof.
  induction v as [n|x|b|o IH|l IH|] using value_ind'; cbn [widen_value preorder List.map widen_node]; try reflexivity.
  - rewrite map_length. f_equal. induction IH as [|e o He IH IHo]; [reflexivity|]. cbn [List.map flat_map fst snd]. rewrite IHo, He, map_app. reflexivity.
  - rewrite map_length. f_equal. induction IH as [|e o He IH IHo]; [reflexivity|]. cbn [List.map flat_map]. rewrite IHo, He, map_app. reflexivity.
Qed.
Theorem C81_documents cfg s :
  (rust_slice W32 s -> document_from_json_bytes_with_config W64 None s cfg = map_ok (List.map widen_node) (document_from_json_bytes_with_config W32 None s cfg)) /\
  (rust_str W32 s -> document_from_json_with_config W64 None s cfg = map_ok (List.map widen_node) (document_from_json_with_config W32 None s cfg)).
Proof.
  split; intro H.
  - rewrite !C09_C12_document_bytes by (exact H || apply rust_slice_64, H). rewrite (proj1 (C81_values cfg s) H).
    destruct (value_from_json_bytes_with_config W32 s cfg); cbn [map_ok]; [rewrite widen_preorder|..]; reflexivity.
  - rewrite !C09_C12_document_str by (exact H || apply rust_str_64, H). rewrite (proj2 (C81_values cfg s) H).
    destruct (value_from_json_with_config W32 s cfg); cbn [map_ok]; [rewrite widen_preorder|..]; reflexivity.
Qed.

(** Comparing, looking up and writing values. *)
Lemma widen_tree : forall v, tree_of (widen_value v) = tree_of v.
Proof.
  induction v as [n|x|b|o IH|l IH|] using value_ind'; cbn [widen_value tree_of]; try reflexivity; f_equal; rewrite map_map;
    (eapply map_ext_Forall, Forall_impl; [|exact IH]); cbn beta; intros a Ha; cbn [fst snd]; [rewrite Ha; reflexivity|exact Ha].
Qed.
Lemma widen_value_eq : forall v w, value_eq W64 (widen_value v) (widen_value w) = value_eq W32 v w.
Proof.
  induction v as [n|x|b|o IH|l IH|] using value_ind'; intros [n'|x'|b'|o'|l'|]; cbn [widen_value value_eq]; try reflexivity.
  - apply (C81_string_observations x x' []).
  - rewrite !map_length. destruct (negb _); [reflexivity|]. revert o'. induction IH as [|[k v] o He IH IHo]; intros [|[k' v'] o']; try reflexivity.
    cbn [List.map fst snd] in *. rewrite IHo, He. do 2 f_equal. apply (C81_string_observations k k' []).
  - rewrite !map_length. destruct (negb _); [reflexivity|]. revert l'. induction IH as [|v l He IH IHo]; intros [|v' l']; try reflexivity.
    cbn [List.map] in *. rewrite IHo, He. reflexivity.
Qed.
Theorem C81_value_observations v w key :
  value_eq W64 (widen_value v) (widen_value w) = value_eq W32 v w /\
  value_get W64 (widen_value v) key = map_ok (option_map widen_value) (value_get W32 v key) /\
  value_as_str W64 (widen_value v) = value_as_str W32 v /\
  value_kind (widen_value v) = value_kind v.
Proof.
  split; [apply widen_value_eq|]. split.
  { destruct v as [n|x|b|o|l|]; cbn [widen_value]; try reflexivity. unfold value_get. cbn [as_object].
    induction o as [|[k v] o IH]; [reflexivity|]. cbn [List.map object_get fst snd].
    rewrite (proj1 (proj2 (proj2 (proj2 (proj2 (proj2 (proj2 (proj2 (C81_string_observations k k key))))))))).
    destruct (js_eq_str W32 k key) as [[|]|[]|f]; cbn [bind]; try reflexivity. exact IH. }
  split; [|destruct v; reflexivity]. destruct v as [n|x|b|o|l|]; try reflexivity. apply (C81_string_observations x x []).
Qed.
Theorem C81_serialization cfg s v : parsed_from W32 cfg s v ->
  to_json W64 (widen_value v) = to_json W32 v /\
  (forall ind eol, to_json_pretty_custom W64 ind eol (widen_value v) = to_json_pretty_custom W32 ind eol v).
Proof.
  intro H.
  assert (H' : parsed_from W64 cfg s (widen_value v)).
  { destruct H as [[H E]|[H E]]; [left|right].
    - split; [apply rust_slice_64, H|]. rewrite (proj1 (C81_values cfg s) H), E. reflexivity.
    - split; [apply rust_str_64, H|]. rewrite (proj2 (C81_values cfg s) H), E. reflexivity. }
  destruct (C36_C37_layout _ _ _ _ H) as (A & B & _). destruct (C36_C37_layout _ _ _ _ H') as (A' & B' & _).
  rewrite widen_tree in A'. split; [rewrite A, A'; reflexivity|]. intros ind eol. rewrite B, B', widen_tree. reflexivity.
Qed.

(** * Every delegate *)
Section Port.
  Variables (g : bool) (cfg : parse_config) (D : delegate) (source : list N).
  Hypothesis Hgood : good g W32 source.
  Notation D' := (through_widen D).

  Definition stand (s1 : pstate D') (s2 : pstate D) : Prop :=
    exists n, (n <= length source)%nat /\ ps_iter s1 = BI source n /\ ps_iter s2 = BI source n /\ ps_del s1 = ps_del s2 /\
      (recursion_limit cfg <> None -> ps_depth s1 = ps_depth s2).
  Definition port {A B} (f : A -> B) (m1 : pm D' A) (m2 : pm D B) : Prop := forall s1 s2, stand s1 s2 ->
    match m1 s1, m2 s2 with
    | (Ok a, t1), (Ok b, t2) => b = f a /\ stand t1 t2
    | (Err e, t1), (Err e', t2) => e = e' /\ ps_del t1 = ps_del t2
    | (Fault x, t1), (Fault y, t2) => x = y /\ ps_del t1 = ps_del t2
    | _, _ => False
    end.
  Definition same_id {A} (a : A) := a.

  Lemma good_64 : good g W64 source.
  Proof. destruct Hgood as [H1 H2]. split; [|exact H2]. unfold small in *. pose proof small_widths. lia. Qed.

  Lemma token_widen x tk : (N.of_nat (length x) <= isize_max W32)%N -> token_text W32 tk x -> token_text W64 (widen_token tk) x.
  Proof.
    intros Hl H. destruct H; cbn [widen_token]; try (constructor; assumption). rewrite widen_string_for; [constructor; assumption|assumption|].
    cbn [length] in Hl. rewrite app_length in Hl. cbn [length] in Hl. lia.
  Qed.
  Lemma next_port n : (n <= length source)%nat ->
    match next_or_eof g W32 (BI source n), next_or_eof g W64 (BI source n) with
    | (Ok a, i1), (Ok b, i2) => b = widen_token a /\ exists n', (n' <= length source)%nat /\ i1 = BI source n' /\ i2 = BI source n'
    | (Err e, _), (Err e', _) => e = e'
    | _, _ => False
    end.
  Proof.
    intro Hn. rewrite (BI_mk source n Hn).
    assert (Hg : good g W32 (firstn n source ++ skipn n source)) by (rewrite firstn_skipn; exact Hgood).
    assert (Hg2 : good g W64 (firstn n source ++ skipn n source)) by (rewrite firstn_skipn; exact good_64).
    assert (Es : source = firstn n source ++ skipn n source) by (rewrite firstn_skipn; reflexivity).
    set (pre := firstn n source) in *. set (r := skipn n source) in *. clearbody pre r.
    pose proof (next_or_eof_spec g W32 pre r Hg) as H. destruct (next_or_eof g W32 (mk pre r)) as [[tk|e|f] it'] eqn:E.
    - destruct H as (w & x & r' & -> & Hw & Ht & -> & Hst).
      rewrite (next_or_eof_complete g W64 pre w x (widen_token tk) r' Hg2 Hw).
      + split; [reflexivity|]. exists (length pre + length (w ++ x))%nat. rewrite mk_BI, <- !app_assoc, <- Es. split; [|auto].
        rewrite Es, !app_length. lia.
      + apply token_widen; [|exact Ht]. destruct Hg as [Hg _]. unfold small in Hg. rewrite !app_length in Hg. lia.
      + unfold token_stop in *. destruct tk; exact Hst.
    - destruct (next_raises g W32 pre r Hg e it' E) as (m & k & Hk & ->).
      destruct (next_raised g W64 pre r m k Hg2 Hk) as (it2 & ->). reflexivity.
    - destruct H.
  Qed.

  Lemma pt_bind {A B A2 B2} (fa : A -> A2) (fb : B -> B2) (m1 : pm D' A) (m2 : pm D A2) (k1 : A -> pm D' B) (k2 : A2 -> pm D B2) :
    port fa m1 m2 -> (forall a, port fb (k1 a) (k2 (fa a))) -> port fb (pbind D' m1 k1) (pbind D m2 k2).
  Proof.
    intros Hm Hk s1 s2 Hs. specialize (Hm s1 s2 Hs). unfold pbind. destruct (m1 s1) as [[a|e|x] t1], (m2 s2) as [[b|e'|y] t2]; try contradiction; try exact Hm.
    destruct Hm as [-> Ht]. exact (Hk a t1 t2 Ht).
  Qed.
  Lemma pt_bind_id {A B B2} (fb : B -> B2) (m1 : pm D' A) (m2 : pm D A) (k1 : A -> pm D' B) (k2 : A -> pm D B2) :
    port same_id m1 m2 -> (forall a, port fb (k1 a) (k2 a)) -> port fb (pbind D' m1 k1) (pbind D m2 k2).
  Proof. apply pt_bind. Qed.
  Lemma pt_ret {A B} (f : A -> B) a : port f (pret D' a) (pret D (f a)).
  Proof. intros s1 s2 Hs. split; [reflexivity|exact Hs]. Qed.
  Lemma pt_err {A B} (f : A -> B) o k : port f (@perr D' A o k) (@perr D B o k).
  Proof. intros s1 s2 (n & _ & _ & _ & Hd & _). split; [reflexivity|exact Hd]. Qed.
  Lemma pt_fault {A B} (f : A -> B) x : port f (fun s => (Fault x, s)) (fun s => (Fault x, s)).
  Proof. intros s1 s2 (n & _ & _ & _ & Hd & _). split; [reflexivity|exact Hd]. Qed.
  Lemma pt_offset : port same_id (p_offset D') (p_offset D).
  Proof. intros s1 s2 Hs. pose proof Hs as (n & Hn & H1 & H2 & Hd & Hp). unfold p_offset. rewrite H1, H2. split; [reflexivity|exact Hs]. Qed.
  Lemma pt_tok conv : port widen_token (p_tok_err D' conv (next_or_eof g W32)) (p_tok_err D conv (next_or_eof g W64)).
  Proof.
    intros s1 s2 (n & Hn & H1 & H2 & Hd & Hp). unfold p_tok_err. rewrite H1, H2. pose proof (next_port n Hn) as H.
    destruct (next_or_eof g W32 (BI source n)) as [[a|e|x] i1], (next_or_eof g W64 (BI source n)) as [[b|e'|y] i2]; cbn [map_err]; try contradiction.
    - destruct H as [-> (n' & Hn' & -> & ->)]. split; [reflexivity|]. exists n'. cbn. auto.
    - subst. cbn. auto.
  Qed.
  Lemma pt_del {A} o (m1 : d_st D' -> res (d_error D') A * d_st D') (m2 : d_st D -> res (d_error D) A * d_st D) :
    (forall st, m1 st = m2 st) -> port same_id (p_del D' o m1) (p_del D o m2).
  Proof.
    intros H s1 s2 (n & Hn & H1 & H2 & Hd & Hp). unfold p_del. rewrite H, Hd. destruct (m2 (ps_del s2)) as [[a|e|x] st]; cbn [map_err]; [|cbn; auto..].
    split; [reflexivity|]. exists n. cbn. auto.
  Qed.
  Lemma pt_query {A} (m : d_st D -> res infallible A) : port same_id (p_query D' m) (p_query D m).
  Proof.
    intros s1 s2 Hs. pose proof Hs as (n & Hn & H1 & H2 & Hd & Hp). unfold p_query. rewrite Hd. destruct (m (ps_del s2)) as [a|[]|x]; split; auto.
  Qed.
  Lemma pt_begin o : port same_id (begin_nest cfg D' o) (begin_nest cfg D o).
  Proof.
    intros s1 s2 Hs. pose proof Hs as (n & Hn & H1 & H2 & Hd & Hp). unfold begin_nest. destruct (recursion_limit cfg) as [l|] eqn:El; [|split; auto].
    rewrite Hp by discriminate. destruct (0 <? ps_depth s2)%N; [|split; auto]. split; [reflexivity|]. exists n. cbn. auto.
  Qed.
  Lemma pt_end : port same_id (end_nest cfg D') (end_nest cfg D).
  Proof.
    intros s1 s2 Hs. pose proof Hs as (n & Hn & H1 & H2 & Hd & Hp). unfold end_nest. destruct (recursion_limit cfg) as [l|] eqn:El; [|split; auto].
    rewrite Hp by discriminate. split; [reflexivity|]. exists n. cbn. auto.
  Qed.
  Lemma pt_map_err {A} (f : error (d_error D) -> error (d_error D)) (m1 : pm D' A) (m2 : pm D A) : port same_id m1 m2 -> port same_id (p_map_err D' f m1) (p_map_err D f m2).
  Proof.
    intros H s1 s2 Hs. specialize (H s1 s2 Hs). unfold p_map_err. destruct (m1 s1) as [[a|e|x] t1], (m2 s2) as [[b|e'|y] t2]; cbn [map_err]; try contradiction; try exact H.
    destruct H as [-> H]. auto.
  Qed.
  Lemma pt_peek : port same_id (peek_array_end D') (peek_array_end D).
  Proof.
    intros s1 s2 (n & Hn & H1 & H2 & Hd & Hp). unfold peek_array_end, tokenizer_peek. rewrite H1, H2.
    destruct (skip_ws_pos source n Hn) as (n' & Hn' & ->). cbn zeta. unfold bi_peek. cbn [bi_bytes bi_offset].
    assert (K : stand (PS (D := D') (BI source n') (ps_del s1) (ps_depth s1)) (PS (BI source n') (ps_del s2) (ps_depth s2))).
    { exists n'. cbn. split; [lia|auto]. }
    destruct (nth_error source n') as [b|] eqn:E; [|split; auto].
    assert (n' < length source)%nat by (apply nth_error_Some; rewrite E; discriminate).
    destruct (peek_kind_of b); try (split; auto; fail). split; [reflexivity|]. exists (n' + 1)%nat. cbn. split; [lia|auto].
  Qed.
  Lemma pt_trailing : port same_id (check_trailing D') (check_trailing D).
  Proof.
    intros s1 s2 (n & Hn & H1 & H2 & Hd & Hp). unfold check_trailing, next_non_ws. rewrite H1, H2.
    destruct (skip_ws_pos source n Hn) as (n' & Hn' & ->). unfold bi_next. cbn [bi_bytes bi_offset].
    destruct (nth_error source n') as [b|] eqn:E; [split; auto|]. split; [reflexivity|]. exists n'. cbn. split; [lia|auto].
  Qed.

  Ltac pt := repeat match goal with
    | |- port _ (pbind D' (p_tok D' _) _) _ => eapply pt_bind; [apply pt_tok|intros []; cbn [widen_token]]
    | |- port _ (pbind D' (p_tok_err D' _ _) _) _ => eapply pt_bind; [apply pt_tok|intros []; cbn [widen_token]]
    | |- port _ (pbind D' _ _) _ => apply pt_bind_id; [|intro]
    | |- port _ (p_offset _) _ => apply pt_offset
    | |- port _ (p_del _ _ _) _ => apply pt_del; reflexivity
    | |- port _ (p_query _ _) _ => apply pt_query
    | |- port _ (begin_nest _ _ _) _ => apply pt_begin
    | |- port _ (end_nest _ _) _ => apply pt_end
    | |- port _ (peek_array_end _) _ => apply pt_peek
    | |- port _ (pret _ _) _ => apply (pt_ret same_id)
    | |- port _ (perr _ _ _) _ => apply pt_err
    | |- port _ (p_map_err _ _ _) _ => apply pt_map_err
    | |- port _ (let '(_, _) := ?p in _) _ => destruct p
    | |- port _ (if ?b then _ else _) _ => destruct b
    end.
  Lemma pt_object_loop rv1 rv2 : port same_id rv1 rv2 -> forall n o, port same_id (object_loop g W32 cfg D' rv1 n o) (object_loop g W64 cfg D rv2 n o).
  Proof. intros H. induction n as [|n IH]; intro o; cbn [object_loop]; [apply pt_fault|]. pt; auto; apply IH. Qed.
  Lemma pt_array_loop rv1 rv2 : port same_id rv1 rv2 -> forall n o, port same_id (array_loop g W32 cfg D' rv1 n o) (array_loop g W64 cfg D rv2 n o).
  Proof. intros H. induction n as [|n IH]; intro o; cbn [array_loop]; [apply pt_fault|]. pt; auto; apply IH. Qed.
  Lemma pt_read_tokens loops fuel : port same_id (read_tokens g W32 cfg D' loops fuel) (read_tokens g W64 cfg D loops fuel).
  Proof.
    induction fuel as [|fuel IH]; cbn [read_tokens]; [apply pt_fault|]. pt; unfold read_object, read_array; pt;
      [apply pt_object_loop, IH|apply pt_array_loop, IH].
  Qed.
End Port.

(** With every delegate: the 64-bit run has the result and final delegate state of the 32-bit run in which the delegate is handed
    its strings through [widen]; numbers, keys, positions and errors are the same. *)
Theorem C81_every_delegate utf8 cfg D s st : input_ok utf8 W32 s ->
  parse_with utf8 W64 D s cfg st = parse_with utf8 W32 (through_widen D) s cfg st.
Proof.
  intro H. rewrite !parse_with_eq. unfold parse_bytes.
  assert (P : port cfg D s same_id (parse_body utf8 W32 cfg (through_widen D) (S (length s)) (S (length s))) (parse_body utf8 W64 cfg D (S (length s)) (S (length s)))).
  { unfold parse_body. apply pt_bind_id; [apply pt_read_tokens, input_good, H|intro v]. apply pt_bind_id.
    - unfold check_root. destruct (negb _); [|apply (pt_ret cfg D s same_id)]. apply pt_bind_id; [apply (pt_query cfg D s (fun st => d_kind_of D st v))|].
      intros []; try apply pt_err; apply (pt_ret cfg D s same_id).
    - intro. apply pt_bind_id; [apply pt_trailing|intro]. apply (pt_ret cfg D s same_id). }
  specialize (P (parse_state W32 cfg (through_widen D) s st) (parse_state W64 cfg D s st)).
  assert (K : stand cfg D s (parse_state W32 cfg (through_widen D) s st) (parse_state W64 cfg D s st)).
  { exists 0%nat. unfold parse_state. cbn. split; [lia|]. repeat (split; [reflexivity|]). destruct (recursion_limit cfg); congruence. }
  specialize (P K). destruct (parse_body utf8 W32 _ _ _ _ _) as [[a|e|x] t1], (parse_body utf8 W64 _ _ _ _ _) as [[b|e'|y] t2]; try contradiction.
  - destruct P as [-> (n & _ & _ & _ & -> & _)]. reflexivity.
  - destruct P as [-> ->]. reflexivity.
  - destruct P as [-> ->]. reflexivity.
Qed.
Corollary C81_validation cfg s :
  (rust_slice W32 s -> validate_json_bytes_with_config W64 s cfg = validate_json_bytes_with_config W32 s cfg) /\
  (rust_str W32 s -> validate_json_with_config W64 s cfg = validate_json_with_config W32 s cfg).
Proof.
  split; intro H.
  - exact (f_equal fst (C81_every_delegate false cfg unit_delegate s tt H)).
  - exact (f_equal fst (C81_every_delegate true cfg unit_delegate s tt H)).
Qed.

(** A concrete case: the two representations of a string with an escape differ, what they show does not. *)
Example C81_sample :
  let s := bs "{""k\n"":[1]}" in
  exists v, rust_str W32 s /\ value_from_json_with_config W32 s config_new = Ok v /\ widen_value v <> v /\
    value_from_json_with_config W64 s config_new = Ok (widen_value v) /\
    to_json W64 (widen_value v) = Ok s.
Proof.
  cbv zeta. eexists. split; [apply utf8_checked; [vm_compute; reflexivity|vm_compute; discriminate]|].
  split; [vm_compute; reflexivity|]. split; [vm_compute; discriminate|]. split; vm_compute; reflexivity.
Qed.
