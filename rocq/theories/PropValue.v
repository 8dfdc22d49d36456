(** Property theorems about Value and Object: lookup, indexing, equality (C40, C41, C53, C54). *)
From Verif Require Import Base Utf8 Utf8Facts StrModel ErrorModel Tokenizer Parser ValueModel DocModel NumModel Spec SpecStr
  TokBase TokStr TokFacts StrSpec View ParseMain StrFacts StrEsc StrWf PropTok PropEntry StrObt PropStr.
Local Open Scope N_scope.

(** * C53: AnyStr *)

(** Byte-wise lexicographic order, said without recursion. *)
Definition text_before (a b : list N) : Prop :=
  (exists x r, b = a ++ x :: r) \/ (exists p x y r r', a = p ++ x :: r /\ b = p ++ y :: r' /\ x < y).

Lemma lex_cmp_lt a : forall b, lex_cmp a b = Lt <-> text_before a b.
Proof.
  induction a as [|x a IH]; intros [|y b]; cbn [lex_cmp].
  - split; [discriminate|]. intros [(x & r & E)|(p & x & y & r & r' & E & _)]; [discriminate|destruct p; discriminate].
  - split; [|reflexivity]. intros _. left. exists y, b. reflexivity.
  - split; [discriminate|]. intros [(z & r & E)|(p & u & z & r & r' & _ & E & _)]; [discriminate|destruct p; discriminate].
  - destruct (N.compare_spec x y) as [->|H|H].
    + rewrite IH. split.
      * intros [(z & r & ->)|(p & u & z & r & r' & -> & -> & Hu)]; [left; exists z, r; reflexivity|].
        right. exists (y :: p), u, z, r, r'. auto.
      * intros [(z & r & E)|(p & u & z & r & r' & Ea & Eb & Hu)].
        -- cbn in E. injection E as ->. left. eauto.
        -- destruct p as [|w p]; cbn in Ea, Eb.
           ++ injection Ea as <- _. injection Eb as <- _. lia.
           ++ injection Ea as <- ->. injection Eb as ->. right. exists p, u, z, r, r'. auto.
    + split; [|reflexivity]. intros _. right. exists [], x, y, a, b. auto.
    + split; [discriminate|]. intros [(z & r & E)|(p & u & z & r & r' & Ea & Eb & Hu)].
      * cbn in E. injection E as -> _. lia.
      * destruct p as [|w p]; cbn in Ea, Eb.
        -- injection Ea as <- _. injection Eb as <- _. lia.
        -- injection Ea as <- _. injection Eb as <- _. lia.
Qed.

(** The text behind an AnyStr, and how it was made. *)
Theorem C53_any_str_equality a b s :
  (any_eq a b = true <-> any_str a = any_str b) /\
  (any_eq_str a s = true <-> any_str a = s) /\
  any_eq (Owned s) (Borrowed s) = true /\ any_str (any_from_str s) = s /\ any_str (any_from_string s) = s.
Proof. unfold any_eq, any_eq_str. rewrite !bytes_eqb_eq. repeat split; auto using bytes_eqb_refl. Qed.

Theorem C53_any_str_order a b :
  match any_partial_cmp a b with
  | Some Lt => text_before (any_str a) (any_str b)
  | Some Gt => text_before (any_str b) (any_str a)
  | Some Eq => any_str a = any_str b
  | None => False
  end /\ any_partial_cmp_str a (any_str b) = any_partial_cmp a b.
Proof.
  split; [|reflexivity]. unfold any_partial_cmp, any_partial_cmp_str. destruct (lex_cmp (any_str a) (any_str b)) eqn:E.
  - apply lex_cmp_eq. exact E.
  - apply lex_cmp_lt. exact E.
  - apply lex_cmp_lt. rewrite lex_cmp_antisym, E. reflexivity.
Qed.

(** The three outcomes exclude each other. *)
Theorem C53_any_str_order_exclusive a b : ~ text_before a a /\ ~ (text_before a b /\ text_before b a).
Proof.
  rewrite <- !lex_cmp_lt, lex_cmp_refl. split; [discriminate|]. intros [H1 H2]. rewrite lex_cmp_antisym, H1 in H2. discriminate.
Qed.

Theorem C53_any_str_hash a b : any_hash a = str_hash (any_str a) /\ (any_eq a b = true -> any_hash a = any_hash b).
Proof. split; [reflexivity|]. unfold any_eq, any_hash. intro E. apply bytes_eqb_eq in E. rewrite E. reflexivity. Qed.

(** * C54: equality of values *)

Section Eq.
  Variable pw : pwidth.
  Definition eq_members : list (json_string * value) -> list (json_string * value) -> res infallible bool :=
    fix go (x y : list (json_string * value)) : res infallible bool :=
      match x, y with
      | (k1, v1) :: x', (k2, v2) :: y' =>
        and_then (and_then (js_eq pw k1 k2) (value_eq pw v1 v2)) (go x' y')
      | _, _ => Ok true
      end.
  Definition eq_elements : list value -> list value -> res infallible bool :=
    fix go (x y : list value) : res infallible bool :=
      match x, y with
      | v1 :: x', v2 :: y' => and_then (value_eq pw v1 v2) (go x' y')
      | _, _ => Ok true
      end.
  Lemma value_eq_object x y : value_eq pw (VObject x) (VObject y) =
    if negb (Nat.eqb (length x) (length y)) then Ok false else eq_members x y.
  Proof. reflexivity. Qed.
  Lemma value_eq_array x y : value_eq pw (VArray x) (VArray y) =
    if negb (Nat.eqb (length x) (length y)) then Ok false else eq_elements x y.
  Proof. reflexivity. Qed.
End Eq.

Lemma and_then_true a b : and_then a b = Ok true <-> a = Ok true /\ b = Ok true.
Proof.
  unfold and_then. destruct a as [[]|[]|f]; cbn [bind].
  - tauto.
  - split; [discriminate|intros [H _]; discriminate].
  - split; [discriminate|intros [H _]; discriminate].
Qed.

Definition same_text (n m : json_number) : Prop := jn_str n = jn_str m.

Lemma same_length {A B} (R : A -> B -> Prop) l m : Forall2 R l m -> Nat.eqb (length l) (length m) = true.
Proof. intro H. apply Nat.eqb_eq. induction H; cbn; congruence. Qed.

(** Structural, with the strings compared by their [==]. *)
Theorem C54_value_equality pw : forall v w, value_eq pw v w = Ok true <->
  related (fun x y => js_eq pw x y = Ok true) same_text v w.
Proof.
  induction v as [n|s|b|o IH|l IH|] using value_ind'; intros [m|t|c|p|k|]; cbn [value_eq];
    try (split; [discriminate|intro H; inversion H]).
  - unfold jn_eq. split.
    + intro H. injection H as H. constructor. apply bytes_eqb_eq. exact H.
    + intro H. inversion H as [ | |? ? E| | |]; subst. f_equal. apply bytes_eqb_eq. exact E.
  - split; [intro H; constructor; exact H|]. intro H. inversion H. assumption.
  - split.
    + intro H. injection H as H. apply eqb_prop in H. subst. constructor.
    + intro H. inversion H. f_equal. apply eqb_reflx.
  - fold (eq_members pw).
    assert (G : length o = length p -> (eq_members pw o p = Ok true <->
      Forall2 (fun e f => js_eq pw (fst e) (fst f) = Ok true /\ related (fun x y => js_eq pw x y = Ok true) same_text (snd e) (snd f)) o p)).
    { clear - IH. revert p. induction IH as [|[k v] o Hv _ IHo]; intros [|[k' w] p] E; try discriminate E.
      - split; [constructor|reflexivity].
      - cbn [eq_members]. rewrite !and_then_true. injection E as E. rewrite (IHo p E), (Hv w). cbn [fst snd].
        split; [intros [[H1 H2] H3]; constructor; auto|]. intro H. inversion H as [|? ? ? ? [H1 H2] H3]; subst. auto. }
    split.
    + destruct (Nat.eqb_spec (length o) (length p)) as [E|E]; cbn [negb]; [|discriminate]. intro H. constructor. apply G; assumption.
    + intro H. inversion H as [ | | | | |? ? HF]; subst. pose proof (same_length _ _ _ HF) as El. rewrite El. cbn [negb].
      apply Nat.eqb_eq in El. apply G; assumption.
  - fold (eq_elements pw).
    assert (G : length l = length k -> (eq_elements pw l k = Ok true <->
      Forall2 (related (fun x y => js_eq pw x y = Ok true) same_text) l k)).
    { clear - IH. revert k. induction IH as [|v l Hv _ IHl]; intros [|w k] E; try discriminate E.
      - split; [constructor|reflexivity].
      - cbn [eq_elements]. rewrite !and_then_true. injection E as E. rewrite (IHl k E), (Hv w).
        split; [intros [H1 H3]; constructor; auto|]. intro H. inversion H; subst. auto. }
    split.
    + destruct (Nat.eqb_spec (length l) (length k)) as [E|E]; cbn [negb]; [|discriminate]. intro H. constructor. apply G; assumption.
    + intro H. inversion H as [ | | | |? ? HF|]; subst. pose proof (same_length _ _ _ HF) as El. rewrite El. cbn [negb].
      apply Nat.eqb_eq in El. apply G; assumption.
  - split; [constructor|reflexivity].
Qed.

Lemma related_impl (R R' : json_string -> json_string -> Prop) (Q Q' : json_number -> json_number -> Prop) (P P' : json_string -> Prop) :
  (forall x y, P x -> P' y -> R x y -> R' x y) -> (forall x y, Q x y -> Q' x y) ->
  forall v w, all_strings P v -> all_strings P' w -> related R Q v w -> related R' Q' v w.
Proof.
  intros HR HQ. induction v as [n|s|b|o IH|l IH|] using value_ind'; intros w Hv Hw H; inversion H as [ | | | |? m Hl|? p Ho]; subst;
    inversion Hv; inversion Hw; subst; constructor; auto.
  - rename H1 into Hv'. rename H3 into Hw'. clear H Hv Hw. induction Ho as [|[k v] [k' w] o p [Hk Hx] Ho IHo]; [constructor|].
    inversion IH as [|? ? IHv IHr]; subst. inversion Hv' as [|? ? [Pk Pv]]; subst. inversion Hw' as [|? ? [Qk Qv]]; subst. cbn [fst snd] in *.
    constructor; [|auto]. cbn [fst snd]. auto.
  - rename H1 into Hv'. rename H3 into Hw'. clear H Hv Hw. induction Hl as [|v w l m Hx Hl IHl]; [constructor|].
    inversion IH as [|? ? IHv IHr]; subst. inversion Hv'; inversion Hw'; subst. constructor; auto.
Qed.

Lemma related_refl (P : json_string -> Prop) (R : json_string -> json_string -> Prop) (Q : json_number -> json_number -> Prop) :
  (forall x, P x -> R x x) -> (forall n, Q n n) -> forall v, all_strings P v -> related R Q v v.
Proof.
  intros HR HQ. induction v as [n|s|b|o IH|l IH|] using value_ind'; intro H; inversion H as [ | | | |? Hl|? Ho]; subst; constructor; auto.
  - clear H. induction Ho as [|[k v] o [Hk Hv] Ho IHo]; [constructor|]. inversion IH; subst. cbn [fst snd] in *. constructor; cbn [fst snd]; auto.
  - clear H. induction Hl as [|v l Hv Hl IHl]; [constructor|]. inversion IH; subst. constructor; auto.
Qed.

Lemma related_sym (R : json_string -> json_string -> Prop) (Q : json_number -> json_number -> Prop) v : forall w,
  related R Q v w -> related (fun x y => R y x) (fun n m => Q m n) w v.
Proof.
  induction v as [n|s|b|o IH|l IH|] using value_ind'; intros w H; inversion H as [ | | | |? m Hl|? p Ho]; subst; constructor; auto.
  - clear H. induction Ho as [|[k v] [k' w] o p [Hk Hx] Ho IHo]; [constructor|]. inversion IH; subst. cbn [fst snd] in *. constructor; cbn [fst snd]; auto.
  - clear H. induction Hl as [|v w l m Hv Hl IHl]; [constructor|]. inversion IH; subst. constructor; auto.
Qed.

Lemma related_comp (R S T : json_string -> json_string -> Prop) (P : json_string -> Prop) (Q : json_number -> json_number -> Prop) :
  (forall x y z, P x -> P y -> P z -> R x y -> S y z -> T x z) -> (forall x y z, Q x y -> Q y z -> Q x z) ->
  forall u v w, all_strings P u -> all_strings P v -> all_strings P w -> related R Q u v -> related S Q v w -> related T Q u w.
Proof.
  intros HT HQ. induction u as [n|s|b|o IH|l IH|] using value_ind'; intros v w Pu Pv Pw H1 H2;
    inversion H1 as [ |? |? ? E1|? ? E1|? m Hl|? p Ho]; subst; inversion H2 as [ |? |? ? E2|? ? E2|? m2 Hl2|? p2 Ho2]; subst;
    inversion Pu as [ | | |? A1|? A1|? A1]; inversion Pv as [ | | |? A2|? A2|? A2]; inversion Pw as [ | | |? A3|? A3|? A3]; subst; constructor; eauto.
  - clear H1 H2 Pu Pv Pw. revert p2 Ho2 A3. induction Ho as [|[k v] [k' w] o p [Hk Hx] Ho IHo]; intros p2 Ho2 A3; inversion Ho2 as [|? [k2 v2] ? ? [Hk2 Hx2] Ho2']; subst; [constructor|].
    inversion IH as [|? ? IHv IHr]; subst. inversion A1 as [|? ? [B1 C1] D1]; inversion A2 as [|? ? [B2 C2] D2]; inversion A3 as [|? ? [B3 C3] D3]; subst. cbn [fst snd] in *.
    constructor; cbn [fst snd]; [split; [eapply HT; [exact B1|exact B2|exact B3|eassumption|eassumption]|eapply IHv; [exact C1|exact C2|exact C3|eassumption|eassumption]]|].
    apply IHo; auto.
  - clear H1 H2 Pu Pv Pw. revert m2 Hl2 A3. induction Hl as [|v w l m Hx Hl IHl]; intros m2 Hl2 A3; inversion Hl2 as [|? v2 ? ? Hx2 Hl2']; subst; [constructor|].
    inversion IH as [|? ? IHv IHr]; subst. inversion A1 as [|? ? C1 D1]; inversion A2 as [|? ? C2 D2]; inversion A3 as [|? ? C3 D3]; subst.
    constructor; [eapply IHv; [exact C1|exact C2|exact C3|eassumption|eassumption]|]. apply IHl; auto.
Qed.

Theorem C54_reflexive pw v : all_strings (obtainable pw) v -> value_eq pw v v = Ok true.
Proof.
  intro H. apply C54_value_equality. apply (related_refl (obtainable pw)); [apply C27_eq_reflexive|reflexivity|exact H].
Qed.

Theorem C54_symmetric pw v w : all_strings (obtainable pw) v -> all_strings (obtainable pw) w ->
  (value_eq pw v w = Ok true <-> value_eq pw w v = Ok true).
Proof.
  assert (K : forall v w, all_strings (obtainable pw) v -> all_strings (obtainable pw) w -> value_eq pw v w = Ok true -> value_eq pw w v = Ok true).
  { intros v' w' Hv Hw E. apply C54_value_equality in E. apply C54_value_equality. apply related_sym in E. revert E.
    apply (related_impl _ _ _ _ (obtainable pw) (obtainable pw)); auto.
    - intros x y Hx Hy E. rewrite C27_eq_symmetric by assumption. exact E.
    - unfold same_text. congruence. }
  intros Hv Hw. split; apply K; assumption.
Qed.

(** Transitive on every class of strings on which string equality is. *)
Theorem C54_transitive_if_strings_are pw (P : json_string -> Prop) :
  (forall x y z, P x -> P y -> P z -> js_eq pw x y = Ok true -> js_eq pw y z = Ok true -> js_eq pw x z = Ok true) ->
  forall u v w, all_strings P u -> all_strings P v -> all_strings P w ->
  value_eq pw u v = Ok true -> value_eq pw v w = Ok true -> value_eq pw u w = Ok true.
Proof.
  intros HP u v w Hu Hv Hw E1 E2. apply C54_value_equality in E1. apply C54_value_equality in E2. apply C54_value_equality.
  refine (related_comp _ _ _ P _ HP _ u v w Hu Hv Hw E1 E2). unfold same_text. congruence.
Qed.

(** In particular for parsed values, where [==] is equality of the texts. *)
Theorem C54_parsed_values pw v w : all_strings (parsed pw) v -> all_strings (parsed pw) w ->
  (value_eq pw v w = Ok true <-> related (fun x y => js_decoded pw x = js_decoded pw y) same_text v w).
Proof.
  intros Hv Hw. rewrite C54_value_equality.
  assert (K : forall x y, parsed pw x -> parsed pw y -> (js_eq pw x y = Ok true <-> js_decoded pw x = js_decoded pw y)).
  { intros x y Hx Hy. destruct (obtainable_wf pw x (or_introl Hx)) as (cs & Wx). destruct (obtainable_wf pw y (or_introl Hy)) as (ds & Wy).
    apply jwf_decoded in Wx. apply jwf_decoded in Wy. rewrite (C26_parsed_strings pw x y cs ds Hx Hy Wx Wy), Wx, Wy. split; congruence. }
  split; apply (related_impl _ _ _ _ (parsed pw) (parsed pw)); auto; intros x y Hx Hy; apply K; assumption.
Qed.

Theorem C54_parsed_transitive pw u v w : all_strings (parsed pw) u -> all_strings (parsed pw) v -> all_strings (parsed pw) w ->
  value_eq pw u v = Ok true -> value_eq pw v w = Ok true -> value_eq pw u w = Ok true.
Proof.
  apply (C54_transitive_if_strings_are pw (parsed pw)). intros x y z Hx Hy Hz E1 E2.
  apply (C27_eq_transitive_partial pw x y z); try (left; assumption); try assumption.
  left. apply parsed_wf in Hx as (_ & _ & Hx & _). apply parsed_wf in Hz as (_ & _ & Hz & _). tauto.
Qed.

(** [==] of values never panics. *)
Theorem C54_never_panics pw : forall v w, all_strings (obtainable pw) v -> all_strings (obtainable pw) w ->
  exists b, value_eq pw v w = Ok b.
Proof.
  assert (KA : forall a b : res infallible bool, (exists x, a = Ok x) -> (exists x, b = Ok x) -> exists x, and_then a b = Ok x).
  { intros a b [x ->] [y ->]. unfold and_then. cbn [bind]. destruct x; eauto. }
  assert (KS : forall x y, obtainable pw x -> obtainable pw y -> exists b, js_eq pw x y = Ok b).
  { intros x y Hx Hy. destruct (obtainable_wf pw x Hx) as (cs & Wx). destruct (obtainable_wf pw y Hy) as (ds & Wy).
    rewrite (jwf_eq _ _ _ _ _ Wx Wy). eauto. }
  induction v as [n|s|b|o IH|l IH|] using value_ind'; intros [m|t|c|p|k|] Hv Hw; try (eexists; reflexivity).
  - inversion Hv; inversion Hw; subst. apply KS; assumption.
  - rewrite value_eq_object. destruct (Nat.eqb (length o) (length p)); cbn [negb]; [|eauto].
    inversion Hv as [ | | | | |? Ho]; inversion Hw as [ | | | | |? Hp]; subst. clear Hv Hw. revert p Hp.
    induction Ho as [|[k v] o [Hk Hv] Ho IHo]; intros [|[k' w] p] Hp; cbn [eq_members]; try (eexists; reflexivity).
    inversion IH as [|? ? IHv IHr]; subst. inversion Hp as [|? ? [Hk' Hw] Hp']; subst. cbn [fst snd] in *.
    apply KA; [apply KA; auto|apply IHo; assumption].
  - rewrite value_eq_array. destruct (Nat.eqb (length l) (length k)); cbn [negb]; [|eauto].
    inversion Hv as [ | | | |? Hl|]; inversion Hw as [ | | | |? Hk|]; subst. clear Hv Hw. revert k Hk.
    induction Hl as [|v l Hv Hl IHl]; intros [|w k] Hk; cbn [eq_elements]; try (eexists; reflexivity).
    inversion IH as [|? ? IHv IHr]; subst. inversion Hk; subst. apply KA; auto.
Qed.

(** * C40: lookup *)

(** The decoded text of a key. *)
Definition key_is (pw : pwidth) (key : list N) (k : json_string) : Prop :=
  exists cs, js_decoded pw k = Ok cs /\ utf8_string cs = key.

(** [(k, v)] is the first entry with this key: what comes before and after it. *)
Definition first_entry (pw : pwidth) (o : object) (key : list N) (pre : object) (k : json_string) (v : value) (post : object) : Prop :=
  o = pre ++ (k, v) :: post /\ key_is pw key k /\ Forall (fun e => ~ key_is pw key (fst e)) pre.
Definition no_entry (pw : pwidth) (o : object) (key : list N) : Prop := Forall (fun e => ~ key_is pw key (fst e)) o.

Lemma key_test pw k key : obtainable pw k -> is_utf8 key -> exists b, js_eq_str pw k key = Ok b /\ (b = true <-> key_is pw key k).
Proof.
  intros Hk Hs. destruct (obtainable_wf pw k Hk) as (cs & Wk). apply jwf_decoded in Wk as E.
  destruct (C25_eq_str_is_text_equality pw k cs key Hk E Hs) as (b & Eb & Hb). exists b. split; [exact Eb|]. rewrite Hb. unfold key_is. split.
  - eauto.
  - intros (ds & E' & H). congruence.
Qed.

Definition keys_obtainable (pw : pwidth) (o : object) : Prop := Forall (fun e => obtainable pw (fst e)) o.

Theorem C40_get pw o key : keys_obtainable pw o -> is_utf8 key ->
  exists r, object_get pw o key = Ok r /\
  match r with
  | Some v => exists pre k post, first_entry pw o key pre k v post
  | None => no_entry pw o key
  end.
Proof.
  intros Ho Hs. induction Ho as [|[k v] o Hk Ho (r & E & IH)]; cbn [object_get]; [eexists; split; [reflexivity|constructor]|].
  destruct (key_test pw k key Hk Hs) as (b & -> & Hb). cbn [bind]. destruct b.
  - eexists. split; [reflexivity|]. exists [], k, o. split; [reflexivity|]. split; [apply Hb; reflexivity|constructor].
  - assert (Hn : ~ key_is pw key k) by (intro K; apply Hb in K; discriminate). exists r. split; [exact E|]. destruct r as [w|].
    + destruct IH as (pre & k' & post & -> & H1 & H2). exists ((k, v) :: pre), k', post. split; [reflexivity|]. split; [exact H1|]. constructor; assumption.
    + constructor; assumption.
Qed.

(** A lookup and an update at the first matching entry. *)
Theorem C40_get_entry_mut pw o key : keys_obtainable pw o -> is_utf8 key ->
  exists r, object_get_entry_mut pw o key = Ok r /\
  match r with
  | Some (e, store) => exists pre post, first_entry pw o key pre (fst e) (snd e) post /\ forall e', store e' = pre ++ e' :: post
  | None => no_entry pw o key
  end.
Proof.
  intros Ho Hs. induction Ho as [|[k v] o Hk Ho (r & E & IH)]; cbn [object_get_entry_mut]; [eexists; split; [reflexivity|constructor]|].
  destruct (key_test pw k key Hk Hs) as (b & -> & Hb). cbn [bind]. destruct b.
  - eexists. split; [reflexivity|]. exists [], o. split; [|reflexivity]. split; [reflexivity|]. split; [apply Hb; reflexivity|constructor].
  - assert (Hn : ~ key_is pw key k) by (intro K; apply Hb in K; discriminate). rewrite E. cbn [bind]. destruct r as [[e store]|].
    + eexists. split; [reflexivity|]. unfold mutref_map. cbn [fst snd].
      destruct IH as (pre & post & (-> & H1 & H2) & Hst). exists ((k, v) :: pre), post. split.
      * split; [reflexivity|]. split; [exact H1|]. constructor; assumption.
      * intro e'. rewrite Hst. reflexivity.
    + eexists. split; [reflexivity|]. constructor; assumption.
Qed.

Theorem C40_get_mut pw o key : keys_obtainable pw o -> is_utf8 key ->
  exists r, object_get_mut pw o key = Ok r /\
  match r with
  | Some (v, store) => exists pre k post, first_entry pw o key pre k v post /\ forall v', store v' = pre ++ (k, v') :: post
  | None => no_entry pw o key
  end.
Proof.
  intros Ho Hs. destruct (C40_get_entry_mut pw o key Ho Hs) as (r & E & H). unfold object_get_mut. rewrite E. cbn [bind].
  eexists. split; [reflexivity|]. destruct r as [[e store]|]; [|exact H]. destruct H as (pre & post & Hf & Hst).
  exists pre, (fst e), post. split; [exact Hf|]. intro v'. apply Hst.
Qed.

(** [Value::get], [Value::get_mut], [value[key]], [value[key] = ...]: what they do on objects, and on
    anything else. *)
Theorem C40_value_lookup pw v key : is_utf8 key ->
  (forall o, v = VObject o -> keys_obtainable pw o ->
     (exists pre k x post store, first_entry pw o key pre k x post /\
        value_get pw v key = Ok (Some x) /\ value_index_str pw v key = Ok x /\
        value_get_mut pw v key = Ok (Some (x, store)) /\ value_index_str_mut pw v key = Ok (x, store) /\
        forall x', store x' = VObject (pre ++ (k, x') :: post)) \/
     (no_entry pw o key /\ value_get pw v key = Ok None /\ value_index_str pw v key = Fault FExpect /\
        value_get_mut pw v key = Ok None /\ value_index_str_mut pw v key = Fault FExpect)) /\
  ((forall o, v <> VObject o) ->
     value_get pw v key = Ok None /\ value_index_str pw v key = Fault FExpect /\
     value_get_mut pw v key = Ok None /\ value_index_str_mut pw v key = Fault FExpect).
Proof.
  intro Hs. split.
  - intros o -> Ho. unfold value_index_str, value_index_str_mut, value_get, value_get_mut. cbn [as_object as_object_mut].
    destruct (C40_get pw o key Ho Hs) as (r & -> & H). destruct (C40_get_mut pw o key Ho Hs) as (r' & -> & H'). cbn [bind].
    destruct r' as [[x store]|]; destruct r as [y|]; cbn [bind expect_some].
    + destruct H as (pre & k & post & Hf). destruct H' as (pre' & k' & post' & Hf' & Hst).
      assert (E : x = y).
      { destruct Hf as (E1 & K1 & P1), Hf' as (E2 & K2 & P2). rewrite E1 in E2. clear - E2 K1 P1 K2 P2.
        revert pre' P2 E2. induction P1 as [|e pre He _ IH]; intros pre' P2 E2; destruct P2 as [|e' pre' He' P2]; cbn [app] in E2.
        - congruence.
        - injection E2 as <- _. cbn [fst] in *. contradiction.
        - injection E2 as -> _. cbn [fst] in *. contradiction.
        - injection E2 as _ E2. eapply IH; eassumption. }
      subst y. left. exists pre', k', x, post', (fun t => VObject (store t)). split; [exact Hf'|]. repeat split. intro x'. rewrite Hst. reflexivity.
    + exfalso. destruct H' as (pre' & k' & post' & (-> & K & _) & _). apply Forall_app in H as [_ H]. inversion H. contradiction.
    + exfalso. destruct H as (pre' & k' & post' & (-> & K & _)). apply Forall_app in H' as [_ H']. inversion H'. contradiction.
    + right. repeat split. exact H.
  - intro Hn. unfold value_index_str, value_index_str_mut, value_get, value_get_mut.
    destruct v; try (repeat split; reflexivity). destruct (Hn o eq_refl).
Qed.

(** * C41: indexing *)
Lemma get_mut_spec {A} (l : list A) : forall i,
  (exists pre x post store, l = pre ++ x :: post /\ length pre = i /\ nth_error l i = Some x /\
     list_get_mut l i = Some (x, store) /\ forall y, store y = pre ++ y :: post) \/
  ((length l <= i)%nat /\ nth_error l i = None /\ list_get_mut l i = None).
Proof.
  induction l as [|x l IH]; intros [|i]; cbn [list_get_mut nth_error length].
  - right. repeat split. lia.
  - right. repeat split. lia.
  - left. exists [], x, l. eexists. repeat split.
  - destruct (IH i) as [(pre & y & post & store & -> & Hi & E1 & E2 & Hs)|(Hi & E1 & E2)].
    + left. rewrite E2. exists (x :: pre), y, post. eexists. split; [reflexivity|]. split; [cbn; congruence|]. split; [exact E1|].
      split; [reflexivity|]. intro z. cbn. rewrite Hs. reflexivity.
    + right. rewrite E2. repeat split; [lia|exact E1].
Qed.

Theorem C41_value_index v i :
  (exists pre x post store, v = VArray (pre ++ x :: post) /\ length pre = i /\
     get_index v i = Some x /\ value_index v i = Ok x /\
     get_index_mut v i = Some (x, store) /\ value_index_mut v i = Ok (x, store) /\
     forall y, store y = VArray (pre ++ y :: post)) \/
  ((forall l, v = VArray l -> (length l <= i)%nat) /\
     get_index v i = None /\ value_index v i = Fault FExpect /\
     get_index_mut v i = None /\ value_index_mut v i = Fault FExpect).
Proof.
  unfold value_index, value_index_mut, get_index, get_index_mut.
  destruct v as [n|s|b|o|l|]; try (right; repeat split; discriminate). cbn [as_array as_array_mut].
  destruct (get_mut_spec l i) as [(pre & x & post & store & -> & Hi & -> & -> & Hs)|(Hi & -> & ->)].
  - left. exists pre, x, post. eexists. split; [reflexivity|]. split; [exact Hi|]. split; [reflexivity|]. split; [reflexivity|].
    split; [reflexivity|]. split; [reflexivity|]. intro y. cbn. rewrite Hs. reflexivity.
  - right. repeat split. intros l' E. injection E as <-. exact Hi.
Qed.

(** * Concrete cases *)
Definition sample_object : list N := bs "{""a"":1,""\u0061"":2,""b"":[true,null]}".
Example lookup_sample : exists o, value_from_json W64 sample_object = Ok (VObject o) /\ keys_obtainable W64 o /\ is_utf8 [97] /\
  exists pre k v post, first_entry W64 o [97] pre k v post /\ pre = [] /\ length post = 2%nat /\ key_is W64 [97] (fst (nth 0 post (k, v))).
Proof.
  assert (Hs : rust_str W64 sample_object) by (split; [apply utf8_valid_iff; reflexivity|cbn; lia]).
  eexists. split; [vm_compute; reflexivity|]. split; [|split; [exists [97]; split; [repeat constructor|reflexivity]|]].
  - match goal with |- keys_obtainable _ ?o => assert (E : value_from_json_with_config W64 sample_object config_default = Ok (VObject o)) by (vm_compute; reflexivity) end.
    apply Forall_forall. intros [k v] Hin. left. eapply parsed_str; [exact Hs|exact E|]. eapply string_key. exact Hin.
  - eexists [], _, _, _. split; [split; [reflexivity|split; [exists [97]; split; [vm_compute; reflexivity|reflexivity]|constructor]]|].
    split; [reflexivity|]. split; [reflexivity|]. exists [97]. split; [vm_compute; reflexivity|reflexivity].
Qed.
Example index_sample : exists v, value_from_json W64 (bs "[1,[],""x""]") = Ok v /\ get_index v 2 <> None /\ get_index v 3 = None.
Proof. eexists. split; [vm_compute; reflexivity|]. split; [discriminate|reflexivity]. Qed.
Example equality_sample : exists v w, value_from_json W64 (bs "{""a"":[1,""\n""]}") = Ok v /\ value_from_json W64 (bs " {""\u0061"":[1,""\u000A""]}") = Ok w /\
  v <> w /\ value_eq W64 v w = Ok true.
Proof. eexists _, _. split; [vm_compute; reflexivity|]. split; [vm_compute; reflexivity|]. split; [discriminate|vm_compute; reflexivity]. Qed.
