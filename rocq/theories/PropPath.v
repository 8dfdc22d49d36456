(** Property theorems about reading and replacing a part deep inside a value (C86). *)
From Verif Require Import Base Utf8 Utf8Facts StrModel ErrorModel Tokenizer Parser ValueModel DocModel NumModel Spec SpecStr SpecNum SpecLex SpecWrite
  TokBase TokStr TokNum TokFacts StrSpec StrFacts StrWf StrEsc StrObt View ParseMain PropTok PropEntry PropNumber PropStr PropEsc PropValue PropWrite PropText PropData.
Local Open Scope N_scope.

(** A path: object keys and array indices, as a chain of [get]/[get_index] or [[key]]/[[i]] calls takes them. *)
Inductive path_step : Type := Key (key : list N) | Index (i : nat).
Definition path : Type := list path_step.
Definition keys_utf8 (p : path) : Prop := Forall (fun s => match s with Key k => is_utf8 k | Index _ => True end) p.

(** [v.get(k)] / [v.get_index(i)] and the mutable ones. *)
Definition step_get (pw : pwidth) (v : value) (s : path_step) : res infallible (option value) :=
  match s with Key k => value_get pw v k | Index i => Ok (get_index v i) end.
Definition step_get_mut (pw : pwidth) (v : value) (s : path_step) : res infallible (option (mutref value value)) :=
  match s with Key k => value_get_mut pw v k | Index i => Ok (get_index_mut v i) end.

(** [v.get(..)?.get_index(..)?...]. *)
Fixpoint path_get (pw : pwidth) (v : value) (p : path) : res infallible (option value) :=
  match p with
  | [] => Ok (Some v)
  | s :: p' => let? o := step_get pw v s in match o with Some x => path_get pw x p' | None => Ok None end
  end.
(** [v.get_mut(..)?.get_index_mut(..)?...]: the part and what becomes of [v] when something is stored there. *)
Fixpoint path_get_mut (pw : pwidth) (v : value) (p : path) : res infallible (option (mutref value value)) :=
  match p with
  | [] => Ok (Some (v, fun y => y))
  | s :: p' =>
    let? o := step_get_mut pw v s in
    match o with
    | Some (x, back) => let? r := path_get_mut pw x p' in Ok (match r with Some r => Some (mutref_map back r) | None => None end)
    | None => Ok None
    end
  end.

(** Specification: [v'] is [v] with [x], the part at [p], replaced by [y] and nothing else changed. *)
Inductive replaced (pw : pwidth) : value -> path -> value -> value -> value -> Prop :=
| r_here x y : replaced pw x [] x y y
| r_key o key pre k v post p x y v' : first_entry pw o key pre k v post -> replaced pw v p x y v' ->
    replaced pw (VObject o) (Key key :: p) x y (VObject (pre ++ (k, v') :: post))
| r_index pre v post p x y v' : replaced pw v p x y v' ->
    replaced pw (VArray (pre ++ v :: post)) (Index (length pre) :: p) x y (VArray (pre ++ v' :: post)).

Definition strings_ok (pw : pwidth) : value -> Prop := all_strings (obtainable pw).
Lemma obj_keys pw o : strings_ok pw (VObject o) -> keys_obtainable pw o /\ Forall (fun e => strings_ok pw (snd e)) o.
Proof.
  intro H. inversion H as [| | | | |? K]; subst. split; eapply Forall_impl; try exact K; intros e He; apply He.
Qed.
Lemma arr_parts pw l : strings_ok pw (VArray l) -> Forall (strings_ok pw) l.
Proof. intro H. inversion H; subst; assumption. Qed.

Lemma step_mut_spec pw v s : strings_ok pw v -> keys_utf8 [s] ->
  (exists x back, step_get pw v s = Ok (Some x) /\ step_get_mut pw v s = Ok (Some (x, back)) /\ strings_ok pw x /\
     forall p x0 y x', replaced pw x p x0 y x' -> replaced pw v (s :: p) x0 y (back x')) \/
  (step_get pw v s = Ok None /\ step_get_mut pw v s = Ok None).
Proof.
  intros Hv Hk. inversion Hk as [|? ? Hs _]; subst. destruct s as [key|i]; cbn [step_get step_get_mut].
  - destruct (C40_value_lookup pw v key Hs) as [H1 H2]. destruct v as [n|s|b|o|l|]; try (destruct H2 as (E1 & _ & E2 & _); [discriminate|right; auto]).
    destruct (obj_keys pw o Hv) as [Ho Hp]. destruct (H1 o eq_refl Ho) as [(pre & k & x & post & store & Hf & E1 & _ & E2 & _ & Hst)|(_ & E1 & _ & E2 & _)]; [left|right; auto].
    exists x, store. split; [exact E1|]. split; [exact E2|]. pose proof Hf as (-> & _ & _). apply Forall_app in Hp as [_ Hp]. inversion Hp; subst.
    split; [assumption|]. intros p x0 y x' Hr. rewrite Hst. econstructor; eassumption.
  - destruct (C41_value_index v i) as [(pre & x & post & store & -> & <- & E1 & _ & E2 & _ & Hst)|(_ & E1 & _ & E2 & _)]; [left|right; rewrite E1, E2; auto].
    exists x, store. rewrite E1, E2. split; [reflexivity|]. split; [reflexivity|]. apply arr_parts in Hv. apply Forall_app in Hv as [_ Hv]. inversion Hv; subst.
    split; [assumption|]. intros p x0 y x' Hr. rewrite Hst. constructor. exact Hr.
Qed.

(** ** C86 A chain of mutable accessors finds what the chain of reading accessors finds, and storing replaces exactly that part *)
Theorem C86_chains pw v p : strings_ok pw v -> keys_utf8 p ->
  (exists x store, path_get pw v p = Ok (Some x) /\ path_get_mut pw v p = Ok (Some (x, store)) /\ forall y, replaced pw v p x y (store y)) \/
  (path_get pw v p = Ok None /\ path_get_mut pw v p = Ok None).
Proof.
  revert v. induction p as [|s p IH]; intros v Hv Hk; [left; exists v, (fun y => y); repeat split; constructor|].
  inversion Hk as [|? ? Hs Hk']; subst. assert (Hk1 : keys_utf8 [s]) by (constructor; [exact Hs|constructor]).
  cbn [path_get path_get_mut]. destruct (step_mut_spec pw v s Hv Hk1) as [(x & back & -> & -> & Hx & Hr)|[-> ->]]; cbn [bind]; [|right; auto].
  destruct (IH x Hx Hk') as [(x0 & store & -> & -> & Hst)|[-> ->]]; cbn [bind]; [left|right; auto].
  exists x0, (fun y => back (store y)). split; [reflexivity|]. split; [reflexivity|]. intro y. apply Hr. apply Hst.
Qed.

Lemma first_entry_key pw o key pre k v post : first_entry pw o key pre k v post -> forall v', first_entry pw (pre ++ (k, v') :: post) key pre k v' post.
Proof. intros (_ & H1 & H2) v'. split; [reflexivity|]. auto. Qed.

Lemma first_entry_get pw o key pre k v post : keys_obtainable pw o -> is_utf8 key -> first_entry pw o key pre k v post -> object_get pw o key = Ok (Some v).
Proof.
  intros Ho Hs (-> & Hk & Hp). apply Forall_app in Ho as [H1 H2]. inversion H2 as [|? ? H3 _]; subst. rewrite object_get_app.
  assert (E : object_get pw pre key = Ok None).
  { clear H2. induction H1 as [|[k' v'] pre Hk' H1 IH]; [reflexivity|]. inversion Hp; subst. cbn [object_get]. destruct (key_test pw k' key Hk' Hs) as (b & -> & Hb).
    cbn [bind]. destruct b; [exfalso; cbn [fst] in *; match goal with K : ~ key_is _ _ _ |- _ => apply K end; apply Hb; reflexivity|]. auto. }
  rewrite E. cbn [object_get]. destruct (key_test pw k key H3 Hs) as (b & -> & Hb). apply Hb in Hk. subst b. reflexivity.
Qed.

(** ** C86 What is stored is what is read back, there and below; storing what is there changes nothing *)
Theorem C86_store_then_read pw v p x y v' : strings_ok pw v -> keys_utf8 p -> replaced pw v p x y v' ->
  path_get pw v p = Ok (Some x) /\ (forall q, path_get pw v (p ++ q) = path_get pw x q) /\
  (forall q, path_get pw v' (p ++ q) = path_get pw y q) /\ (x = y -> v' = v).
Proof.
  intros Hv Hk H.
  assert (G : (forall q, path_get pw v (p ++ q) = path_get pw x q) /\ (forall q, path_get pw v' (p ++ q) = path_get pw y q) /\ (x = y -> v' = v)).
  { induction H as [x y|o key pre k v post p x y v' Hf H IH|pre v post p x y v' H IH].
    - split; [reflexivity|]. split; [reflexivity|auto].
    - inversion Hk as [|? ? Hs Hk']; subst. destruct (obj_keys pw o Hv) as [Ho Hp]. pose proof Hf as (Eo & _ & _).
      assert (Hv1 : strings_ok pw v) by (rewrite Eo in Hp; apply Forall_app in Hp as [_ Hp]; inversion Hp; assumption).
      destruct (IH Hv1 Hk') as (G1 & G2 & G3). cbn [app path_get step_get]. unfold value_get. cbn [as_object].
      rewrite (first_entry_get pw o key pre k v post Ho Hs Hf). cbn [bind].
      assert (Ho' : keys_obtainable pw (pre ++ (k, v') :: post)).
      { rewrite Eo in Ho. apply Forall_app in Ho as [K1 K2]. inversion K2; subst. apply Forall_app. split; [assumption|]. constructor; assumption. }
      rewrite (first_entry_get pw _ key pre k v' post Ho' Hs (first_entry_key _ _ _ _ _ _ _ Hf v')). cbn [bind].
      split; [exact G1|]. split; [exact G2|]. intro E. rewrite Eo, (G3 E). reflexivity.
    - inversion Hk as [|? ? _ Hk']; subst. apply arr_parts in Hv. apply Forall_app in Hv as [_ Hv]. inversion Hv; subst.
      destruct IH as (G1 & G2 & G3); [assumption..|]. cbn [app path_get step_get]. unfold get_index. cbn [as_array].
      rewrite !nth_error_app2, !Nat.sub_diag by lia. cbn [nth_error bind]. split; [exact G1|]. split; [exact G2|].
      intro E. rewrite (G3 E). reflexivity. }
  destruct G as (G1 & G2 & G3). split; [specialize (G1 []); rewrite app_nil_r in G1; exact G1|]. auto.
Qed.

(** ... and a value with admissible strings stays one, so edits can be repeated. *)
Theorem C86_edits_repeat pw v p x y v' : strings_ok pw v -> replaced pw v p x y v' -> strings_ok pw x /\ (strings_ok pw y -> strings_ok pw v').
Proof.
  intros Hv H. induction H as [x y|o key pre k v post p x y v' Hf H IH|pre v post p x y v' H IH]; [auto| |].
  - destruct Hf as (-> & _ & _). inversion Hv as [| | | | |? K]; subst. apply Forall_app in K as [K1 K2]. inversion K2 as [|? ? [K3 K4] K5]; subst.
    destruct (IH K4) as [G1 G2]. split; [exact G1|]. intro Hy. constructor. apply Forall_app. split; [exact K1|]. constructor; [split; [exact K3|apply G2; exact Hy]|exact K5].
  - apply arr_parts in Hv. apply Forall_app in Hv as [K1 K2]. inversion K2 as [|? ? K4 K5]; subst.
    destruct (IH K4) as [G1 G2]. split; [exact G1|]. intro Hy. constructor. apply Forall_app. split; [exact K1|]. constructor; [apply G2; exact Hy|exact K5].
Qed.

(** ** C86 Every path that leaves [p] sideways finds what it found before *)
Theorem C86_elsewhere pw v c s p s' q x y v' : strings_ok pw v -> keys_utf8 (c ++ s :: p) -> keys_utf8 (c ++ s' :: q) -> s <> s' ->
  replaced pw v (c ++ s :: p) x y v' -> path_get pw v' (c ++ s' :: q) = path_get pw v (c ++ s' :: q).
Proof.
  intros Hv Hk Hk' Hne H. remember (c ++ s :: p) as r eqn:Er. revert c Er Hk Hk'.
  induction H as [x y|o key pre k v post r x y v' Hf H IH|pre v post r x y v' H IH]; intros c Er Hk Hk'.
  - destruct c; discriminate.
  - destruct (obj_keys pw o Hv) as [Ho Hp]. pose proof Hf as (Eo & K1 & K2).
    assert (Ho' : keys_obtainable pw (pre ++ (k, v') :: post)).
    { rewrite Eo in Ho. apply Forall_app in Ho as [L1 L2]. inversion L2; subst. apply Forall_app. split; [assumption|]. constructor; assumption. }
    destruct c as [|s0 c]; cbn [app] in *; injection Er as E1 E2.
    + subst s r. cbn [path_get]. destruct s' as [key'|i]; [|reflexivity]. cbn [step_get]. unfold value_get. cbn [as_object].
      inversion Hk' as [|? ? Hs' _]; subst. assert (E : object_get pw (pre ++ (k, v') :: post) key' = object_get pw (pre ++ (k, v) :: post) key').
      { rewrite !object_get_app. cbn [object_get]. apply Forall_app in Ho as [_ L]. inversion L as [|? ? L1 _]; subst. cbn [fst] in L1.
        destruct (key_test pw k key' L1 Hs') as (b & -> & Hb). destruct b; [|reflexivity]. exfalso. apply Hne.
        destruct K1 as (cs & D1 & <-). destruct (proj1 Hb eq_refl) as (ds & D2 & <-). congruence. }
      rewrite E. reflexivity.
    + subst s0 r. inversion Hk as [|? ? Hs Hk1]; subst. inversion Hk' as [|? ? _ Hk2]; subst. cbn [path_get step_get]. unfold value_get. cbn [as_object].
      rewrite (first_entry_get pw _ key pre k v post Ho Hs Hf), (first_entry_get pw _ key pre k v' post Ho' Hs (first_entry_key _ _ _ _ _ _ _ Hf v')). cbn [bind].
      apply IH; [|reflexivity|exact Hk1|exact Hk2]. apply Forall_app in Hp as [_ Hp]. inversion Hp; assumption.
  - apply arr_parts in Hv. apply Forall_app in Hv as [_ Hv]. inversion Hv as [|? ? Hv1 _]; subst.
    destruct c as [|s0 c]; cbn [app] in *; injection Er as E1 E2.
    + subst s r. cbn [path_get]. destruct s' as [key'|i]; [reflexivity|]. cbn [step_get]. unfold get_index. cbn [as_array].
      replace (nth_error (pre ++ v' :: post) i) with (nth_error (pre ++ v :: post) i); [reflexivity|].
      destruct (Nat.lt_trichotomy i (length pre)) as [Hi|[Hi|Hi]].
      * rewrite !nth_error_app1 by exact Hi. reflexivity.
      * subst i. destruct (Hne eq_refl).
      * rewrite !nth_error_app2 by lia. destruct (i - length pre)%nat eqn:Ei; [lia|reflexivity].
    + subst s0 r. inversion Hk as [|? ? Hs Hk1]; subst. inversion Hk' as [|? ? _ Hk2]; subst. cbn [path_get step_get]. unfold get_index. cbn [as_array].
      rewrite !nth_error_app2, !Nat.sub_diag by lia. cbn [nth_error bind]. apply IH; [exact Hv1|reflexivity|exact Hk1|exact Hk2].
Qed.

(** ** C86 In the text, the part's own text is replaced and every other byte stays *)
Lemma join_middle sep a (m : list N -> list N) b : exists l r, forall x, join sep (a ++ m x :: b) = l ++ m x ++ r.
Proof.
  assert (B : exists r, forall x, join sep (m x :: b) = m x ++ r).
  { destruct b as [|y b]; [exists []; intro x; symmetry; apply app_nil_r|]. exists (sep ++ join sep (y :: b)). reflexivity. }
  destruct B as (r & B). induction a as [|y a (l & r' & IH)]; [exists [], r; exact B|].
  exists (y ++ sep ++ l), r'. intro x. cbn [app]. destruct (a ++ m x :: b) as [|z zs] eqn:E; [destruct a; discriminate|].
  change (join sep (y :: z :: zs)) with (y ++ sep ++ join sep (z :: zs)). rewrite <- E. rewrite IH, <- !app_assoc. reflexivity.
Qed.


Lemma first_entry_unique pw o key pre k v post pre' k' v' post' : first_entry pw o key pre k v post -> first_entry pw o key pre' k' v' post' ->
  pre' = pre /\ k' = k /\ v' = v /\ post' = post.
Proof.
  intros (E1 & K1 & P1) (E2 & K2 & P2). rewrite E1 in E2. clear E1. revert pre' P2 E2.
  induction P1 as [|e pre He _ IH]; intros pre' P2 E2; destruct P2 as [|e' pre' He' P2]; cbn [app] in E2.
  - injection E2 as <- <- <-. auto.
  - injection E2 as <- _. cbn [fst] in *. contradiction.
  - injection E2 as -> _. cbn [fst] in *. contradiction.
  - injection E2 as <- E2. destruct (IH _ P2 E2) as (-> & -> & -> & ->). auto.
Qed.
Lemma replaced_key_inv pw o key pre k v post p x y w : first_entry pw o key pre k v post -> replaced pw (VObject o) (Key key :: p) x y w ->
  exists v', replaced pw v p x y v' /\ w = VObject (pre ++ (k, v') :: post).
Proof.
  intros Hf H. inversion H as [|o' key' pre' k' v0 post' p' x' y' v' Hf' Hr|]; subst. exists v'.
  destruct (first_entry_unique _ _ _ _ _ _ _ _ _ _ _ Hf Hf') as (-> & -> & -> & ->). auto.
Qed.
Lemma replaced_index_inv pw pre v post p x y w : replaced pw (VArray (pre ++ v :: post)) (Index (length pre) :: p) x y w ->
  exists v', replaced pw v p x y v' /\ w = VArray (pre ++ v' :: post).
Proof.
  intro H. inversion H as [| |pre' v0 post' p' x' y' v' Hr E1 E2]; subst. exists v'.
  assert (G : forall (a b : list value) z w c d, length a = length b -> a ++ z :: c = b ++ w :: d -> a = b /\ z = w /\ c = d).
  { induction a as [|e a IH]; intros [|f b] z0 w0 c d El Ea; try discriminate; cbn [app] in Ea; [injection Ea as -> ->; auto|].
    injection Ea as -> Ea. destruct (IH b _ _ _ _ (eq_add_S _ _ El) Ea) as (-> & -> & ->). auto. }
  destruct (G _ _ _ _ _ _ E2 E1) as (-> & -> & ->). auto.
Qed.

Theorem C86_text pw v p x y0 v0 u : replaced pw v p x y0 v0 -> to_json pw v = Ok u ->
  exists before after ux, to_json pw x = Ok ux /\ u = before ++ ux ++ after /\
  forall y v' uy, replaced pw v p x y v' -> (to_json pw y = Ok uy <-> to_json pw v' = Ok (before ++ uy ++ after)).
Proof.
  intros H. revert u. induction H as [x y|o key pre k v post p x y v' Hf H IH|pre v post p x y v' H IH]; intros u E.
  - exists [], [], u. split; [exact E|]. split; [rewrite app_nil_r; reflexivity|]. intros y' v' uy Hr. inversion Hr; subst. rewrite app_nil_r. reflexivity.
  - pose proof Hf as (Eo & _ & _). rewrite Eo in E. apply C64_object in E as (us & Hus & ->). apply Forall2_app_inv_l in Hus as (us1 & us2 & H1 & H2 & ->).
    inversion H2 as [|? w ? us3 Hw H3]; subst. destruct Hw as (kt & vt & Ek & Ev & ->). cbn [fst snd] in *.
    destruct (IH vt Ev) as (b & a & ux & Ex & -> & G).
    destruct (join_middle (bs ",") us1 (fun z => kt ++ bs ":" ++ z) us3) as (l & r & J). cbv beta in J.
    exists (bs "{" ++ l ++ kt ++ bs ":" ++ b), (a ++ r ++ bs "}"), ux. split; [exact Ex|]. split.
    + rewrite J, <- !app_assoc. reflexivity.
    + intros y' w uy Hr. apply (replaced_key_inv _ _ _ _ _ _ _ _ _ _ _ Hf) in Hr as (v1 & Hr & ->). rewrite (G y' v1 uy Hr), C64_object. split.
      * intro E'. exists (us1 ++ (kt ++ bs ":" ++ b ++ uy ++ a) :: us3). split.
        { apply Forall2_app; [exact H1|]. constructor; [|exact H3]. exists kt, (b ++ uy ++ a). auto. }
        rewrite J, <- !app_assoc. reflexivity.
      * intros (ws & Hws & E'). apply Forall2_app_inv_l in Hws as (ws1 & ws2 & W1 & W2 & ->). inversion W2 as [|? w ? ws3 Hw W3]; subst.
        destruct Hw as (kt' & vt & Ek' & Ev' & ->). cbn [fst snd] in *. assert (kt' = kt) by congruence. subst kt'.
        assert (ws1 = us1 /\ ws3 = us3) as [-> ->].
        { assert (D : forall o a b, Forall2 (entry_json pw) o a -> Forall2 (entry_json pw) o b -> a = b).
          { induction o as [|e o IHo]; intros p1 p2 Q1 Q2; inversion Q1 as [|? ? ? ? (k1 & v2 & A1 & A2 & ->)]; inversion Q2 as [|? ? ? ? (k2 & v3 & B1 & B2 & ->)]; subst; [reflexivity|].
            f_equal; [congruence|]. apply IHo; assumption. }
          split; eapply D; eassumption. }
        rewrite J in E'.
        rewrite Ev'. f_equal. rewrite <- !app_assoc in E'. do 4 apply app_inv_head in E'.
        rewrite !app_assoc in E'. do 2 apply app_inv_tail in E'. rewrite <- !app_assoc in E'. symmetry. exact E'.
  - apply C64_array in E as (us & Hus & ->). apply Forall2_app_inv_l in Hus as (us1 & us2 & H1 & H2 & ->).
    inversion H2 as [|? w ? us3 Hw H3]; subst.
    destruct (IH w Hw) as (b & a & ux & Ex & -> & G).
    destruct (join_middle (bs ",") us1 (fun z => z) us3) as (l & r & J). cbv beta in J.
    exists (bs "[" ++ l ++ b), (a ++ r ++ bs "]"), ux. split; [exact Ex|]. split; [rewrite J, <- !app_assoc; reflexivity|].
    intros y' w uy Hr. apply replaced_index_inv in Hr as (v1 & Hr & ->). rewrite (G y' v1 uy Hr), C64_array. split.
    + intro E'. exists (us1 ++ (b ++ uy ++ a) :: us3). split; [apply Forall2_app; [exact H1|constructor; assumption]|].
      rewrite J, <- !app_assoc. reflexivity.
    + intros (ws & Hws & E'). apply Forall2_app_inv_l in Hws as (ws1 & ws2 & W1 & W2 & ->). inversion W2 as [|? w ? ws3 Hw' W3]; subst.
      assert (ws1 = us1 /\ ws3 = us3) as [-> ->].
      { assert (D : forall o a b, Forall2 (fun x y => to_json pw x = Ok y) o a -> Forall2 (fun x y => to_json pw x = Ok y) o b -> a = b).
        { induction o as [|e o IHo]; intros p1 p2 Q1 Q2; inversion Q1; inversion Q2; subst; [reflexivity|]. f_equal; [congruence|]. apply IHo; assumption. }
        split; eapply D; eassumption. }
      rewrite J in E'. rewrite Hw'. f_equal. rewrite <- !app_assoc in E'. do 2 apply app_inv_head in E'.
      rewrite !app_assoc in E'. do 2 apply app_inv_tail in E'. rewrite <- !app_assoc in E'. symmetry. exact E'.
Qed.

(** Together, on a parsed value: edit it in place and serialize - the text of the new value stands where the text of the old part stood. *)
Corollary C86_edit_parsed pw cfg s v p : parsed_from pw cfg s v -> keys_utf8 p ->
  path_get_mut pw v p = Ok None \/
  exists x store u before ux after, path_get_mut pw v p = Ok (Some (x, store)) /\ path_get pw v p = Ok (Some x) /\
    to_json pw v = Ok u /\ to_json pw x = Ok ux /\ u = before ++ ux ++ after /\
    forall y uy, to_json pw y = Ok uy ->
      to_json pw (store y) = Ok (before ++ uy ++ after) /\ path_get pw (store y) p = Ok (Some y).
Proof.
  intros H Hk. pose proof (parsed_obtainable _ _ (parsed_from_strings _ _ _ _ H)) as Hv.
  destruct (C86_chains pw v p Hv Hk) as [(x & store & E1 & E2 & Hr)|[_ E]]; [right|left; exact E].
  destruct (C36_C37_layout _ _ _ _ H) as (Eu & _). eexists x, store, _.
  destruct (C86_text pw v p x x _ _ (Hr x) Eu) as (b & a & ux & Ex & Eq & G). exists b, ux, a.
  split; [exact E2|]. split; [exact E1|]. split; [exact Eu|]. split; [exact Ex|]. split; [exact Eq|].
  intros y uy Ey. split; [apply (G y (store y) uy (Hr y)); exact Ey|].
  destruct (C86_store_then_read pw v p x y (store y) Hv Hk (Hr y)) as (_ & _ & R & _). specialize (R []). rewrite app_nil_r in R. exact R.
Qed.

(** * Concrete cases *)
Definition path_sample : list N := bs "{""a"": [1, {""b"": null, ""\u0062"": 2}], ""c"": 3}".
Definition path_to_b : path := [Key [97]; Index 1; Key [98]].
Example path_sample_ok : exists v, parsed_from W64 config_default path_sample v /\ keys_utf8 path_to_b /\
  exists store, path_get_mut W64 v path_to_b = Ok (Some (VNull, store)) /\
    to_json W64 (store (VArray [VBoolean true])) = Ok (bs "{""a"":[1,{""b"":[true],""\u0062"":2}],""c"":3}") /\
    path_get W64 (store VNull) [Key [99]] = Ok (Some (VNumber (JNum (Borrowed [51])))) /\
    path_get_mut W64 v [Key [97]; Index 2] = Ok None /\ path_get_mut W64 v [Index 0] = Ok None /\ path_get_mut W64 v [Key [97]; Key [98]] = Ok None.
Proof.
  eexists. split; [right; split; [apply utf8_checked; [vm_compute; reflexivity|vm_compute; discriminate]|vm_compute; reflexivity]|].
  split; [constructor; [exists [97]; split; [repeat constructor|reflexivity]|constructor; [exact I|constructor; [exists [98]; split; [repeat constructor|reflexivity]|constructor]]]|].
  eexists. split; [vm_compute; reflexivity|]. split; [vm_compute; reflexivity|]. split; [vm_compute; reflexivity|]. split; [vm_compute; reflexivity|]. split; vm_compute; reflexivity.
Qed.
