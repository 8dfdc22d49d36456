(** Property theorems about the text of arrays and objects in terms of the texts of their parts (C64, C70). *)
From Verif Require Import Base Utf8 Utf8Facts StrModel ErrorModel Tokenizer Parser ValueModel DocModel NumModel Spec SpecStr SpecNum SpecLex SpecWrite
  TokBase TokStr TokNum TokFacts Trace ParserGen ParserSound ParserComplete Sim SimInst StrSpec StrFacts StrWf StrEsc StrObt View ParseMain DocFacts
  StringScan WriteFacts WriteGrammar WriteStops PropTok PropEntry PropNumber PropStr PropEsc PropValue PropWrite.
Local Open Scope N_scope.

(** * C64: serializing *)

Lemma to_json_iff pw v u : to_json pw v = Ok u <-> exists t, written_as pw v t /\ u = compact t.
Proof.
  split.
  - intro E. destruct (written_exists pw v (to_json_ok _ _ _ E)) as (t & Ht). exists t. split; [exact Ht|].
    rewrite (to_json_text _ _ _ Ht) in E. injection E as <-. reflexivity.
  - intros (t & Ht & ->). apply to_json_text. exact Ht.
Qed.
Lemma to_json_pretty_iff pw indent eol v u : to_json_pretty_custom pw indent eol v = Ok u <-> exists t, written_as pw v t /\ u = pretty_layout indent eol t.
Proof.
  split.
  - intro E. destruct (written_exists pw v (to_json_pretty_ok _ _ _ _ _ E)) as (t & Ht). exists t. split; [exact Ht|].
    rewrite (to_json_pretty_text _ _ _ _ _ Ht) in E. injection E as <-. reflexivity.
  - intros (t & Ht & ->). apply to_json_pretty_text. exact Ht.
Qed.

Lemma Forall2_exists {A B C} (R : A -> B -> Prop) (f : B -> C) l us :
  Forall2 (fun x u => exists t, R x t /\ u = f t) l us <-> exists ts, Forall2 R l ts /\ us = map f ts.
Proof.
  split.
  - induction 1 as [|x u l us (t & Ht & ->) _ (ts & Hts & ->)]; [exists []; split; [constructor|reflexivity]|].
    exists (t :: ts). split; [constructor; assumption|reflexivity].
  - intros (ts & H & ->). induction H as [|x t l ts Ht _ IH]; constructor; [eauto|exact IH].
Qed.
Lemma Forall2_iff {A B} (R S : A -> B -> Prop) l us : (forall x u, R x u <-> S x u) -> (Forall2 R l us <-> Forall2 S l us).
Proof. intro H. split; induction 1; constructor; try apply H; assumption. Qed.

Lemma pad_nil n : pad [] n = [].
Proof. unfold pad. induction n; [reflexivity|exact IHn]. Qed.
Lemma flat_layout c : forall t lvl lvl', layout [] [] c lvl t = layout [] [] c lvl' t.
Proof.
  induction t as [ |b|n|raw|l IH|l IH] using tree_ind'; intros lvl lvl'; try reflexivity; cbn [layout]; destruct l as [|e l]; try reflexivity.
  - rewrite !pad_nil. do 3 f_equal. f_equal. apply map_ext_Forall. eapply Forall_impl; [|exact IH]. intros x Hx. cbv beta in *. rewrite (Hx (S lvl) (S lvl')). reflexivity.
  - rewrite !pad_nil. do 3 f_equal. f_equal. apply map_ext_Forall. eapply Forall_impl; [|exact IH]. intros x Hx. cbv beta in *. rewrite (Hx (S lvl) (S lvl')). reflexivity.
Qed.
Lemma compact_array ts : compact (TArr ts) = [91] ++ join [44] (map compact ts) ++ [93].
Proof.
  unfold compact at 1. cbn [layout]. destruct ts as [|t ts]; [reflexivity|]. rewrite !pad_nil. cbn [app]. do 2 f_equal. f_equal. apply map_ext.
  intro x. apply (flat_layout [58]).
Qed.
Definition entry_text (e : list N * tree) : list N := (34 :: fst e ++ [34]) ++ [58] ++ compact (snd e).
Lemma compact_object ts : compact (TObj ts) = [123] ++ join [44] (map entry_text ts) ++ [125].
Proof.
  unfold compact at 1. cbn [layout]. destruct ts as [|t ts]; [reflexivity|]. rewrite !pad_nil. cbn [app]. do 2 f_equal. f_equal. apply map_ext.
  intro x. unfold entry_text. cbn [app]. do 2 f_equal. unfold compact. rewrite (flat_layout [58] (snd x) 1 0). reflexivity.
Qed.

(** Scalars. *)
Theorem C64_scalars pw :
  to_json pw VNull = Ok (bs "null") /\ to_json pw (VBoolean true) = Ok (bs "true") /\ to_json pw (VBoolean false) = Ok (bs "false") /\
  (forall n, to_json pw (VNumber n) = Ok (jn_str n)) /\
  (forall x u, to_json pw (VString x) = Ok u <-> exists cs, js_as_json pw x = Ok cs /\ u = [34] ++ utf8_string cs ++ [34]).
Proof.
  split; [reflexivity|]. split; [reflexivity|]. split; [reflexivity|]. split; [intro n; apply (to_json_text pw (VNumber n) (TNum (jn_str n))); constructor|].
  intros x u. rewrite to_json_iff. split.
  - intros (t & Ht & ->). inversion Ht; subst. eexists. split; [eassumption|reflexivity].
  - intros (cs & E & ->). eexists. split; [constructor; exact E|reflexivity].
Qed.

(** An array is its elements' texts between brackets, separated by commas. *)
Theorem C64_array pw l u : to_json pw (VArray l) = Ok u <->
  exists us, Forall2 (fun x y => to_json pw x = Ok y) l us /\ u = bs "[" ++ join (bs ",") us ++ bs "]".
Proof.
  rewrite to_json_iff. split.
  - intros (t & Ht & ->). inversion Ht as [ | | | |? ts H|]; subst. exists (map compact ts). split; [|apply compact_array].
    apply (Forall2_iff _ _ _ _ (fun x u => to_json_iff pw x u)). apply Forall2_exists. eauto.
  - intros (us & H & ->). apply (Forall2_iff _ _ _ _ (fun x u => to_json_iff pw x u)) in H. apply Forall2_exists in H as (ts & H & ->).
    exists (TArr ts). split; [constructor; exact H|symmetry; apply compact_array].
Qed.

(** The text of a key and a value: the key is written like a string value. *)
Definition entry_json (pw : pwidth) (e : json_string * value) (y : list N) : Prop :=
  exists k x, to_json pw (VString (fst e)) = Ok k /\ to_json pw (snd e) = Ok x /\ y = k ++ bs ":" ++ x.

Lemma entry_json_iff pw e y : entry_json pw e y <-> exists f : list N * tree,
  ((exists out, js_as_json pw (fst e) = Ok out /\ fst f = utf8_string out) /\ written_as pw (snd e) (snd f)) /\ y = entry_text f.
Proof.
  unfold entry_json, entry_text. split.
  - intros (k & x & Hk & Hx & ->). apply C64_scalars in Hk as (cs & Ecs & ->). apply to_json_iff in Hx as (t & Ht & ->).
    exists (utf8_string cs, t). cbn [fst snd]. split; [eauto|reflexivity].
  - intros ([k t] & [(out & Eo & E) Ht] & ->). cbn [fst snd] in *. subst k. eexists _, _. split; [apply C64_scalars; eauto|].
    split; [apply to_json_iff; eauto|reflexivity].
Qed.

(** An object is its members' texts between braces, separated by commas, in order. *)
Theorem C64_object pw o u : to_json pw (VObject o) = Ok u <->
  exists us, Forall2 (entry_json pw) o us /\ u = bs "{" ++ join (bs ",") us ++ bs "}".
Proof.
  rewrite to_json_iff. split.
  - intros (t & Ht & ->). inversion Ht as [ | | | | |? ts H]; subst. exists (map entry_text ts). split; [|apply compact_object].
    apply (Forall2_iff _ _ _ _ (entry_json_iff pw)). apply Forall2_exists. eauto.
  - intros (us & H & ->). apply (Forall2_iff _ _ _ _ (entry_json_iff pw)) in H. apply Forall2_exists in H as (ts & H & ->).
    exists (TObj ts). split; [constructor; exact H|symmetry; apply compact_object].
Qed.

(** Serialization panics only if a part's does. *)
Lemma ok_or_fault {A} (r : res infallible A) : (exists u, r = Ok u) \/ exists f, r = Fault f.
Proof. destruct r as [x|[]|f]; eauto. Qed.
Lemma forall2_or {A B} (f : A -> res infallible B) l : (exists us, Forall2 (fun x y => f x = Ok y) l us) \/ Exists (fun x => exists g, f x = Fault g) l.
Proof.
  induction l as [|x l [(us & IH)|IH]]; [left; exists []; constructor| |right; apply Exists_cons_tl; exact IH].
  destruct (ok_or_fault (f x)) as [(u & E)|E]; [left; exists (u :: us); constructor; assumption|right; apply Exists_cons_hd; exact E].
Qed.
Theorem C64_panics_iff_a_part_panics pw :
  (forall l, (exists f, to_json pw (VArray l) = Fault f) <-> Exists (fun x => exists f, to_json pw x = Fault f) l) /\
  (forall o, (exists f, to_json pw (VObject o) = Fault f) <->
     Exists (fun e => (exists f, to_json pw (VString (fst e)) = Fault f) \/ exists f, to_json pw (snd e) = Fault f) o).
Proof.
  split; [intro l|intro o]; split.
  - intros (f & E). destruct (forall2_or (to_json pw) l) as [(us & H)|H]; [|exact H].
    rewrite (proj2 (C64_array pw l _) (ex_intro _ us (conj H eq_refl))) in E. discriminate.
  - intro H. destruct (ok_or_fault (to_json pw (VArray l))) as [(u & E)|E]; [|exact E]. exfalso.
    apply C64_array in E as (us & E & _). induction E as [|x y l us Hx _ IH]; inversion H as [? ? (f & K)|? ? K]; subst; [congruence|auto].
  - intros (f & E). assert (K : (exists us, Forall2 (entry_json pw) o us) \/
      Exists (fun e => (exists f, to_json pw (VString (fst e)) = Fault f) \/ exists f, to_json pw (snd e) = Fault f) o).
    { clear E. induction o as [|e o [(us & IH)|IH]]; [left; exists []; constructor| |right; apply Exists_cons_tl; exact IH].
      destruct (ok_or_fault (to_json pw (VString (fst e)))) as [(k & Ek)|Ek]; [|right; apply Exists_cons_hd; left; exact Ek].
      destruct (ok_or_fault (to_json pw (snd e))) as [(x & Ex)|Ex]; [|right; apply Exists_cons_hd; right; exact Ex].
      left. eexists (_ :: us). constructor; [|exact IH]. exists k, x. auto. }
    destruct K as [(us & K)|K]; [|exact K]. rewrite (proj2 (C64_object pw o _) (ex_intro _ us (conj K eq_refl))) in E. discriminate.
  - intro H. destruct (ok_or_fault (to_json pw (VObject o))) as [(u & E)|E]; [|exact E]. exfalso.
    apply C64_object in E as (us & E & _). induction E as [|e y o us (k & x & Hk & Hx & _) _ IH]; inversion H as [? ? [(f & K)|(f & K)]|? ? K]; subst; [congruence|congruence|auto].
Qed.

(** ** Lines *)

(** [indented indent u]: [indent] added after every newline of [u]. *)
Definition indented (indent u : list N) : list N := flat_map (fun b => if b =? 10 then b :: indent else [b]) u.

Lemma indented_app i a b : indented i (a ++ b) = indented i a ++ indented i b.
Proof. apply flat_map_app. Qed.
Lemma indented_plain i a : Forall (fun b => b <> 10) a -> indented i a = a.
Proof.
  induction 1 as [|b a Hb _ IH]; [reflexivity|]. unfold indented in *. cbn [flat_map]. rewrite IH. destruct (N.eqb_spec b 10); [contradiction|reflexivity].
Qed.
Lemma indented_join i sep l : indented i (join sep l) = join (indented i sep) (map (indented i) l).
Proof.
  induction l as [|x l IH]; [reflexivity|]. cbn [join map]. destruct l as [|y l]; [reflexivity|]. cbn [map] in *. rewrite !indented_app, IH. reflexivity.
Qed.
Lemma join_shift i s x l : i ++ join (s ++ i) (x :: l) = join s (map (app i) (x :: l)).
Proof.
  revert x. induction l as [|y l IH]; intro x; [reflexivity|]. change (join (s ++ i) (x :: y :: l)) with (x ++ (s ++ i) ++ join (s ++ i) (y :: l)).
  change (join s (map (app i) (x :: y :: l))) with ((i ++ x) ++ s ++ join s (map (app i) (y :: l))). rewrite <- IH, <- !app_assoc. reflexivity.
Qed.
Lemma join_shift' i s l : l <> [] -> i ++ join (s ++ i) l = join s (map (app i) l).
Proof. destruct l; [congruence|]. intros _. apply join_shift. Qed.

Lemma eol_indented i e0 : Forall (fun b => b <> 10) e0 -> indented i (e0 ++ [10]) = (e0 ++ [10]) ++ i.
Proof. intro He. rewrite indented_app, (indented_plain _ e0 He), <- app_assoc. unfold indented. cbn. rewrite app_nil_r. reflexivity. Qed.
Section Lines.
  Variables indent eol cl : list N.
  Hypothesis Hi : Forall (fun b => b <> 10) indent.
  Hypothesis sh_eol : indented indent eol = eol ++ indent.
  Hypothesis Hcl : Forall (fun b => b <> 10) cl.
  Notation sh := (indented indent).

  Lemma sh_pad n : sh (pad indent n) = pad indent n.
  Proof. apply indented_plain. induction n as [|n IH]; [constructor|]. apply Forall_app. auto. Qed.
  Lemma pad_S n : pad indent (S n) = indent ++ pad indent n.
  Proof. reflexivity. Qed.
  Lemma sh_one b : b <> 10 -> sh [b] = [b].
  Proof. intro H. apply indented_plain. constructor; [exact H|constructor]. Qed.

  Lemma layout_shift : forall t, tree_all (Forall (fun b => b <> 10)) (Forall (fun b => b <> 10)) t ->
    forall lvl, layout indent eol cl (S lvl) t = sh (layout indent eol cl lvl t).
  Proof.
    induction t as [ |b|n|raw|l IH|l IH] using tree_ind'; intros Ht lvl; inversion Ht as [ | |? Hn|? Hs|? Hl|? Hl]; subst.
    - reflexivity.
    - destruct b; reflexivity.
    - cbn [layout]. symmetry. apply indented_plain. exact Hn.
    - cbn [layout]. rewrite !indented_app, (sh_one 34) by lia. rewrite (indented_plain _ raw Hs). reflexivity.
    - cbn [layout]. destruct l as [|x l]; [reflexivity|]. set (xs := x :: l) in *.
      rewrite !indented_app, indented_join, indented_app, sh_eol, !sh_one, sh_pad, map_map by lia. rewrite !pad_S, <- !app_assoc. do 2 f_equal.
      transitivity ((indent ++ join (([44] ++ eol) ++ indent) (map (fun y => sh (pad indent (S lvl) ++ layout indent eol cl (S lvl) y)) xs)) ++ eol ++ indent ++ pad indent lvl ++ [93]);
        [|rewrite <- !app_assoc; reflexivity]. rewrite join_shift' by (subst xs; discriminate). rewrite map_map. f_equal. f_equal.
      apply map_ext_Forall. clear Ht. clearbody xs. rewrite Forall_forall in IH, Hl. apply Forall_forall. intros y Hy. rewrite (IH y Hy (Hl y Hy) (S lvl)), indented_app, sh_pad, !pad_S, <- !app_assoc. reflexivity.
    - cbn [layout]. destruct l as [|x l]; [reflexivity|]. set (xs := x :: l) in *.
      rewrite !indented_app, indented_join, indented_app, sh_eol, !sh_one, sh_pad, map_map by lia. rewrite !pad_S, <- !app_assoc. do 2 f_equal.
      match goal with |- _ = indent ++ join ?s ?m ++ ?r => transitivity ((indent ++ join (([44] ++ eol) ++ indent) m) ++ r);
        [|rewrite <- !app_assoc; reflexivity] end. rewrite join_shift' by (subst xs; discriminate). rewrite map_map. f_equal. f_equal.
      apply map_ext_Forall. clear Ht. clearbody xs. rewrite Forall_forall in IH, Hl. apply Forall_forall. intros y Hy. destruct (Hl y Hy) as [K1 K2].
      rewrite (IH y Hy K2 (S lvl)), !indented_app, ?pad_S, ?indented_app, ?(indented_plain _ _ Hi), ?sh_pad, (sh_one 34), (indented_plain _ (fst y) K1), (indented_plain _ cl Hcl), <- !app_assoc by lia. reflexivity.
  Qed.
End Lines.

(** ** Which bytes are written *)
Notation visible := (Forall (fun b => 32 <= b)).

Lemma hex4_visible h u : hex4 h u -> visible h.
Proof. intro H. destruct H as [a b c d x y z w A B C D]. destruct A; destruct B; destruct C; destruct D; repeat (apply Forall_cons; [lia|]); apply Forall_nil. Qed.
Lemma encode_visible c : 32 <= c -> visible (utf8_encode c).
Proof.
  intro H. destruct (N.lt_ge_cases c 128) as [K|K].
  - rewrite utf8_encode_ascii by exact K. constructor; [exact H|constructor].
  - eapply Forall_impl; [|apply utf8_encode_high; exact K]. cbv beta. intros. lia.
Qed.
Lemma body_visible raw cs : str_body raw cs -> visible raw.
Proof.
  induction 1 as [|a c r cs Hi _ IH]; [constructor|]. apply Forall_app. split; [|exact IH].
  destruct Hi as [c Hc1 Hc2 _ _|b c Hin|h u Hh _|h1 hi h2 lo Hh1 _ Hh2 _].
  - apply encode_visible. exact Hc2.
  - apply Forall_cons; [lia|]. apply Forall_cons; [|apply Forall_nil]. cbn [simple_escapes In] in Hin.
    repeat (destruct Hin as [Hin|Hin]; [injection Hin as <- <-; lia|]). destruct Hin.
  - apply Forall_cons; [lia|]. apply Forall_cons; [lia|]. eapply hex4_visible. exact Hh.
  - apply Forall_cons; [lia|]. apply Forall_cons; [lia|]. apply Forall_app. split; [eapply hex4_visible; exact Hh1|].
    apply Forall_cons; [lia|]. apply Forall_cons; [lia|]. eapply hex4_visible. exact Hh2.
Qed.
Lemma escaped_visible cs : visible (utf8_string (escaped cs)).
Proof.
  induction cs as [|c cs IH]; [constructor|]. change (escaped (c :: cs)) with (escaped1 c ++ escaped cs). rewrite utf8_string_app. apply Forall_app. split; [|exact IH].
  destruct (must_escape c) eqn:E.
  - rewrite utf8_string_ascii by (apply escaped1_ascii; exact E). unfold escaped1. rewrite E. cbn [negb].
    destruct ((c =? 34) || (c =? 92)) eqn:E1; [repeat (apply Forall_cons; [lia|]); apply Forall_nil|].
    repeat match goal with |- context [if c =? ?k then _ else _] => destruct (c =? k); [repeat (apply Forall_cons; [lia|]); apply Forall_nil|] end.
    assert (Hc : c < 32) by (unfold must_escape in E; lia). pose proof (nibble_range c Hc). repeat (apply Forall_cons; [lia|]); apply Forall_nil.
  - unfold escaped1. rewrite E. cbn [negb]. rewrite utf8_string_cons. cbn [utf8_string flat_map]. rewrite app_nil_r. apply encode_visible.
    unfold must_escape in E. lia.
Qed.
Lemma as_json_visible pw x out : obtainable pw x -> js_as_json pw x = Ok out -> visible (utf8_string out).
Proof.
  intros Hx Eo. apply obtainable_wf in Hx as (cs & Hw). destruct Hw as [a i l Hi Hl _ _|a cs Hcs Ea Hl Hc Hm].
  - pose proof (items_valid _ _ Hi) as Hv. apply chars_valid in Hv as [H1 H2].
    rewrite (as_json_json pw a i _ H1 H2) in Eo. injection Eo as <-. rewrite <- H2. eapply body_visible. apply str_body_items. eauto.
  - destruct (N.le_gt_cases (2 * counted cs) (isize_max pw)) as [H2|H2].
    + rewrite (as_json_raw pw a cs Hcs Ea H2) in Eo. injection Eo as <-. apply escaped_visible.
    + rewrite (as_json_raw_overflow pw a cs Hcs Ea Hc H2) in Eo. discriminate.
Qed.
Lemma number_visible n : number n -> visible n.
Proof.
  intros (m & i & f & e & Hm & Hi & Hf & He & ->).
  assert (D : forall l, Forall digit l -> visible l) by (intros l Hl; eapply Forall_impl; [|exact Hl]; cbv beta; unfold digit; intros; lia).
  repeat (apply Forall_app; split).
  - destruct Hm as [->| ->]; repeat (apply Forall_cons; [lia|]); apply Forall_nil.
  - destruct Hi as [->|(d & r & Hd & Hr & ->)]; apply Forall_cons; try lia; [apply Forall_nil|auto].
  - destruct Hf as [->|(ds & [_ Hds] & ->)]; [apply Forall_nil|apply Forall_cons; [lia|auto]].
  - destruct He as [->|(c & sg & ds & Hc & Hsg & [_ Hds] & ->)]; [apply Forall_nil|]. apply Forall_cons; [lia|].
    apply Forall_app. split; [|auto]. destruct Hsg as [->|[->| ->]]; repeat (apply Forall_cons; [lia|]); apply Forall_nil.
Qed.
Lemma constructible_visible pw v t : constructible pw v -> written_as pw v t -> tree_all visible visible t.
Proof.
  intros [Hs Hn] Ht. eapply (written_tree_all pw (obtainable pw) (number_obtainable pw)); try eassumption.
  - intros x out Hx Eo. eapply as_json_visible; eassumption.
  - intros n Hx. apply number_obtainable_shape in Hx as (m & Hm & ->). apply number_visible. exact Hm.
Qed.
Lemma visible_plain x : visible x -> Forall (fun b => b <> 10) x.
Proof. intro H. eapply Forall_impl; [|exact H]. cbv beta. intros. lia. Qed.

Lemma layout_bytes (P : N -> Prop) indent eol cl : Forall P indent -> Forall P eol -> Forall P cl -> (forall b, 32 <= b -> P b) ->
  forall t, tree_all visible visible t -> forall lvl, Forall P (layout indent eol cl lvl t).
Proof.
  intros Hi He Hc Hb.
  assert (V : forall x, visible x -> Forall P x) by (intros x Hx; eapply Forall_impl; [|exact Hx]; exact Hb).
  assert (O : forall b, 32 <= b -> Forall P [b]) by (intros b K; constructor; [apply Hb; exact K|constructor]).
  assert (Pd : forall n, Forall P (pad indent n)) by (intro n; induction n as [|n IH]; [constructor|apply Forall_app; auto]).
  assert (J : forall (A : Type) (f : A -> list N) l, (forall x, In x l -> Forall P (f x)) -> Forall P (join ([44] ++ eol) (map f l))).
  { intros A f l. induction l as [|x l IH]; intro H; [constructor|]. cbn [map join]. destruct l as [|y l]; [apply H; left; reflexivity|].
    cbn [map] in *. repeat (apply Forall_app; split); [apply H; left; reflexivity|apply O; lia|exact He|]. apply IH. intros z Hz. apply H. right. exact Hz. }
  induction t as [ |b|n|raw|l IH|l IH] using tree_ind'; intros Ht lvl; inversion Ht as [ | |? Hn|? Hs|? Hl|? Hl]; subst; cbn [layout].
  - apply V. repeat (apply Forall_cons; [lia|]); apply Forall_nil.
  - apply V. destruct b; repeat (apply Forall_cons; [lia|]); apply Forall_nil.
  - apply V. exact Hn.
  - repeat (apply Forall_app; split); auto; apply O; lia.
  - destruct l as [|x l]; [apply V; repeat (apply Forall_cons; [lia|]); apply Forall_nil|].
    repeat (apply Forall_app; split); auto; try (apply O; lia). apply J. rewrite Forall_forall in IH, Hl. intros z Hz. apply Forall_app. split; auto.
  - destruct l as [|x l]; [apply V; repeat (apply Forall_cons; [lia|]); apply Forall_nil|].
    repeat (apply Forall_app; split); auto; try (apply O; lia). apply J. rewrite Forall_forall in IH, Hl. intros z Hz. destruct (Hl z Hz) as [K1 K2].
    apply Forall_app. split; [apply Pd|]. repeat (apply Forall_app; split); auto; apply O; lia.
Qed.

(** Compact text is one line without control characters, whatever the strings contain ... *)
Theorem C64_compact_is_one_line pw v u : constructible pw v -> to_json pw v = Ok u -> Forall (fun b => 32 <= b) u.
Proof.
  intros Hc E. apply to_json_iff in E as (t & Ht & ->). apply (layout_bytes (fun b => 32 <= b)); [constructor|constructor| |auto|].
  - constructor; [lia|constructor].
  - eapply constructible_visible; eassumption.
Qed.

(** ... and pretty text has no control characters but those of the indentation and the line ending. *)
Theorem C64_pretty_control_characters pw indent eol v u b : constructible pw v -> to_json_pretty_custom pw indent eol v = Ok u ->
  In b u -> b < 32 -> In b indent \/ In b eol.
Proof.
  intros Hc E Hin Hb. apply to_json_pretty_iff in E as (t & Ht & ->).
  assert (K : Forall (fun b => b < 32 -> In b indent \/ In b eol) (pretty_layout indent eol t)).
  { apply layout_bytes.
    - apply Forall_forall. auto.
    - apply Forall_forall. auto.
    - repeat (apply Forall_cons; [lia|]); apply Forall_nil.
    - intros; lia.
    - eapply constructible_visible; eassumption. }
  rewrite Forall_forall in K. apply K; assumption.
Qed.

(** ** Pretty text of arrays and objects *)
Definition no_newline (x : list N) : Prop := Forall (fun b => b <> 10) x.
(** A line ending: [\n], [\r\n], or any text that has its only newline at the end. *)
Definition line_end (eol : list N) : Prop := exists e, eol = e ++ [10] /\ no_newline e.

Definition block (open close : N) (indent eol : list N) (us : list (list N)) : list N :=
  match us with
  | [] => [open; close]
  | _ => [open] ++ eol ++ join (bs "," ++ eol) (map (fun u => indent ++ indented indent u) us) ++ eol ++ [close]
  end.

Lemma constructible_elements pw l : constructible pw (VArray l) -> Forall (constructible pw) l.
Proof. intros [H1 H2]. inversion H1 as [ | | | |? A|]; inversion H2 as [ | | | |? B|]; subst. rewrite Forall_forall in *. intros x Hx. split; auto. Qed.
Lemma constructible_members pw o : constructible pw (VObject o) -> Forall (fun e => obtainable pw (fst e) /\ constructible pw (snd e)) o.
Proof.
  intros [H1 H2]. inversion H1 as [ | | | | |? A]; inversion H2 as [ | | | | |? B]; subst. rewrite Forall_forall in *. intros x Hx. destruct (A x Hx).
  split; [assumption|]. split; auto.
Qed.

Lemma written_plain pw v t : constructible pw v -> written_as pw v t -> tree_all no_newline no_newline t.
Proof.
  intros H1 H2. generalize (constructible_visible pw v t H1 H2). apply tree_all_impl; intros x Hx; apply visible_plain; exact Hx.
Qed.

Lemma pretty_array indent eol ts : no_newline indent -> line_end eol -> Forall (tree_all no_newline no_newline) ts ->
  pretty_layout indent eol (TArr ts) = block 91 93 indent eol (map (pretty_layout indent eol) ts).
Proof.
  intros Hi (e & -> & He) Ht. destruct ts as [|x ts]; [reflexivity|]. set (eol := e ++ [10]).
  transitivity ([91] ++ eol ++ join (bs "," ++ eol) (map (fun y => pad indent 1 ++ layout indent eol [58; 32] 1 y) (x :: ts)) ++ eol ++ [93]); [reflexivity|].
  transitivity ([91] ++ eol ++ join (bs "," ++ eol) (map (fun u => indent ++ indented indent u) (map (pretty_layout indent eol) (x :: ts))) ++ eol ++ [93]);
    [|reflexivity].
  do 2 f_equal. f_equal. rewrite map_map. f_equal. apply map_ext_Forall. eapply Forall_impl; [|exact Ht]. intros t Htt. cbv beta in *.
  rewrite layout_shift; [|exact Hi|apply eol_indented; exact He|repeat constructor; lia|exact Htt]. unfold pad. cbn [repeat List.concat]. rewrite app_nil_r. reflexivity.
Qed.

Definition pretty_entry (indent eol : list N) (e : list N * tree) : list N := (34 :: fst e ++ [34]) ++ [58; 32] ++ pretty_layout indent eol (snd e).
Lemma pretty_object indent eol ts : no_newline indent -> line_end eol -> Forall (fun e => no_newline (fst e) /\ tree_all no_newline no_newline (snd e)) ts ->
  pretty_layout indent eol (TObj ts) = block 123 125 indent eol (map (pretty_entry indent eol) ts).
Proof.
  intros Hi (e & -> & He) Ht. destruct ts as [|x ts]; [reflexivity|]. set (eol := e ++ [10]).
  transitivity ([123] ++ eol ++ join (bs "," ++ eol) (map (fun y => pad indent 1 ++ ([34] ++ fst y ++ [34]) ++ [58; 32] ++ layout indent eol [58; 32] 1 (snd y)) (x :: ts)) ++ eol ++ [125]); [reflexivity|].
  transitivity ([123] ++ eol ++ join (bs "," ++ eol) (map (fun u => indent ++ indented indent u) (map (pretty_entry indent eol) (x :: ts))) ++ eol ++ [125]);
    [|reflexivity].
  do 2 f_equal. f_equal. rewrite map_map. f_equal. apply map_ext_Forall. eapply Forall_impl; [|exact Ht]. intros [k t] [Hk Htt]. cbv beta in *. cbn [fst snd] in *.
  rewrite layout_shift; [|exact Hi|apply eol_indented; exact He|repeat constructor; lia|exact Htt]. unfold pad, pretty_entry, pretty_layout. cbn [repeat List.concat fst snd]. rewrite app_nil_r.
  f_equal. rewrite !indented_app. f_equal. symmetry. apply indented_plain. constructor; [lia|]. apply Forall_app. split; [exact Hk|]. constructor; [lia|constructor].
Qed.

(** An array: [[]] if empty, else each element's own pretty text on lines of its own, all its lines indented one step further. *)
Theorem C64_pretty_array pw indent eol l u : constructible pw (VArray l) -> no_newline indent -> line_end eol ->
  (to_json_pretty_custom pw indent eol (VArray l) = Ok u <->
   exists us, Forall2 (fun x y => to_json_pretty_custom pw indent eol x = Ok y) l us /\ u = block 91 93 indent eol us).
Proof.
  intros Hc Hi He. rewrite to_json_pretty_iff. split.
  - intros (t & Ht & ->). pose proof (written_plain _ _ _ Hc Ht) as Hp. inversion Ht as [ | | | |? ts H|]; subst. inversion Hp; subst.
    exists (map (pretty_layout indent eol) ts). split; [|apply pretty_array; assumption].
    apply (Forall2_iff _ _ _ _ (fun x u => to_json_pretty_iff pw indent eol x u)). apply Forall2_exists. eauto.
  - intros (us & H & ->). apply (Forall2_iff _ _ _ _ (fun x u => to_json_pretty_iff pw indent eol x u)) in H. apply Forall2_exists in H as (ts & H & ->).
    exists (TArr ts). assert (Ht : written_as pw (VArray l) (TArr ts)) by (constructor; exact H). split; [exact Ht|].
    pose proof (written_plain _ _ _ Hc Ht) as Hp. inversion Hp; subst. symmetry. apply pretty_array; assumption.
Qed.

(** An object: each key on a line of its own, then a colon, a space and the value's pretty text. *)
Definition entry_pretty (pw : pwidth) (indent eol : list N) (e : json_string * value) (y : list N) : Prop :=
  exists k x, to_json pw (VString (fst e)) = Ok k /\ to_json_pretty_custom pw indent eol (snd e) = Ok x /\ y = k ++ bs ": " ++ x.

Lemma entry_pretty_iff pw indent eol e y : entry_pretty pw indent eol e y <-> exists f : list N * tree,
  ((exists out, js_as_json pw (fst e) = Ok out /\ fst f = utf8_string out) /\ written_as pw (snd e) (snd f)) /\ y = pretty_entry indent eol f.
Proof.
  unfold entry_pretty, pretty_entry. split.
  - intros (k & x & Hk & Hx & ->). apply C64_scalars in Hk as (cs & Ecs & ->). apply to_json_pretty_iff in Hx as (t & Ht & ->).
    exists (utf8_string cs, t). cbn [fst snd]. split; [eauto|reflexivity].
  - intros ([k t] & [(out & Eo & E) Ht] & ->). cbn [fst snd] in *. subst k. eexists _, _. split; [apply C64_scalars; eauto|].
    split; [apply to_json_pretty_iff; eauto|reflexivity].
Qed.

Theorem C64_pretty_object pw indent eol o u : constructible pw (VObject o) -> no_newline indent -> line_end eol ->
  (to_json_pretty_custom pw indent eol (VObject o) = Ok u <->
   exists us, Forall2 (entry_pretty pw indent eol) o us /\ u = block 123 125 indent eol us).
Proof.
  intros Hc Hi He. rewrite to_json_pretty_iff. split.
  - intros (t & Ht & ->). pose proof (written_plain _ _ _ Hc Ht) as Hp. inversion Ht as [ | | | | |? ts H]; subst. inversion Hp; subst.
    exists (map (pretty_entry indent eol) ts). split; [|apply pretty_object; assumption].
    apply (Forall2_iff _ _ _ _ (entry_pretty_iff pw indent eol)). apply Forall2_exists. eauto.
  - intros (us & H & ->). apply (Forall2_iff _ _ _ _ (entry_pretty_iff pw indent eol)) in H. apply Forall2_exists in H as (ts & H & ->).
    exists (TObj ts). assert (Ht : written_as pw (VObject o) (TObj ts)) by (constructor; exact H). split; [exact Ht|].
    pose proof (written_plain _ _ _ Hc Ht) as Hp. inversion Hp; subst. symmetry. apply pretty_object; assumption.
Qed.

(** Scalars are the same in both. *)
Theorem C64_pretty_scalars pw indent eol v u : as_object v = None -> as_array v = None ->
  (to_json_pretty_custom pw indent eol v = Ok u <-> to_json pw v = Ok u).
Proof.
  intros H1 H2. rewrite to_json_iff, to_json_pretty_iff. split; intros (t & Ht & ->); exists t; (split; [exact Ht|]);
    inversion Ht; subst; try reflexivity; discriminate.
Qed.

Example text_sample : constructible W64 sample_built_value /\ no_newline (bs "  ") /\ line_end [13; 10] /\
  to_json_pretty_custom W64 (bs "  ") [13; 10] sample_built_value = Ok (block 123 125 (bs "  ") [13; 10]
    [bs """key"": " ++ block 91 93 (bs "  ") [13; 10] [[34] ++ bs "\n" ++ utf8_encode 0x20AC ++ bs "\""" ++ [34]; bs "-0.5"]]).
Proof.
  split; [apply sample_constructible|]. split; [change (bs "  ") with [32; 32]; repeat (apply Forall_cons; [lia|]); apply Forall_nil|]. split; [exists [13]; split; [reflexivity|repeat (apply Forall_cons; [lia|]); apply Forall_nil]|].
  vm_compute. reflexivity.
Qed.

(** * C70: parsing *)


Lemma parsed_from_iff pw cfg s v : parsed_from pw cfg s v <->
  N.of_nat (length s) <= isize_max pw /\ exists t, accepted cfg t s /\ value_repr pw t v.
Proof.
  split; [apply parsed_from_repr|]. intros (Hl & t & Ha & Hr). right.
  assert (Hs : rust_str pw s) by (split; [eapply json_text_valid; apply Ha|exact Hl]). split; [exact Hs|]. apply value_str_iff; [exact Hs|]. eauto.
Qed.

(** Elements and members, cut at the commas. *)
Lemma elements_iff tc ts b : elements tc ts b <-> exists us tr, trailing tc tr /\ us <> [] /\ b = join [44] us ++ tr /\ Forall2 (json_text tc) ts us.
Proof.
  split.
  - induction 1 as [t w1 s w2 tr H1 H H2 Htr|t l w1 s w2 r H1 H H2 Hr (us & tr & Htr & Hne & -> & IH)].
    + exists [w1 ++ s ++ w2], tr. split; [exact Htr|]. split; [discriminate|]. split; [cbn [join]; rewrite <- !app_assoc; reflexivity|].
      constructor; [|constructor]. exists w1, s, w2. auto.
    + exists ((w1 ++ s ++ w2) :: us), tr. split; [exact Htr|]. split; [discriminate|]. split.
      * destruct us as [|u us]; [congruence|]. change (join [44] ((w1 ++ s ++ w2) :: u :: us)) with ((w1 ++ s ++ w2) ++ [44] ++ join [44] (u :: us)).
        rewrite <- !app_assoc. reflexivity.
      * constructor; [|exact IH]. exists w1, s, w2. auto.
  - intros (us & tr & Htr & Hne & -> & H). induction H as [|t u ts us (w1 & s & w2 & H1 & H & H2 & ->) Hr IH]; [congruence|].
    destruct Hr as [|t' u' ts us Hu Hr].
    + cbn [join]. rewrite <- !app_assoc. constructor; assumption.
    + change (join [44] ((w1 ++ s ++ w2) :: u' :: us)) with ((w1 ++ s ++ w2) ++ [44] ++ join [44] (u' :: us)).
      rewrite <- !app_assoc. constructor; try assumption. apply IH. discriminate.
Qed.

Definition member_text (tc : bool) (e : list N * tree) (u : list N) : Prop :=
  exists k x, json_text tc (TStr (fst e)) k /\ json_text tc (snd e) x /\ u = k ++ [58] ++ x.
Lemma members_iff tc ts b : members tc ts b <-> exists us tr, trailing tc tr /\ us <> [] /\ b = join [44] us ++ tr /\ Forall2 (member_text tc) ts us.
Proof.
  assert (M : forall k cs t w1 w2 w3 s w4, ws w1 -> str_body k cs -> ws w2 -> ws w3 -> value_text tc t s -> ws w4 ->
    member_text tc (k, t) (w1 ++ (34 :: k ++ [34]) ++ w2 ++ 58 :: w3 ++ s ++ w4)).
  { intros k cs t w1 w2 w3 s w4 H1 H2 H3 H4 H5 H6. exists (w1 ++ (34 :: k ++ [34]) ++ w2), (w3 ++ s ++ w4). cbn [fst snd].
    split; [exists w1, (34 :: k ++ [34]), w2; repeat (split; [first [assumption|econstructor; eassumption]|]); reflexivity|].
    split; [exists w3, s, w4; auto|]. rewrite <- !app_assoc. reflexivity. }
  split.
  - induction 1 as [k cs t w1 w2 w3 s w4 tr H1 H2 H3 H4 H5 H6 Htr|k cs t l w1 w2 w3 s w4 r H1 H2 H3 H4 H5 H6 Hr (us & tr & Htr & Hne & -> & IH)].
    + eexists [_], tr. split; [exact Htr|]. split; [discriminate|]. split; [|constructor; [exact (M _ _ _ _ _ _ _ _ H1 H2 H3 H4 H5 H6)|constructor]].
      cbn [join]. rewrite <- !app_assoc. cbn [app]. rewrite <- !app_assoc. reflexivity.
    + eexists (_ :: us), tr. split; [exact Htr|]. split; [discriminate|]. split; [|constructor; [exact (M _ _ _ _ _ _ _ _ H1 H2 H3 H4 H5 H6)|exact IH]].
      destruct us as [|u us]; [congruence|]. match goal with |- _ = join [44] (?z :: u :: us) ++ _ => change (join [44] (z :: u :: us)) with (z ++ [44] ++ join [44] (u :: us)) end.
      rewrite <- !app_assoc. cbn [app]. rewrite <- !app_assoc. reflexivity.
  - intros (us & tr & Htr & Hne & -> & H).
    induction H as [|[k t] u ts us (kt & x & (w1 & q & w2 & H1 & H2 & H3 & ->) & (w3 & s & w4 & H4 & H5 & H6 & ->) & ->) Hr IH]; [congruence|].
    cbn [fst snd] in *. inversion H2; subst. destruct Hr as [|t' u' ts us Hu Hr].
    + cbn [join]. match goal with |- members _ _ ?z => replace z with (w1 ++ (34 :: k ++ [34]) ++ w2 ++ 58 :: w3 ++ s ++ w4 ++ tr) end;
        [econstructor; eassumption|rewrite <- !app_assoc; cbn [app]; rewrite <- !app_assoc; reflexivity].
    + match goal with |- members _ _ (join [44] (?z :: u' :: us) ++ _) => change (join [44] (z :: u' :: us)) with (z ++ [44] ++ join [44] (u' :: us)) end.
      match goal with |- members _ _ ?z => replace z with (w1 ++ (34 :: k ++ [34]) ++ w2 ++ 58 :: w3 ++ s ++ w4 ++ 44 :: join [44] (u' :: us) ++ tr) end;
        [econstructor; try eassumption; apply IH; discriminate|rewrite <- !app_assoc; cbn [app]; rewrite <- !app_assoc; reflexivity].
Qed.

Lemma join_length sep us (u : list N) : In u us -> (length u <= length (join sep us))%nat.
Proof.
  induction us as [|x us IH]; intro H; [destruct H|]. cbn [join]. destruct us as [|y us]; [destruct H as [->|[]]; lia|].
  rewrite !app_length. destruct H as [->|H]; [lia|]. specialize (IH H). lia.
Qed.
Definition within (lim : option N) (d : N) : Prop := match lim with Some n => d <= n | None => True end.
Lemma fold_max {A} (f : A -> N) l n : fold_right (fun t m => N.max (f t) m) 0 l <= n <-> Forall (fun t => f t <= n) l.
Proof. induction l as [|x l IH]; cbn [fold_right]; [split; [constructor|lia]|]. rewrite Forall_cons_iff, <- IH. lia. Qed.
Lemma depth_arr lim ts : within (option_map N.succ lim) (tree_depth (TArr ts)) <-> Forall (fun t => within lim (tree_depth t)) ts.
Proof.
  destruct lim as [n|]; cbn [option_map within]; [|split; [intros _; apply Forall_forall; auto|auto]].
  rewrite <- (fold_max tree_depth). cbn [tree_depth]. lia.
Qed.
Lemma depth_obj lim (ts : list (list N * tree)) : within (option_map N.succ lim) (tree_depth (TObj ts)) <-> Forall (fun e => within lim (tree_depth (snd e))) ts.
Proof.
  destruct lim as [n|]; cbn [option_map within]; [|split; [intros _; apply Forall_forall; auto|auto]].
  rewrite <- (fold_max (fun e : list N * tree => tree_depth (snd e))). cbn [tree_depth]. lia.
Qed.
Lemma accepted_any tc lim t s : accepted (Config tc lim true) t s <-> json_text tc t s /\ within lim (tree_depth t).
Proof. unfold accepted, within. cbn. destruct lim; tauto. Qed.

(** An array is parsed exactly from a bracketed list of texts separated by commas that parse, each on its own and one level less deep,
    to the elements ([trailing]: one more comma at the end, if allowed). *)
Theorem C70_array pw tc lim roots s vs :
  parsed_from pw (Config tc (option_map N.succ lim) roots) s (VArray vs) <->
  N.of_nat (length s) <= isize_max pw /\ exists w body w', ws w /\ ws w' /\ s = w ++ bs "[" ++ body ++ bs "]" ++ w' /\
   (vs = [] /\ ws body \/
    exists us tr, trailing tc tr /\ us <> [] /\ body = join (bs ",") us ++ tr /\ Forall2 (parsed_from pw (Config tc lim true)) us vs).
Proof.
  rewrite parsed_from_iff. change (bs "[") with [91]. change (bs "]") with [93]. change (bs ",") with [44]. split; intros [Hl H]; (split; [exact Hl|]).
  - destruct H as (t & ((w & b & w' & H1 & H & H2 & ->) & Hd & _) & Hr). cbn [allow_trailing_commas recursion_limit] in *.
    inversion Hr as [ | | | |ts ? Hv|]; subst. apply depth_arr in Hd. inversion H as [ | | | | |b' Hb|ts' b' Hb| |]; subst.
    + exists w, b', w'. split; [exact H1|]. split; [exact H2|]. split; [cbn [app]; rewrite <- !app_assoc; reflexivity|]. left. inversion Hv; subst. auto.
    + exists w, b', w'. split; [exact H1|]. split; [exact H2|]. split; [cbn [app]; rewrite <- !app_assoc; reflexivity|]. right.
      apply elements_iff in Hb as (us & tr & Htr & Hne & -> & Hu). exists us, tr. split; [exact Htr|]. split; [exact Hne|]. split; [reflexivity|].
      assert (L : Forall (fun u : list N => N.of_nat (length u) <= isize_max pw) us).
      { apply Forall_forall. intros u Hu'. apply (join_length [44]) in Hu'. rewrite !app_length in Hl. cbn [length] in Hl. rewrite !app_length in Hl. lia. }
      clear - Hv Hd Hu L. revert vs Hv. induction Hu as [|t u ts us Ht Hu IH]; intros vs Hv; inversion Hv; subst; constructor; inversion Hd; inversion L; subst; auto.
      apply parsed_from_iff. split; [assumption|]. exists t. split; [apply accepted_any; auto|assumption].
  - destruct H as (w & body & w' & H1 & H2 & -> & [[-> Hb]|(us & tr & Htr & Hne & -> & Hu)]).
    + exists (TArr []). split; [|constructor; constructor]. split; [|split; [destruct lim; cbn; lia|right; reflexivity]].
      exists w, (91 :: body ++ [93]), w'. split; [exact H1|]. split; [constructor; exact Hb|]. split; [exact H2|]. cbn [app]. rewrite <- !app_assoc. reflexivity.
    + assert (K : exists ts, Forall2 (json_text tc) ts us /\ Forall (fun t => within lim (tree_depth t)) ts /\ Forall2 (value_repr pw) ts vs).
      { clear - Hu. induction Hu as [|u v us vs Hv Hu (ts & A & B & C)]; [exists []; split; [constructor|split; constructor]|].
        apply parsed_from_iff in Hv as (_ & t & Ha & Hr). apply accepted_any in Ha as [Ht Hd]. exists (t :: ts). split; [constructor; assumption|split; constructor; assumption]. }
      destruct K as (ts & A & B & C). exists (TArr ts). split; [|constructor; exact C]. split; [|split; [apply depth_arr; exact B|right; reflexivity]].
      eexists w, (91 :: (join [44] us ++ tr) ++ [93]), w'. split; [exact H1|]. split; [constructor; apply elements_iff; exists us, tr; auto|]. split; [exact H2|].
      cbn [app]. rewrite <- !app_assoc. reflexivity.
Qed.

(** A member is parsed from a string text, a colon and a value text. *)
Definition parsed_member (pw : pwidth) (cfg : parse_config) (u : list N) (e : json_string * value) : Prop :=
  exists k x, parsed_from pw cfg k (VString (fst e)) /\ parsed_from pw cfg x (snd e) /\ u = k ++ bs ":" ++ x.

Theorem C70_object pw tc lim roots s o :
  parsed_from pw (Config tc (option_map N.succ lim) roots) s (VObject o) <->
  N.of_nat (length s) <= isize_max pw /\ exists w body w', ws w /\ ws w' /\ s = w ++ bs "{" ++ body ++ bs "}" ++ w' /\
   (o = [] /\ ws body \/
    exists us tr, trailing tc tr /\ us <> [] /\ body = join (bs ",") us ++ tr /\ Forall2 (parsed_member pw (Config tc lim true)) us o).
Proof.
  rewrite parsed_from_iff. change (bs "{") with [123]. change (bs "}") with [125]. change (bs ",") with [44]. split; intros [Hl H]; (split; [exact Hl|]).
  - destruct H as (t & ((w & b & w' & H1 & H & H2 & ->) & Hd & _) & Hr). cbn [allow_trailing_commas recursion_limit] in *.
    inversion Hr as [ | | | | |ts ? Hv]; subst. apply depth_obj in Hd. inversion H as [ | | | | | | |b' Hb|ts' b' Hb]; subst.
    + exists w, b', w'. split; [exact H1|]. split; [exact H2|]. split; [cbn [app]; rewrite <- !app_assoc; reflexivity|]. left. inversion Hv; subst. auto.
    + exists w, b', w'. split; [exact H1|]. split; [exact H2|]. split; [cbn [app]; rewrite <- !app_assoc; reflexivity|]. right.
      apply members_iff in Hb as (us & tr & Htr & Hne & -> & Hu). exists us, tr. split; [exact Htr|]. split; [exact Hne|]. split; [reflexivity|].
      assert (L : Forall (fun u : list N => N.of_nat (length u) <= isize_max pw) us).
      { apply Forall_forall. intros u Hu'. apply (join_length [44]) in Hu'. rewrite !app_length in Hl. cbn [length] in Hl. rewrite !app_length in Hl. lia. }
      clear - Hv Hd Hu L. revert o Hv. induction Hu as [|[k t] u ts us Ht Hu IH]; intros o Hv; inversion Hv as [|? [key v] ? ? [(cs & Hcs & Ek) Hvr]]; subst; constructor; inversion Hd; inversion L; subst; auto.
      destruct Ht as (kt & x & Hkt & Hx & ->). cbn [fst snd] in *. rewrite app_length in *. cbn [length app] in *. exists kt, x. cbn [fst snd]. split; [|split; [|reflexivity]].
      * apply parsed_from_iff. split; [lia|]. exists (TStr k). split; [apply accepted_any; split; [exact Hkt|destruct lim; cbn; lia]|]. rewrite Ek. constructor. exact Hcs.
      * apply parsed_from_iff. split; [lia|]. exists t. split; [apply accepted_any; auto|assumption].
  - destruct H as (w & body & w' & H1 & H2 & -> & [[-> Hb]|(us & tr & Htr & Hne & -> & Hu)]).
    + exists (TObj []). split; [|constructor; constructor]. split; [|split; [destruct lim; cbn; lia|right; reflexivity]].
      exists w, (123 :: body ++ [125]), w'. split; [exact H1|]. split; [constructor; exact Hb|]. split; [exact H2|]. cbn [app]. rewrite <- !app_assoc. reflexivity.
    + assert (K : exists ts, Forall2 (member_text tc) ts us /\ Forall (fun e : list N * tree => within lim (tree_depth (snd e))) ts /\
        Forall2 (fun e f => (exists cs, str_body (fst e) cs /\ fst f = string_for pw (fst e) cs) /\ value_repr pw (snd e) (snd f)) ts o).
      { clear - Hu. induction Hu as [|u [key v] us vs (kt & x & Hk & Hv & ->) Hu (ts & A & B & C)]; [exists []; split; [constructor|split; constructor]|].
        cbn [fst snd] in *. apply parsed_from_iff in Hk as (_ & tk & Hak & Hrk). apply parsed_from_iff in Hv as (_ & t & Ha & Hr).
        apply accepted_any in Ha as [Ht Hd]. apply accepted_any in Hak as [Htk _]. inversion Hrk as [ | | |raw cs Hcs| |]; subst. exists ((raw, t) :: ts).
        split; [constructor; [exists kt, x; auto|exact A]|split; constructor; try assumption]. cbn [fst snd]. split; [eauto|exact Hr]. }
      destruct K as (ts & A & B & C). exists (TObj ts). split; [|constructor; exact C]. split; [|split; [apply depth_obj; exact B|right; reflexivity]].
      eexists w, (123 :: (join [44] us ++ tr) ++ [125]), w'. split; [exact H1|]. split; [constructor; apply members_iff; exists us, tr; auto|]. split; [exact H2|].
      cbn [app]. rewrite <- !app_assoc. reflexivity.
Qed.

(** With limit 0 only scalars are parsed. *)
Theorem C70_limit_zero pw tc roots s v : parsed_from pw (Config tc (Some 0) roots) s v -> as_array v = None /\ as_object v = None.
Proof.
  intro H. apply parsed_from_iff in H as (_ & t & (_ & Hd & _) & Hr). cbn [recursion_limit] in Hd.
  destruct Hr; cbn [as_array as_object tree_depth] in *; auto; lia.
Qed.

(** Scalars do not depend on the limit. *)
Theorem C70_scalar_any_limit pw tc lim lim' s v : as_array v = None -> as_object v = None ->
  parsed_from pw (Config tc lim true) s v -> parsed_from pw (Config tc lim' true) s v.
Proof.
  intros E1 E2 H. apply parsed_from_iff in H as (Hl & t & Ha & Hr). apply parsed_from_iff. split; [exact Hl|]. exists t. split; [|exact Hr].
  apply accepted_any in Ha as [Ht _]. apply accepted_any. split; [exact Ht|]. destruct Hr; try discriminate; destruct lim'; cbn; lia.
Qed.

(** So a text written into a bracketed list parses to what it parses to alone. *)
Corollary C70_wrap pw tc lim roots s v : parsed_from pw (Config tc lim true) s v -> N.of_nat (length s) + 2 <= isize_max pw ->
  parsed_from pw (Config tc (option_map N.succ lim) roots) (bs "[" ++ s ++ bs "]") (VArray [v]).
Proof.
  intros H Hl. apply C70_array. split; [rewrite !app_length; cbn [length bs]; cbn; lia|]. exists [], s, []. split; [constructor|]. split; [constructor|].
  split; [reflexivity|]. right. exists [s], []. split; [constructor|]. split; [discriminate|]. split; [cbn [join]; rewrite app_nil_r; reflexivity|].
  constructor; [exact H|constructor].
Qed.

Example splice_sample : exists v w, parsed_from W32 (Config false None true) (bs " 1 ") v /\ parsed_from W32 (Config false None true) (bs "{""a"":[]}") w /\
  parsed_from W32 (Config false None false) (bs "[ 1 ,{""a"":[]}]") (VArray [v; w]).
Proof.
  eexists _, _. split; [|split]; (right; split; [apply utf8_checked; [reflexivity|vm_compute; discriminate]|vm_compute; reflexivity]).
Qed.
