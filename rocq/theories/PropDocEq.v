(** Property theorem C73: equality of documents. *)
From Verif Require Import Base Utf8 StrModel ErrorModel Tokenizer Parser ValueModel DocModel Spec View SimInst DocFacts StrFacts StrWf StrObt StrSpec TokBase TokStr TokFacts Utf8Facts StrEsc PropTok PropEntry PropStr
  PropParse PropValue ParseMain PropEsc PropWrite PropIter.

Lemma Forall2_len {A B} (P : A -> B -> Prop) l m : Forall2 P l m -> length l = length m.
Proof. induction 1; cbn; congruence. Qed.

(** Nodes that are equal: same variant, same boolean or length, equal strings, same number text. *)
Inductive same_node (RS : json_string -> json_string -> Prop) : node -> node -> Prop :=
| sn_null : same_node RS NNull NNull
| sn_boolean b : same_node RS (NBoolean b) (NBoolean b)
| sn_string x y : RS x y -> same_node RS (NString x) (NString y)
| sn_number x y : same_text x y -> same_node RS (NNumber x) (NNumber y)
| sn_object n : same_node RS (NObject n) (NObject n)
| sn_array n : same_node RS (NArray n) (NArray n).

Lemma node_eq_iff pw a b : node_eq pw a b = Ok true <-> same_node (fun x y => js_eq pw x y = Ok true) a b.
Proof.
  destruct a, b; cbn [node_eq]; try (split; [discriminate|intro H; inversion H]).
  - split; [constructor|reflexivity].
  - split; [intro H; injection H as H; apply eqb_prop in H; subst; constructor|intro H; inversion H; f_equal; apply eqb_reflx].
  - split; [intro H; constructor; exact H|intro H; inversion H; assumption].
  - unfold jn_eq. split.
    + intro H. injection H as H. constructor. apply bytes_eqb_eq. exact H.
    + intro H. inversion H as [| | |? ? E| |]; subst. f_equal. apply bytes_eqb_eq. exact E.
  - split; [intro H; injection H as H; apply Nat.eqb_eq in H; subst; constructor|intro H; inversion H; f_equal; apply Nat.eqb_refl].
  - split; [intro H; injection H as H; apply Nat.eqb_eq in H; subst; constructor|intro H; inversion H; f_equal; apply Nat.eqb_refl].
Qed.
Lemma and_then_true a b : and_then a b = Ok true <-> a = Ok true /\ b = Ok true.
Proof.
  unfold and_then, bind. destruct a as [[|]|e|f]; try (split; [discriminate|intros [H _]; discriminate]). split; [auto|tauto].
Qed.
Lemma document_eq_iff pw a b : document_eq pw a b = Ok true <-> Forall2 (same_node (fun x y => js_eq pw x y = Ok true)) a b.
Proof.
  unfold document_eq. assert (K : length a = length b -> (nodes_eq pw a b = Ok true <-> Forall2 (same_node (fun x y => js_eq pw x y = Ok true)) a b)).
  { revert b. induction a as [|x a IH]; intros [|y b] E; try discriminate; cbn [nodes_eq].
    - split; auto.
    - rewrite and_then_true, node_eq_iff, IH by (cbn in E; lia). split; [intros [H1 H2]; auto|intro H; inversion H; auto]. }
  destruct (Nat.eqb_spec (length a) (length b)) as [E|E]; cbn [negb]; [exact (K E)|].
  split; [discriminate|]. intro H. apply Forall2_len in H. contradiction.
Qed.

(** Lists of nodes in preorder determine the tree. *)
Section Preorder.
  Variable RS : json_string -> json_string -> Prop.
  Notation SN := (Forall2 (same_node RS)).
  Lemma related_nodes : forall v w, related RS same_text v w -> SN (preorder v) (preorder w).
  Proof.
    induction v as [x|s|b|o IH|l IH|] using value_ind'; intros w H; inversion H as [|?|? ? Hn|? ? Hs|? m Hm|? p Hp]; subst; cbn [preorder];
      try (constructor; [|constructor]; constructor; assumption).
    - rewrite (Forall2_len _ _ _ Hp). constructor; [constructor|]. clear H. induction Hp as [|[k v] [k' w] o p [Hk Hv] Hp IHp]; [constructor|].
      inversion IH as [|? ? Iv Io]; subst. cbn [flat_map fst snd app] in *. constructor; [constructor; exact Hk|]. apply Forall2_app; [apply Iv, Hv|apply IHp, Io].
    - rewrite (Forall2_len _ _ _ Hm). constructor; [constructor|]. clear H. induction Hm as [|v w l m Hv Hm IHm]; [constructor|].
      inversion IH as [|? ? Iv Io]; subst. cbn [flat_map]. apply Forall2_app; [apply Iv, Hv|apply IHm, Io].
  Qed.
  Lemma nodes_related : forall v w r1 r2, SN (preorder v ++ r1) (preorder w ++ r2) -> related RS same_text v w /\ SN r1 r2.
  Proof.
    induction v as [x|s|b|o IH|l IH|] using value_ind'; intros w r1 r2 H; destruct w as [y|t|c|p|m|]; cbn [preorder app] in H;
      inversion H as [|? ? ? ? Hn Hr]; subst; inversion Hn; subst; try (split; [constructor; assumption|exact Hr]).
    - assert (K : forall p r1 r2, length o = length p ->
        SN (flat_map (fun e => NString (fst e) :: preorder (snd e)) o ++ r1) (flat_map (fun e => NString (fst e) :: preorder (snd e)) p ++ r2) ->
        Forall2 (fun e f => RS (fst e) (fst f) /\ related RS same_text (snd e) (snd f)) o p /\ SN r1 r2).
      { clear - IH. induction IH as [|[k v] o Hv IH IHo]; intros [|[k' w] p] r1 r2 El H; try discriminate; [split; [constructor|exact H]|].
        cbn [flat_map fst snd app] in *. inversion H as [|? ? ? ? Hk Hr]; subst. inversion Hk; subst. rewrite <- !app_assoc in Hr. apply Hv in Hr as [Hr1 Hr].
        apply IHo in Hr as [Hr2 Hr]; [|cbn in El; lia]. split; [constructor; [split; assumption|exact Hr2]|exact Hr]. }
      apply K in Hr as [Hr1 Hr]; [|assumption]. split; [constructor; exact Hr1|exact Hr].
    - assert (K : forall m r1 r2, length l = length m -> SN (flat_map preorder l ++ r1) (flat_map preorder m ++ r2) ->
        Forall2 (related RS same_text) l m /\ SN r1 r2).
      { clear - IH. induction IH as [|v l Hv IH IHl]; intros [|w m] r1 r2 El H; try discriminate; [split; [constructor|exact H]|].
        cbn [flat_map] in *. rewrite <- !app_assoc in H. apply Hv in H as [Hr1 H]. apply IHl in H as [Hr2 H]; [|cbn in El; lia].
        split; [constructor; assumption|exact H]. }
      apply K in Hr as [Hr1 Hr]; [|assumption]. split; [constructor; exact Hr1|exact Hr].
  Qed.
  Lemma nodes_related_iff v w : SN (preorder v) (preorder w) <-> related RS same_text v w.
  Proof.
    split; [|apply related_nodes]. intro H. rewrite <- (app_nil_r (preorder v)), <- (app_nil_r (preorder w)) in H.
    apply nodes_related in H. tauto.
  Qed.
End Preorder.

(** * C73 *)
Lemma preorder_strings (P : json_string -> Prop) : forall v, all_strings P v -> Forall (fun n => match n with NString s => P s | _ => True end) (preorder v).
Proof.
  induction v as [x|s|b|o IH|l IH|] using value_ind'; intros H; inversion H as [| | |? Hs|? Hl|? Ho]; subst; cbn [preorder]; try (constructor; [auto|constructor]).
  - constructor; [exact I|]. clear H. induction Ho as [|[k v] o [Hk Hv] Ho IHo]; [constructor|]. inversion IH; subst. cbn [flat_map fst snd app] in *.
    constructor; [exact Hk|]. apply Forall_app. auto.
  - constructor; [exact I|]. clear H. induction Hl as [|v l Hv Hl IHl]; [constructor|]. inversion IH; subst. cbn [flat_map]. apply Forall_app. auto.
Qed.
Lemma nodes_eq_total pw a b : Forall (fun n => match n with NString s => obtainable pw s | _ => True end) a ->
  Forall (fun n => match n with NString s => obtainable pw s | _ => True end) b -> exists x, document_eq pw a b = Ok x.
Proof.
  intros Ha Hb. unfold document_eq. destruct (negb _); [eauto|]. revert b Hb. induction Ha as [|x a Hx Ha IH]; intros [|y b] Hb; try (eexists; reflexivity).
  inversion Hb as [|? ? Hy Hb']; subst. cbn [nodes_eq]. destruct (IH b Hb') as [c Ec]. rewrite Ec.
  assert (K : exists d, node_eq pw x y = Ok d).
  { destruct x, y; try (eexists; reflexivity). cbn [node_eq]. destruct (obtainable_wf pw _ Hx) as (cs & Wx). destruct (obtainable_wf pw _ Hy) as (ds & Wy).
    rewrite (jwf_eq _ _ _ _ _ Wx Wy). eauto. }
  destruct K as [d ->]. unfold and_then. cbn [bind]. destruct d; eauto.
Qed.

(** Documents built from the same value in preorder are equal exactly if the values are; [==] on them does not panic. *)
Theorem C73_like_value_equality pw v w : all_strings (obtainable pw) v -> all_strings (obtainable pw) w ->
  exists b, document_eq pw (preorder v) (preorder w) = Ok b /\ value_eq pw v w = Ok b.
Proof.
  intros Hv Hw. destruct (nodes_eq_total pw (preorder v) (preorder w)) as [b Eb]; [apply preorder_strings; assumption..|].
  destruct (C54_never_panics pw v w Hv Hw) as [c Ec].
  assert (K : document_eq pw (preorder v) (preorder w) = Ok true <-> value_eq pw v w = Ok true).
  { rewrite document_eq_iff, C54_value_equality. apply nodes_related_iff. }
  exists b. split; [exact Eb|]. rewrite Ec. f_equal. rewrite Eb, Ec in K. destruct b, c; try reflexivity.
  - destruct K as [K _]. specialize (K eq_refl). injection K as ->. reflexivity.
  - destruct K as [_ K]. specialize (K eq_refl). injection K as ->. reflexivity.
Qed.

Lemma document_parsed pw cfg s doc v : document_for pw cfg s doc v -> parsed_from pw cfg s v.
Proof. intros (cap & [(A & _ & B)|(A & _ & B)]); [left|right]; auto. Qed.

(** Two parsed documents are equal exactly if the values they convert to are equal ... *)
Theorem C73_document_equality pw cfg1 s1 d1 v1 cfg2 s2 d2 v2 : document_for pw cfg1 s1 d1 v1 -> document_for pw cfg2 s2 d2 v2 ->
  exists b, document_eq pw d1 d2 = Ok b /\ value_eq pw v1 v2 = Ok b.
Proof.
  intros H1 H2. rewrite (document_preorder _ _ _ _ _ H1), (document_preorder _ _ _ _ _ H2).
  apply C73_like_value_equality; apply parsed_obtainable; eapply parsed_from_strings, document_parsed; eassumption.
Qed.
(** ... that is, if the texts denote trees of the same shape with the same decoded strings (keys in the same order) and the same
    number texts. *)
Theorem C73_equal_documents pw cfg1 s1 d1 v1 cfg2 s2 d2 v2 : document_for pw cfg1 s1 d1 v1 -> document_for pw cfg2 s2 d2 v2 ->
  (document_eq pw d1 d2 = Ok true <-> related (fun x y => js_decoded pw x = js_decoded pw y) same_text v1 v2).
Proof.
  intros H1 H2. destruct (C73_document_equality _ _ _ _ _ _ _ _ _ H1 H2) as (b & -> & E).
  rewrite <- (C54_parsed_values pw v1 v2), E; [reflexivity|eapply parsed_from_strings, document_parsed; eassumption..].
Qed.
(** Different texts may give equal documents: whitespace, escapes and the capacity of the backing storage do not matter; number
    spelling and key order do. *)
Example C73_sample : exists d1 d2 v1 v2,
  document_for W64 config_default (bs "{""a"": [1, ""\u0062""]}") d1 v1 /\ document_for W64 config_strict (bs "{""\u0061"":[1,""b""]}") d2 v2 /\
  document_eq W64 d1 d2 = Ok true.
Proof.
  eexists _, _, _, _. split; [exists (Some 5%nat); left; split; [apply rust_str_slice, utf8_checked; [vm_compute; reflexivity|vm_compute; discriminate]|split; vm_compute; reflexivity]|].
  split; [exists None; left; split; [apply rust_str_slice, utf8_checked; [vm_compute; reflexivity|vm_compute; discriminate]|split; vm_compute; reflexivity]|].
  vm_compute; reflexivity.
Qed.
Example C73_sample_different : exists d1 d2 v1 v2,
  document_for W64 config_default (bs "[1]") d1 v1 /\ document_for W64 config_default (bs "[1.0]") d2 v2 /\ document_eq W64 d1 d2 = Ok false.
Proof.
  eexists _, _, _, _. split; [exists None; left; split; [apply rust_str_slice, utf8_checked; [vm_compute; reflexivity|vm_compute; discriminate]|split; vm_compute; reflexivity]|].
  split; [exists None; left; split; [apply rust_str_slice, utf8_checked; [vm_compute; reflexivity|vm_compute; discriminate]|split; vm_compute; reflexivity]|].
  vm_compute; reflexivity.
Qed.


(** * C52 for documents: every string and number node borrows from the input *)
Lemma preorder_all_strings P v : all_strings P v -> forall x, In (NString x) (preorder v) -> P x.
Proof.
  induction v as [n|s|b|o IH|l IH|] using value_ind'; intros H x Hin; inversion H as [| | |s' Hs|l' Hl|o' Ho]; subst; cbn [preorder] in Hin.
  - destruct Hin as [E|[]]; discriminate.
  - destruct Hin as [E|[]]. injection E as ->. assumption.
  - destruct Hin as [E|[]]; discriminate.
  - destruct Hin as [E|Hin]; [discriminate|]. apply in_flat_map in Hin as (e & He & Hin).
    rewrite Forall_forall in Ho. destruct (Ho _ He) as [H1 H2]. destruct Hin as [E|Hin]; [injection E as <-; exact H1|].
    rewrite Forall_forall in IH. exact (IH _ He H2 x Hin).
  - destruct Hin as [E|Hin]; [discriminate|]. apply in_flat_map in Hin as (e & He & Hin).
    rewrite Forall_forall in Hl, IH. exact (IH _ He (Hl _ He) x Hin).
  - destruct Hin as [E|[]]; discriminate.
Qed.
Lemma preorder_numbers P v : all_numbers P v -> forall x, In (NNumber x) (preorder v) -> P x.
Proof.
  induction v as [n|s|b|o IH|l IH|] using value_ind'; intros H x Hin; inversion H as [| |n' Hn| |l' Hl|o' Ho]; subst; cbn [preorder] in Hin.
  - destruct Hin as [E|[]]. injection E as ->. assumption.
  - destruct Hin as [E|[]]; discriminate.
  - destruct Hin as [E|[]]; discriminate.
  - destruct Hin as [E|Hin]; [discriminate|]. apply in_flat_map in Hin as (e & He & Hin).
    rewrite Forall_forall in Ho, IH. destruct Hin as [E|Hin]; [discriminate|]. exact (IH _ He (Ho _ He) x Hin).
  - destruct Hin as [E|Hin]; [discriminate|]. apply in_flat_map in Hin as (e & He & Hin).
    rewrite Forall_forall in Hl, IH. exact (IH _ He (Hl _ He) x Hin).
  - destruct Hin as [E|[]]; discriminate.
Qed.

Theorem C52_document_sources pw cfg s doc v : document_for pw cfg s doc v ->
  (forall x, In (NString x) doc -> parsed_string_ok s x) /\ (forall x, In (NNumber x) doc -> parsed_number_ok s x).
Proof.
  intro H. rewrite (document_preorder _ _ _ _ _ H).
  assert (K : all_strings (parsed_string_ok s) v /\ all_numbers (parsed_number_ok s) v).
  { destruct (document_parsed _ _ _ _ _ H) as [[H1 E]|[H1 E]].
    - exact (proj2 (C04_C52_parsed_sources _ _ _ _ H1 E)).
    - exact (C04_C52_parsed_sources_str _ _ _ _ H1 E). }
  split; [apply preorder_all_strings|apply preorder_numbers]; apply K.
Qed.
(** Every document obtained by parsing, of any capacity, belongs to a value in this sense. *)
Theorem C52_every_document pw cfg cap s doc :
  (rust_slice pw s -> document_from_json_bytes_with_config pw cap s cfg = Ok doc -> exists v, document_for pw cfg s doc v) /\
  (rust_str pw s -> document_from_json_with_config pw cap s cfg = Ok doc -> exists v, document_for pw cfg s doc v).
Proof.
  assert (B : rust_slice pw s -> document_from_json_bytes_with_config pw cap s cfg = Ok doc -> exists v, value_from_json_bytes_with_config pw s cfg = Ok v).
  { intros H E.
    assert (K : document_from_json_bytes_with_config pw None s cfg = Ok doc) by (destruct cap; [apply C14_bounded_capacity in E; tauto|exact E]).
    rewrite C09_C12_document_bytes in K by exact H. destruct (value_from_json_bytes_with_config pw s cfg) as [v| |]; try discriminate. eauto. }
  split; intros H E.
  - destruct (B H E) as [v Ev]. exists v, cap. left. split; [exact H|]. split; [exact E|exact Ev].
  - destruct (C03_entry_points_agree pw cfg cap s H) as (E1 & E2 & _).
    destruct (B (rust_str_slice _ _ H) (eq_trans (eq_sym E2) E)) as [v Ev].
    exists v, cap. right. split; [exact H|]. split; [exact E|exact (eq_trans E1 Ev)].
Qed.
Example C52_document_sample : exists doc v, document_for W64 config_new (bs "[""a"", {""k"": 1}]") doc v /\ length doc = 5%nat /\
  exists x, In (NString x) doc /\ stored x = bs "k".
Proof.
  let d := eval vm_compute in (document_from_json_bytes_with_config W64 (Some 5%nat) (bs "[""a"", {""k"": 1}]") config_new) in
  let v := eval vm_compute in (value_from_json_bytes_with_config W64 (bs "[""a"", {""k"": 1}]") config_new) in
  match d with Ok ?d => match v with Ok ?v => exists d, v end end.
  split; [|split; [reflexivity|]].
  - exists (Some 5%nat). left. split; [split; [repeat constructor|vm_compute; discriminate]|]. split; vm_compute; reflexivity.
  - match goal with |- exists x, In _ [_; _; _; NString ?k; _] /\ _ => exists k end. split; [|reflexivity].
    right. right. right. left. reflexivity.
Qed.
