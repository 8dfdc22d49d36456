(** * C06 continued: the comma really is an extra comma.
    A text accepted with trailing commas allowed becomes, by deleting commas that stand before a closing
    bracket, a text accepted without the option, with the same value. *)

From Verif Require Import Base Utf8 Utf8Facts StrModel ErrorModel Tokenizer Parser ValueModel DocModel NumModel Spec
  TokBase TokStr TokFacts Trace ParserGen ParserSound ParserComplete Sim SimInst StrSpec View ParseMain GrammarFacts PropParse.

Local Open Scope N_scope.

(** [fewer_commas s s']: [s'] is [s] after deleting, zero or more times, a comma followed by whitespace and
    a closing bracket. *)
Inductive fewer_commas : list N -> list N -> Prop :=
| fc_refl s : fewer_commas s s
| fc_delete a w c b s' : ws w -> c = 93 \/ c = 125 ->
    fewer_commas (a ++ w ++ c :: b) s' -> fewer_commas (a ++ 44 :: w ++ c :: b) s'.

Lemma fc_trans s1 s2 s3 : fewer_commas s1 s2 -> fewer_commas s2 s3 -> fewer_commas s1 s3.
Proof. induction 1 as [s|a w c b s' Hw Hc H IH]; [auto|]. intro H3. apply fc_delete; auto. Qed.

Lemma fc_around p q s s' : fewer_commas s s' -> fewer_commas (p ++ s ++ q) (p ++ s' ++ q).
Proof.
  induction 1 as [s|a w c b s' Hw Hc H IH]; [constructor|].
  replace (p ++ (a ++ 44 :: w ++ c :: b) ++ q) with ((p ++ a) ++ 44 :: w ++ c :: (b ++ q)) by (repeat (rewrite <- !app_assoc; cbn [app]); reflexivity).
  apply fc_delete; auto.
  replace ((p ++ a) ++ w ++ c :: b ++ q) with (p ++ (a ++ w ++ c :: b) ++ q) by (repeat (rewrite <- !app_assoc; cbn [app]); reflexivity).
  exact IH.
Qed.

Lemma fc_before p s s' : fewer_commas s s' -> fewer_commas (p ++ s) (p ++ s').
Proof. intro H. apply (fc_around p []) in H. rewrite !app_nil_r in H. exact H. Qed.
Lemma fc_after q s s' : fewer_commas s s' -> fewer_commas (s ++ q) (s' ++ q).
Proof. exact (fc_around [] q s s'). Qed.

Lemma trailing_fc tr w c : trailing true tr -> c = 93 \/ c = 125 -> fewer_commas (w ++ tr ++ [c]) ((w ++ match tr with [] => [] | _ :: w' => w' end) ++ [c]).
Proof.
  intros [|w' _ Hw'] Hc; cbn [app].
  - rewrite app_nil_r. constructor.
  - apply fc_delete; auto. rewrite <- app_assoc. constructor.
Qed.

Lemma trailing_ws tr : trailing true tr -> ws (match tr with [] => [] | _ :: w' => w' end).
Proof. intros [|w' _ Hw']; [constructor|exact Hw']. Qed.

Lemma text_fewer :
  (forall t s, value_text true t s -> exists s', fewer_commas s s' /\ value_text false t s') /\
  (forall l s, elements true l s -> forall c, c = 93 \/ c = 125 ->
     exists s', fewer_commas (s ++ [c]) (s' ++ [c]) /\ elements false l s') /\
  (forall l s, members true l s -> forall c, c = 93 \/ c = 125 ->
     exists s', fewer_commas (s ++ [c]) (s' ++ [c]) /\ members false l s').
Proof.
  apply (text_mutind true (fun t s _ => exists s', fewer_commas s s' /\ value_text false t s')
    (fun l s _ => forall c, c = 93 \/ c = 125 -> exists s', fewer_commas (s ++ [c]) (s' ++ [c]) /\ elements false l s')
    (fun l s _ => forall c, c = 93 \/ c = 125 -> exists s', fewer_commas (s ++ [c]) (s' ++ [c]) /\ members false l s')).
  - eexists; split; constructor.
  - eexists; split; constructor.
  - eexists; split; constructor.
  - intros n Hn. eexists; split; constructor. exact Hn.
  - intros raw cs H. eexists; split; [constructor|econstructor; exact H].
  - intros w H. eexists; split; [constructor|constructor; exact H].
  - intros l s H IH. destruct (IH 93) as (s' & H1 & H2); [auto|]. exists (91 :: s' ++ [93]). split; [|constructor; exact H2].
    exact (fc_before [91] _ _ H1).
  - intros w H. eexists; split; [constructor|constructor; exact H].
  - intros l s H IH. destruct (IH 125) as (s' & H1 & H2); [auto|]. exists (123 :: s' ++ [125]). split; [|constructor; exact H2].
    exact (fc_before [123] _ _ H1).
  - intros t w1 s w2 tr H1 Hv (s' & F & Hv') H2 Htr c Hc.
    exists (w1 ++ s' ++ (w2 ++ match tr with [] => [] | _ :: w' => w' end) ++ []). split.
    + rewrite app_nil_r. rewrite <- !app_assoc. apply fc_before.
      apply fc_trans with (s' ++ w2 ++ tr ++ [c]); [apply fc_after; exact F|]. apply fc_before.
      rewrite (app_assoc w2 (match tr with [] => [] | _ :: w' => w' end)). apply trailing_fc; assumption.
    + constructor; auto; [|constructor]. apply Forall_app. split; [exact H2|apply trailing_ws; exact Htr].
  - intros t l w1 s w2 r H1 Hv (s' & F & Hv') H2 Hel IH c Hc. destruct (IH c Hc) as (r' & Fr & Hr').
    exists (w1 ++ s' ++ w2 ++ 44 :: r'). split; [|constructor; auto].
    rewrite <- !app_assoc. cbn [app]. apply fc_before.
    apply fc_trans with (s' ++ w2 ++ 44 :: r ++ [c]); [apply fc_after; exact F|]. apply fc_before. apply fc_before.
    exact (fc_before [44] _ _ Fr).
  - intros k cs t w1 w2 w3 s w4 tr H1 Hk H2 H3 Hv (s' & F & Hv') H4 Htr c Hc.
    exists (w1 ++ (34 :: k ++ [34]) ++ w2 ++ 58 :: w3 ++ s' ++ (w4 ++ match tr with [] => [] | _ :: w' => w' end) ++ []). split.
    + rewrite app_nil_r. repeat (rewrite <- !app_assoc; cbn [app]). apply fc_before.
      change (fewer_commas ((34 :: k ++ 34 :: w2 ++ [58] ++ w3 ++ s ++ w4 ++ tr ++ [c])) ((34 :: k ++ 34 :: w2 ++ [58] ++ w3 ++ s' ++ w4 ++ match tr with [] => [] | _ :: w' => w' end ++ [c]))).
      apply (fc_before [34]). apply fc_before. apply (fc_before [34]). apply fc_before. apply fc_before. apply fc_before.
      apply fc_trans with (s' ++ w4 ++ tr ++ [c]); [apply fc_after; exact F|]. apply fc_before.
      rewrite (app_assoc w4 (match tr with [] => [] | _ :: w' => w' end)). apply trailing_fc; assumption.
    + econstructor; eauto; [|constructor]. apply Forall_app. split; [exact H4|apply trailing_ws; exact Htr].
  - intros k cs t l w1 w2 w3 s w4 r H1 Hk H2 H3 Hv (s' & F & Hv') H4 Hm IH c Hc. destruct (IH c Hc) as (r' & Fr & Hr').
    exists (w1 ++ (34 :: k ++ [34]) ++ w2 ++ 58 :: w3 ++ s' ++ w4 ++ 44 :: r'). split; [|econstructor; eauto].
    repeat (rewrite <- !app_assoc; cbn [app]). apply fc_before.
    apply (fc_before [34]). apply fc_before. apply (fc_before [34]). apply fc_before. apply (fc_before [58]). apply fc_before.
    apply fc_trans with (s' ++ w4 ++ 44 :: r ++ [c]); [apply fc_after; exact F|]. apply fc_before. apply fc_before.
    exact (fc_before [44] _ _ Fr).
Qed.

Lemma fewer_rust_slice pw s s' : fewer_commas s s' -> rust_slice pw s -> rust_slice pw s'.
Proof.
  induction 1 as [s|a w c b s' Hw Hc H IH]; [auto|]. intro Hr. apply IH. destruct Hr as [Hb Hl].
  split; [|rewrite ?app_length in *; cbn [length] in *; rewrite ?app_length in *; cbn [length] in *; lia].
  unfold is_bytes in *. rewrite Forall_app in *. destruct Hb as [H1 H2]. split; [exact H1|]. inversion H2; assumption.
Qed.

Theorem C06_extra_commas_mean_nothing pw cfg s v : rust_slice pw s -> allow_trailing_commas cfg = false ->
  value_from_json_bytes_with_config pw s (allowing_trailing_commas cfg) = Ok v ->
  exists s', fewer_commas s s' /\ value_from_json_bytes_with_config pw s' cfg = Ok v.
Proof.
  intros Hs Htc E. apply value_bytes_iff in E as (t & (Ha & Hd & Hroot) & Hr); [|exact Hs].
  destruct Ha as (w1 & b & w2 & H1 & Hb & H2 & ->). cbn in Hb.
  destruct (proj1 text_fewer _ _ Hb) as (b' & F & Hb').
  exists (w1 ++ b' ++ w2). assert (F' := fc_around w1 w2 _ _ F). split; [exact F'|].
  assert (Hs' := fewer_rust_slice _ _ _ F' Hs).
  apply value_bytes_iff; [exact Hs'|]. exists t. split; [|exact Hr]. split; [|split; [exact Hd|exact Hroot]].
  exists w1, b', w2. rewrite Htc. auto.
Qed.

(** A comma before the closing brace of the outermost object: accepted with the option, with the members' value. *)
Theorem C06_accepted_with_option_object pw cfg l x w : rust_slice pw (123 :: (x ++ 44 :: w) ++ [125]) -> ws w ->
  members false l x -> accepted cfg (TObj l) (123 :: x ++ [125]) ->
  exists v v', value_from_json_bytes_with_config pw (123 :: (x ++ 44 :: w) ++ [125]) (allowing_trailing_commas cfg) = Ok v /\
    value_from_json_bytes_with_config pw (123 :: x ++ [125]) cfg = Ok v' /\ tree_of v = TObj l /\ v = v'.
Proof.
  intros H Hw Hel Ha.
  assert (Hel' : members true l (x ++ 44 :: w)).
  { clear H Ha. induction Hel as [k cs t w1 w2 w3 s w4 tr H1 Hk H2 H3 Hv H4 Htr|k cs t l w1 w2 w3 s w4 r H1 Hk H2 H3 Hv H4 Hl IH].
    - destruct Htr as [|? E _]; [|discriminate]. rewrite app_nil_r. repeat (rewrite <- !app_assoc; cbn [app]).
      assert (M := me_last true k cs t w1 w2 w3 s w4 (44 :: w)). do 3 (rewrite <- ?app_assoc in M; cbn [app] in M). apply M; auto.
      + apply text_mono. exact Hv.
      + constructor; auto.
    - repeat (rewrite <- !app_assoc; cbn [app]). 
      assert (M := me_cons true k cs t l w1 w2 w3 s w4 (r ++ 44 :: w)). do 3 (rewrite <- ?app_assoc in M; cbn [app] in M). apply M; auto. apply text_mono. exact Hv. }
  assert (H' : rust_slice pw (123 :: x ++ [125])).
  { destruct H as [Hb Hl]. unfold rust_slice, is_bytes in *. cbn [length] in *. rewrite !app_length in *. cbn [length] in *.
    split; [|lia]. inversion Hb as [|? ? Hb0 Hb1]; subst. constructor; [exact Hb0|]. rewrite !Forall_app in Hb1. rewrite Forall_app. tauto. }
  destruct (C02_denoted_tree_is_returned pw cfg _ _ H' Ha) as (v' & E' & Ht').
  destruct (C02_denoted_tree_is_returned pw (allowing_trailing_commas cfg) (123 :: (x ++ 44 :: w) ++ [125]) (TObj l) H) as (v & E & Ht).
  { destruct Ha as (_ & Hd & Hr). repeat split; auto. cbn. exists [], (123 :: (x ++ 44 :: w) ++ [125]), []. rewrite app_nil_r.
    split; [constructor|]. split; [constructor; exact Hel'|]. split; [constructor|reflexivity]. }
  exists v, v'. repeat split; auto.
  apply value_bytes_iff in E as (t1 & _ & Hr1); [|exact H]. apply value_bytes_iff in E' as (t2 & _ & Hr2); [|exact H'].
  rewrite (value_repr_tree _ _ _ Hr1) in Ht. rewrite (value_repr_tree _ _ _ Hr2) in Ht'. subst t1 t2.
  eapply value_repr_fun; eassumption.
Qed.

(** Sample: [{"a":[1, ],}] and [{"a":[1 ]}]. *)
Example C06_sample_extra_commas :
  let s := [123; 34; 97; 34; 58; 91; 49; 44; 32; 93; 44; 125] in
  let s' := [123; 34; 97; 34; 58; 91; 49; 32; 93; 125] in
  rust_slice W64 s /\ fewer_commas s s' /\
  exists v, value_from_json_bytes_with_config W64 s (allowing_trailing_commas config_default) = Ok v /\
    value_from_json_bytes_with_config W64 s' config_default = Ok v /\
    exists e, value_from_json_bytes_with_config W64 s config_default = Err e.
Proof.
  cbv zeta. split; [split; [repeat constructor|vm_compute; discriminate]|]. split.
  - apply (fc_delete [123; 34; 97; 34; 58; 91; 49] [32] 93 [44; 125]); [repeat constructor|auto|].
    apply (fc_delete [123; 34; 97; 34; 58; 91; 49; 32; 93] [] 125 []); [constructor|auto|]. constructor.
  - eexists. split; [vm_compute; reflexivity|]. split; [vm_compute; reflexivity|]. eexists. vm_compute. reflexivity.
Qed.
