(** Proof infrastructure: the grammar of SpecAbnf.v against the grammar of Spec.v. *)
From Verif Require Import Base Utf8 Utf8Facts Spec ParseMain SpecAbnf.
Local Open Scope N_scope.

Notation scalars := (Forall (fun c => is_scalar c = true)).

(** * A reading of expressions, given a reading of the rule names *)
Inductive star (P : list N -> Prop) : list N -> Prop :=
| star_nil : star P []
| star_cons u v : P u -> star P v -> star P (u ++ v).

Fixpoint sem (D : rule_name -> list N -> Prop) (e : expr) (cs : list N) : Prop :=
  match e with
  | Range lo hi => exists c, lo <= c <= hi /\ cs = [c]
  | Empty => cs = []
  | Seq a b => exists u v, sem D a u /\ sem D b v /\ cs = u ++ v
  | Alt a b => sem D a cs \/ sem D b cs
  | Star a => star (sem D a) cs
  | Ref n => D n cs
  end.

(** Derivability is the least reading closed under the rules. *)
Lemma derives_sem rules D : (forall n cs, sem D (rules n) cs -> D n cs) ->
  forall e cs, derives rules e cs -> sem D e cs.
Proof.
  intros HD e cs H. induction H; cbn [sem] in *; eauto.
  - constructor.
  - constructor; assumption.
Qed.
Lemma sem_derives rules e cs : sem (fun n => derives rules (Ref n)) e cs -> derives rules e cs.
Proof.
  revert cs. induction e; cbn [sem]; intros cs H.
  - destruct H as (c & H & ->). constructor; exact H.
  - subst. constructor.
  - destruct H as (u & v & Hu & Hv & ->). constructor; auto.
  - destruct H; [apply d_alt_l|apply d_alt_r]; auto.
  - induction H; [constructor|]. constructor; auto.
  - exact H.
Qed.
Lemma derives_ref rules n cs : sem (fun n => derives rules (Ref n)) (rules n) cs -> derives rules (Ref n) cs.
Proof. intro H. apply d_ref, sem_derives, H. Qed.

Lemma star_map (P Q : list N -> Prop) (f : list N -> list N) cs :
  f [] = [] -> (forall a b, f (a ++ b) = f a ++ f b) -> (forall u, P u -> Q (f u)) -> star P cs -> star Q (f cs).
Proof. intros H0 H1 H H2. induction H2; [rewrite H0; constructor|]. rewrite H1. constructor; auto. Qed.
Lemma star_impl (P Q : list N -> Prop) cs : (forall u, P u -> Q u) -> star P cs -> star Q cs.
Proof. intros H H2. apply (star_map P Q (fun c => c)); auto. Qed.
Lemma star_app P a b : star P a -> star P b -> star P (a ++ b).
Proof. intros H Hb. induction H; [exact Hb|]. rewrite <- app_assoc. constructor; assumption. Qed.
Lemma star_star P a : star (star P) a -> star P a.
Proof. intros H. induction H; [constructor|]. apply star_app; assumption. Qed.
Lemma star_scalars (P : list N -> Prop) cs : star (fun u => scalars u -> P u) cs -> scalars cs -> star (fun u => scalars u /\ P u) cs.
Proof. intro H. induction H; intro Hs; [constructor|]. apply Forall_app in Hs as [? ?]. constructor; auto. Qed.
Lemma star_one (p : N -> Prop) cs : star (fun u => exists c, p c /\ u = [c]) cs <-> Forall p cs.
Proof.
  split; intro H.
  - induction H as [|u v (c & Hc & ->) _ IH]; constructor; assumption.
  - induction H as [|c cs Hc _ IH]; [constructor|]. apply (star_cons _ [c]); eauto.
Qed.

(** * ASCII *)
Lemma utf8_ascii cs : Forall (fun c => c < 128) cs -> utf8_string cs = cs.
Proof. intro H. induction H as [|c cs Hc _ IH]; [reflexivity|]. rewrite utf8_string_cons, utf8_encode_ascii, IH by exact Hc. reflexivity. Qed.
Lemma scalars_ascii cs : Forall (fun c => c < 128) cs -> scalars cs.
Proof. intro H. eapply Forall_impl; [|exact H]. intros c Hc. cbv beta in *. unfold is_scalar. apply orb_true_iff. left. apply N.ltb_lt. lia. Qed.
Lemma utf8_ws cs : ws cs -> utf8_string cs = cs.
Proof. intro H. apply utf8_ascii, ws_ascii, H. Qed.

(** * Spec.v's reading of each rule *)
Section Grammar.
  Variable tc : bool.

  Definition grammar : rule_name -> expr := if tc then with_trailing_commas rfc8259_paired else rfc8259_paired.

  Definition around (c : N) (cs : list N) : Prop := exists w w', ws w /\ ws w' /\ cs = w ++ c :: w'.
  Definition val (s : list N) : Prop := exists t, json_text tc t s.
  Definition box (s : list N) : Prop := exists t, json_text tc t s /\ is_container t = true.
  Definition hexdig (cs : list N) : Prop := exists b v, hex_digit_val b v /\ cs = [b].
  Definition quoted (s : list N) : Prop := exists k cs, str_body k cs /\ s = 34 :: k ++ [34].
  Definition memb (s : list N) : Prop :=
    exists k cs w b, str_body k cs /\ ws w /\ val b /\ s = (34 :: k ++ [34]) ++ w ++ 58 :: b.

  Definition reading (n : rule_name) (cs : list N) : Prop :=
    match n with
    | JSON_text | Value => scalars cs -> val (utf8_string cs)
    | Object | Array => scalars cs -> box (utf8_string cs)
    | begin_array => around 91 cs
    | begin_object => around 123 cs
    | end_array => around 93 cs
    | end_object => around 125 cs
    | name_separator => around 58 cs
    | value_separator => around 44 cs
    | Ws => ws cs
    | False_ => cs = lit_false
    | Null_ => cs = lit_null
    | True_ => cs = lit_true
    | Member => scalars cs -> memb (utf8_string cs)
    | Number => number cs
    | decimal_point => cs = [46]
    | digit1_9 => exists d, 49 <= d <= 57 /\ cs = [d]
    | E => cs = [101] \/ cs = [69]
    | Exp => exists e sg ds, (e = 101 \/ e = 69) /\ (sg = [] \/ sg = [43] \/ sg = [45]) /\ digits ds /\ cs = e :: sg ++ ds
    | Frac => exists ds, digits ds /\ cs = 46 :: ds
    | Int => num_int cs
    | Minus => cs = [45]
    | Plus => cs = [43]
    | Zero => cs = [48]
    | String_ => scalars cs -> quoted (utf8_string cs)
    | Char => scalars cs -> exists c, str_item (utf8_string cs) c
    | escape => cs = [92]
    | quotation_mark => cs = [34]
    | unescaped => exists c, 32 <= c <= 0x10FFFF /\ c <> 34 /\ c <> 92 /\ cs = [c]
    | DIGIT => exists d, digit d /\ cs = [d]
    | HEXDIG => hexdig cs
    | non_surrogate => exists u, hex4 cs u /\ is_scalar u = true
    | high_surrogate => exists u, hex4 cs u /\ 0xD800 <= u <= 0xDBFF
    | low_surrogate => exists u, hex4 cs u /\ 0xDC00 <= u <= 0xDFFF
    end.
End Grammar.

Ltac split_sem :=
  repeat match goal with
  | H : exists _, _ |- _ => destruct H
  | H : _ /\ _ |- _ => destruct H
  end.

(** ** From a derivation to Spec.v *)
Section Forward.
  Variable tc : bool.
  Notation R := (reading tc).

  Lemma sem_xs cs u : sem R (xs cs) u -> u = cs.
  Proof.
    revert u. induction cs as [|c cs IH]; cbn [xs sem]; intros u H; [exact H|].
    destruct H as (a & b & (c' & Hc & ->) & Hb & ->). apply IH in Hb. subst. cbn [app]. f_equal. lia.
  Qed.
  Lemma sem_x c u : sem R (x c) u -> u = [c].
  Proof. intros (c' & H & ->). f_equal. lia. Qed.
  Lemma fwd_ws cs : sem R (rfc8259 Ws) cs -> ws cs.
  Proof.
    cbn [rfc8259 sem]. intro H. apply star_one. eapply star_impl; [|exact H]. intros u Hu.
    destruct Hu as [[[Hu|Hu]|Hu]|Hu]; apply sem_x in Hu; subst; eexists; (split; [|reflexivity]); unfold ws_byte; auto.
  Qed.
  Lemma fwd_around c cs : sem R (Seq (Ref Ws) (Seq (x c) (Ref Ws))) cs -> around c cs.
  Proof.
    intros (w & r & Hw & (u & w' & Hu & Hw' & ->) & ->). apply sem_x in Hu. subst. exists w, w'. auto.
  Qed.
  Lemma around_bytes c cs : c < 128 -> around c cs -> around c (utf8_string cs).
  Proof.
    intros Hc (w & w' & Hw & Hw' & ->). exists w, w'. split; [exact Hw|]. split; [exact Hw'|].
    rewrite utf8_string_app, utf8_string_cons, utf8_encode_ascii, !utf8_ws by assumption. reflexivity.
  Qed.
  Lemma fwd_digits cs : sem R (Star (Ref DIGIT)) cs -> Forall digit cs.
  Proof. intro H. apply star_one. exact H. Qed.
  Lemma fwd_digits1 cs : sem R (plus1 (Ref DIGIT)) cs -> digits cs.
  Proof.
    intros (u & v & (d & Hd & ->) & Hv & ->). apply fwd_digits in Hv. split; [discriminate|]. constructor; assumption.
  Qed.

  (** *** Strings *)
  Lemma hexdig_lt b v : hex_digit_val b v -> v < 16.
  Proof. intros []; lia. Qed.
  Lemma fwd_hexdig cs : sem R (rfc8259 HEXDIG) cs -> hexdig cs.
  Proof.
    cbn [rfc8259 sem reading]. intros [[(d & Hd & ->)|(d & Hd & ->)]|(d & Hd & ->)]; eexists d, _; (split; [|reflexivity]).
    - apply hex_09. exact Hd.
    - apply hex_AF. exact Hd.
    - apply hex_af. exact Hd.
  Qed.
  Lemma hex4_mk a b c d va vb vc vd : hex_digit_val a va -> hex_digit_val b vb -> hex_digit_val c vc -> hex_digit_val d vd ->
    hex4 ([a] ++ [b] ++ [c] ++ [d]) (va * 4096 + vb * 256 + vc * 16 + vd).
  Proof. intros. constructor; assumption. Qed.
  Ltac hx := cbn [sem reading] in *; split_sem; subst.
  Lemma fwd_D cs : sem R (Alt (x 0x44) (x 0x64)) cs -> exists b, hex_digit_val b 13 /\ cs = [b].
  Proof.
    intros [H|H]; apply sem_x in H; subst; eexists; (split; [|reflexivity]).
    - apply (hex_AF 0x44). lia.
    - apply (hex_af 0x64). lia.
  Qed.
  Lemma scalar_iff u : is_scalar u = true <-> u < 0xD800 \/ 0xE000 <= u < 0x110000.
  Proof. unfold is_scalar. rewrite orb_true_iff, andb_true_iff, !N.ltb_lt, N.leb_le. reflexivity. Qed.

  Lemma fwd_non_surrogate cs : sem R (rfc8259 non_surrogate) cs -> exists u, hex4 cs u /\ is_scalar u = true.
  Proof.
    cbn [rfc8259]. intros [H|H].
    - destruct H as (u1 & r1 & H1 & (u2 & r2 & (b & vb & Hb & ->) & (u3 & u4 & (c & vc & Hc & ->) & (d & vd & Hd & ->) & ->) & ->) & ->).
      assert (exists a va, hex_digit_val a va /\ va <> 13 /\ u1 = [a]) as (a & va & Ha & Hva & ->).
      { destruct H1 as [[[[(a & Ha & ->)|(a & Ha & ->)]|(a & Ha & ->)]|(a & Ha & ->)]|(a & Ha & ->)]; exists a.
        - exists (a - 48). repeat split; [apply hex_09; exact Ha|unfold digit in Ha; lia].
        - exists (a - 65 + 10). repeat split; [apply hex_AF; lia|lia].
        - exists (a - 97 + 10). repeat split; [apply hex_af; lia|lia].
        - exists (a - 65 + 10). repeat split; [apply hex_AF; lia|lia].
        - exists (a - 97 + 10). repeat split; [apply hex_af; lia|lia]. }
      eexists. split; [apply hex4_mk; eassumption|]. apply scalar_iff.
      apply hexdig_lt in Ha, Hb, Hc, Hd. assert (va < 13 \/ 13 < va) by lia. lia.
    - destruct H as (u1 & r1 & H1 & (u2 & r2 & (b & Hb & ->) & (u3 & u4 & (c & vc & Hc & ->) & (d & vd & Hd & ->) & ->) & ->) & ->).
      apply fwd_D in H1 as (a & Ha & ->). eexists. split; [apply hex4_mk; [exact Ha|apply hex_09; lia|exact Hc|exact Hd]|].
      apply scalar_iff. apply hexdig_lt in Hc, Hd. lia.
  Qed.
  Lemma fwd_high cs : sem R (rfc8259 high_surrogate) cs -> exists u, hex4 cs u /\ 0xD800 <= u <= 0xDBFF.
  Proof.
    cbn [rfc8259]. intro H.
    destruct H as (u1 & r1 & H1 & (u2 & r2 & Hb & (u3 & u4 & (c & vc & Hc & ->) & (d & vd & Hd & ->) & ->) & ->) & ->).
    apply fwd_D in H1 as (a & Ha & ->). pose proof (hexdig_lt _ _ Hc). pose proof (hexdig_lt _ _ Hd).
    destruct Hb as [[(b & Hb & ->)|(b & Hb & ->)]|(b & Hb & ->)].
    - eexists. split; [apply hex4_mk; [exact Ha|apply hex_09; lia|exact Hc|exact Hd]|]. lia.
    - eexists. split; [apply hex4_mk; [exact Ha|apply hex_AF; lia|exact Hc|exact Hd]|]. lia.
    - eexists. split; [apply hex4_mk; [exact Ha|apply hex_af; lia|exact Hc|exact Hd]|]. lia.
  Qed.
  Lemma fwd_low cs : sem R (rfc8259 low_surrogate) cs -> exists u, hex4 cs u /\ 0xDC00 <= u <= 0xDFFF.
  Proof.
    cbn [rfc8259]. intro H.
    destruct H as (u1 & r1 & H1 & (u2 & r2 & Hb & (u3 & u4 & (c & vc & Hc & ->) & (d & vd & Hd & ->) & ->) & ->) & ->).
    apply fwd_D in H1 as (a & Ha & ->). pose proof (hexdig_lt _ _ Hc). pose proof (hexdig_lt _ _ Hd).
    destruct Hb as [(b & Hb & ->)|(b & Hb & ->)].
    - eexists. split; [apply hex4_mk; [exact Ha|apply hex_AF; lia|exact Hc|exact Hd]|]. lia.
    - eexists. split; [apply hex4_mk; [exact Ha|apply hex_af; lia|exact Hc|exact Hd]|]. lia.
  Qed.
  Lemma hex4_ascii h u : hex4 h u -> Forall (fun c => c < 128) h.
  Proof. intros [a b c d ? ? ? ? Ha Hb Hc Hd]. repeat (constructor; [inversion_clear Ha; inversion_clear Hb; inversion_clear Hc; inversion_clear Hd; lia|]). constructor. Qed.

  Lemma fwd_char cs : sem R (rfc8259_paired Char) cs -> scalars cs -> exists c, str_item (utf8_string cs) c.
  Proof.
    cbn [rfc8259_paired]. intros [(c & H1 & H2 & H3 & ->)|H] Hs.
    - exists c. cbn [utf8_string flat_map]. rewrite app_nil_r. constructor; [inversion Hs; assumption|lia|assumption..].
    - destruct H as (u & v & -> & H & ->). cbn [sem] in H.
      destruct H as [[[[[[[[[H|H]|H]|H]|H]|H]|H]|H]|H]|H].
      1-8: apply sem_x in H; subst; eexists; cbn; apply si_simple; unfold simple_escapes; cbn; tauto.
      + destruct H as (a & h & Ha & (w & Hh & Hw) & ->). apply sem_x in Ha. subst. exists w. rewrite utf8_ascii.
        * apply si_unicode; assumption.
        * constructor; [lia|]. constructor; [lia|]. eapply hex4_ascii; eassumption.
      + destruct H as (a & r & Ha & (h & r2 & (hi & Hh & Hhi) & (e & r3 & -> & (a' & l & Ha' & (lo & Hl & Hlo) & ->) & ->) & ->) & ->).
        apply sem_x in Ha, Ha'. subst. eexists. rewrite utf8_ascii.
        * cbn [app]. eapply si_pair; eassumption.
        * pose proof (hex4_ascii _ _ Hh). pose proof (hex4_ascii _ _ Hl). cbn [app].
          constructor; [lia|]. constructor; [lia|]. apply Forall_app. split; [assumption|]. constructor; [lia|]. constructor; [lia|]. assumption.
  Qed.
  Lemma star_body k : star (fun u => exists c, str_item u c) k -> exists cs, str_body k cs.
  Proof.
    intro H. induction H as [|u v (c & Hc) _ (cs & IH)]; [exists []; constructor|]. exists (c :: cs). constructor; assumption.
  Qed.
  Lemma fwd_string cs : sem R (rfc8259 String_) cs -> scalars cs -> quoted (utf8_string cs).
  Proof.
    cbn [rfc8259]. intros (u & r & -> & (k & v & Hk & -> & ->) & ->) Hs. cbn [sem] in Hk.
    cbn [app] in Hs. inversion Hs as [|? ? _ Hs']; subst. apply Forall_app in Hs' as [Hs' _].
    apply star_scalars in Hk; [|exact Hs']. apply (star_map _ (fun u => exists c, str_item u c) utf8_string) in Hk.
    - apply star_body in Hk as (b & Hb). exists (utf8_string k), b. split; [exact Hb|].
      rewrite !utf8_string_app. reflexivity.
    - reflexivity.
    - apply utf8_string_app.
    - intros u [_ Hu]. exact Hu.
  Qed.

  (** *** Arrays and objects *)
  Lemma val_pad w s w' : ws w -> ws w' -> val tc s -> val tc (w ++ s ++ w').
  Proof.
    intros Hw Hw' (t & w1 & b & w2 & H1 & Hb & H2 & ->). exists t, (w ++ w1), b, (w2 ++ w').
    split; [apply Forall_app; auto|]. split; [exact Hb|]. split; [apply Forall_app; auto|]. rewrite <- !app_assoc. reflexivity.
  Qed.
  Definition ending (s : list N) : Prop := exists w tr, ws w /\ trailing tc tr /\ s = w ++ tr.
  Lemma ending_ws w : ws w -> ending w.
  Proof. intro H. exists w, []. split; [exact H|]. split; [constructor|]. rewrite app_nil_r. reflexivity. Qed.
  Lemma ending_comma u w : tc = true -> around 44 u -> ws w -> ending (u ++ w).
  Proof.
    intros Htc (w1 & w2 & H1 & H2 & ->) Hw. exists w1, (44 :: w2 ++ w). split; [exact H1|].
    split; [constructor; [exact Htc|apply Forall_app; auto]|]. rewrite <- app_assoc. reflexivity.
  Qed.

  Definition sep_val (s : list N) : Prop := exists a b, around 44 a /\ val tc b /\ s = a ++ b.
  Definition sep_memb (s : list N) : Prop := exists a b, around 44 a /\ memb tc b /\ s = a ++ b.
  Lemma elements_build r : star sep_val r -> forall w v tail, ws w -> val tc v -> ending tail ->
    exists l, elements tc l (w ++ v ++ r ++ tail).
  Proof.
    intro H. induction H as [|u r (a & b & (w3 & w4 & H3 & H4 & ->) & Hb & ->) Hr IH];
      intros w v tail Hw (t & w1 & x & w2 & H1 & Hx & H2 & ->) He.
    - destruct He as (w' & tr & Hw' & Htr & ->). exists [t].
      replace (w ++ (w1 ++ x ++ w2) ++ [] ++ w' ++ tr) with ((w ++ w1) ++ x ++ (w2 ++ w') ++ tr) by (cbn; rewrite <- !app_assoc; reflexivity).
      constructor; [apply Forall_app; auto|exact Hx|apply Forall_app; auto|exact Htr].
    - destruct (IH w4 b tail H4 Hb He) as (l & Hl). exists (t :: l).
      replace (w ++ (w1 ++ x ++ w2) ++ (((w3 ++ 44 :: w4) ++ b) ++ r) ++ tail)
        with ((w ++ w1) ++ x ++ (w2 ++ w3) ++ 44 :: (w4 ++ b ++ r ++ tail)).
      + constructor; [apply Forall_app; auto|exact Hx|apply Forall_app; auto|exact Hl].
      + rewrite <- !app_assoc. cbn [app]. rewrite <- ?app_assoc. reflexivity.
  Qed.
  Lemma members_build r : star sep_memb r -> forall w v tail, ws w -> memb tc v -> ending tail ->
    exists l, members tc l (w ++ v ++ r ++ tail).
  Proof.
    intro H. induction H as [|u r (a & b & (w3 & w4 & H3 & H4 & ->) & Hb & ->) Hr IH];
      intros w v tail Hw (k & kc & wk & y & Hk & Hwk & (t & w1 & x & w2 & H1 & Hx & H2 & ->) & ->) He.
    - destruct He as (w' & tr & Hw' & Htr & ->). exists [(k, t)].
      replace (w ++ ((34 :: k ++ [34]) ++ wk ++ 58 :: w1 ++ x ++ w2) ++ [] ++ w' ++ tr)
        with (w ++ (34 :: k ++ [34]) ++ wk ++ 58 :: w1 ++ x ++ (w2 ++ w') ++ tr).
      + econstructor; try eassumption. apply Forall_app; auto.
      + repeat (rewrite <- ?app_assoc; cbn [app]). reflexivity.
    - destruct (IH w4 b tail H4 Hb He) as (l & Hl). exists ((k, t) :: l).
      replace (w ++ ((34 :: k ++ [34]) ++ wk ++ 58 :: w1 ++ x ++ w2) ++ (((w3 ++ 44 :: w4) ++ b) ++ r) ++ tail)
        with (w ++ (34 :: k ++ [34]) ++ wk ++ 58 :: w1 ++ x ++ (w2 ++ w3) ++ 44 :: (w4 ++ b ++ r ++ tail)).
      + econstructor; try eassumption. apply Forall_app; auto.
      + repeat (rewrite <- ?app_assoc; cbn [app]). reflexivity.
  Qed.

  (** The shape shared by [Object] and [Array]. *)
  Definition inner (one : rule_name) : expr :=
    if tc then Seq (Ref one) (Seq (Star (Seq (Ref value_separator) (Ref one))) (opt (Ref value_separator)))
    else Seq (Ref one) (Star (Seq (Ref value_separator) (Ref one))).
  Lemma grammar_array : grammar tc Array = Seq (Ref begin_array) (Seq (opt (inner Value)) (Ref end_array)).
  Proof. unfold grammar, inner. destruct tc; reflexivity. Qed.
  Lemma grammar_object : grammar tc Object = Seq (Ref begin_object) (Seq (opt (inner Member)) (Ref end_object)).
  Proof. unfold grammar, inner. destruct tc; reflexivity. Qed.
  Lemma grammar_other n : n <> Array -> n <> Object -> grammar tc n = rfc8259_paired n.
  Proof. intros. unfold grammar. destruct tc; [|reflexivity]. destruct n; try reflexivity; contradiction. Qed.

  Lemma inner_true one : tc = true ->
    inner one = Seq (Ref one) (Seq (Star (Seq (Ref value_separator) (Ref one))) (opt (Ref value_separator))).
  Proof. intro H. unfold inner. rewrite H. reflexivity. Qed.
  Lemma inner_false one : tc = false -> inner one = Seq (Ref one) (Star (Seq (Ref value_separator) (Ref one))).
  Proof. intro H. unfold inner. rewrite H. reflexivity. Qed.
  (** [P]: what one element is, in bytes. *)
  Lemma fwd_inner one (P : list N -> Prop) cs : (forall u, R one u -> scalars u -> P (utf8_string u)) ->
    sem R (inner one) cs -> scalars cs ->
    exists v r e, P v /\ star (fun u => exists a b, around 44 a /\ P b /\ u = a ++ b) r /\
      (e = [] \/ tc = true /\ around 44 e) /\ utf8_string cs = v ++ r ++ e.
  Proof.
    intros HP H Hs.
    assert (exists v r e, R one v /\ star (sem R (Seq (Ref value_separator) (Ref one))) r /\
              (e = [] \/ tc = true /\ around 44 e) /\ cs = v ++ r ++ e) as (v & r & e & Hv & Hr & He & ->).
    { destruct (Bool.bool_dec tc true) as [Etc|Etc].
      - rewrite (inner_true one Etc) in H. cbn [opt sem] in H. destruct H as (v & y & Hv & (r & e & Hr & He & ->) & ->). exists v, r, e.
        split; [exact Hv|]. split; [exact Hr|]. split; [|reflexivity]. destruct He as [He| ->]; auto.
      - apply Bool.not_true_is_false in Etc. rewrite (inner_false one Etc) in H. destruct H as (v & r & Hv & Hr & ->). exists v, r, [].
        rewrite app_nil_r. auto. }
    apply Forall_app in Hs as [Hsv Hs]. apply Forall_app in Hs as [Hsr Hse].
    exists (utf8_string v), (utf8_string r), (utf8_string e). split; [apply HP; assumption|]. split.
    - apply (star_map (fun u => scalars u /\ sem R (Seq (Ref value_separator) (Ref one)) u)); [reflexivity|apply utf8_string_app| |].
      + intros u [Hu (a & b & Ha & Hb & ->)]. apply Forall_app in Hu as [Hua Hub]. exists (utf8_string a), (utf8_string b).
        split; [apply around_bytes; [reflexivity|exact Ha]|]. split; [apply HP; assumption|apply utf8_string_app].
      + apply star_scalars; [|exact Hsr]. eapply star_impl; [|exact Hr]. auto.
    - split; [|rewrite !utf8_string_app; reflexivity]. destruct He as [-> |[Ht He]]; [left; reflexivity|right]. split; [exact Ht|]. apply around_bytes; [reflexivity|exact He].
  Qed.
  Lemma ending_of e w : (e = [] \/ tc = true /\ around 44 e) -> ws w -> ending (e ++ w).
  Proof. intros [-> |[Ht He]] Hw; [apply ending_ws; exact Hw|apply ending_comma; assumption]. Qed.

  Lemma fwd_array cs : sem R (grammar tc Array) cs -> scalars cs -> box tc (utf8_string cs).
  Proof.
    rewrite grammar_array. intros (u & y & Hu & (m & v & Hm & Hv & ->) & ->) Hs.
    apply Forall_app in Hs as [_ Hs]. apply Forall_app in Hs as [Hsm _].
    apply (around_bytes 91) in Hu; [|reflexivity]. apply (around_bytes 93) in Hv; [|reflexivity]. rewrite !utf8_string_app.
    destruct Hu as (w1 & w2 & H1 & H2 & ->). destruct Hv as (w3 & w4 & H3 & H4 & ->).
    destruct Hm as [Hm| ->].
    - apply (fwd_inner Value (val tc)) in Hm; [|intros z Hz; exact Hz|exact Hsm]. destruct Hm as (x & r & e & Hx & Hr & He & ->).
      destruct (elements_build r Hr w2 x (e ++ w3) H2 Hx (ending_of e w3 He H3)) as (l & Hl).
      exists (TArr l). split; [|reflexivity]. exists w1, (91 :: (w2 ++ x ++ r ++ e ++ w3) ++ [93]), w4.
      split; [exact H1|]. split; [constructor; exact Hl|]. split; [exact H4|]. repeat (rewrite <- ?app_assoc; cbn [app]). reflexivity.
    - exists (TArr []). split; [|reflexivity]. exists w1, (91 :: (w2 ++ w3) ++ [93]), w4.
      split; [exact H1|]. split; [constructor; apply Forall_app; auto|]. split; [exact H4|]. cbn [utf8_string flat_map]. repeat (rewrite <- ?app_assoc; cbn [app]). reflexivity.
  Qed.
  Lemma fwd_object cs : sem R (grammar tc Object) cs -> scalars cs -> box tc (utf8_string cs).
  Proof.
    rewrite grammar_object. intros (u & y & Hu & (m & v & Hm & Hv & ->) & ->) Hs.
    apply Forall_app in Hs as [_ Hs]. apply Forall_app in Hs as [Hsm _].
    apply (around_bytes 123) in Hu; [|reflexivity]. apply (around_bytes 125) in Hv; [|reflexivity]. rewrite !utf8_string_app.
    destruct Hu as (w1 & w2 & H1 & H2 & ->). destruct Hv as (w3 & w4 & H3 & H4 & ->).
    destruct Hm as [Hm| ->].
    - apply (fwd_inner Member (memb tc)) in Hm; [|intros z Hz; exact Hz|exact Hsm]. destruct Hm as (x & r & e & Hx & Hr & He & ->).
      destruct (members_build r Hr w2 x (e ++ w3) H2 Hx (ending_of e w3 He H3)) as (l & Hl).
      exists (TObj l). split; [|reflexivity]. exists w1, (123 :: (w2 ++ x ++ r ++ e ++ w3) ++ [125]), w4.
      split; [exact H1|]. split; [constructor; exact Hl|]. split; [exact H4|]. repeat (rewrite <- ?app_assoc; cbn [app]). reflexivity.
    - exists (TObj []). split; [|reflexivity]. exists w1, (123 :: (w2 ++ w3) ++ [125]), w4.
      split; [exact H1|]. split; [constructor; apply Forall_app; auto|]. split; [exact H4|]. cbn [utf8_string flat_map]. repeat (rewrite <- ?app_assoc; cbn [app]). reflexivity.
  Qed.
  Lemma fwd_member cs : sem R (rfc8259 Member) cs -> scalars cs -> memb tc (utf8_string cs).
  Proof.
    cbn [rfc8259]. intros (k & y & Hk & (c & v & Hc & Hv & ->) & ->) Hs. cbn [sem reading] in *.
    apply Forall_app in Hs as [Hsk Hs]. apply Forall_app in Hs as [_ Hsv].
    apply Hk in Hsk as (b & bc & Hb & Ek). apply Hv in Hsv. apply (around_bytes 58) in Hc; [|reflexivity].
    rewrite !utf8_string_app, Ek. destruct Hc as (w & w' & Hw & Hw' & ->). exists b, bc, w, (w' ++ utf8_string v).
    split; [exact Hb|]. split; [exact Hw|]. split.
    - pose proof (val_pad w' _ [] Hw' (Forall_nil _) Hsv) as H. rewrite app_nil_r in H. exact H.
    - rewrite <- (app_assoc w). reflexivity.
  Qed.
  Lemma fwd_number cs : sem R (rfc8259 Number) cs -> number cs.
  Proof.
    cbn [rfc8259]. intros (m & y & Hm & (i & z & Hi & (f & e & Hf & He & ->) & ->) & ->).
    exists m, i, f, e. split; [|split; [exact Hi|split; [|split; [|reflexivity]]]].
    - destruct Hm as [Hm|Hm]; [right|left]; exact Hm.
    - destruct Hf as [Hf|Hf]; [right|left]; exact Hf.
    - destruct He as [He|He]; [right|left]; exact He.
  Qed.
  Lemma val_scalar t s : value_text tc t s -> val tc s.
  Proof. intro H. exists t, [], s, []. split; [constructor|]. split; [exact H|]. split; [constructor|]. rewrite app_nil_r. reflexivity. Qed.

  Lemma forward n cs : sem R (grammar tc n) cs -> R n cs.
  Proof.
    destruct n; intro H; try exact (fwd_array _ H); try exact (fwd_object _ H);
      (rewrite grammar_other in H by discriminate); cbn [rfc8259_paired] in H.
    - (* JSON-text *) intro Hs. destruct H as (w & y & Hw & (v & w' & Hv & Hw' & ->) & ->). cbn [sem reading] in *.
      apply Forall_app in Hs as [_ Hs]. apply Forall_app in Hs as [Hs _]. rewrite !utf8_string_app, (utf8_ws w), (utf8_ws w') by assumption.
      apply val_pad; auto.
    - apply fwd_around; exact H.
    - apply fwd_around; exact H.
    - apply fwd_around; exact H.
    - apply fwd_around; exact H.
    - apply fwd_around; exact H.
    - apply fwd_around; exact H.
    - apply fwd_ws; exact H.
    - (* value *) intro Hs. cbn [rfc8259 sem reading] in H. destruct H as [[[[[[-> | ->]| ->]|H]|H]|H]|H].
      + apply (val_scalar (TBool false)). rewrite utf8_ascii; [constructor|repeat (constructor; [reflexivity|]); constructor].
      + apply (val_scalar TNull). rewrite utf8_ascii; [constructor|repeat (constructor; [reflexivity|]); constructor].
      + apply (val_scalar (TBool true)). rewrite utf8_ascii; [constructor|repeat (constructor; [reflexivity|]); constructor].
      + destruct (H Hs) as (t & Ht & _). exists t. exact Ht.
      + destruct (H Hs) as (t & Ht & _). exists t. exact Ht.
      + rewrite utf8_ascii by (apply number_ascii; exact H). eapply val_scalar. constructor. exact H.
      + destruct (H Hs) as (k & kc & Hk & ->). apply (val_scalar (TStr k)). exact (vt_str tc k kc Hk).
    - apply sem_xs in H. exact H.
    - apply sem_xs in H. exact H.
    - apply sem_xs in H. exact H.
    - exact (fwd_member _ H).
    - apply fwd_number; exact H.
    - apply sem_x in H. exact H.
    - exact H.
    - destruct H as [H|H]; apply sem_x in H; cbn; auto.
    - destruct H as (e & y & He & (sg & ds & Hsg & Hds & ->) & ->). apply fwd_digits1 in Hds. cbn [reading] in *.
      destruct He as [-> | ->]; cbn [sem reading] in Hsg.
      + exists 101, sg, ds. split; [auto|]. split; [|split; [exact Hds|reflexivity]]. destruct Hsg as [[?|?]|?]; auto.
      + exists 69, sg, ds. split; [auto|]. split; [|split; [exact Hds|reflexivity]]. destruct Hsg as [[?|?]|?]; auto.
    - destruct H as (a & ds & -> & Hds & ->). apply fwd_digits1 in Hds. exists ds. split; [exact Hds|reflexivity].
    - destruct H as [H|H]; [left; exact H|right]. destruct H as (a & r & (d & Hd & ->) & Hr & ->).
      apply fwd_digits in Hr. exists d, r. auto.
    - apply sem_x in H. exact H.
    - apply sem_x in H. exact H.
    - apply sem_x in H. exact H.
    - intro Hs. apply fwd_string; assumption.
    - intro Hs. apply fwd_char; assumption.
    - apply sem_x in H. exact H.
    - apply sem_x in H. exact H.
    - cbn [rfc8259 sem] in H. destruct H as [[(c & Hc & ->)|(c & Hc & ->)]|(c & Hc & ->)]; exists c; (split; [lia|split; [lia|split; [lia|reflexivity]]]).
    - destruct H as (d & Hd & ->). exists d. auto.
    - apply fwd_hexdig; exact H.
    - apply fwd_non_surrogate; exact H.
    - apply fwd_high; exact H.
    - apply fwd_low; exact H.
  Qed.

  Theorem abnf_to_spec e cs : derives (grammar tc) e cs -> sem R e cs.
  Proof. apply derives_sem, forward. Qed.
End Forward.

(** ** From Spec.v to a derivation *)
Section Backward.
  Variable tc : bool.
  Notation D := (fun n => derives (grammar tc) (Ref n)).

  Lemma step n cs : sem D (grammar tc n) cs -> derives (grammar tc) (Ref n) cs.
  Proof. apply derives_ref. Qed.
  Lemma step' n cs : n <> Array -> n <> Object -> sem D (rfc8259_paired n) cs -> derives (grammar tc) (Ref n) cs.
  Proof. intros Ha Ho H. apply step. rewrite grammar_other by assumption. exact H. Qed.
  Lemma mk_x c : sem D (x c) [c].
  Proof. exists c. split; [lia|reflexivity]. Qed.
  Lemma mk_seq a b u v : sem D a u -> sem D b v -> sem D (Seq a b) (u ++ v).
  Proof. intros. exists u, v. auto. Qed.
  Lemma mk_xs cs : sem D (xs cs) cs.
  Proof. induction cs as [|c cs IH]; [reflexivity|]. apply (mk_seq (x c) (xs cs) [c] cs); [apply mk_x|exact IH]. Qed.

  Ltac rule := apply step'; [discriminate..|]; cbn [rfc8259_paired rfc8259].

  Lemma bw_ws w : ws w -> D Ws w.
  Proof.
    intro H. rule. apply star_one in H. eapply star_impl; [|exact H]. intros u (c & Hc & ->).
    destruct Hc as [-> |[-> |[-> | ->]]]; cbn [sem].
    - left; left; left. apply mk_x.
    - left; left; right. apply mk_x.
    - left; right. apply mk_x.
    - right. apply mk_x.
  Qed.
  Lemma bw_around n c w w' : n <> Array -> n <> Object ->
    rfc8259_paired n = Seq (Ref Ws) (Seq (x c) (Ref Ws)) -> ws w -> ws w' -> D n (w ++ [c] ++ w').
  Proof.
    intros Ha Ho E Hw Hw'. apply step'; [assumption..|]. rewrite E. apply mk_seq; [apply bw_ws; exact Hw|].
    apply mk_seq; [apply mk_x|apply bw_ws; exact Hw'].
  Qed.
  Lemma bw_digit d : digit d -> D DIGIT [d].
  Proof. intro H. rule. exists d. auto. Qed.
  Lemma bw_digits r : Forall digit r -> sem D (Star (Ref DIGIT)) r.
  Proof. intro H. cbn [sem]. apply star_one in H. eapply star_impl; [|exact H]. intros u (c & Hc & ->). apply bw_digit, Hc. Qed.
  Lemma bw_digits1 r : digits r -> sem D (plus1 (Ref DIGIT)) r.
  Proof.
    intros [Hn H]. destruct H as [|d r Hd H]; [contradiction|]. apply (mk_seq (Ref DIGIT) _ [d] r); [apply bw_digit, Hd|apply bw_digits, H].
  Qed.
  Lemma bw_minus : D Minus [45].
  Proof. rule. apply mk_x. Qed.
  Lemma bw_plus : D Plus [43].
  Proof. rule. apply mk_x. Qed.
  Lemma bw_number n : number n -> D Number n.
  Proof.
    intros (m & i & f & e & Hm & Hi & Hf & He & ->). rule. apply mk_seq; [|apply mk_seq; [|apply mk_seq]].
    - destruct Hm as [-> | ->]; [right; reflexivity|left; apply bw_minus].
    - cbn [sem]. rule. destruct Hi as [-> |(d & r & Hd & Hr & ->)]; [left|right].
      + cbn [sem]. rule. apply mk_x.
      + apply (mk_seq (Ref digit1_9) _ [d] r); [|apply bw_digits, Hr]. cbn [sem]. rule. exists d. auto.
    - destruct Hf as [-> |(ds & Hds & ->)]; [right; reflexivity|left]. cbn [sem]. rule.
      apply (mk_seq (Ref decimal_point) _ [46] ds); [|apply bw_digits1, Hds]. cbn [sem]. rule. apply mk_x.
    - destruct He as [-> |(e1 & sg & ds & He & Hsg & Hds & ->)]; [right; reflexivity|left]. cbn [sem]. rule.
      apply (mk_seq (Ref E) _ [e1] (sg ++ ds)); [|apply mk_seq; [|apply bw_digits1, Hds]].
      + cbn [sem]. rule. destruct He as [-> | ->]; [left|right]; apply mk_x.
      + destruct Hsg as [-> |[-> | ->]]; [right; reflexivity|left; right; apply bw_plus|left; left; apply bw_minus].
  Qed.

  Lemma bw_hexdig b v : hex_digit_val b v -> D HEXDIG [b].
  Proof.
    intro H. rule. cbn [sem]. destruct H as [b H|b H|b H].
    - left; left. apply bw_digit. exact H.
    - left; right. exists b. auto.
    - right. exists b. auto.
  Qed.
  Lemma bw_D b : hex_digit_val b 13 -> sem D (Alt (x 0x44) (x 0x64)) [b].
  Proof.
    intro H. inversion H; [exfalso; lia|left|right]; (exists b; split; [lia|reflexivity]).
  Qed.
  Ltac four Ha Hb Hc Hd A B :=
    match goal with |- sem _ _ [?a; ?b; ?c; ?d] => change [a; b; c; d] with ([a] ++ [b] ++ [c] ++ [d]) end;
    apply mk_seq; [A|apply mk_seq; [B|apply mk_seq; [exact (bw_hexdig _ _ Hc)|exact (bw_hexdig _ _ Hd)]]].
  Lemma bw_non_surrogate h u : hex4 h u -> is_scalar u = true -> D non_surrogate h.
  Proof.
    intros [a b c d va vb vc vd Ha Hb Hc Hd] Hu. apply scalar_iff in Hu. rule.
    pose proof (hexdig_lt _ _ Ha). pose proof (hexdig_lt _ _ Hb). pose proof (hexdig_lt _ _ Hc). pose proof (hexdig_lt _ _ Hd).
    destruct (N.eq_dec va 13) as [-> |Hva].
    - right. four Ha Hb Hc Hd ltac:(exact (bw_D _ Ha)) ltac:(idtac).
      inversion Hb; subst; (exists b; split; [lia|reflexivity]).
    - left. four Ha Hb Hc Hd ltac:(idtac) ltac:(exact (bw_hexdig _ _ Hb)).
      inversion Ha; subst; cbn [sem].
      + left; left; left; left. apply bw_digit. assumption.
      + assert (a <= 67 \/ 69 <= a) as [Hx|Hx] by lia.
        * left; left; left; right. exists a. split; [lia|reflexivity].
        * left; right. exists a. split; [lia|reflexivity].
      + assert (a <= 99 \/ 101 <= a) as [Hx|Hx] by lia.
        * left; left; right. exists a. split; [lia|reflexivity].
        * right. exists a. split; [lia|reflexivity].
  Qed.
  Lemma bw_high h u : hex4 h u -> 0xD800 <= u <= 0xDBFF -> D high_surrogate h.
  Proof.
    intros [a b c d va vb vc vd Ha Hb Hc Hd] Hu. rule.
    pose proof (hexdig_lt _ _ Ha). pose proof (hexdig_lt _ _ Hb). pose proof (hexdig_lt _ _ Hc). pose proof (hexdig_lt _ _ Hd).
    assert (va = 13) by lia. subst va. assert (8 <= vb <= 11) by lia.
    four Ha Hb Hc Hd ltac:(exact (bw_D _ Ha)) ltac:(idtac). cbn [sem]. inversion Hb; subst.
    - left; left. exists b. split; [lia|reflexivity].
    - left; right. exists b. split; [lia|reflexivity].
    - right. exists b. split; [lia|reflexivity].
  Qed.
  Lemma bw_low h u : hex4 h u -> 0xDC00 <= u <= 0xDFFF -> D low_surrogate h.
  Proof.
    intros [a b c d va vb vc vd Ha Hb Hc Hd] Hu. rule.
    pose proof (hexdig_lt _ _ Ha). pose proof (hexdig_lt _ _ Hb). pose proof (hexdig_lt _ _ Hc). pose proof (hexdig_lt _ _ Hd).
    assert (va = 13) by lia. subst va. assert (12 <= vb) by lia.
    four Ha Hb Hc Hd ltac:(exact (bw_D _ Ha)) ltac:(idtac). cbn [sem]. inversion Hb; subst.
    - exfalso; lia.
    - left. exists b. split; [lia|reflexivity].
    - right. exists b. split; [lia|reflexivity].
  Qed.
  Lemma bw_escape : D escape [92].
  Proof. rule. apply mk_x. Qed.
  Lemma bw_quote : D quotation_mark [34].
  Proof. rule. apply mk_x. Qed.

  (** [s] is the UTF-8 form of a text derivable from [n]. *)
  Definition from (n : rule_name) (s : list N) : Prop :=
    exists cs, scalars cs /\ s = utf8_string cs /\ D n cs.

  Lemma bw_item a c : str_item a c -> from Char a.
  Proof.
    intros [c' Hs H1 H2 H3|b c' Hin|h u Hh Hu|h1 hi h2 lo Hh Hhi Hl Hlo].
    - exists [c']. split; [constructor; [exact Hs|constructor]|]. split; [cbn; rewrite app_nil_r; reflexivity|]. rule. left. cbn [sem].
      rule. apply scalar_iff in Hs. assert (c' <= 33 \/ 35 <= c' <= 91 \/ 93 <= c') as [?|[?|?]] by lia.
      + left; left. exists c'. split; [lia|reflexivity].
      + left; right. exists c'. split; [lia|reflexivity].
      + right. exists c'. split; [lia|reflexivity].
    - exists [92; b]. assert (Hb : b < 128) by (unfold simple_escapes in Hin; cbn in Hin; intuition; try congruence;
        match goal with H : (_, _) = _ |- _ => injection H as <- <-; reflexivity end).
      split; [apply scalars_ascii; constructor; [reflexivity|constructor; [exact Hb|constructor]]|].
      split; [rewrite utf8_ascii; [reflexivity|constructor; [reflexivity|constructor; [exact Hb|constructor]]]|].
      rule. right. apply (mk_seq (Ref escape) _ [92] [b]); [apply bw_escape|]. cbn [sem].
      unfold simple_escapes in Hin. cbn in Hin.
      destruct Hin as [E|[E|[E|[E|[E|[E|[E|[E|[]]]]]]]]]; injection E as <- <-; match goal with |- context [sem _ _ [?b]] => pose proof (mk_x b); tauto end.
    - assert (Ha : Forall (fun c => c < 128) (92 :: 117 :: h)) by (constructor; [reflexivity|constructor; [reflexivity|eapply hex4_ascii; exact Hh]]).
      exists (92 :: 117 :: h). split; [apply scalars_ascii; exact Ha|]. split; [rewrite utf8_ascii; [reflexivity|exact Ha]|].
      rule. right. apply (mk_seq (Ref escape) _ [92] (117 :: h)); [apply bw_escape|]. left; right.
      apply (mk_seq (x 117) _ [117] h); [apply mk_x|]. eapply bw_non_surrogate; eassumption.
    - assert (Ha : Forall (fun c => c < 128) (92 :: 117 :: h1 ++ 92 :: 117 :: h2)).
      { pose proof (hex4_ascii _ _ Hh). pose proof (hex4_ascii _ _ Hl).
        constructor; [reflexivity|]. constructor; [reflexivity|]. apply Forall_app. split; [assumption|]. constructor; [reflexivity|]. constructor; [reflexivity|assumption]. }
      exists (92 :: 117 :: h1 ++ 92 :: 117 :: h2). split; [apply scalars_ascii; exact Ha|]. split; [rewrite utf8_ascii; [reflexivity|exact Ha]|].
      rule. right. apply (mk_seq (Ref escape) _ [92] (117 :: h1 ++ 92 :: 117 :: h2)); [apply bw_escape|]. right.
      apply (mk_seq (x 117) _ [117]); [apply mk_x|]. apply mk_seq; [eapply bw_high; eassumption|].
      apply (mk_seq (Ref escape) _ [92] (117 :: h2)); [apply bw_escape|].
      apply (mk_seq (x 117) _ [117]); [apply mk_x|]. eapply bw_low; eassumption.
  Qed.
  Lemma bw_body k cs : str_body k cs -> exists us, scalars us /\ k = utf8_string us /\ star (D Char) us.
  Proof.
    intro H. induction H as [|a c r cs Ha _ (us & H1 & -> & H3)]; [exists []; split; [constructor|split; [reflexivity|constructor]]|].
    destruct (bw_item _ _ Ha) as (u & Hu & -> & HD). exists (u ++ us). split; [apply Forall_app; auto|].
    split; [rewrite utf8_string_app; reflexivity|constructor; assumption].
  Qed.
  Lemma bw_quoted k cs : str_body k cs -> from String_ (34 :: k ++ [34]).
  Proof.
    intro H. apply bw_body in H as (us & Hs & -> & HD). exists (34 :: us ++ [34]).
    assert (is_scalar 34 = true) by reflexivity.
    split; [constructor; [assumption|apply Forall_app; split; [exact Hs|constructor; [assumption|constructor]]]|].
    split; [rewrite utf8_string_cons, utf8_string_app; reflexivity|]. rule.
    apply (mk_seq (Ref quotation_mark) _ [34] (us ++ [34])); [apply bw_quote|]. apply mk_seq; [exact HD|apply bw_quote].
  Qed.

  (** What follows the first element. *)
  Definition more (one : rule_name) : expr :=
    if tc then Seq (Star (Seq (Ref value_separator) (Ref one))) (opt (Ref value_separator))
    else Star (Seq (Ref value_separator) (Ref one)).
  Lemma inner_eq one : inner tc one = Seq (Ref one) (more one).
  Proof. unfold inner, more. destruct tc; reflexivity. Qed.
  Lemma more_true one : tc = true -> more one = Seq (Star (Seq (Ref value_separator) (Ref one))) (opt (Ref value_separator)).
  Proof. intro H. unfold more. rewrite H. reflexivity. Qed.
  Lemma more_false one : tc = false -> more one = Star (Seq (Ref value_separator) (Ref one)).
  Proof. intro H. unfold more. rewrite H. reflexivity. Qed.
  Lemma tc_cases : tc = true \/ tc = false.
  Proof. destruct tc; auto. Qed.
  Lemma inner_more one u v : D one u -> sem D (more one) v -> sem D (inner tc one) (u ++ v).
  Proof. intros Hu Hv. rewrite inner_eq. apply mk_seq; assumption. Qed.
  Lemma more_cons one u v : sem D (Seq (Ref value_separator) (Ref one)) u -> sem D (more one) v -> sem D (more one) (u ++ v).
  Proof.
    intros Hu Hv. destruct tc_cases as [Ht|Ht].
    - rewrite (more_true one Ht) in *. destruct Hv as (a & b & Ha & Hb & ->). rewrite app_assoc. apply mk_seq; [|exact Hb]. constructor; [exact Hu|exact Ha].
    - rewrite (more_false one Ht) in *. constructor; [exact Hu|exact Hv].
  Qed.
  Lemma more_nil one : sem D (more one) [].
  Proof.
    destruct tc_cases as [Ht|Ht]; [rewrite (more_true one Ht)|rewrite (more_false one Ht); constructor].
    apply (mk_seq (Star (Seq (Ref value_separator) (Ref one))) (opt (Ref value_separator)) [] []); [constructor|right; reflexivity].
  Qed.
  Lemma more_sep one u : tc = true -> D value_separator u -> sem D (more one) u.
  Proof.
    intros Ht Hu. rewrite (more_true one Ht). apply (mk_seq _ _ [] u); [constructor|left; exact Hu].
  Qed.
  Lemma bw_comma w w' : ws w -> ws w' -> D value_separator (w ++ [44] ++ w').
  Proof. apply bw_around; [discriminate..|reflexivity]. Qed.
  Lemma scalars_ws w : ws w -> scalars w.
  Proof. intro H. apply scalars_ascii, ws_ascii, H. Qed.
  Lemma scalars_around w c w' : ws w -> c < 128 -> ws w' -> scalars (w ++ [c] ++ w').
  Proof.
    intros Hw Hc Hw'. apply Forall_app. split; [apply scalars_ws; exact Hw|]. apply Forall_app. split; [|apply scalars_ws; exact Hw'].
    apply scalars_ascii. constructor; [exact Hc|constructor].
  Qed.
  Lemma utf8_around w c w' : ws w -> c < 128 -> ws w' -> utf8_string (w ++ [c] ++ w') = w ++ [c] ++ w'.
  Proof.
    intros Hw Hc Hw'. apply utf8_ascii. apply Forall_app. split; [apply ws_ascii; exact Hw|]. apply Forall_app. split; [|apply ws_ascii; exact Hw'].
    constructor; [exact Hc|constructor].
  Qed.

  (** A non-empty list of elements: whitespace, the first one, the others, whitespace. *)
  Definition several (one : rule_name) (s : list N) : Prop :=
    exists w v r w', ws w /\ ws w' /\ scalars v /\ scalars r /\ D one v /\ sem D (more one) r /\
      s = w ++ utf8_string v ++ utf8_string r ++ w'.
  Lemma several_last one w v w2 tr : ws w -> from one v -> ws w2 -> trailing tc tr -> several one (w ++ v ++ w2 ++ tr).
  Proof.
    intros Hw (u & Hu & -> & HD) Hw2 [|w3 Ht Hw3].
    - exists w, u, [], w2. repeat (split; [first [assumption|constructor|apply more_nil]|]).
      rewrite app_nil_r. reflexivity.
    - exists w, u, (w2 ++ [44] ++ w3), []. split; [exact Hw|]. split; [constructor|]. split; [exact Hu|].
      split; [apply scalars_around; [exact Hw2|reflexivity|exact Hw3]|]. split; [exact HD|].
      split; [apply more_sep; [exact Ht|apply bw_comma; assumption]|].
      rewrite utf8_around by (assumption || reflexivity). rewrite app_nil_r. reflexivity.
  Qed.
  Lemma several_cons one w v w2 r : ws w -> from one v -> ws w2 -> several one r -> several one (w ++ v ++ w2 ++ 44 :: r).
  Proof.
    intros Hw (u & Hu & -> & HD) Hw2 (w3 & v2 & r2 & w4 & Hw3 & Hw4 & Hv2 & Hr2 & HD2 & Hm & ->).
    exists w, u, (((w2 ++ [44] ++ w3) ++ v2) ++ r2), w4. split; [exact Hw|]. split; [exact Hw4|]. split; [exact Hu|].
    split; [apply Forall_app; split; [|exact Hr2]; apply Forall_app; split; [|exact Hv2]; apply scalars_around; [exact Hw2|reflexivity|exact Hw3]|].
    split; [exact HD|]. split; [apply more_cons; [|exact Hm]; apply mk_seq; [apply bw_comma; assumption|exact HD2]|].
    rewrite (utf8_string_app _ r2), (utf8_string_app _ v2), utf8_around by (assumption || reflexivity).
    repeat (rewrite <- ?app_assoc; cbn [app]). reflexivity.
  Qed.
  Lemma from_member k cs w2 w3 s : str_body k cs -> ws w2 -> ws w3 -> from Value s ->
    from Member ((34 :: k ++ [34]) ++ w2 ++ 58 :: w3 ++ s).
  Proof.
    intros Hk Hw2 Hw3 (u & Hu & -> & HD). destruct (bw_quoted _ _ Hk) as (q & Hq & -> & HDq).
    exists (q ++ (w2 ++ [58] ++ w3) ++ u).
    split; [apply Forall_app; split; [exact Hq|]; apply Forall_app; split; [apply scalars_around; [exact Hw2|reflexivity|exact Hw3]|exact Hu]|].
    split.
    - rewrite !(utf8_string_app _ (_ ++ u)), (utf8_string_app _ u), utf8_around by (assumption || reflexivity).
      repeat (rewrite <- ?app_assoc; cbn [app]). reflexivity.
    - rule. apply mk_seq; [exact HDq|]. apply mk_seq; [|exact HD]. apply (bw_around name_separator); [discriminate..|reflexivity|exact Hw2|exact Hw3].
  Qed.
  Lemma from_value n s : In n [False_; Null_; True_; Object; Array; Number; String_] -> from n s -> from Value s.
  Proof.
    intros Hn (cs & Hs & -> & HD). exists cs. split; [exact Hs|]. split; [reflexivity|]. rule. cbn [sem].
    destruct Hn as [<-|[<-|[<-|[<-|[<-|[<-|[<-|[]]]]]]]]; tauto.
  Qed.
  Lemma from_ascii n s : Forall (fun c => c < 128) s -> D n s -> from n s.
  Proof. intros H HD. exists s. split; [apply scalars_ascii, H|]. split; [rewrite utf8_ascii; [reflexivity|exact H]|exact HD]. Qed.
  Lemma from_box n bg en c c' s : (n = Array /\ bg = begin_array /\ en = end_array /\ c = 91 /\ c' = 93 /\ (ws s \/ several Value s) \/
      n = Object /\ bg = begin_object /\ en = end_object /\ c = 123 /\ c' = 125 /\ (ws s \/ several Member s)) ->
    from n (c :: s ++ [c']).
  Proof.
    intro H.
    assert (K : exists one, grammar tc n = Seq (Ref bg) (Seq (opt (inner tc one)) (Ref en)) /\
                 (forall w, ws w -> D bg ([] ++ [c] ++ w)) /\ (forall w, ws w -> D en (w ++ [c'] ++ [])) /\ c < 128 /\ c' < 128 /\ (ws s \/ several one s)).
    { destruct H as [(-> & -> & -> & -> & -> & H)|(-> & -> & -> & -> & -> & H)].
      - exists Value. split; [apply grammar_array|].
        split; [intros w Hw; apply bw_around; [discriminate..|reflexivity|constructor|exact Hw]|].
        split; [intros w Hw; apply bw_around; [discriminate..|reflexivity|exact Hw|constructor]|]. split; [reflexivity|]. split; [reflexivity|exact H].
      - exists Member. split; [apply grammar_object|].
        split; [intros w Hw; apply bw_around; [discriminate..|reflexivity|constructor|exact Hw]|].
        split; [intros w Hw; apply bw_around; [discriminate..|reflexivity|exact Hw|constructor]|]. split; [reflexivity|]. split; [reflexivity|exact H]. }
    destruct K as (one & Eg & Hb & He & Hc & Hc' & [Hs|(w & v & r & w' & Hw & Hw' & Hv & Hr & HD & Hm & ->)]).
    - exists (([] ++ [c] ++ s) ++ [] ++ [] ++ [c'] ++ []).
      split; [apply Forall_app; split; apply scalars_around; (assumption || constructor)|].
      split.
      + rewrite utf8_string_app, utf8_around by (assumption || constructor). change ([] ++ [] ++ [c'] ++ []) with ([] ++ [c'] ++ []).
        rewrite utf8_around by (assumption || constructor). reflexivity.
      + apply step. rewrite Eg. apply mk_seq; [apply Hb; exact Hs|]. apply mk_seq; [right; reflexivity|apply He; constructor].
    - exists (([] ++ [c] ++ w) ++ (v ++ r) ++ w' ++ [c'] ++ []).
      split; [apply Forall_app; split; [apply scalars_around; (assumption || constructor)|]; apply Forall_app; split; [apply Forall_app; auto|apply scalars_around; (assumption || constructor)]|].
      split.
      + rewrite (utf8_string_app ([] ++ [c] ++ w)), (utf8_string_app (v ++ r)), (utf8_string_app v), !utf8_around by (assumption || constructor).
        repeat (rewrite <- ?app_assoc; cbn [app]). reflexivity.
      + apply step. rewrite Eg. apply mk_seq; [apply Hb; exact Hw|]. apply mk_seq; [left; apply inner_more; assumption|apply He; exact Hw'].
  Qed.

  Theorem spec_to_abnf :
    (forall t s, value_text tc t s -> from Value s /\ (is_container t = true -> from Array s \/ from Object s)) /\
    (forall l s, elements tc l s -> several Value s) /\
    (forall l s, members tc l s -> several Member s).
  Proof.
    assert (A : forall s, ws s \/ several Value s -> from Value (91 :: s ++ [93]) /\ (from Array (91 :: s ++ [93]) \/ from Object (91 :: s ++ [93]))).
    { intros s H. assert (from Array (91 :: s ++ [93])) by (apply (from_box Array begin_array end_array); left; repeat (split; [reflexivity|]); exact H).
      split; [apply (from_value Array); [cbn; tauto|assumption]|left; assumption]. }
    assert (O : forall s, ws s \/ several Member s -> from Value (123 :: s ++ [125]) /\ (from Array (123 :: s ++ [125]) \/ from Object (123 :: s ++ [125]))).
    { intros s H. assert (from Object (123 :: s ++ [125])) by (apply (from_box Object begin_object end_object); right; repeat (split; [reflexivity|]); exact H).
      split; [apply (from_value Object); [cbn; tauto|assumption]|right; assumption]. }
    apply text_mutind; intros.
    - split; [|discriminate]. apply (from_value Null_); [cbn; tauto|]. apply from_ascii; [repeat (constructor; [reflexivity|]); constructor|]. rule. apply mk_xs.
    - split; [|discriminate]. apply (from_value True_); [cbn; tauto|]. apply from_ascii; [repeat (constructor; [reflexivity|]); constructor|]. rule. apply mk_xs.
    - split; [|discriminate]. apply (from_value False_); [cbn; tauto|]. apply from_ascii; [repeat (constructor; [reflexivity|]); constructor|]. rule. apply mk_xs.
    - split; [|discriminate]. apply (from_value Number); [cbn; tauto|]. apply from_ascii; [apply number_ascii; assumption|]. apply bw_number. assumption.
    - split; [|discriminate]. apply (from_value String_); [cbn; tauto|]. eapply bw_quoted. eassumption.
    - destruct (A w) as [H1 H2]; auto.
    - destruct (A s) as [H1 H2]; auto.
    - destruct (O w) as [H1 H2]; auto.
    - destruct (O s) as [H1 H2]; auto.
    - apply several_last; try assumption. apply H.
    - apply several_cons; try assumption. apply H.
    - replace (w1 ++ (34 :: k ++ [34]) ++ w2 ++ 58 :: w3 ++ s ++ w4 ++ tr) with (w1 ++ ((34 :: k ++ [34]) ++ w2 ++ 58 :: w3 ++ s) ++ w4 ++ tr)
        by (repeat (rewrite <- ?app_assoc; cbn [app]); reflexivity).
      apply several_last; try assumption. eapply from_member; try eassumption. apply H.
    - replace (w1 ++ (34 :: k ++ [34]) ++ w2 ++ 58 :: w3 ++ s ++ w4 ++ 44 :: r) with (w1 ++ ((34 :: k ++ [34]) ++ w2 ++ 58 :: w3 ++ s) ++ w4 ++ 44 :: r)
        by (repeat (rewrite <- ?app_assoc; cbn [app]); reflexivity).
      apply several_cons; try assumption. eapply from_member; try eassumption. apply H.
  Qed.
End Backward.
