(** C97: the Debug output tells values apart. *)
From Verif Require Import Base Utf8 Utf8Facts StrModel ErrorModel Tokenizer Parser ValueModel DocModel ErrorDisplay DisplayModel SpecNum View
  PropTok TokFacts SpecStr StrSpec TokStr StrFacts StrEsc StrWf StrObt ParseMain AbnfFacts PropData PropValue PropNumber PropMessage PropWrite PropIter PropEq DebugModel.
Local Open Scope N_scope.

(** * Reading back: what follows a piece of Debug text *)

(** Letters, digits and [_]. *)
Definition word_byte (b : N) : bool :=
  ((48 <=? b) && (b <=? 57)) || ((65 <=? b) && (b <=? 90)) || ((97 <=? b) && (b <=? 122)) || (b =? 95).
Definition word (w : list N) : bool := match w with [] => false | _ => forallb word_byte w end.

(** What may follow an item. *)
Definition stop (r : list N) : Prop :=
  match r with
  | [] => True
  | b :: r' => b = 44 \/ b = 41 \/ b = 93 \/ b = 10 \/ (b = 32 /\ exists r'', r' = 125 :: r'')
  end.

Lemma word_split w w' r s : forallb word_byte w = true -> forallb word_byte w' = true ->
  (match r with [] => True | b :: _ => word_byte b = false end) -> (match s with [] => True | b :: _ => word_byte b = false end) ->
  w ++ r = w' ++ s -> w = w' /\ r = s.
Proof.
  revert w'. induction w as [|b w IH]; intros [|b' w'] H H' Hr Hs E; cbn [app] in E.
  - auto.
  - subst r. cbn in H'. apply andb_prop in H' as [H' _]. congruence.
  - subst s. cbn in H. apply andb_prop in H as [H _]. congruence.
  - injection E as -> E. cbn in H, H'. apply andb_prop in H as [_ H]. apply andb_prop in H' as [_ H'].
    destruct (IH w' H H' Hr Hs E) as [-> ->]. auto.
Qed.
Lemma stop_nonword r : stop r -> match r with [] => True | b :: _ => word_byte b = false end.
Proof. destruct r as [|b r]; [trivial|]. cbn [stop]. intros [->|[->|[->|[->|[-> _]]]]]; reflexivity. Qed.

(** ** Numbers *)
Lemma fmt_dec_word n : word (fmt_dec n) = true.
Proof.
  unfold fmt_dec. assert (G : forall fuel n acc, forallb word_byte acc = true -> (fuel <> O \/ acc <> []) -> word (fmt_dec_loop fuel n acc) = true).
  { intro fuel. induction fuel as [|f IH]; intros m acc Ha Hf; cbn [fmt_dec_loop].
    - destruct acc; [destruct Hf; congruence|]. exact Ha.
    - assert (Hw : forallb word_byte ((48 + m mod 10) :: acc) = true).
      { cbn [forallb]. rewrite Ha, andb_true_r. pose proof (N.mod_lt m 10 ltac:(discriminate)). unfold word_byte.
        replace (48 <=? 48 + m mod 10) with true by (symmetry; apply N.leb_le; lia).
        replace (48 + m mod 10 <=? 57) with true by (symmetry; apply N.leb_le; lia). reflexivity. }
      cbv zeta. destruct (m / 10 =? 0); [exact Hw|]. apply IH; [exact Hw|]. right. discriminate. }
  apply G; [reflexivity|]. left. discriminate.
Qed.

(** ** Hexadecimal *)
Definition hex_value (l : list N) : N := fold_left (fun a b => 16 * a + (if b <? 58 then b - 48 else b - 87)) l 0.
Definition hex_byte (b : N) : bool := ((48 <=? b) && (b <=? 57)) || ((97 <=? b) && (b <=? 102)).
Lemma hex_loop_spec : forall fuel n acc, n < 16 ^ N.of_nat fuel -> forallb hex_byte acc = true ->
  forallb hex_byte (fmt_hex_loop fuel n acc) = true /\
  exists d, fmt_hex_loop fuel n acc = d ++ acc /\ hex_value d = n.
Proof.
  induction fuel as [|f IH]; intros n acc Hn Ha; cbn [fmt_hex_loop].
  - cbn in Hn. assert (n = 0) as -> by lia. split; [exact Ha|]. exists []. auto.
  - pose proof (N.mod_lt n 16 ltac:(discriminate)) as Hm. pose proof (N.div_mod n 16 ltac:(discriminate)) as Hd.
    assert (Hb : forallb hex_byte (hex_digit (n mod 16) :: acc) = true).
    { cbn [forallb]. rewrite Ha, andb_true_r. unfold hex_digit, hex_byte. destruct (N.ltb_spec (n mod 16) 10) as [L|L].
      - replace (48 <=? 48 + n mod 16) with true by (symmetry; apply N.leb_le; lia).
        replace (48 + n mod 16 <=? 57) with true by (symmetry; apply N.leb_le; lia). reflexivity.
      - replace (97 <=? 87 + n mod 16) with true by (symmetry; apply N.leb_le; lia).
        replace (87 + n mod 16 <=? 102) with true by (symmetry; apply N.leb_le; lia). apply orb_true_r. }
    assert (Hv : (if hex_digit (n mod 16) <? 58 then hex_digit (n mod 16) - 48 else hex_digit (n mod 16) - 87) = n mod 16).
    { unfold hex_digit. destruct (N.ltb_spec (n mod 16) 10) as [L|L].
      - replace (48 + n mod 16 <? 58) with true by (symmetry; apply N.ltb_lt; lia). lia.
      - replace (87 + n mod 16 <? 58) with false by (symmetry; apply N.ltb_ge; lia). lia. }
    cbv zeta. destruct (N.eqb_spec (n / 16) 0) as [E|E].
    + split; [exact Hb|]. exists [hex_digit (n mod 16)]. split; [reflexivity|]. unfold hex_value. cbn [fold_left]. rewrite Hv. lia.
    + destruct (IH (n / 16) (hex_digit (n mod 16) :: acc)) as (H1 & d & H2 & H3); [|exact Hb|].
      * apply N.div_lt_upper_bound; [discriminate|]. rewrite Nat2N.inj_succ, N.pow_succ_r' in Hn. exact Hn.
      * split; [exact H1|]. exists (d ++ [hex_digit (n mod 16)]). split; [rewrite H2, <- app_assoc; reflexivity|].
        unfold hex_value in *. rewrite fold_left_app, H3. cbn [fold_left]. rewrite Hv. lia.
Qed.
Lemma fmt_hex_spec n : forallb hex_byte (fmt_hex n) = true /\ hex_value (fmt_hex n) = n.
Proof.
  unfold fmt_hex. destruct (hex_loop_spec (S (N.size_nat n)) n []) as (H1 & d & H2 & H3); [|reflexivity|].
  - apply N.lt_le_trans with (2 ^ N.of_nat (N.size_nat n)).
    + destruct n as [|p]; [reflexivity|]. pose proof (N.size_gt (N.pos p)) as G. replace (N.of_nat (N.size_nat (N.pos p))) with (N.size (N.pos p)); [exact G|].
      cbn. clear. induction p; cbn [Pos.size Pos.size_nat]; rewrite ?Nat2N.inj_succ, <- ?IHp; try reflexivity; cbn; rewrite Pos.add_1_r || idtac; try reflexivity.
    + apply N.le_trans with (16 ^ N.of_nat (N.size_nat n)).
      * apply N.pow_le_mono_l. discriminate.
      * apply N.pow_le_mono_r; [discriminate|lia].
  - split; [exact H1|]. rewrite H2, app_nil_r. exact H3.
Qed.
Lemma hex_split d d' r s : forallb hex_byte d = true -> forallb hex_byte d' = true -> d ++ 125 :: r = d' ++ 125 :: s -> d = d' /\ r = s.
Proof.
  revert d'. induction d as [|b d IH]; intros [|b' d'] H H' E; cbn [app] in E.
  - injection E as ->. auto.
  - injection E as <- _. cbn in H'. discriminate.
  - injection E as -> _. cbn in H. discriminate.
  - injection E as -> E. cbn in H, H'. apply andb_prop in H as [_ H]. apply andb_prop in H' as [_ H'].
    destruct (IH d' H H' E) as [-> ->]. auto.
Qed.

(** ** Strings *)
Definition scalar_list (cs : list N) : Prop := Forall (fun c => is_scalar c = true) cs.
Lemma encode_inj c d r s : is_scalar c = true -> is_scalar d = true -> utf8_encode c ++ r = utf8_encode d ++ s -> c = d /\ r = s.
Proof.
  intros Hc Hd E. pose proof (next_char_encode c r Hc) as H. rewrite E, (next_char_encode d s Hd) in H. injection H as -> ->. auto.
Qed.
(** The first byte of an unescaped character is neither a quote nor a backslash. *)
Lemma encode_head c : c <> 34 -> c <> 92 -> exists b t, utf8_encode c = b :: t /\ b <> 34 /\ b <> 92.
Proof.
  intros H1 H2. destruct (N.lt_ge_cases c 128) as [L|L].
  - rewrite utf8_encode_ascii by exact L. exists c, []. auto.
  - pose proof (utf8_encode_high c L) as H. pose proof (utf8_encode_nonnil c) as Hn.
    destruct (utf8_encode c) as [|b t]; [congruence|]. inversion H; subst. exists b, t. split; [reflexivity|]. lia.
Qed.
Lemma debug_char_shape esc c : is_scalar c = true ->
  (exists e, debug_char esc c = [92; e] /\ In (c, e) [(0, 48); (9, 116); (13, 114); (10, 110); (92, 92); (34, 34)]) \/
  (debug_char esc c = [92; 117; 123] ++ fmt_hex c ++ [125]) \/
  (debug_char esc c = utf8_encode c /\ c <> 34 /\ c <> 92).
Proof.
  intro Hc. unfold debug_char.
  repeat match goal with |- context [c =? ?k] => destruct (N.eqb_spec c k) as [->|]; [left; eexists; split; [reflexivity|cbn; tauto]|] end.
  destruct (esc c); [right; left; reflexivity|]. right. right. auto.
Qed.
Lemma debug_char_head esc c : is_scalar c = true -> exists b t, debug_char esc c = b :: t /\ b <> 34.
Proof.
  intro Hc. destruct (debug_char_shape esc c Hc) as [(e & -> & _)|[->|(-> & H1 & H2)]].
  - exists 92, [e]. split; [reflexivity|discriminate].
  - exists 92. eexists. split; [reflexivity|discriminate].
  - destruct (encode_head c H1 H2) as (b & t & -> & Hb & _). eauto.
Qed.
Lemma debug_char_inj esc c d r s : is_scalar c = true -> is_scalar d = true ->
  debug_char esc c ++ r = debug_char esc d ++ s -> c = d /\ r = s.
Proof.
  intros Hc Hd E. destruct (debug_char_shape esc c Hc) as [(e & Ec & Ic)|[Ec|(Ec & Nc & Mc)]];
    destruct (debug_char_shape esc d Hd) as [(e' & Ed & Id)|[Ed|(Ed & Nd & Md)]]; rewrite Ec, Ed in E.
  - cbn [app] in E. injection E as <- <-. split; [|reflexivity].
    cbn [In] in Ic, Id. repeat match goal with H : _ \/ _ |- _ => destruct H as [H|H] end; try contradiction; congruence.
  - exfalso. cbn [app] in E. injection E as -> _. cbn [In] in Ic. repeat match goal with H : _ \/ _ |- _ => destruct H as [H|H] end; try contradiction; discriminate.
  - exfalso. destruct (encode_head d Nd Md) as (b & t & Eb & _ & Hb). rewrite Eb in E. cbn [app] in E. congruence.
  - exfalso. cbn [app] in E. injection E as <- _. cbn [In] in Id. repeat match goal with H : _ \/ _ |- _ => destruct H as [H|H] end; try contradiction; discriminate.
  - cbn [app] in E. injection E as E. rewrite <- !app_assoc in E. cbn [app] in E.
    destruct (fmt_hex_spec c) as [H1 V1]. destruct (fmt_hex_spec d) as [H2 V2].
    destruct (hex_split _ _ _ _ H1 H2 E) as [F ->]. split; [|reflexivity]. congruence.
  - exfalso. destruct (encode_head d Nd Md) as (b & t & Eb & _ & Hb). rewrite Eb in E. cbn [app] in E. congruence.
  - exfalso. destruct (encode_head c Nc Mc) as (b & t & Eb & _ & Hb). rewrite Eb in E. cbn [app] in E. congruence.
  - exfalso. destruct (encode_head c Nc Mc) as (b & t & Eb & _ & Hb). rewrite Eb in E. cbn [app] in E. congruence.
  - eapply encode_inj; eassumption.
Qed.
Lemma debug_body_inj esc cs : forall ds r s, scalar_list cs -> scalar_list ds ->
  flat_map (debug_char esc) cs ++ 34 :: r = flat_map (debug_char esc) ds ++ 34 :: s -> cs = ds /\ r = s.
Proof.
  induction cs as [|c cs IH]; intros [|d ds] r s Hc Hd E; cbn [flat_map app] in E.
  - injection E as ->. auto.
  - exfalso. inversion Hd; subst. destruct (debug_char_head esc d) as (b & t & Eb & Hb); [assumption|]. rewrite Eb in E. cbn [app] in E. congruence.
  - exfalso. inversion Hc; subst. destruct (debug_char_head esc c) as (b & t & Eb & Hb); [assumption|]. rewrite Eb in E. cbn [app] in E. congruence.
  - inversion Hc; inversion Hd; subst. rewrite <- !app_assoc in E.
    destruct (debug_char_inj esc c d _ _ ltac:(assumption) ltac:(assumption) E) as [-> E'].
    destruct (IH ds r s ltac:(assumption) ltac:(assumption) E') as [-> ->]. auto.
Qed.
Lemma debug_str_inj esc x y r s : is_utf8 x -> is_utf8 y -> debug_str esc x ++ r = debug_str esc y ++ s -> x = y /\ r = s.
Proof.
  intros (cs & Hcs & ->) (ds & Hds & ->) E. unfold debug_str in E. rewrite !chars_utf8_string in E by assumption.
  cbn [app] in E. injection E as E. rewrite <- !app_assoc in E. cbn [app] in E.
  destruct (debug_body_inj esc cs ds r s Hcs Hds E) as [-> ->]. auto.
Qed.

(** ** Trees *)
Section DbgInd.
  Variable P : dbg -> Prop.
  Hypothesis Hword : forall w, P (DWord w).
  Hypothesis Hstr : forall s, P (DStr s).
  Hypothesis Htuple : forall n l, Forall P l -> P (DTuple n l).
  Hypothesis Hstruct : forall n l, Forall (fun f => P (snd f)) l -> P (DStruct n l).
  Hypothesis Hlist : forall l, Forall P l -> P (DList l).
  Fixpoint dbg_ind' (d : dbg) : P d :=
    match d with
    | DWord w => Hword w
    | DStr s => Hstr s
    | DTuple n l => Htuple n l ((fix go l : Forall P l := match l with [] => Forall_nil _ | x :: l' => Forall_cons x (dbg_ind' x) (go l') end) l)
    | DStruct n l => Hstruct n l ((fix go l : Forall (fun f => P (snd f)) l :=
        match l with [] => Forall_nil _ | x :: l' => Forall_cons x (dbg_ind' (snd x)) (go l') end) l)
    | DList l => Hlist l ((fix go l : Forall P l := match l with [] => Forall_nil _ | x :: l' => Forall_cons x (dbg_ind' x) (go l') end) l)
    end.
End DbgInd.

(** Trees std's builders can be given: identifiers as names, UTF-8 strings, no empty tuple or struct. *)
Inductive dbg_ok : dbg -> Prop :=
| ok_word w : word w = true -> dbg_ok (DWord w)
| ok_str s : is_utf8 s -> dbg_ok (DStr s)
| ok_tuple n l : word n = true -> l <> [] -> Forall dbg_ok l -> dbg_ok (DTuple n l)
| ok_struct n l : word n = true -> l <> [] -> Forall (fun f => word (fst f) = true /\ dbg_ok (snd f)) l -> dbg_ok (DStruct n l)
| ok_list l : Forall dbg_ok l -> dbg_ok (DList l).

Lemma word_cons w : word w = true -> exists b t, w = b :: t /\ word_byte b = true /\ forallb word_byte w = true.
Proof. destruct w as [|b t]; [discriminate|]. intro H. exists b, t. cbn in H |- *. split; [reflexivity|]. split; [|exact H]. apply andb_prop in H. apply H. Qed.

(** The first byte of an item: part of a word, a quote or a bracket. *)
Definition begins (b : N) : Prop := word_byte b = true \/ b = 34 \/ b = 91.
Lemma begins_not b : begins b -> b <> 32 /\ b <> 93 /\ b <> 41 /\ b <> 125 /\ b <> 44 /\ b <> 10.
Proof. intro H. repeat split; intros ->; destruct H as [H|[H|H]]; discriminate H. Qed.
Definition begun (x : list N) : Prop := exists b t, x = b :: t /\ begins b.

Lemma render_begun esc alt k d : dbg_ok d -> begun (render esc alt k d).
Proof.
  intro H. destruct H as [w Hw|s _|n l Hn _ _|n l Hn _ _|l _]; cbn [render].
  - destruct (word_cons w Hw) as (b & t & -> & Hb & _). exists b, t. split; [reflexivity|left; exact Hb].
  - unfold debug_str. cbn [app]. eexists 34, _. split; [reflexivity|]. right. left. reflexivity.
  - destruct (word_cons n Hn) as (b & t & -> & Hb & _). unfold tuple_text. destruct alt; eexists b, _; (split; [cbn [app]; reflexivity|left; exact Hb]).
  - destruct (word_cons n Hn) as (b & t & -> & Hb & _). unfold struct_text. destruct alt; eexists b, _; (split; [cbn [app]; reflexivity|left; exact Hb]).
  - unfold list_text. destruct (map _ l); [|destruct alt]; eexists 91, _; (split; [cbn [app bs]; reflexivity|right; right; reflexivity]).
Qed.

Section Items.
  Context {A : Type}.
  Variable enc : A -> list N.
  Variable ok : A -> Prop.
  Hypothesis enc_begun : forall a, ok a -> begun (enc a).

  Definition uniquely (a : A) : Prop := forall b r s, ok b -> stop r -> stop s -> enc a ++ r = enc b ++ s -> a = b /\ r = s.

  (** Closing texts: [)], [\]], [ }], [}]. *)
  Lemma joined_inj c (Hc : stop c) (Hcn : exists b t, c = b :: t /\ b <> 44) (Hcr : forall r, stop (c ++ r)) l :
    forall l' r s, l <> [] -> l' <> [] -> Forall ok l -> Forall ok l' -> Forall uniquely l ->
    joined (map enc l) ++ c ++ r = joined (map enc l') ++ c ++ s -> l = l' /\ r = s.
  Proof.
    assert (ST : forall (l : list A) a r, exists t, joined (map enc (a :: l)) ++ c ++ r = enc a ++ t /\ stop t /\
       ((l = [] /\ t = c ++ r) \/ (l <> [] /\ t = 44 :: 32 :: joined (map enc l) ++ c ++ r))).
    { intros m a r. destruct m as [|a' m].
      - exists (c ++ r). cbn [map joined]. split; [reflexivity|]. split; [apply Hcr|left; auto].
      - exists (44 :: 32 :: joined (map enc (a' :: m)) ++ c ++ r). split.
        + cbn [map joined]. rewrite <- !app_assoc. reflexivity.
        + split; [left; reflexivity|]. right. split; [discriminate|reflexivity]. }
    induction l as [|a l IH]; intros l' r s Hn Hn' Ho Ho' Hu E; [congruence|].
    destruct l' as [|a' l']; [congruence|]. inversion Ho; inversion Ho'; inversion Hu; subst.
    destruct (ST l a r) as (t & Et & St & Ct). destruct (ST l' a' s) as (t' & Et' & St' & Ct'). rewrite Et, Et' in E.
    match goal with H : uniquely a |- _ => destruct (H a' t t' ltac:(assumption) St St' E) as [-> F] end.
    destruct Hcn as (b & tc & -> & Hb).
    destruct Ct as [[-> ->]|[Hl ->]]; destruct Ct' as [[-> ->]|[Hl' ->]]; cbn [app] in F.
    - injection F as F. apply app_inv_head in F. subst. auto.
    - injection F as F _. congruence.
    - injection F as F _. congruence.
    - injection F as F. destruct (IH l' r s) as [-> ->]; auto.
  Qed.

  Lemma lines_inj k c (Hc : exists b t, c = b :: t /\ b <> 32) l :
    forall l' r s, Forall ok l -> Forall ok l' -> Forall uniquely l ->
    lines k (map enc l) ++ c ++ r = lines k (map enc l') ++ c ++ s -> l = l' /\ r = s.
  Proof.
    unfold lines. assert (IN : forall j, indent (S j) = indent j ++ [32; 32; 32; 32]).
    { intro j. unfold indent. replace (4 * S j)%nat with (4 * j + 4)%nat by lia. rewrite repeat_app. reflexivity. }
    destruct Hc as (b & tc & -> & Hb).
    induction l as [|a l IH]; intros [|a' l'] r s Ho Ho' Hu E; cbn [map flat_map app] in E.
    - split; [reflexivity|]. apply app_inv_head in E. apply (app_inv_head (b :: tc)) in E. exact E.
    - exfalso. rewrite IN, <- !app_assoc in E. apply app_inv_head in E. cbn [app] in E. congruence.
    - exfalso. rewrite IN, <- !app_assoc in E. apply app_inv_head in E. cbn [app] in E. congruence.
    - inversion Ho; inversion Ho'; inversion Hu; subst. rewrite <- !app_assoc in E. apply app_inv_head in E.
      cbn [bs app] in E.
      match goal with H : uniquely a |- _ => eapply (H a') in E as [-> E]; [|assumption|left; reflexivity|left; reflexivity] end.
      injection E as E. rewrite !app_assoc in E. rewrite <- !app_assoc in E.
      destruct (IH l' r s) as [-> ->]; auto. rewrite <- !app_assoc. exact E.
  Qed.
End Items.

Lemma stop_paren r : stop (41 :: r). Proof. cbn; tauto. Qed.
Lemma stop_bracket r : stop (93 :: r). Proof. cbn; tauto. Qed.
Lemma stop_brace r : stop (32 :: 125 :: r). Proof. cbn [stop]. do 4 right. split; [reflexivity|]. eauto. Qed.

(** What an item begins with and what comes after its name. *)
Inductive shape (esc : N -> bool) (alt : bool) (k : nat) (r : list N) : dbg -> list N -> list N -> Prop :=
| sh_word w : shape esc alt k r (DWord w) w r
| sh_tuple n l t : tuple_text alt k [] (map (render esc alt (S k)) l) ++ r = 40 :: t -> shape esc alt k r (DTuple n l) n (40 :: t)
| sh_struct n l t : struct_text alt k [] (map (fun f => fst f ++ bs ": " ++ render esc alt (S k) (snd f)) l) ++ r = 32 :: 123 :: t ->
    shape esc alt k r (DStruct n l) n (32 :: 123 :: t).

Definition named (d : dbg) : bool := match d with DWord _ | DTuple _ _ | DStruct _ _ => true | _ => false end.
Lemma tuple_name alt k n l : tuple_text alt k n l = n ++ tuple_text alt k [] l.
Proof. unfold tuple_text. destruct alt; reflexivity. Qed.
Lemma struct_name alt k n l : struct_text alt k n l = n ++ struct_text alt k [] l.
Proof. unfold struct_text. destruct alt; reflexivity. Qed.
Lemma named_shape esc alt k r d : dbg_ok d -> named d = true -> stop r -> exists n t, render esc alt k d ++ r = n ++ t /\ forallb word_byte n = true /\
  (match t with [] => True | b :: _ => word_byte b = false end) /\ shape esc alt k r d n t.
Proof.
  intros H Hn Hs. destruct H as [w Hw|s _|n l Hw _ _|n l Hw _ _|l _]; try discriminate Hn; destruct (word_cons _ Hw) as (_ & _ & _ & _ & Hf); cbn [render].
  - exists w, r. split; [reflexivity|]. split; [exact Hf|]. split; [apply stop_nonword; exact Hs|constructor].
  - rewrite tuple_name, <- app_assoc. exists n, (tuple_text alt k [] (map (render esc alt (S k)) l) ++ r). split; [reflexivity|]. split; [exact Hf|].
    unfold tuple_text at 1 2. destruct alt; (split; [reflexivity|constructor; unfold tuple_text; reflexivity]).
  - rewrite struct_name, <- app_assoc.
    exists n, (struct_text alt k [] (map (fun f => fst f ++ bs ": " ++ render esc alt (S k) (snd f)) l) ++ r). split; [reflexivity|]. split; [exact Hf|].
    unfold struct_text at 1 2. destruct alt; (split; [reflexivity|constructor; unfold struct_text; reflexivity]).
Qed.

Theorem render_inj esc alt : forall a k, dbg_ok a -> forall b r s, dbg_ok b -> stop r -> stop s ->
  render esc alt k a ++ r = render esc alt k b ++ s -> a = b /\ r = s.
Proof.
  assert (NM : forall a b k r s, named a = true -> named b = false -> dbg_ok a -> dbg_ok b -> stop r -> render esc alt k a ++ r = render esc alt k b ++ s -> False).
  { intros a b k r s Na Nb Ha Hb Hr E. destruct Ha as [w Hw|x _|n l Hw _ _|n l Hw _ _|l _]; try discriminate Na;
      destruct (word_cons _ Hw) as (c & t & -> & Hc & _);
      (assert (Ec : exists t', render esc alt k b ++ s = c :: t') by
        (cbn [render] in E; first [rewrite tuple_name in E | rewrite struct_name in E | idtac]; rewrite <- E; eexists; cbn [app]; reflexivity));
      destruct Ec as (t' & Ec); destruct Hb as [w' _|x' _|n' l' _ _ _|n' l' _ _ _|l' _]; try discriminate Nb; cbn [render] in Ec.
    all: try (unfold debug_str in Ec; cbn [app] in Ec; injection Ec as <- _; discriminate Hc).
    all: unfold list_text in Ec; destruct (map _ l'); [|destruct alt]; cbn [app bs] in Ec; injection Ec as <- _; discriminate Hc. }
  induction a as [w|x|n l IH|n l IH|l IH] using dbg_ind'; intros k Ha b r s Hb Hr Hs E.
  - destruct (named b) eqn:Nb; [|exfalso; refine (NM _ b k r s _ Nb Ha Hb Hr E); reflexivity].
    destruct (named_shape esc alt k r _ Ha eq_refl Hr) as (n1 & t1 & E1 & F1 & G1 & S1).
    destruct (named_shape esc alt k s _ Hb Nb Hs) as (n2 & t2 & E2 & F2 & G2 & S2).
    rewrite E1, E2 in E. destruct (word_split _ _ _ _ F1 F2 G1 G2 E) as [-> ->].
    inversion S1; subst. inversion S2; subst.
    + auto.
    + cbn in Hr. exfalso. destruct Hr as [Hr|[Hr|[Hr|[Hr|[Hr _]]]]]; discriminate Hr.
    + cbn in Hr. exfalso. destruct Hr as [Hr|[Hr|[Hr|[Hr|[_ (? & Hr)]]]]]; discriminate Hr.
  - destruct (named b) eqn:Nb; [exfalso; refine (NM b _ k s r Nb _ Hb Ha Hs (eq_sym E)); reflexivity|].
    inversion Ha; subst. destruct Hb as [|y Hy| | |l' _]; try discriminate Nb; cbn [render] in E.
    + destruct (debug_str_inj esc x y r s ltac:(assumption) Hy E) as [-> ->]. auto.
    + exfalso. unfold debug_str, list_text in E. destruct (map _ l'); [|destruct alt]; cbn [app bs] in E; discriminate E.
  - destruct (named b) eqn:Nb; [|exfalso; refine (NM _ b k r s _ Nb Ha Hb Hr E); reflexivity].
    destruct (named_shape esc alt k r _ Ha eq_refl Hr) as (n1 & t1 & E1 & F1 & G1 & S1).
    destruct (named_shape esc alt k s _ Hb Nb Hs) as (n2 & t2 & E2 & F2 & G2 & S2).
    rewrite E1, E2 in E. destruct (word_split _ _ _ _ F1 F2 G1 G2 E) as [-> ->].
    inversion S1 as [|n0 l0 t0 Q1|]; subst. inversion S2 as [w0|n0 l0 t3 Q2|]; subst.
    + cbn in Hs. exfalso. destruct Hs as [Hs|[Hs|[Hs|[Hs|[Hs _]]]]]; discriminate Hs.
    + inversion Ha; subst. inversion Hb; subst.
      assert (U : Forall (uniquely (render esc alt (S k)) dbg_ok) l).
      { rewrite Forall_forall in IH |- *. intros d Hd b r' s' Ob Sr Ss E'. apply (IH d Hd (S k)); auto.
        match goal with H : Forall dbg_ok l |- _ => rewrite Forall_forall in H; exact (H d Hd) end. }
      rewrite <- Q2 in Q1. unfold tuple_text in Q1. destruct alt; rewrite <- !app_assoc in Q1; cbn [bs app] in Q1.
      * injection Q1 as Q1. destruct (lines_inj (render esc true (S k)) dbg_ok k [41] ltac:(exists 41, []; split; [reflexivity|discriminate]) l l0 r s) as [-> ->]; auto.
      * injection Q1 as Q1. destruct (joined_inj (render esc false (S k)) dbg_ok [41] (stop_paren []) ltac:(exists 41, []; split; [reflexivity|discriminate]) stop_paren l l0 r s) as [-> ->]; auto.
  - destruct (named b) eqn:Nb; [|exfalso; refine (NM _ b k r s _ Nb Ha Hb Hr E); reflexivity].
    destruct (named_shape esc alt k r _ Ha eq_refl Hr) as (n1 & t1 & E1 & F1 & G1 & S1).
    destruct (named_shape esc alt k s _ Hb Nb Hs) as (n2 & t2 & E2 & F2 & G2 & S2).
    rewrite E1, E2 in E. destruct (word_split _ _ _ _ F1 F2 G1 G2 E) as [-> ->].
    inversion S1 as [| |n0 l0 t0 Q1]; subst. inversion S2 as [w0| |n0 l0 t3 Q2]; subst.
    + cbn in Hs. exfalso. destruct Hs as [Hs|[Hs|[Hs|[Hs|[_ (? & Hs)]]]]]; discriminate Hs.
    + inversion Ha; subst. inversion Hb; subst.
      assert (U : Forall (uniquely (fun f : list N * dbg => fst f ++ bs ": " ++ render esc alt (S k) (snd f)) (fun f => word (fst f) = true /\ dbg_ok (snd f))) l).
      { rewrite Forall_forall in IH |- *. intros [m d] Hd [m' d'] r' s' [Om Ob] Sr Ss E'. cbn [fst snd] in *. rewrite <- !app_assoc in E'.
        match goal with H : Forall (fun f => word (fst f) = true /\ dbg_ok (snd f)) l |- _ => rewrite Forall_forall in H; destruct (H _ Hd) as [Om0 Ob0] end. cbn [fst snd] in *.
        destruct (word_cons _ Om) as (_ & _ & _ & _ & W1). destruct (word_cons _ Om0) as (_ & _ & _ & _ & W2).
        apply word_split in E' as [-> E2']; [|exact W2|exact W1|reflexivity|reflexivity]. cbn [bs app] in E2'. injection E2' as E2'.
        destruct (IH (m', d) Hd (S k) Ob0 d' r' s' Ob Sr Ss E2') as [Ed ->]. cbn [snd] in Ed. subst. auto. }
      rewrite <- Q2 in Q1. unfold struct_text in Q1. destruct alt; rewrite <- !app_assoc in Q1; cbn [bs app] in Q1.
      * injection Q1 as Q1. destruct (lines_inj (fun f : list N * dbg => fst f ++ bs ": " ++ render esc true (S k) (snd f)) (fun f => word (fst f) = true /\ dbg_ok (snd f)) k [125] ltac:(exists 125, []; split; [reflexivity|discriminate]) l l0 r s) as [-> ->]; auto.
      * injection Q1 as Q1. destruct (joined_inj (fun f : list N * dbg => fst f ++ bs ": " ++ render esc false (S k) (snd f)) (fun f => word (fst f) = true /\ dbg_ok (snd f)) [32; 125] (stop_brace []) ltac:(exists 32, [125]; split; [reflexivity|discriminate]) stop_brace l l0 r s) as [-> ->]; auto.
  - destruct (named b) eqn:Nb; [exfalso; refine (NM b _ k s r Nb _ Hb Ha Hs (eq_sym E)); reflexivity|].
    inversion Ha; subst. destruct Hb as [|y Hy| | |l' Hl']; try discriminate Nb; cbn [render] in E.
    + exfalso. unfold debug_str, list_text in E. destruct (map _ l); [|destruct alt]; cbn [app bs] in E; discriminate E.
    + assert (U : Forall (uniquely (render esc alt (S k)) dbg_ok) l).
      { rewrite Forall_forall in IH |- *. intros d Hd b r' s' Ob Sr Ss E'. apply (IH d Hd (S k)); auto.
        match goal with H : Forall dbg_ok l |- _ => rewrite Forall_forall in H; exact (H d Hd) end. }
      destruct l as [|d l], l' as [|d' l']; cbn [map list_text] in E.
      * apply (app_inv_head (bs "[]")) in E. auto.
      * exfalso. inversion Hl'; subst. match goal with H : dbg_ok d' |- _ => destruct (render_begun esc alt (S k) d' H) as (c & t & Ec & Hc) end.
        apply begins_not in Hc. destruct alt; [discriminate E|]. cbn [joined] in E. rewrite Ec in E.
        destruct (map (render esc false (S k)) l'); cbn [bs app] in E; injection E as E _; intuition congruence.
      * exfalso. match goal with H : Forall dbg_ok (d :: l) |- _ => inversion H; subst end. match goal with H : dbg_ok d |- _ => destruct (render_begun esc alt (S k) d H) as (c & t & Ec & Hc) end.
        apply begins_not in Hc. destruct alt; [discriminate E|]. cbn [joined] in E. rewrite Ec in E.
        destruct (map (render esc false (S k)) l); cbn [bs app] in E; injection E as E _; intuition congruence.
      * change (render esc alt (S k) d :: map (render esc alt (S k)) l) with (map (render esc alt (S k)) (d :: l)) in E.
        change (render esc alt (S k) d' :: map (render esc alt (S k)) l') with (map (render esc alt (S k)) (d' :: l')) in E.
        destruct alt; rewrite <- !app_assoc in E; cbn [bs] in E.
        -- apply app_inv_head in E. apply app_inv_head in E.
           destruct (lines_inj (render esc true (S k)) dbg_ok k [93] ltac:(exists 93, []; split; [reflexivity|discriminate]) (d :: l) (d' :: l') r s) as [-> ->]; auto.
        -- apply app_inv_head in E.
           destruct (joined_inj (render esc false (S k)) dbg_ok [93] (stop_bracket []) ltac:(exists 93, []; split; [reflexivity|discriminate]) stop_bracket (d :: l) (d' :: l') r s) as [-> ->]; auto; discriminate.
Qed.

(** * The trees of the crate's values *)
Lemma tuple1_ok n d : word n = true -> dbg_ok d -> dbg_ok (DTuple n [d]).
Proof. intros H K. apply ok_tuple; [exact H|discriminate|]. constructor; [exact K|constructor]. Qed.
Lemma struct2_ok n f a g b : word n = true -> word f = true -> dbg_ok a -> word g = true -> dbg_ok b -> dbg_ok (DStruct n [(f, a); (g, b)]).
Proof. intros. apply ok_struct; [assumption|discriminate|]. repeat (constructor; cbn [fst snd]; auto). Qed.
Lemma struct1_ok n f a : word n = true -> word f = true -> dbg_ok a -> dbg_ok (DStruct n [(f, a)]).
Proof. intros. apply ok_struct; [assumption|discriminate|]. constructor; cbn [fst snd]; auto. Qed.
Lemma int_ok n : dbg_ok (int_dbg n). Proof. constructor. apply fmt_dec_word. Qed.
Lemma bool_ok b : dbg_ok (bool_dbg b). Proof. constructor. destruct b; reflexivity. Qed.
Lemma int_dbg_inj n m : int_dbg n = int_dbg m -> n = m.
Proof. intro H. injection H as H. apply fmt_dec_inj. exact H. Qed.
Lemma bool_dbg_inj a b : bool_dbg a = bool_dbg b -> a = b.
Proof. destruct a, b; intro H; reflexivity || discriminate H. Qed.
Lemma any_ok a : is_utf8 (any_str a) -> dbg_ok (any_dbg a).
Proof. intro H. destruct a; cbn [any_dbg]; apply tuple1_ok; try reflexivity; constructor; exact H. Qed.
Lemma any_dbg_inj a b : any_dbg a = any_dbg b -> a = b.
Proof. destruct a, b; cbn [any_dbg]; intro H; try discriminate H; injection H as ->; reflexivity. Qed.
Lemma contents_dbg_inj a b : contents_dbg a = contents_dbg b -> a = b.
Proof. destruct a, b; cbn [contents_dbg]; intro H; try discriminate H; injection H as H; apply any_dbg_inj in H as ->; reflexivity. Qed.
Lemma info_ok pw i : dbg_ok (info_dbg pw i).
Proof. apply struct2_ok; try reflexivity; [apply bool_ok|apply int_ok]. Qed.
Lemma struct2_inj n f g a b a' b' : DStruct n [(f, a); (g, b)] = DStruct n [(f, a'); (g, b')] -> a = a' /\ b = b'.
Proof. intro H. injection H as H1 H2. auto. Qed.
Lemma struct1_inj n f a a' : DStruct n [(f, a)] = DStruct n [(f, a')] -> a = a'.
Proof. intro H. injection H as H1. auto. Qed.
Lemma tuple1_inj n a a' : DTuple n [a] = DTuple n [a'] -> a = a'.
Proof. intro H. injection H as H1. auto. Qed.
Lemma info_dbg_inj pw i j : info_dbg pw i = info_dbg pw j -> has_escapes pw i = has_escapes pw j /\ expected_length pw i = expected_length pw j.
Proof. unfold info_dbg. intro H. apply struct2_inj in H as [H1 H2]. split; [apply bool_dbg_inj; exact H1|apply int_dbg_inj; exact H2]. Qed.

Lemma obtainable_info pw x : obtainable pw x -> exists b n, n <= isize_max pw /\ js_info x = info_new pw b n.
Proof.
  intros [H|(s & H)].
  - apply parsed_wf in H as (l & Hi & _ & _ & Hl & E). eexists _, _. split; [|exact E].
    pose proof (items_length_le _ _ Hi) as Hle. rewrite <- (items_len _ _ Hi) in Hle. lia.
  - apply built_shape in H as (a & cs & _ & _ & _ & _ & Hc & -> & _). unfold built_from.
    destruct (existsb must_escape cs); eexists _, _; (split; [exact Hc|reflexivity]).
Qed.
Lemma obtainable_utf8 pw x : obtainable pw x -> is_utf8 (stored x).
Proof.
  intros [H|(s & H)].
  - apply parsed_shape in H as (raw & cs & Hb & _ & ->). apply utf8_valid_iff. eapply str_body_valid. exact Hb.
  - apply built_shape in H as (a & cs & Hc & E & Ea & _ & _ & -> & _). unfold built_from, stored.
    destruct (existsb must_escape cs); cbn [js_source contents_str]; rewrite Ea, E; exists cs; (split; [exact Hc|reflexivity]).
Qed.
Lemma number_utf8 pw n : number_obtainable pw n -> is_utf8 (jn_str n).
Proof.
  intro H. apply number_obtainable_shape in H as (t & Ht & ->). unfold jn_str. cbn [any_str jn_source].
  pose proof (number_ascii _ Ht) as A. exists t. split; [apply scalars_ascii; exact A|symmetry; apply utf8_ascii; exact A].
Qed.
Lemma string_ok pw x : obtainable pw x -> dbg_ok (string_dbg pw x).
Proof.
  intro H. apply obtainable_utf8 in H. apply struct2_ok; try reflexivity; [|apply info_ok].
  unfold stored in H. destruct (js_source x); cbn [contents_dbg contents_str] in *; apply tuple1_ok; try reflexivity; apply any_ok; exact H.
Qed.
Lemma string_dbg_inj pw x y : obtainable pw x -> obtainable pw y -> string_dbg pw x = string_dbg pw y -> x = y.
Proof.
  intros Hx Hy. apply obtainable_info in Hx as (b & n & Hn & Ex). apply obtainable_info in Hy as (c & m & Hm & Ey).
  destruct x as [sx ix], y as [sy iy]. unfold string_dbg. cbn [js_info js_source] in *. intro H.
  apply struct2_inj in H as [H1 H2].
  apply contents_dbg_inj in H1 as ->. apply info_dbg_inj in H2 as [H2 H3]. f_equal. rewrite Ex, Ey in *.
  destruct (C61_info_round_trip pw b n Hn) as [K1 K2]. destruct (C61_info_round_trip pw c m Hm) as [K3 K4].
  rewrite K1, K3 in H2. rewrite K2, K4 in H3. rewrite H2, H3. reflexivity.
Qed.
Lemma number_ok pw n : number_obtainable pw n -> dbg_ok (number_dbg n).
Proof. intro H. apply number_utf8 in H. apply struct1_ok; try reflexivity. apply any_ok. exact H. Qed.
Lemma number_dbg_inj n m : number_dbg n = number_dbg m -> n = m.
Proof. unfold number_dbg. intro H. apply struct1_inj in H. apply any_dbg_inj in H. destruct n, m. cbn in H. subst. reflexivity. Qed.

Lemma value_ok pw v : constructible pw v -> dbg_ok (value_dbg pw v).
Proof.
  intros [Hs Hn]. revert Hs Hn. induction v as [n|s|b|o IH|l IH|] using value_ind'; intros Hs Hn; inversion Hs; inversion Hn; subst; cbn [value_dbg].
  - apply tuple1_ok; [reflexivity|]. eapply number_ok. eassumption.
  - apply tuple1_ok; [reflexivity|]. apply string_ok. assumption.
  - apply tuple1_ok; [reflexivity|apply bool_ok].
  - apply tuple1_ok; [reflexivity|]. apply tuple1_ok; [reflexivity|]. constructor. rewrite Forall_forall in *. intros d Hd.
    apply in_map_iff in Hd as (e & <- & He). apply struct2_ok; try reflexivity.
    + apply string_ok. match goal with H : forall x, In x o -> obtainable _ _ /\ _ |- _ => apply (H e He) end.
    + apply (IH e He); [match goal with H : forall x, In x o -> obtainable _ _ /\ _ |- _ => apply (H e He) end|auto].
  - apply tuple1_ok; [reflexivity|]. constructor. rewrite Forall_forall in *. intros d Hd.
    apply in_map_iff in Hd as (e & <- & He). apply (IH e He); auto.
  - constructor. reflexivity.
Qed.
Lemma map_inj {A B} (f : A -> B) l : forall m, Forall (fun a => forall b, In b m -> f a = f b -> a = b) l -> map f l = map f m -> l = m.
Proof.
  induction l as [|a l IH]; intros [|b m] H E; try discriminate E; [reflexivity|]. inversion H; subst. cbn [map] in E.
  assert (E1 : f a = f b) by congruence. assert (E2 : map f l = map f m) by congruence. f_equal.
  - match goal with K : forall c, In c (b :: m) -> _ |- _ => apply K; [left; reflexivity|exact E1] end.
  - apply IH; [|exact E2]. rewrite Forall_forall in *. intros c Hc d Hd. match goal with K : forall x, In x l -> _ |- _ => apply (K c Hc) end. right. exact Hd.
Qed.
Lemma list_inj a b : DList a = DList b -> a = b. Proof. intro H. injection H as H. exact H. Qed.
Lemma value_dbg_inj pw v : forall w, constructible pw v -> constructible pw w -> value_dbg pw v = value_dbg pw w -> v = w.
Proof.
  intros w [Hs Hn] [Hs' Hn']. revert w Hs Hn Hs' Hn'.
  induction v as [n|s|b|o IH|l IH|] using value_ind'; intros [m|t|c|p|k|] Hs Hn Hs' Hn' E; try discriminate E; cbn [value_dbg] in E;
    inversion Hs; inversion Hn; inversion Hs'; inversion Hn'; subst.
  - apply tuple1_inj, number_dbg_inj in E. subst. reflexivity.
  - apply tuple1_inj, string_dbg_inj in E; subst; auto.
  - apply tuple1_inj, bool_dbg_inj in E. subst. reflexivity.
  - apply tuple1_inj, tuple1_inj, list_inj in E. f_equal. apply map_inj in E; [exact E|].
    rewrite Forall_forall in *. intros [x v] Hv [y w] Hw E'. cbn [fst snd] in E'. apply struct2_inj in E' as [E1 E2].
    repeat match goal with
    | H : forall x, In x o -> _ |- _ => specialize (H (x, v) Hv); cbn [fst snd] in H
    | H : forall x, In x p -> _ |- _ => specialize (H (y, w) Hw); cbn [fst snd] in H end.
    f_equal; [eapply string_dbg_inj; [| |exact E1]; tauto|]. apply IH; tauto.
  - apply tuple1_inj, list_inj in E. f_equal. apply map_inj in E; [exact E|].
    rewrite Forall_forall in *. intros v Hv w Hw E'. apply (IH v Hv); auto.
  - reflexivity.
Qed.
Lemma render_same esc alt k a b : dbg_ok a -> dbg_ok b -> render esc alt k a = render esc alt k b -> a = b.
Proof.
  intros Ha Hb E. apply (render_inj esc alt a k Ha b [] [] Hb I I). rewrite !app_nil_r. exact E.
Qed.

(** * The theorems *)

(** For any tables of std and both [{:?}] and [{:#?}]: two values a program can have print the same exactly if they are
    the same: same structure, same keys in the same order, same stored texts in the same form and ownership. *)
Theorem C97_values_print_apart esc alt pw v w : constructible pw v -> constructible pw w ->
  (value_debug esc alt pw v = value_debug esc alt pw w <-> v = w).
Proof.
  intros Hv Hw. split; [|intros ->; reflexivity]. intro E. apply (value_dbg_inj pw); try assumption.
  eapply render_same; [apply value_ok; exact Hv|apply value_ok; exact Hw|exact E].
Qed.
(** ... so values that print the same are [==]. *)
Theorem C97_same_print_equal esc alt pw v w : constructible pw v -> constructible pw w ->
  value_debug esc alt pw v = value_debug esc alt pw w -> value_eq pw v w = Ok true.
Proof.
  intros Hv Hw E. apply C97_values_print_apart in E; [|assumption|assumption]. subst. apply C54_reflexive. apply Hw.
Qed.
Theorem C97_strings_print_apart esc alt pw x y : obtainable pw x -> obtainable pw y ->
  (string_debug esc alt pw x = string_debug esc alt pw y <-> x = y).
Proof.
  intros Hx Hy. split; [|intros ->; reflexivity]. intro E. apply (string_dbg_inj pw); try assumption.
  eapply render_same; [apply string_ok; exact Hx|apply string_ok; exact Hy|exact E].
Qed.
Theorem C97_numbers_print_apart esc alt pw n m : number_obtainable pw n -> number_obtainable pw m ->
  (number_debug esc alt n = number_debug esc alt m <-> n = m).
Proof.
  intros Hx Hy. split; [|intros ->; reflexivity]. intro E. apply number_dbg_inj.
  eapply render_same; [eapply number_ok; exact Hx|eapply number_ok; exact Hy|exact E].
Qed.

Lemma token_ok pw t : returned_token pw t -> dbg_ok (token_dbg pw t).
Proof.
  intro H. destruct t; cbn [token_dbg]; try (constructor; reflexivity); apply tuple1_ok; try reflexivity.
  - apply bool_ok.
  - apply string_ok. left. apply returned_parsed. exact H.
  - destruct H as (u & s & it & it' & H1 & H2 & H3). apply (number_ok pw). eapply number_of_token; eassumption.
Qed.
Theorem C97_tokens_print_apart esc alt pw a b : returned_token pw a -> returned_token pw b ->
  (token_debug esc alt pw a = token_debug esc alt pw b <-> a = b).
Proof.
  intros Ha Hb. split; [|intros ->; reflexivity]. intro E.
  assert (E' : token_dbg pw a = token_dbg pw b) by (eapply render_same; [apply token_ok; exact Ha|apply token_ok; exact Hb|exact E]).
  destruct a, b; cbn [token_dbg] in E'; try reflexivity; try discriminate E'; apply tuple1_inj in E'.
  - apply bool_dbg_inj in E'. congruence.
  - apply string_dbg_inj in E'; [congruence| |]; left; apply returned_parsed; assumption.
  - apply number_dbg_inj in E'. congruence.
Qed.

(** Errors: whenever the delegate's own errors print apart. *)
Lemma error_ok {D} (dd : D -> dbg) e : (forall d, dbg_ok (dd d)) -> dbg_ok (error_dbg dd e).
Proof.
  intro H. apply struct2_ok; try reflexivity; [apply int_ok|].
  destruct (err_kind e); cbn [error_kind_dbg]; try (constructor; reflexivity); apply tuple1_ok; try reflexivity; [apply int_ok|apply H].
Qed.
Theorem C97_errors_print_apart D (dd : D -> dbg) esc alt (a b : error D) :
  (forall d, dbg_ok (dd d)) -> (forall d d', dd d = dd d' -> d = d') ->
  (error_debug dd esc alt a = error_debug dd esc alt b <-> a = b).
Proof.
  intros H Hi. split; [|intros ->; reflexivity]. intro E.
  apply render_same in E; [|apply error_ok; exact H|apply error_ok; exact H].
  apply struct2_inj in E as [E1 E2]. apply int_dbg_inj, Nat2N.inj in E1. destruct a as [o k], b as [o' k']. cbn [err_offset err_kind] in *. subst o'. f_equal.
  destruct k, k'; cbn [error_kind_dbg] in E2; try reflexivity; try discriminate E2; apply tuple1_inj in E2.
  - apply int_dbg_inj in E2. congruence.
  - apply Hi in E2. congruence.
Qed.
(** The errors of parsing: there are no delegate errors. *)
Theorem C97_parse_errors_print_apart esc alt (a b : error infallible) :
  error_debug (fun d : infallible => match d with end) esc alt a = error_debug (fun d : infallible => match d with end) esc alt b <-> a = b.
Proof. apply C97_errors_print_apart; intros []. Qed.

Lemma config_fields_ok c : Forall (fun f => word (fst f) = true /\ dbg_ok (snd f))
  [(bs "allow_trailing_commas", bool_dbg (allow_trailing_commas c));
   (bs "recursion_limit", match recursion_limit c with Some n => DTuple (bs "Some") [int_dbg n] | None => DWord (bs "None") end);
   (bs "allow_all_types_at_root", bool_dbg (allow_all_types_at_root c))].
Proof.
  apply Forall_cons; [split; [reflexivity|apply bool_ok]|]. apply Forall_cons.
  - split; [reflexivity|]. cbn [snd]. destruct (recursion_limit c); [apply tuple1_ok; [reflexivity|apply int_ok]|constructor; reflexivity].
  - apply Forall_cons; [split; [reflexivity|apply bool_ok]|constructor].
Qed.
Theorem C97_configs_print_apart alt a b : config_debug alt a = config_debug alt b <-> a = b.
Proof.
  split; [|intros ->; reflexivity]. intro E. unfold config_debug in E. apply render_same in E.
  - destruct a as [t r l], b as [t' r' l']. unfold config_dbg in E. cbn [allow_trailing_commas recursion_limit allow_all_types_at_root] in E.
    assert (F : bool_dbg t = bool_dbg t' /\ bool_dbg l = bool_dbg l') by (split; congruence). destruct F as [F1 F2].
    apply bool_dbg_inj in F1. apply bool_dbg_inj in F2. subst. f_equal.
    destruct r as [n|], r' as [m|]; try discriminate E; [|reflexivity]. f_equal. apply int_dbg_inj.
    assert (K : DTuple (bs "Some") [int_dbg n] = DTuple (bs "Some") [int_dbg m]) by congruence. apply tuple1_inj in K. exact K.
  - apply ok_struct; [reflexivity|discriminate|]. apply config_fields_ok.
  - apply ok_struct; [reflexivity|discriminate|]. apply config_fields_ok.
Qed.

Theorem C97_kinds_print_apart esc alt :
  (forall a b, render esc alt 0 (peek_kind_dbg a) = render esc alt 0 (peek_kind_dbg b) <-> a = b) /\
  (forall a b, render esc alt 0 (json_kind_dbg a) = render esc alt 0 (json_kind_dbg b) <-> a = b).
Proof. split; intros a b; (split; [|intros ->; reflexivity]); destruct a, b; intro E; reflexivity || discriminate E. Qed.

(** The nodes of a parsed document. *)
Definition parsed_document_of (pw : pwidth) (doc : document) : Prop :=
  exists s cfg cap, rust_slice pw s /\ document_from_json_bytes_with_config pw cap s cfg = Ok doc.
Lemma node_ok pw doc n : parsed_document_of pw doc -> In n doc -> dbg_ok (node_dbg pw n).
Proof.
  intros (s & cfg & cap & Hs & E) Hn. destruct n; cbn [node_dbg].
  - constructor. reflexivity.
  - apply tuple1_ok; [reflexivity|apply bool_ok].
  - apply tuple1_ok; [reflexivity|]. apply string_ok. left. eapply parsed_document; eassumption.
  - apply tuple1_ok; [reflexivity|]. apply (number_ok pw). eapply number_of_document; eassumption.
  - apply struct1_ok; try reflexivity. apply int_ok.
  - apply struct1_ok; try reflexivity. apply int_ok.
Qed.
Lemma node_dbg_inj pw doc doc' a b : parsed_document_of pw doc -> parsed_document_of pw doc' -> In a doc -> In b doc' -> node_dbg pw a = node_dbg pw b -> a = b.
Proof.
  intros (s & cfg & cap & Hs & E) (s' & cfg' & cap' & Hs' & E') Ha Hb H.
  destruct a, b; cbn [node_dbg] in H; try reflexivity; try discriminate H.
  - apply tuple1_inj, bool_dbg_inj in H. congruence.
  - apply tuple1_inj, string_dbg_inj in H; [congruence|left; eapply parsed_document; [exact Hs|exact E|exact Ha]|left; eapply parsed_document; [exact Hs'|exact E'|exact Hb]].
  - apply tuple1_inj, number_dbg_inj in H. congruence.
  - apply struct1_inj, int_dbg_inj, Nat2N.inj in H. congruence.
  - apply struct1_inj, int_dbg_inj, Nat2N.inj in H. congruence.
Qed.
Theorem C97_nodes_print_apart esc alt pw doc doc' a b : parsed_document_of pw doc -> parsed_document_of pw doc' -> In a doc -> In b doc' ->
  (node_debug esc alt pw a = node_debug esc alt pw b <-> a = b).
Proof.
  intros H H' Ha Hb. split; [|intros ->; reflexivity]. intro E. apply (node_dbg_inj pw doc doc'); try assumption.
  eapply render_same; [eapply node_ok; [exact H|exact Ha]|eapply node_ok; [exact H'|exact Hb]|exact E].
Qed.
Theorem C97_documents_print_apart phantom esc alt pw doc doc' : parsed_document_of pw doc -> parsed_document_of pw doc' ->
  (document_debug phantom esc alt pw doc = document_debug phantom esc alt pw doc' <-> doc = doc').
Proof.
  intros H H'. split; [|intros ->; reflexivity]. intro E.
  assert (G : exists c r, render esc alt 2 (DList (map (node_dbg pw) doc)) ++ 44 :: c ++ r = render esc alt 2 (DList (map (node_dbg pw) doc')) ++ 44 :: c ++ r).
  { unfold document_debug, struct_text in E. destruct alt.
    - unfold lines in E. cbn [flat_map] in E. rewrite <- !app_assoc in E. cbn [bs] in E.
      repeat apply app_inv_head in E. eexists [], _. cbn [app] in E |- *. exact E.
    - cbn [joined] in E. rewrite <- !app_assoc in E. repeat apply app_inv_head in E. eexists [], _. cbn [app bs] in E |- *. exact E. }
  destruct G as (c & r & G).
  assert (O : forall d, parsed_document_of pw d -> dbg_ok (DList (map (node_dbg pw) d))).
  { intros d Hd. constructor. rewrite Forall_forall. intros x Hx. apply in_map_iff in Hx as (n & <- & Hn). eapply node_ok; eassumption. }
  apply render_inj in G; [|apply O; exact H|apply O; exact H'|left; reflexivity|left; reflexivity].
  destruct G as [G _]. apply list_inj, map_inj in G; [exact G|]. rewrite Forall_forall. intros a Ha b Hb. apply (node_dbg_inj pw doc doc'); assumption.
Qed.

(** The [info] part is what C61 says. *)
Theorem C97_info_print esc alt pw i : render esc alt 0 (info_dbg pw i) = info_debug pw alt i.
Proof.
  unfold info_dbg, info_debug. cbn [render map fst snd]. unfold struct_text, lines. destruct alt; cbn [flat_map joined]; unfold bool_dbg, int_dbg; cbn [render].
  - rewrite <- !app_assoc. reflexivity.
  - rewrite <- !app_assoc. reflexivity.
Qed.

(** * The text itself *)
Section Bytes.
  Variable P : list N -> Prop.
  Hypothesis P_app : forall a b, P a -> P b -> P (a ++ b).
  Hypothesis P_nil : P [].
  Variables (esc : N -> bool) (alt : bool).
  Hypothesis P_sign : forall b, 32 <= b -> b < 127 -> P [b].
  Hypothesis P_newline : alt = true -> P [10].
  Hypothesis P_str : forall s, is_utf8 s -> P (debug_str esc s).

  Lemma P_ascii l : Forall (fun b => 32 <= b /\ b < 127) l -> P l.
  Proof.
    induction 1 as [|b l [H1 H2] _ IH]; [exact P_nil|]. apply (P_app [b] l); [apply P_sign; assumption|exact IH].
  Qed.
  Lemma P_word w : word w = true -> P w.
  Proof.
    intro H. destruct (word_cons w H) as (_ & _ & _ & _ & F). apply P_ascii. rewrite Forall_forall. rewrite forallb_forall in F.
    intros b Hb. apply F in Hb. unfold word_byte in Hb. rewrite !Bool.orb_true_iff, !Bool.andb_true_iff, !N.leb_le, N.eqb_eq in Hb. lia.
  Qed.
  Lemma P_indent k : P (indent k).
  Proof. apply P_ascii. unfold indent. rewrite Forall_forall. intros b Hb. apply repeat_spec in Hb. subst. split; [discriminate|reflexivity]. Qed.
  Lemma P_lit l : forallb (fun b => (32 <=? b) && (b <? 127)) l = true -> P l.
  Proof.
    intro H. apply P_ascii. rewrite Forall_forall. rewrite forallb_forall in H. intros b Hb. apply H in Hb.
    rewrite Bool.andb_true_iff, N.leb_le, N.ltb_lt in Hb. exact Hb.
  Qed.
  Lemma P_joined l : Forall P l -> P (joined l).
  Proof.
    induction 1 as [|x l Hx Hl IH]; [exact P_nil|]. destruct l as [|y l]; [exact Hx|]. cbn [joined].
    apply P_app; [exact Hx|]. apply P_app; [apply P_lit; reflexivity|exact IH].
  Qed.
  Lemma P_lines k l : alt = true -> Forall P l -> P (lines k l).
  Proof.
    intros Ha H. unfold lines. apply P_app; [|apply P_indent]. induction H as [|x l Hx Hl IH]; [exact P_nil|]. cbn [flat_map].
    apply P_app; [|exact IH]. apply P_app; [apply P_indent|]. apply P_app; [exact Hx|]. apply P_app; [apply P_lit; reflexivity|apply P_newline; exact Ha].
  Qed.
  Lemma P_render d : forall k, dbg_ok d -> P (render esc alt k d).
  Proof.
    induction d as [w|s|n l IH|n l IH|l IH] using dbg_ind'; intros k H; inversion H; subst; cbn [render].
    - apply P_word. assumption.
    - apply P_str. assumption.
    - assert (F : Forall P (map (render esc alt (S k)) l)).
      { rewrite Forall_forall in *. intros x Hx. apply in_map_iff in Hx as (d & <- & Hd). apply (IH d Hd). auto. }
      unfold tuple_text. destruct (Bool.bool_dec alt true) as [Ea|Ea]; [rewrite Ea at 1|apply Bool.not_true_is_false in Ea; rewrite Ea at 1]; cbv iota; (apply P_app; [apply P_word; assumption|]); (apply P_app; [apply P_lit; reflexivity|]).
      + apply P_app; [apply P_newline; exact Ea|]. apply P_app; [apply P_lines; [exact Ea|exact F]|apply P_lit; reflexivity].
      + apply P_app; [apply P_joined; exact F|apply P_lit; reflexivity].
    - assert (F : Forall P (map (fun f => fst f ++ bs ": " ++ render esc alt (S k) (snd f)) l)).
      { rewrite Forall_forall in *. intros x Hx. apply in_map_iff in Hx as ([f d] & <- & Hd). cbn [fst snd].
        match goal with K : forall x, In x l -> _ /\ _ |- _ => destruct (K _ Hd) as [K1 K2] end. cbn [fst snd] in *.
        apply P_app; [apply P_word; exact K1|]. apply P_app; [apply P_lit; reflexivity|]. apply (IH _ Hd). exact K2. }
      unfold struct_text. destruct (Bool.bool_dec alt true) as [Ea|Ea]; [rewrite Ea at 1|apply Bool.not_true_is_false in Ea; rewrite Ea at 1]; cbv iota; (apply P_app; [apply P_word; assumption|]); (apply P_app; [apply P_lit; reflexivity|]).
      + apply P_app; [apply P_newline; exact Ea|]. apply P_app; [apply P_lines; [exact Ea|exact F]|apply P_lit; reflexivity].
      + apply P_app; [apply P_joined; exact F|apply P_lit; reflexivity].
    - assert (F : Forall P (map (render esc alt (S k)) l)).
      { rewrite Forall_forall in *. intros x Hx. apply in_map_iff in Hx as (d & <- & Hd). apply (IH d Hd). auto. }
      unfold list_text. destruct (map (render esc alt (S k)) l) as [|y m]; [apply P_lit; reflexivity|].
      destruct (Bool.bool_dec alt true) as [Ea|Ea]; [rewrite Ea at 1|apply Bool.not_true_is_false in Ea; rewrite Ea at 1]; cbv iota; (apply P_app; [apply P_lit; reflexivity|]).
      + apply P_app; [apply P_newline; exact Ea|]. apply P_app; [apply P_lines; [exact Ea|exact F]|apply P_lit; reflexivity].
      + apply P_app; [apply P_joined; exact F|apply P_lit; reflexivity].
  Qed.
End Bytes.

Lemma hex_ascii c : Forall (fun b => 32 <= b /\ b < 127) (fmt_hex c).
Proof.
  destruct (fmt_hex_spec c) as [H _]. rewrite Forall_forall. rewrite forallb_forall in H. intros b Hb. apply H in Hb. unfold hex_byte in Hb.
  rewrite !Bool.orb_true_iff, !Bool.andb_true_iff, !N.leb_le in Hb. lia.
Qed.
Lemma P_debug_str (P : list N -> Prop) (P_app : forall a b, P a -> P b -> P (a ++ b)) (P_nil : P []) (P_sign : forall b, 32 <= b -> b < 127 -> P [b])
  esc (P_plain : forall c, is_scalar c = true -> ~ In c [0; 9; 13; 10; 92; 34] -> esc c = false -> P (utf8_encode c)) s : is_utf8 s -> P (debug_str esc s).
Proof.
  intros (cs & Hc & ->). unfold debug_str. rewrite chars_utf8_string by exact Hc.
  apply P_app; [apply P_sign; [discriminate|reflexivity]|]. apply P_app; [|apply P_sign; [discriminate|reflexivity]].
  induction Hc as [|c cs Hc _ IH]; [exact P_nil|]. cbn [flat_map]. apply P_app; [|exact IH]. unfold debug_char.
  repeat match goal with |- context [c =? ?k] => destruct (N.eqb_spec c k) as [->|?]; [apply (P_lit P P_app P_nil P_sign); reflexivity|] end.
  destruct (esc c) eqn:E.
  - apply P_app; [apply (P_lit P P_app P_nil P_sign); reflexivity|]. apply P_app; [apply (P_ascii P P_app P_nil P_sign), hex_ascii|apply (P_lit P P_app P_nil P_sign); reflexivity].
  - apply P_plain; [exact Hc| |exact E]. cbn [In]. intuition congruence.
Qed.

(** The printed text is UTF-8. *)
Theorem C97_print_is_utf8 esc alt pw v : constructible pw v -> is_utf8 (value_debug esc alt pw v).
Proof.
  intro H. assert (A : forall a b, is_utf8 a -> is_utf8 b -> is_utf8 (a ++ b)).
  { intros a b Ha Hb. apply utf8_valid_iff. apply valid_app; apply utf8_valid_iff; assumption. }
  assert (N : is_utf8 []) by (exists []; split; [constructor|reflexivity]).
  assert (E : forall c, is_scalar c = true -> is_utf8 (utf8_encode c)).
  { intros c Hc. exists [c]. split; [constructor; [exact Hc|constructor]|]. cbn. rewrite app_nil_r. reflexivity. }
  assert (S : forall b, b < 128 -> is_utf8 [b]).
  { intros b Hb. exists [b]. split; [apply scalars_ascii; constructor; [exact Hb|constructor]|]. symmetry. apply utf8_ascii. constructor; [exact Hb|constructor]. }
  apply (P_render is_utf8 A N esc alt).
  - intros b _ Hb. apply S. lia.
  - intros _. apply S. reflexivity.
  - intros s Hs. apply (P_debug_str is_utf8 A N); [intros b _ Hb; apply S; lia| |exact Hs]. intros c Hc _ _. apply E. exact Hc.
  - apply value_ok. exact H.
Qed.

(** With a table that escapes the control characters of ASCII (std's does), [{:?}] is a single line without control characters,
    whatever the strings contain, and [{:#?}] has no control characters but newlines. *)
Theorem C97_one_line esc alt pw v : (forall c, c < 32 \/ c = 127 -> esc c = true) -> constructible pw v ->
  Forall (fun b => (32 <= b /\ b <> 127) \/ (alt = true /\ b = 10)) (value_debug esc alt pw v).
Proof.
  intros He H. assert (A : forall a b : list N, Forall (fun b => (32 <= b /\ b <> 127) \/ (alt = true /\ b = 10)) a -> Forall (fun b => (32 <= b /\ b <> 127) \/ (alt = true /\ b = 10)) b ->
    Forall (fun b => (32 <= b /\ b <> 127) \/ (alt = true /\ b = 10)) (a ++ b)) by (intros a b Ha Hb; apply Forall_app; auto).
  assert (S : forall b, 32 <= b -> b < 127 -> Forall (fun b => (32 <= b /\ b <> 127) \/ (alt = true /\ b = 10)) [b]).
  { intros b H1 H2. constructor; [left; lia|constructor]. }
  refine (P_render (Forall (fun b => (32 <= b /\ b <> 127) \/ (alt = true /\ b = 10))) A (Forall_nil _) esc alt S _ _ _ _ (value_ok pw v H)).
  - intro E. constructor; [right; auto|constructor].
  - intros s Hs. apply (P_debug_str _ A (Forall_nil _) S); [|exact Hs]. intros c Hc _ Ec.
    destruct (N.lt_ge_cases c 128) as [L|L].
    + rewrite utf8_encode_ascii by exact L. constructor; [|constructor]. left.
      destruct (N.lt_ge_cases c 32); [rewrite He in Ec by auto; discriminate|]. split; [assumption|]. intros ->. rewrite He in Ec by auto. discriminate.
    + pose proof (utf8_encode_high c L) as Hh. rewrite Forall_forall in *. intros b Hb. left. specialize (Hh b Hb). cbv beta in Hh. lia.
Qed.

(** * Concrete cases *)
(** A table like std's on ASCII. *)
Definition sample_table (c : N) : bool := (c <? 32) || (c =? 127) || (c =? 0x200B).
Definition sample_text : list N := bs "{""a\n\u001b"":[1,true,null,{},[]],""" ++ [0xE2; 0x80; 0x8B; 0xC3; 0xA9; 0x7F] ++ bs """:""b""}".
Definition sample_value : value := Eval vm_compute in match value_from_json_bytes W64 sample_text with Ok v => v | _ => VNull end.
Lemma sample_value_parsed : value_from_json_bytes_with_config W64 sample_text config_default = Ok sample_value.
Proof. vm_compute. reflexivity. Qed.
Example sample_value_text : value_debug sample_table false W64 sample_value =
  bs "Object(Object([Entry { key: JsonString { source: Json(Borrowed(""a\\n\\u001b"")), info: EscapeInfo { has_escapes: true, unescaped_length: 3 } }, value: Array([Number(JsonNumber { source: Borrowed(""1"") }), Boolean(true), Null, Object(Object([])), Array([])]) }, Entry { key: JsonString { source: Json(Borrowed(""\u{200b}"
  ++ [0xC3; 0xA9] ++ bs "\u{7f}"")), info: EscapeInfo { has_escapes: false, unescaped_length: 6 } }, value: String(JsonString { source: Json(Borrowed(""b"")), info: EscapeInfo { has_escapes: false, unescaped_length: 1 } }) }]))".
Proof. vm_compute. reflexivity. Qed.
Definition unlines (l : list (list N)) : list N := List.concat (map (fun x => x ++ [10]) l).
Example sample_pretty : value_debug sample_table true W64 (VArray [VNumber (JNum (Borrowed (bs "1"))); VNull; VArray []]) ++ [10] =
  unlines [bs "Array("; bs "    ["; bs "        Number("; bs "            JsonNumber {"; bs "                source: Borrowed(";
           bs "                    ""1"","; bs "                ),"; bs "            },"; bs "        ),"; bs "        Null,";
           bs "        Array("; bs "            [],"; bs "        ),"; bs "    ],"; bs ")"].
Proof. vm_compute. reflexivity. Qed.
Example sample_raw : exists x, js_from_string W32 [9; 0; 13; 10; 34; 92; 39] = Ok x /\ obtainable W32 x /\
  string_debug sample_table false W32 x = bs "JsonString { source: Raw(Owned(""\t\0\r\n\""\\'"")), info: EscapeInfo { has_escapes: true, unescaped_length: 17 } }".
Proof.
  eexists. split; [vm_compute; reflexivity|]. split; [|vm_compute; reflexivity].
  right. exists [9; 0; 13; 10; 34; 92; 39]. split; [|right; vm_compute; reflexivity].
  split; [exists [9; 0; 13; 10; 34; 92; 39]; split; [repeat constructor|reflexivity]|vm_compute; discriminate].
Qed.
Example sample_tokens : map (token_debug sample_table false W64) [TkNull; TkBool false; TkObject; TkObjectEnd; TkArray; TkArrayEnd; TkColon; TkComma; TkNumber (JNum (Borrowed (bs "-0.5e+7")))] =
  [bs "Null"; bs "Bool(false)"; bs "Object"; bs "ObjectEnd"; bs "Array"; bs "ArrayEnd"; bs "Colon"; bs "Comma"; bs "Number(JsonNumber { source: Borrowed(""-0.5e+7"") })"].
Proof. vm_compute. reflexivity. Qed.
Definition no_error (d : infallible) : dbg := match d with end.
Example sample_errors : map (fun k => error_debug no_error sample_table false (Error 10 k)) [KUnexpected 200; KUtf8] =
  [bs "Error { offset: 10, kind: Unexpected(200) }"; bs "Error { offset: 10, kind: Utf8 }"] /\
  map (fun k => render sample_table false 0 (error_kind_dbg no_error k))
   [KUnexpectedEof; KExpectedObjectKey; KExpectedColon; KExpectedValue; KExpectedCommaOrEndOfObject; KExpectedCommaOrEndOfArray; KIllegalTrailingComma;
    KTrailingNonWhitespace; KObjectKeysMustBeStrings; KExpectedExponent; KExpectedDecimalDigit; KExpectedDigit; KInvalidHexadecimal; KInvalidEscape;
    KUnclosedObject; KUnclosedArray; KUnclosedString; KExpectedString; KExpectedNumber; KRecursionLimitReached; KPayloadsShouldBeObjectOrArray; KPaylodTooLarge] =
   [bs "UnexpectedEof"; bs "ExpectedObjectKey"; bs "ExpectedColon"; bs "ExpectedValue"; bs "ExpectedCommaOrEndOfObject"; bs "ExpectedCommaOrEndOfArray"; bs "IllegalTrailingComma";
    bs "TrailingNonWhitespace"; bs "ObjectKeysMustBeStrings"; bs "ExpectedExponent"; bs "ExpectedDecimalDigit"; bs "ExpectedDigit"; bs "InvalidHexadecimal"; bs "InvalidEscape";
    bs "UnclosedObject"; bs "UnclosedArray"; bs "UnclosedString"; bs "ExpectedString"; bs "ExpectedNumber"; bs "RecursionLimitReached"; bs "PayloadsShouldBeObjectOrArray"; bs "PaylodTooLarge"] /\
  error_debug (fun n => DTuple (bs "Refused") [int_dbg n]) sample_table true (Error 3 (KErrorFromDelegate 7)) ++ [10] =
    unlines [bs "Error {"; bs "    offset: 3,"; bs "    kind: ErrorFromDelegate("; bs "        Refused("; bs "            7,"; bs "        ),"; bs "    ),"; bs "}"].
Proof. split; [|split]; vm_compute; reflexivity. Qed.
Example sample_config : config_debug false config_default = bs "ParseConfig { allow_trailing_commas: false, recursion_limit: Some(128), allow_all_types_at_root: true }" /\
  config_debug false {| allow_trailing_commas := true; recursion_limit := Some 12; allow_all_types_at_root := false |} =
  bs "ParseConfig { allow_trailing_commas: true, recursion_limit: Some(12), allow_all_types_at_root: false }".
Proof. split; vm_compute; reflexivity. Qed.
Example sample_kinds : map (fun k => render sample_table false 0 (peek_kind_dbg k))
    [PkNull; PkTrue; PkFalse; PkString; PkNumber; PkObject; PkObjectEnd; PkArray; PkArrayEnd; PkUnrecognized; PkColon; PkComma] =
    [bs "Null"; bs "True"; bs "False"; bs "String"; bs "Number"; bs "Object"; bs "ObjectEnd"; bs "Array"; bs "ArrayEnd"; bs "Unrecognized"; bs "Colon"; bs "Comma"] /\
  map (fun k => render sample_table false 0 (json_kind_dbg k)) [JkNull; JkBoolean; JkNumber; JkString; JkObject; JkArray] =
    [bs "Null"; bs "Boolean"; bs "Number"; bs "String"; bs "Object"; bs "Array"].
Proof. split; vm_compute; reflexivity. Qed.
Definition sample_doc : document := Eval vm_compute in match document_from_json_bytes W64 None (bs "[{""a"":null},true,2]") with Ok d => d | _ => [] end.
Example sample_document : document_debug (bs "PhantomData<&()>") sample_table false W64 sample_doc =
  bs "GenericDocument { nodes: Nodes { collection: [Array { length: 3 }, Object { length: 1 }, String(JsonString { source: Json(Borrowed(""a"")), info: EscapeInfo { has_escapes: false, unescaped_length: 1 } }), Null, Boolean(true), Number(JsonNumber { source: Borrowed(""2"") })], _phantom: PhantomData<&()> } }" /\
  document_debug (bs "PhantomData<&()>") sample_table true W64 [NNull] ++ [10] =
   unlines [bs "GenericDocument {"; bs "    nodes: Nodes {"; bs "        collection: ["; bs "            Null,"; bs "        ],"; bs "        _phantom: PhantomData<&()>,"; bs "    },"; bs "}"].
Proof. split; vm_compute; reflexivity. Qed.
