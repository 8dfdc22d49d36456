(** Concrete cases meeting the hypotheses of the theorems of PropFloat.v, PropFused.v, PropIter.v, PropLines.v, PropLook.v, PropNumber.v and PropParam.v. *)
From Coq Require Import QArith.
From Verif Require Import Base Utf8 Utf8Facts StrModel ErrorModel Tokenizer Parser ValueModel DocModel NumModel FloatModel LookModel Spec SpecNum SpecFloat View
  StrObt PropTok PropParse PropDelegate PropWrite PropIter PropValue PropNumber PropFloat PropFused PropLines PropTime PropLook PropParam WitBase WitCall WitEsc.
Local Open Scope N_scope.

(** * PropFloat: 12.50e-3, 12.5e-3, -128, 0.5 *)
Lemma ob1 : number_obtainable W32 (num "12.50e-3"). Proof. exact (proj1 sample_nearest). Qed.
Lemma lv1 : literal_value (jn_str (num "12.50e-3")) false 1250 (-5). Proof. exact (proj1 (proj2 sample_nearest)). Qed.
Lemma rd1 : readable (jn_str (num "12.50e-3")). Proof. exact (proj2 (proj2 sample_nearest)). Qed.
Lemma ob2 : number_obtainable W32 (num "12.5e-3").
Proof. apply (number_of_number W32 _ (bs "12.5e-3")); [str|vm_compute; reflexivity]. Qed.
Lemma lv2 : literal_value (jn_str (num "12.5e-3")) false 125 (-4).
Proof.
  apply (lv_frac false (bs "12") (bs "5") (bs "e-3") (-3)).
  - right. exists 49, (bs "2"). split; [lia|]. split; [change (bs "2") with [50]; constructor; [unfold digit; lia|constructor]|reflexivity].
  - split; [discriminate|]. cbn. repeat (constructor; [unfold digit; lia|]). constructor.
  - apply (exp_minus 101 (bs "3")); [left; reflexivity|]. split; [discriminate|]. cbn. repeat (constructor; [unfold digit; lia|]). constructor.
Qed.
Lemma rd s neg m e : literal_value s neg m e -> (Z.of_nat (length s) <= 65000)%Z -> readable s.
Proof. intros L H. destruct (float_exact _ _ _ _ L) as (e' & ex & ex' & _ & W & _). exists ex. split; [exact W|right; exact H]. Qed.
Lemma ob3 : number_obtainable W32 (num "0.5").
Proof. apply (number_of_number W32 _ (bs "0.5")); [str|vm_compute; reflexivity]. Qed.
Lemma lv3 : literal_value (jn_str (num "0.5")) false 5 (-1).
Proof.
  apply (lv_frac false (bs "0") (bs "5") [] 0).
  - left. reflexivity.
  - split; [discriminate|]. cbn. repeat (constructor; [unfold digit; lia|]). constructor.
  - constructor.
Qed.
Lemma rd2 : readable (jn_str (num "12.5e-3")). Proof. eapply rd; [exact lv2|cbn; lia]. Qed.
Lemma rd3 : readable (jn_str (num "0.5")). Proof. eapply rd; [exact lv3|cbn; lia]. Qed.
Lemma ob4 : number_obtainable W32 (num "-128").
Proof. apply (number_of_number W32 _ (bs "-128")); [str|vm_compute; reflexivity]. Qed.
Definition at_C83_as_f64_is_nearest := C83_as_f64_is_nearest W32 (num "12.50e-3") false 1250 (-5) ob1 lv1 rd1.
Definition at_C83_as_f32_is_nearest := C83_as_f32_is_nearest W32 (num "12.50e-3") false 1250 (-5) ob1 lv1 rd1.
Lemma at_C83_nearest_is_unique y : rounded double false (decimal_value 1250 (-5)) y -> as_f64 (num "12.50e-3") = Some y.
Proof.
  intro H. destruct at_C83_as_f64_is_nearest as (z & E & _ & K).
  rewrite (C83_nearest_is_unique double false _ y z (or_intror eq_refl) H K). exact E.
Qed.
Definition at_C83_equal_numbers :=
  C83_equal_numbers W32 (num "12.50e-3") (num "12.5e-3") false 1250 (-5) 125 (-4) ob1 ob2 lv1 lv2 rd1 rd2 ltac:(vm_compute; reflexivity).
Definition at_C83_monotone :=
  C83_monotone W32 (num "12.50e-3") (num "0.5") false false 1250 (-5) 5 (-1) (2 ^ 52) (-53) ob1 ob3 lv1 lv3 rd1 rd3 ltac:(vm_compute; discriminate) ltac:(vm_compute; reflexivity).
Definition at_C83_monotone_f32 :=
  C83_monotone_f32 W32 (num "12.50e-3") (num "0.5") false false 1250 (-5) 5 (-1) (2 ^ 23) (-24) ob1 ob3 lv1 lv3 rd1 rd3 ltac:(vm_compute; discriminate) ltac:(vm_compute; reflexivity).
Definition at_C83_representable_is_exact :=
  C83_representable_is_exact W32 (num "0.5") false 5 (-1) (2 ^ 52) (-53) ob3 lv3 rd3
    ltac:(split; [cbn; lia|]; split; [cbn; lia|]; left; cbn; lia) ltac:(vm_compute; reflexivity).
Definition at_C83_representable_is_exact_f32 :=
  C83_representable_is_exact_f32 W32 (num "0.5") false 5 (-1) (2 ^ 23) (-24) ob3 lv3 rd3
    ltac:(split; [cbn; lia|]; split; [cbn; lia|]; left; cbn; lia) ltac:(vm_compute; reflexivity).
Definition at_C83_integers_are_exact := C83_integers_are_exact W32 I8 (num "-128") (-128) ob4 ltac:(vm_compute; reflexivity) ltac:(lia).
Definition at_C83_integers_are_exact_f32 := C83_integers_are_exact_f32 W32 I8 (num "-128") (-128) ob4 ltac:(vm_compute; reflexivity) ltac:(lia).

(** * PropNumber *)
Definition at_C42_integers_exact := proj1 (C42_integers_exact W32 I8 (num "-128") (-128) ob4) ltac:(vm_compute; reflexivity).
Definition at_C42_integer_literal_value := C42_integer_literal_value (bs "-128") (-128) (-128) (proj1 at_C42_integers_exact) (proj1 at_C42_integers_exact).
Definition at_C43_floats_accept := C43_floats_accept W32 (num "12.50e-3") ob1.
Lemma at_C43_floats_exact : as_float (num "12.50e-3") = Some (FrDec false 1250 (-5)).
Proof.
  assert (W : written_exponent (bs "12.50e-3") (-3)).
  { exists (bs "12.50"), (bs "e-3"). split; [reflexivity|]. split; [cbn; repeat (apply Forall_cons; [lia|]); apply Forall_nil|].
    apply (exp_minus 101 (bs "3")); [left; reflexivity|]. split; [discriminate|]. cbn. repeat (constructor; [unfold digit; lia|]). constructor. }
  exact (proj1 (C43_floats_exact W32 (num "12.50e-3") false 1250 (-5) (-3) ob1 lv1 W ltac:(lia))).
Qed.

(** * PropFused *)
Definition at_C74_decoded_one_by_one := C74_decoded_one_by_one W64 jstr obt_j.
Definition at_C74_as_json_one_by_one := C74_as_json_one_by_one W64 rstr obt_r fits_r.
Definition at_C75_decoding_does_not_grow := C75_decoding_does_not_grow W64 jstr jcs obt_j jdec.
Definition at_C75_escaping_grows_at_most_sixfold := C75_escaping_grows_at_most_sixfold W64 raw1 rstr rcs rout built1 rdec rjson.

(** * PropIter *)
Definition at_C65_next_walks_in_order := C65_next_walks_in_order W64 config_default text0 doc0 value0 30 docfor0 ltac:(vm_compute; lia).
Definition at_C65_any_program := C65_any_program W64 config_default text0 doc0 value0 [ONext; ONext; OSkip; ONext; OValue] docfor0.
Definition at_C68_node_count := C68_node_count W64 config_default text0 doc0 value0 docfor0.
Definition at_C68_capacity_that_suffices :=
  C68_capacity_that_suffices W64 config_default 100 text0 slice0 ltac:(apply Nat.leb_le; vm_compute; reflexivity) doc0 docparse0.
Definition at_C68_node_count_is_tight := C68_node_count_is_tight W64 50 ltac:(vm_compute; discriminate).
Definition at_C68_compact_not_longer := C68_compact_not_longer W64 config_default text0 value0 text0c from0 ltac:(vm_compute; reflexivity).
Definition at_C68_depth := C68_depth W64 config_default text0 value0 from0.
Definition at_C68_limit_that_suffices := proj1 (C68_limit_that_suffices W64 false true 128 text0 value0 ltac:(vm_compute; discriminate)) from0.

(** * PropLines *)
Definition at_C95_one_value_per_line :=
  C95_one_value_per_line W64 config_default [13; 10] [text0; text2] [value0; value2] (or_intror eq_refl)
    (Forall2_cons _ _ from0 (Forall2_cons _ _ from2 (Forall2_nil _))).
Lemma constructible_0 : constructible W64 value0. Proof. exact (parsed_constructible _ _ _ _ from0). Qed.
Definition at_C95_built_values :=
  C95_built_values W64 [10] [value0] [text0c] (or_introl eq_refl) (Forall_cons _ constructible_0 (Forall_nil _))
    ltac:(apply Forall2_cons; [vm_compute; reflexivity|apply Forall2_nil]).

(** * PropLook: a text of which only the beginning is looked at *)
Lemma at_C90_nothing_else_is_looked_at :
  fst (parse_with true W64 unit_delegate (bs "[tru!]") config_new tt) = fst (parse_with true W64 unit_delegate (bs "[tru!,,,") config_new tt).
Proof.
  pose proof (C90_nothing_else_is_looked_at true W64 config_new unit_delegate (bs "[tru!,,,") tt (bs "[tru!]")) as K.
  pose proof (proj1 C90_sample_other_input) as H. destruct (c_parse_bytes _ _ _ _ _ _) as [r looks]. cbn [snd] in H.
  destruct (K H) as (-> & -> & _). reflexivity.
Qed.
Lemma at_C90_tokenizer_nothing_else_is_looked_at :
  fst (tok_run true W64 (tokenizer_new (bs "[tru!]")) [CallNext; CallNext]) = fst (tok_run true W64 (tokenizer_new (bs "[tru!,,,")) [CallNext; CallNext]).
Proof.
  pose proof (C90_tokenizer_nothing_else_is_looked_at true W64 (bs "[tru!,,,") (bs "[tru!]") [CallNext; CallNext]) as K.
  assert (H : forall p, In p (snd (c_tok_run true W64 (tokenizer_new (bs "[tru!,,,")) [CallNext; CallNext])) -> nth_error (bs "[tru!]") p = nth_error (bs "[tru!,,,") p).
  { intros p Hp. vm_compute in Hp. repeat (destruct Hp as [<-|Hp]; [reflexivity|]). destruct Hp. }
  destruct (c_tok_run _ _ _ _) as [r looks]. cbn [snd] in H. destruct (K H) as (-> & _ & ->). reflexivity.
Qed.
Lemma at_C90_one_byte_of_look_ahead :
  fst (tok_run true W64 (tokenizer_new (bs "12,]")) [CallNext]) = fst (tok_run true W64 (tokenizer_new (bs "12,x")) [CallNext]).
Proof.
  pose proof (C90_one_byte_of_look_ahead true W64 (bs "12,x") (bs "12,]") [CallNext]) as K.
  assert (H : firstn (S (tokenizer_offset (snd (tok_run true W64 (tokenizer_new (bs "12,x")) [CallNext])))) (bs "12,]") =
    firstn (S (tokenizer_offset (snd (tok_run true W64 (tokenizer_new (bs "12,x")) [CallNext])))) (bs "12,x")) by (vm_compute; reflexivity).
  destruct (tok_run true W64 (tokenizer_new (bs "12,x")) [CallNext]) as [r it]. cbn [fst snd] in *. exact (proj1 (K H)).
Qed.

(** * PropParam *)
Definition at_C91_homomorphisms :=
  C91_homomorphisms true W64 config_default (recording picky) picky fst (fun v => v) (fun o => o) (fun a => a) (fun k => k) (fun e => e) text0 (tt, [])
    (C91_sample_recording config_default picky).
Lemma recording_corresponds : delegates_correspond config_default (recording picky) picky (fun s t => fst s = t) eq eq eq eq eq (fun _ => False).
Proof.
  pose proof (C91_sample_recording config_default picky) as H.
  constructor; intros; subst; try (apply (corresponds_map (fun e => e) (fun v => v) fst); apply H); try (symmetry; apply H; assumption).
  left. split; [reflexivity|]. cbn. split; reflexivity.
Qed.
Definition at_C91_runs_correspond :=
  C91_runs_correspond true W64 config_default (recording picky) picky (fun s t => fst s = t) eq eq eq eq eq (fun _ => False) text0 (tt, []) tt recording_corresponds eq_refl.
Definition at_C91_tee_second := C91_tee_second true W64 cfg1 value_delegate (nodes_delegate (Some 3%nat)) text1 tt [] eq_refl eq_refl.
Definition at_C91_stateless_delegates_fold := C91_stateless_delegates_fold count_scalars W64 config_default text0 (or_introl (proj1 C91_sample_fold)).
Definition at_C81_bounded_documents := proj1 (C81_bounded_documents config_default (Some 3%nat) text0) ltac:(slice).
