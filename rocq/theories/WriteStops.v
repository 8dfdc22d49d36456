(** If the escaped form of some string cannot be computed (as_json panics), so cannot the text of the value. *)
From Verif Require Import Base Utf8 Utf8Facts StrModel ErrorModel Tokenizer Parser ValueModel Spec SpecWrite View WriteFacts WriteGrammar.
Local Open Scope N_scope.

Definition stops (m : wm string_write) : Prop := forall st, exists f st', m st = (Fault f, st').

Lemma stops_first m k : stops m -> stops (wthen string_write m k).
Proof. intros H st. destruct (H st) as (f & st' & E). exists f, st'. unfold wthen. rewrite E. reflexivity. Qed.
Lemma stops_second (m : forall W, wm W) k : mirrors m -> stops k -> stops (wthen string_write (m string_write) k).
Proof.
  intros Hm Hk [w l a]. destruct (Hm l a) as (cs & r & l' & a' & Hr & H). specialize (H string_write w).
  cbn [w_st string_write] in H. rewrite string_calls in H. unfold wthen. destruct r as [[]|[]|f]; [|congruence|].
  - cbn [w_st string_write] in *. rewrite H. apply Hk.
  - cbn [w_st string_write] in *. rewrite H. eauto.
Qed.

Lemma stops_as_json pw : forall fuel it f, collect (as_json_next pw) fuel it = Fault f -> stops (w_as_json pw string_write fuel it).
Proof.
  induction fuel as [|fuel IH]; intros it f E st; [exists FFuel; eexists; reflexivity|]. cbn [collect] in E. cbn [w_as_json].
  destruct (as_json_next pw it) as [[[c|] it']|[]|g]; cbn [bind] in E; try discriminate.
  - destruct (collect (as_json_next pw) fuel it') as [[rest d']|[]|g] eqn:Er; cbn [bind] in E; try discriminate.
    apply (stops_second (fun W => w_char W c)); [apply mirrors_char|]. eapply IH. exact Er.
  - eauto.
Qed.

Section Stops.
  Variable pw : pwidth.
  Variable pretty : bool.
  Variables indent eol : list N.

  Lemma stops_string s f : js_as_json pw s = Fault f -> stops (w_write_json pw string_write pretty indent s).
  Proof.
    intro E. unfold js_as_json in E.
    destruct (collect (as_json_next pw) (json_fuel (contents_str (js_source s))) (js_as_json_iter s)) as [[cs d]|[]|g] eqn:Ec; cbn [bind] in E; try discriminate.
    unfold w_write_json. apply (stops_second (fun W => w_indent W pretty indent)); [apply mirrors_indent|].
    apply (stops_second (fun W => w_str W [34])); [apply mirrors_str|]. apply stops_first. eapply stops_as_json. exact Ec.
  Qed.

  Lemma stops_value : forall v, all_strings (fun x => exists out, js_as_json pw x = Ok out) v \/
    stops (write_json_value pw string_write pretty indent eol v).
  Proof.
    assert (D : forall s, (exists out, js_as_json pw s = Ok out) \/ stops (w_write_json pw string_write pretty indent s)).
    { intro s. destruct (js_as_json pw s) as [out|[]|f] eqn:E; [left; eauto|right; eapply stops_string; exact E]. }
    assert (Cm : forall (A : Type) (r : list A), mirrors (fun W => match r with [] => wret W | _ => w_write W pretty indent [44] end)).
    { intros A [|x r]; [apply mirrors_wret|apply mirrors_write]. }
    assert (Bg : forall b, mirrors (fun W => wthen W (w_write W pretty indent [b]) (w_level_up W))).
    { intro b. apply (mirrors_then (fun W => w_write W pretty indent [b])); [apply mirrors_write|apply mirrors_up]. }
    induction v as [n|s|b|o IH|l IH|] using value_ind'; try (left; constructor; fail).
    - destruct (D s) as [H|H]; [left; constructor; exact H|right; exact H].
    - assert (G : Forall (fun e => (exists out, js_as_json pw (fst e) = Ok out) /\
          all_strings (fun x => exists out, js_as_json pw x = Ok out) (snd e)) o \/ stops (write_members pw string_write pretty indent eol o)).
      { induction IH as [|[k v] o Hv IH IHo]; [left; constructor|]. cbn [fst snd write_members] in *.
        destruct (D k) as [Hk|Hk]; [|right; apply stops_first; exact Hk].
        destruct Hv as [Hv|Hv].
        2:{ right. apply (stops_second (fun W => w_write_json pw W pretty indent k)); [apply mirrors_write_json|].
            apply (stops_second (fun W => w_object_key_end W pretty indent)); [apply mirrors_write|]. apply stops_first. exact Hv. }
        destruct IHo as [Ho|Ho]; [left; constructor; auto|].
        right. apply (stops_second (fun W => w_write_json pw W pretty indent k)); [apply mirrors_write_json|].
        apply (stops_second (fun W => w_object_key_end W pretty indent)); [apply mirrors_write|].
        apply (stops_second (fun W => write_json_value pw W pretty indent eol v)); [apply mirrors_value|].
        apply (stops_second (fun W => match o with [] => wret W | _ => w_write W pretty indent [44] end)); [apply Cm|].
        apply (stops_second (fun W => w_new_line W pretty indent eol)); [apply mirrors_new_line|exact Ho]. }
      destruct G as [G|G]; [left; constructor; exact G|]. right. rewrite write_object.
      apply (stops_second (fun W => w_begin_object W pretty indent)); [apply Bg|]. apply stops_first.
      destruct o as [|e o]; [exact G|]. apply (stops_second (fun W => w_new_line W pretty indent eol)); [apply mirrors_new_line|exact G].
    - assert (G : Forall (all_strings (fun x => exists out, js_as_json pw x = Ok out)) l \/ stops (write_elements pw string_write pretty indent eol l)).
      { induction IH as [|v l Hv IH IHo]; [left; constructor|]. cbn [write_elements].
        destruct Hv as [Hv|Hv]; [|right; apply stops_first; exact Hv].
        destruct IHo as [Ho|Ho]; [left; constructor; auto|].
        right. apply (stops_second (fun W => write_json_value pw W pretty indent eol v)); [apply mirrors_value|].
        apply (stops_second (fun W => match l with [] => wret W | _ => w_write W pretty indent [44] end)); [apply Cm|].
        apply (stops_second (fun W => w_new_line W pretty indent eol)); [apply mirrors_new_line|exact Ho]. }
      destruct G as [G|G]; [left; constructor; exact G|]. right. rewrite write_array.
      apply (stops_second (fun W => w_begin_array W pretty indent)); [apply Bg|]. apply stops_first.
      destruct l as [|e l]; [exact G|]. apply (stops_second (fun W => w_new_line W pretty indent eol)); [apply mirrors_new_line|exact G].
  Qed.
End Stops.

(** The serializers return exactly when every string has an escaped form. *)
Lemma to_json_ok pw v u : to_json pw v = Ok u -> all_strings (fun x => exists out, js_as_json pw x = Ok out) v.
Proof.
  intro E. destruct (stops_value pw false [] [] v) as [H|H]; [exact H|]. exfalso.
  unfold to_json, write_json_to, write_json in E. destruct (H (WS string_write [] 0 true)) as (f & [w l a] & K). rewrite K in E. discriminate.
Qed.
Lemma to_json_pretty_ok pw indent eol v u : to_json_pretty_custom pw indent eol v = Ok u ->
  all_strings (fun x => exists out, js_as_json pw x = Ok out) v.
Proof.
  intro E. destruct (stops_value pw true indent eol v) as [H|H]; [exact H|]. exfalso.
  unfold to_json_pretty_custom, pretty_write_json_to_custom, write_json in E.
  destruct (H (WS string_write [] 0 true)) as (f & [w l a] & K). rewrite K in E. discriminate.
Qed.
