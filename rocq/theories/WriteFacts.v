(** The writer: independence of the destination, and the text it writes. *)
From Verif Require Import Base Utf8 Utf8Facts StrModel ErrorModel Tokenizer Parser ValueModel Spec SpecWrite.
Local Open Scope N_scope.

(** * Writes *)
(** One call of the destination. *)
Inductive write_call : Type :=
| CallStr (s : list N)      (* write_str(s) *)
| CallChar (c : N).         (* write_char(c) *)
Definition call_bytes (c : write_call) : list N := match c with CallStr s => s | CallChar c => utf8_encode c end.
Definition do_call (W : fmt_write) (w : w_st W) (c : write_call) : bool * w_st W :=
  match c with CallStr s => w_write_str W w s | CallChar c => w_write_char W w c end.
(** The calls in order, up to and including the first that fails. *)
Fixpoint do_calls (W : fmt_write) (w : w_st W) (cs : list write_call) : bool * w_st W :=
  match cs with
  | [] => (true, w)
  | c :: r => let '(ok, w') := do_call W w c in if ok then do_calls W w' r else (false, w')
  end.

Lemma do_calls_app W a b : forall w, do_calls W w (a ++ b) =
  let '(ok, w') := do_calls W w a in if ok then do_calls W w' b else (false, w').
Proof.
  induction a as [|c a IH]; intro w; cbn [app do_calls]; [reflexivity|]. destruct (do_call W w c) as [[] w']; [apply IH|reflexivity].
Qed.

Lemma string_calls cs : forall w, do_calls string_write w cs = (true, w ++ List.concat (map call_bytes cs)).
Proof.
  induction cs as [|c cs IH]; intro w; cbn [do_calls map List.concat]; [rewrite app_nil_r; reflexivity|].
  destruct c as [s|c]; cbn [do_call w_write_str w_write_char string_write call_bytes]; rewrite IH, <- app_assoc; reflexivity.
Qed.

(** * Every computation of the writer is a list of calls that does not depend on the destination *)
Definition mirrors (m : forall W : fmt_write, wm W) : Prop := forall l a, exists cs r l' a', r <> Err tt /\
  forall W w, match do_calls W w cs with
  | (true, w') => m W (WS W w l a) = (r, WS W w' l' a')
  | (false, w') => exists l'' a'', m W (WS W w l a) = (Err tt, WS W w' l'' a'')
  end.

Lemma mirrors_pure (f : nat -> bool -> res unit unit * (nat * bool)) (m : forall W, wm W) :
  (forall l a, fst (f l a) <> Err tt) ->
  (forall W w l a, m W (WS W w l a) = (fst (f l a), WS W w (fst (snd (f l a))) (snd (snd (f l a))))) -> mirrors m.
Proof.
  intros H1 H2 l a. exists [], (fst (f l a)), (fst (snd (f l a))), (snd (snd (f l a))). split; [apply H1|].
  intros W w. cbn [do_calls]. apply H2.
Qed.

Lemma mirrors_wret : mirrors (fun W => wret W).
Proof. apply (mirrors_pure (fun l a => (Ok tt, (l, a)))); [discriminate|reflexivity]. Qed.

Lemma mirrors_then m k : mirrors m -> mirrors k -> mirrors (fun W => wthen W (m W) (k W)).
Proof.
  intros Hm Hk l a. destruct (Hm l a) as (cs & r & l1 & a1 & Hr & H).
  destruct r as [[]|[]|f]; [|congruence|].
  - destruct (Hk l1 a1) as (cs2 & r2 & l2 & a2 & Hr2 & H2). exists (cs ++ cs2), r2, l2, a2. split; [exact Hr2|].
    intros W w. rewrite do_calls_app. specialize (H W w). destruct (do_calls W w cs) as [[] w'].
    + specialize (H2 W w'). destruct (do_calls W w' cs2) as [[] w''].
      * unfold wthen. rewrite H. exact H2.
      * destruct H2 as (l'' & a'' & H2). exists l'', a''. unfold wthen. rewrite H. exact H2.
    + destruct H as (l'' & a'' & H). exists l'', a''. unfold wthen. rewrite H. reflexivity.
  - exists cs, (Fault f), l1, a1. split; [discriminate|]. intros W w. specialize (H W w).
    destruct (do_calls W w cs) as [[] w'].
    + unfold wthen. rewrite H. reflexivity.
    + destruct H as (l'' & a'' & H). exists l'', a''. unfold wthen. rewrite H. reflexivity.
Qed.

Lemma mirrors_str s : mirrors (fun W => w_str W s).
Proof.
  intros l a. exists [CallStr s], (Ok tt), l, a. split; [discriminate|]. intros W w. cbn [do_calls do_call]. unfold w_str.
  cbn [ws_writer ws_level ws_at_line_start]. destruct (w_write_str W w s) as [[] w']; eauto.
Qed.
Lemma mirrors_char c : mirrors (fun W => w_char W c).
Proof.
  intros l a. exists [CallChar c], (Ok tt), l, a. split; [discriminate|]. intros W w. cbn [do_calls do_call]. unfold w_char.
  cbn [ws_writer ws_level ws_at_line_start]. destruct (w_write_char W w c) as [[] w']; eauto.
Qed.

Lemma mirrors_ext m k : (forall W s, m W s = k W s) -> mirrors m -> mirrors k.
Proof.
  intros E H l a. destruct (H l a) as (cs & r & l' & a' & Hr & G). exists cs, r, l', a'. split; [exact Hr|].
  intros W w. specialize (G W w). rewrite <- E. exact G.
Qed.

(** The loops of write_json_object / write_json_array, by name. *)
Section Loops.
  Variable pw : pwidth.
  Variable W : fmt_write.
  Variable pretty : bool.
  Variables indent eol : list N.
  Definition write_members : list (json_string * value) -> wm W :=
    fix go (obj : list (json_string * value)) : wm W :=
      match obj with
      | [] => wret W
      | (key, v') :: obj' =>
        wthen W (w_write_json pw W pretty indent key)
          (wthen W (w_object_key_end W pretty indent)
             (wthen W (write_json_value pw W pretty indent eol v')
                (wthen W (match obj' with [] => wret W | _ => w_write W pretty indent [44%N] end)
                   (wthen W (w_new_line W pretty indent eol) (go obj')))))
      end.
  Definition write_elements : list value -> wm W :=
    fix go (array : list value) : wm W :=
      match array with
      | [] => wret W
      | v' :: array' =>
        wthen W (write_json_value pw W pretty indent eol v')
          (wthen W (match array' with [] => wret W | _ => w_write W pretty indent [44%N] end)
             (wthen W (w_new_line W pretty indent eol) (go array')))
      end.
  Lemma write_object o : write_json_value pw W pretty indent eol (VObject o) =
    wthen W (w_begin_object W pretty indent)
      (wthen W (match o with [] => wret W | _ => wthen W (w_new_line W pretty indent eol) (write_members o) end)
        (w_end_object W pretty indent)).
  Proof. reflexivity. Qed.
  Lemma write_array l : write_json_value pw W pretty indent eol (VArray l) =
    wthen W (w_begin_array W pretty indent)
      (wthen W (match l with [] => wret W | _ => wthen W (w_new_line W pretty indent eol) (write_elements l) end)
        (w_end_array W pretty indent)).
  Proof. reflexivity. Qed.
End Loops.

Section Calls.
  Variable pw : pwidth.
  Variable pretty : bool.
  Variables indent eol : list N.

  Lemma mirrors_repeat n m : mirrors m -> mirrors (fun W => w_repeat W n (m W)).
  Proof. intro H. induction n as [|n IH]; cbn [w_repeat]; [apply mirrors_wret|apply mirrors_then; assumption]. Qed.

  Lemma mirrors_indent : mirrors (fun W => w_indent W pretty indent).
  Proof.
    intros l a. destruct (pretty && a) eqn:E.
    - destruct (mirrors_repeat l _ (mirrors_str indent) l false) as (cs & r & l' & a' & Hr & H). exists cs, r, l', a'.
      split; [exact Hr|]. intros W w. specialize (H W w). unfold w_indent. cbn [ws_level ws_writer ws_at_line_start]. rewrite E. exact H.
    - exists [], (Ok tt), l, a. split; [discriminate|]. intros W w. cbn [do_calls]. unfold w_indent.
      cbn [ws_level ws_writer ws_at_line_start]. rewrite E. reflexivity.
  Qed.

  Lemma mirrors_write s : mirrors (fun W => w_write W pretty indent s).
  Proof. unfold w_write. apply (mirrors_then (fun W => w_indent W pretty indent) (fun W => w_str W s)); [apply mirrors_indent|apply mirrors_str]. Qed.

  Lemma mirrors_as_json : forall fuel it, mirrors (fun W => w_as_json pw W fuel it).
  Proof.
    induction fuel as [|fuel IH]; intro it.
    - apply (mirrors_pure (fun l a => (Fault FFuel, (l, a)))); [discriminate|reflexivity].
    - destruct (as_json_next pw it) as [[[c|] it']|[]|f] eqn:E.
      + apply (mirrors_ext (fun W => wthen W (w_char W c) (w_as_json pw W fuel it'))).
        * intros W s. cbn [w_as_json]. rewrite E. reflexivity.
        * apply mirrors_then; [apply mirrors_char|apply IH].
      + apply (mirrors_ext (fun W => wret W)); [|apply mirrors_wret]. intros W s. cbn [w_as_json]. rewrite E. reflexivity.
      + apply (mirrors_pure (fun l a => (Fault f, (l, a)))); [discriminate|]. intros W w l a. cbn [w_as_json]. rewrite E. reflexivity.
  Qed.

  Lemma mirrors_write_json s : mirrors (fun W => w_write_json pw W pretty indent s).
  Proof.
    unfold w_write_json. apply (mirrors_then (fun W => w_indent W pretty indent)); [apply mirrors_indent|].
    apply (mirrors_then (fun W => w_str W [34])); [apply mirrors_str|].
    apply (mirrors_then (fun W => w_as_json pw W _ _)); [apply mirrors_as_json|apply mirrors_str].
  Qed.

  Lemma mirrors_new_line : mirrors (fun W => w_new_line W pretty indent eol).
  Proof.
    pose proof (mirrors_write eol) as H. unfold w_new_line. destruct pretty; [|apply mirrors_wret].
    apply (mirrors_then (fun W => w_write W true indent eol)); [exact H|].
    apply (mirrors_pure (fun l a => (Ok tt, (l, true)))); [discriminate|reflexivity].
  Qed.

  Lemma mirrors_up : mirrors (fun W => w_level_up W).
  Proof. apply (mirrors_pure (fun l a => (Ok tt, (S l, a)))); [discriminate|reflexivity]. Qed.
  Lemma mirrors_down : mirrors (fun W => w_level_down W).
  Proof.
    apply (mirrors_pure (fun l a => match l with O => (Fault FOverflow, (l, a)) | S l' => (Ok tt, (l', a)) end));
      intros; destruct l; try discriminate; reflexivity.
  Qed.

  Theorem mirrors_value : forall v, mirrors (fun W => write_json_value pw W pretty indent eol v).
  Proof.
    pose proof mirrors_write as Hw. pose proof mirrors_new_line as Hn. pose proof mirrors_up as Hu. pose proof mirrors_down as Hd.
    assert (Hc : forall (A : Type) (l : list A), mirrors (fun W => match l with [] => wret W | _ => w_write W pretty indent [44] end)).
    { intros A [|x l]; [apply mirrors_wret|apply Hw]. }
    induction v as [n|s|b|o IH|l IH|] using value_ind'; try apply Hw.
    - apply mirrors_write_json.
    - apply (mirrors_ext (fun W => wthen W (w_begin_object W pretty indent)
        (wthen W (match o with [] => wret W | _ => wthen W (w_new_line W pretty indent eol) (write_members pw W pretty indent eol o) end)
          (w_end_object W pretty indent)))); [intros; rewrite write_object; reflexivity|].
      assert (G : mirrors (fun W => write_members pw W pretty indent eol o)).
      { induction IH as [|[k v] o Hv IH IHo]; cbn [write_members]; [apply mirrors_wret|].
        apply (mirrors_then (fun W => w_write_json pw W pretty indent k)); [apply mirrors_write_json|].
        apply (mirrors_then (fun W => w_object_key_end W pretty indent)); [apply Hw|].
        apply (mirrors_then (fun W => write_json_value pw W pretty indent eol v)); [exact Hv|].
        match goal with |- mirrors (fun W => wthen W (@?A W) (@?B W)) => apply (mirrors_then A B) end; cbv beta; [apply Hc|].
        apply (mirrors_then (fun W => w_new_line W pretty indent eol)); [exact Hn|]. exact IHo. }
      apply (mirrors_then (fun W => w_begin_object W pretty indent)); [apply (mirrors_then (fun W => w_write W pretty indent [123])); auto|].
      match goal with |- mirrors (fun W => wthen W (@?A W) (@?B W)) => apply (mirrors_then A B) end; cbv beta;
        [|apply (mirrors_then (fun W => w_level_down W)); auto].
      destruct o as [|e o]; [apply mirrors_wret|].
      apply (mirrors_then (fun W => w_new_line W pretty indent eol)); [exact Hn|exact G].
    - apply (mirrors_ext (fun W => wthen W (w_begin_array W pretty indent)
        (wthen W (match l with [] => wret W | _ => wthen W (w_new_line W pretty indent eol) (write_elements pw W pretty indent eol l) end)
          (w_end_array W pretty indent)))); [intros; rewrite write_array; reflexivity|].
      assert (G : mirrors (fun W => write_elements pw W pretty indent eol l)).
      { induction IH as [|v l Hv IH IHo]; cbn [write_elements]; [apply mirrors_wret|].
        apply (mirrors_then (fun W => write_json_value pw W pretty indent eol v)); [exact Hv|].
        match goal with |- mirrors (fun W => wthen W (@?A W) (@?B W)) => apply (mirrors_then A B) end; cbv beta; [apply Hc|].
        apply (mirrors_then (fun W => w_new_line W pretty indent eol)); [exact Hn|]. exact IHo. }
      apply (mirrors_then (fun W => w_begin_array W pretty indent)); [apply (mirrors_then (fun W => w_write W pretty indent [91])); auto|].
      match goal with |- mirrors (fun W => wthen W (@?A W) (@?B W)) => apply (mirrors_then A B) end; cbv beta;
        [|apply (mirrors_then (fun W => w_level_down W)); auto].
      destruct l as [|e l]; [apply mirrors_wret|].
      apply (mirrors_then (fun W => w_new_line W pretty indent eol)); [exact Hn|exact G].
  Qed.

  Theorem write_calls v : exists cs r, r <> Err tt /\ forall W w,
    write_json pw W pretty indent eol v w =
    (let '(ok, w') := do_calls W w cs in ((if ok then r else Err tt), w')).
  Proof.
    destruct (mirrors_value v 0%nat true) as (cs & r & l' & a' & Hr & H). exists cs, r. split; [exact Hr|].
    intros W w. specialize (H W w). unfold write_json. destruct (do_calls W w cs) as [[] w'].
    - rewrite H. reflexivity.
    - destruct H as (l'' & a'' & ->). reflexivity.
  Qed.
End Calls.

(** * The text written *)

(** [written_as pw v t]: the tree whose strings are the escaped forms of the strings of [v]. *)
Inductive written_as (pw : pwidth) : value -> tree -> Prop :=
| wa_null : written_as pw VNull TNull
| wa_bool b : written_as pw (VBoolean b) (TBool b)
| wa_num n : written_as pw (VNumber n) (TNum (jn_str n))
| wa_str s out : js_as_json pw s = Ok out -> written_as pw (VString s) (TStr (utf8_string out))
| wa_arr l ts : Forall2 (written_as pw) l ts -> written_as pw (VArray l) (TArr ts)
| wa_obj o ts : Forall2 (fun e f => (exists out, js_as_json pw (fst e) = Ok out /\ fst f = utf8_string out) /\
                                    written_as pw (snd e) (snd f)) o ts -> written_as pw (VObject o) (TObj ts).

Definition writes (m : wm string_write) (l : nat) (a : bool) (t : list N) (l' : nat) (a' : bool) : Prop :=
  forall w : list N, m (WS string_write w l a) = (Ok tt, WS string_write (w ++ t) l' a').

Lemma writes_then m k l a t l1 a1 u l2 a2 : writes m l a t l1 a1 -> writes k l1 a1 u l2 a2 ->
  writes (wthen string_write m k) l a (t ++ u) l2 a2.
Proof. intros H1 H2 w. unfold wthen. rewrite H1, H2, <- app_assoc. reflexivity. Qed.
Lemma writes_ret l a : writes (wret string_write) l a [] l a.
Proof. intro w. rewrite app_nil_r. reflexivity. Qed.
Lemma writes_str s l a : writes (w_str string_write s) l a s l a.
Proof. intro w. reflexivity. Qed.
Lemma writes_eq m l a t t' l' a' : writes m l a t l' a' -> t = t' -> writes m l a t' l' a'.
Proof. intros H <-. exact H. Qed.

Lemma writes_end m l a t t' l' a' a'' : writes m l a t l' a' -> t = t' -> a' = a'' -> writes m l a t' l' a''.
Proof. intros H <- <-. exact H. Qed.

(** What the loops write: each item, a comma unless it is the last, the end of line. *)
Fixpoint lines (E : list N) (xs : list (list N)) : list N :=
  match xs with
  | [] => []
  | x :: r => x ++ match r with [] => [] | _ => [44] end ++ E ++ lines E r
  end.
Lemma lines_join E xs : xs <> [] -> lines E xs = join ([44] ++ E) xs ++ E.
Proof.
  induction xs as [|x xs IH]; [congruence|]. intros _. cbn [lines join]. destruct xs as [|y xs].
  - cbn [lines app]. rewrite app_nil_r. reflexivity.
  - rewrite IH by discriminate. rewrite <- !app_assoc. reflexivity.
Qed.

Lemma collect_writes pw : forall fuel it out d, collect (as_json_next pw) fuel it = Ok (out, d) ->
  forall l a, writes (w_as_json pw string_write fuel it) l a (utf8_string out) l a.
Proof.
  induction fuel as [|fuel IH]; intros it out d E l a; [discriminate|]. cbn [collect] in E.
  destruct (as_json_next pw it) as [[[c|] it']|[]|f] eqn:En; cbn [bind] in E; try discriminate.
  - destruct (collect (as_json_next pw) fuel it') as [[rest d']|[]|f] eqn:Er; cbn [bind] in E; try discriminate.
    injection E as <- <-. intro w. cbn [w_as_json]. rewrite En. unfold wthen, w_char at 1.
    cbn [w_write_char string_write ws_writer ws_level ws_at_line_start]. rewrite (IH _ _ _ Er l a), utf8_string_cons, <- app_assoc. reflexivity.
  - injection E as <- <-. intro w. cbn [w_as_json]. rewrite En. cbn. rewrite app_nil_r. reflexivity.
Qed.

Section Text.
  Variable pw : pwidth.
  Variable pretty : bool.
  Variables indent eol : list N.
  Let I := if pretty then indent else [].
  Let E := if pretty then eol else [].
  Let C := if pretty then [58; 32] else [58].
  (** Start of line: only tracked in pretty mode. *)
  Let off (a : bool) := if pretty then false else a.
  Let on (a : bool) := if pretty then true else a.
  Let lead (l : nat) (a : bool) := if pretty && a then pad indent l else [].

  Lemma writes_repeat n s l a : writes (w_repeat string_write n (w_str string_write s)) l a (List.concat (repeat s n)) l a.
  Proof. induction n as [|n IH]; cbn [w_repeat repeat List.concat]; [apply writes_ret|]. eapply writes_then; [apply writes_str|exact IH]. Qed.

  Lemma writes_indent l a : writes (w_indent string_write pretty indent) l a (lead l a) l (off a).
  Proof.
    intro w. unfold w_indent, lead, off. cbn [ws_level ws_writer ws_at_line_start].
    destruct pretty; cbn [andb]; [|rewrite app_nil_r; reflexivity].
    destruct a; [apply writes_repeat|rewrite app_nil_r; reflexivity].
  Qed.
  Lemma writes_write s l a : writes (w_write string_write pretty indent s) l a (lead l a ++ s) l (off a).
  Proof. unfold w_write. eapply writes_then; [apply writes_indent|apply writes_str]. Qed.
  Lemma writes_json s out l a : js_as_json pw s = Ok out ->
    writes (w_write_json pw string_write pretty indent s) l a (lead l a ++ [34] ++ utf8_string out ++ [34]) l (off a).
  Proof.
    intro Eo. unfold js_as_json in Eo.
    destruct (collect (as_json_next pw) (json_fuel (contents_str (js_source s))) (js_as_json_iter s)) as [[cs d]|[]|f] eqn:Ec; cbn [bind] in Eo; try discriminate.
    injection Eo as <-. unfold w_write_json. eapply writes_then; [apply writes_indent|].
    eapply writes_then; [apply writes_str|]. eapply writes_then; [eapply collect_writes; exact Ec|apply writes_str].
  Qed.
  Lemma lead_off l a : lead l (off a) = [].
  Proof. unfold lead, off. destruct pretty; reflexivity. Qed.
  Lemma lead_on l a : lead l (on a) = pad I l.
  Proof.
    unfold lead, on, I. destruct pretty; cbn [andb]; [reflexivity|]. unfold pad. induction l; [reflexivity|exact IHl].
  Qed.
  Lemma off_off a : off (off a) = off a. Proof. unfold off. destruct pretty; reflexivity. Qed.
  Lemma off_on a : off (on a) = off a. Proof. unfold off, on. destruct pretty; reflexivity. Qed.
  Lemma on_off a : on (off a) = on a. Proof. unfold off, on. destruct pretty; reflexivity. Qed.
  Lemma on_on a : on (on a) = on a. Proof. unfold on. destruct pretty; reflexivity. Qed.

  Lemma writes_new_line l a : writes (w_new_line string_write pretty indent eol) l (off a) E l (on a).
  Proof.
    pose proof (writes_write eol l (off a)) as H. rewrite lead_off, off_off in H. cbn [app] in H.
    unfold w_new_line, E, on in *. destruct pretty; [|intro w; unfold off; rewrite app_nil_r; reflexivity].
    intro w. unfold wthen. rewrite H. reflexivity.
  Qed.

  Theorem writes_value : forall v t, written_as pw v t -> forall l a,
    writes (write_json_value pw string_write pretty indent eol v) l a (lead l a ++ layout I E C l t) l (off a).
  Proof.
    assert (Wc : forall l a (A : Type) (r : list A),
      writes (match r with [] => wret string_write | _ => w_write string_write pretty indent [44] end) l (off a) (match r with [] => [] | _ => [44] end) l (off a)).
    { intros l a A [|x r]; [apply writes_ret|]. pose proof (writes_write [44] l (off a)) as H. rewrite lead_off, off_off in H. exact H. }
    assert (Wend : forall b l a, writes (wthen string_write (w_level_down string_write) (w_write string_write pretty indent [b])) (S l) a (lead l a ++ [b]) l (off a)).
    { intros b l a w. unfold wthen, w_level_down. cbn [ws_level ws_writer ws_at_line_start]. apply writes_write. }
    assert (Wbeg : forall b l a, writes (wthen string_write (w_write string_write pretty indent [b]) (w_level_up string_write)) l a (lead l a ++ [b]) (S l) (off a)).
    { intros b l a w. unfold wthen. rewrite writes_write. reflexivity. }
    induction v as [n|s|b|o IH|l IH|] using value_ind'; intros t H lv a; inversion H as [ | | |? out Eo|? ts Hl|? ts Ho]; subst; clear H.
    - apply writes_write.
    - apply writes_json. exact Eo.
    - pose proof (writes_write (if b then [116; 114; 117; 101] else [102; 97; 108; 115; 101]) lv a) as H. destruct b; exact H.
    - rewrite write_object. unfold w_begin_object, w_end_object.
      set (f := fun e : list N * tree => pad I (S lv) ++ ([34] ++ fst e ++ [34]) ++ C ++ layout I E C (S lv) (snd e)).
      assert (G : writes (write_members pw string_write pretty indent eol o) (S lv) (on a) (lines E (map f ts)) (S lv) (on a)).
      { induction Ho as [|[k v] [k' t] o ts [(out & Eo & Ek) Hv] Ho IHo]; cbn [write_members map lines]; [apply writes_ret|].
        inversion IH as [|? ? IHv IHr]; subst. cbn [fst snd] in *. subst k'.
        eapply writes_eq; [eapply writes_then; [apply writes_json; exact Eo|]; eapply writes_then; [apply writes_write|];
          eapply writes_then; [apply IHv; exact Hv|]; rewrite !off_off, !off_on; eapply writes_then; [apply Wc|];
          eapply writes_then; [apply writes_new_line|apply IHo; exact IHr]|].
        rewrite !off_on, ?off_off, !lead_off, lead_on. cbn [app].
        change (f (utf8_string out, t)) with (pad I (S lv) ++ ([34] ++ utf8_string out ++ [34]) ++ C ++ layout I E C (S lv) t).
        change (if pretty then [58; 32] else [58]) with C.
        cbn [app]. rewrite <- !app_assoc. cbn [app]. rewrite <- !app_assoc. cbn [app]. destruct Ho; cbn [app]; rewrite <- ?app_assoc; reflexivity. }
      destruct Ho as [|e e' o ts He Ho].
      { eapply writes_end; [eapply writes_then; [apply Wbeg|]; eapply writes_then; [apply writes_ret|apply Wend]| |apply off_off].
        rewrite lead_off, <- app_assoc. reflexivity. }
      eapply writes_end; [eapply writes_then; [apply Wbeg|]; eapply writes_then; [eapply writes_then; [apply writes_new_line|exact G]|apply Wend]| |apply off_on].
      rewrite lines_join, lead_on by discriminate. cbn [layout]. fold f. rewrite <- !app_assoc. reflexivity.
    - rewrite write_array. unfold w_begin_array, w_end_array.
      set (f := fun t : tree => pad I (S lv) ++ layout I E C (S lv) t).
      assert (G : writes (write_elements pw string_write pretty indent eol l) (S lv) (on a) (lines E (map f ts)) (S lv) (on a)).
      { induction Hl as [|v t l ts Hv Hl IHl]; cbn [write_elements map lines]; [apply writes_ret|].
        inversion IH as [|? ? IHv IHr]; subst.
        eapply writes_eq; [eapply writes_then; [apply IHv; exact Hv|]; rewrite !off_on; eapply writes_then; [apply Wc|];
          eapply writes_then; [apply writes_new_line|apply IHl; exact IHr]|].
        rewrite lead_on. change (f t) with (pad I (S lv) ++ layout I E C (S lv) t). rewrite <- !app_assoc. do 2 f_equal. destruct Hl; reflexivity. }
      destruct Hl as [|v t l ts Hv Hl].
      { eapply writes_end; [eapply writes_then; [apply Wbeg|]; eapply writes_then; [apply writes_ret|apply Wend]| |apply off_off].
        rewrite lead_off, <- app_assoc. reflexivity. }
      eapply writes_end; [eapply writes_then; [apply Wbeg|]; eapply writes_then; [eapply writes_then; [apply writes_new_line|exact G]|apply Wend]| |apply off_on].
      rewrite lines_join, lead_on by discriminate. cbn [layout]. fold f. rewrite <- !app_assoc. reflexivity.
    - apply writes_write.
  Qed.
End Text.
