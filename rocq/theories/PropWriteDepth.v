(** Property C71 for the serializer: how deeply [write_json_value] calls itself. *)
From Verif Require Import Base Utf8 StrModel ErrorModel Parser ValueModel Spec View PropWrite PropIter.
Local Open Scope N_scope.

Section Within.
  Variable pw : pwidth.
  Variable W : fmt_write.
  Variable pretty : bool.
  Variable indent eol : list N.

  (** The serializer with room for [calls] nested calls of the recursive function (src/value.rs 264-320): the same
      steps, but one call more than that is a fault. *)
  Fixpoint write_within (calls : nat) (v : value) : wm W :=
    match calls with
    | O => fun s => (Fault FFuel, s)
    | S calls' =>
      let fix members (obj : list (json_string * value)) : wm W :=
        match obj with
        | [] => wret W
        | (key, v') :: obj' =>
          wthen W (w_write_json pw W pretty indent key)
            (wthen W (w_object_key_end W pretty indent)
               (wthen W (write_within calls' v')
                  (wthen W (match obj' with [] => wret W | _ => w_write W pretty indent [44%N] end)
                     (wthen W (w_new_line W pretty indent eol) (members obj')))))
        end in
      let fix items (array : list value) : wm W :=
        match array with
        | [] => wret W
        | v' :: array' =>
          wthen W (write_within calls' v')
            (wthen W (match array' with [] => wret W | _ => w_write W pretty indent [44%N] end)
               (wthen W (w_new_line W pretty indent eol) (items array')))
        end in
      match v with
      | VObject obj =>
        wthen W (w_begin_object W pretty indent)
          (wthen W (match obj with [] => wret W | _ => wthen W (w_new_line W pretty indent eol) (members obj) end)
             (w_end_object W pretty indent))
      | VArray array =>
        wthen W (w_begin_array W pretty indent)
          (wthen W (match array with [] => wret W | _ => wthen W (w_new_line W pretty indent eol) (items array) end)
             (w_end_array W pretty indent))
      | scalar => write_json_value pw W pretty indent eol scalar
      end
    end.
  Definition write_json_within (calls : nat) (v : value) (destination : w_st W) : res unit unit * w_st W :=
    let '(r, s) := write_within calls v (WS W destination 0 true) in (r, ws_writer W s).

  Lemma wthen_ext m m' k k' : (forall s, m s = m' s) -> (forall s, k s = k' s) -> forall s, wthen W m k s = wthen W m' k' s.
  Proof. intros Hm Hk s. unfold wthen. rewrite Hm. destruct (m' s) as [[?|?|?] ?]; auto. Qed.

  Lemma max_lt {A} (f : A -> N) l n : fold_right (fun t m => N.max (f t) m) 0 l < n -> Forall (fun x => f x < n) l.
  Proof. induction l as [|x l IH]; cbn [fold_right]; intro H; constructor; [lia|apply IH; lia]. Qed.
  Lemma max_map {A B} (g : A -> B) (f : B -> N) l :
    fold_right (fun t m => N.max (f t) m) 0 (map g l) = fold_right (fun t m => N.max (f (g t)) m) 0 l.
  Proof. induction l as [|x l IH]; [reflexivity|]. cbn [fold_right map]. rewrite IH. reflexivity. Qed.

  Lemma write_within_enough calls : forall v, tree_depth (tree_of v) < N.of_nat calls ->
    forall s, write_within calls v s = write_json_value pw W pretty indent eol v s.
  Proof.
    induction calls as [|calls IH]; intros v H; [lia|].
    destruct v as [n|str|b|o|l|]; try reflexivity.
    - cbn [tree_of tree_depth] in H.
      assert (F : Forall (fun e : json_string * value => tree_depth (tree_of (snd e)) < N.of_nat calls) o).
      { rewrite (max_map _ (fun e => tree_depth (snd e))) in H.
        exact (max_lt (fun e => tree_depth (tree_of (snd e))) o (N.of_nat calls) ltac:(idtac; cbv beta in H; cbn [snd] in H; lia)). }
      cbn [write_within write_json_value]. apply wthen_ext; [reflexivity|]. apply wthen_ext; [|reflexivity].
      destruct o as [|e0 o0]; [reflexivity|]. apply wthen_ext; [reflexivity|].
      clear H. destruct e0 as [k0 v0]. inversion F as [|? ? Hv0 F0]; subst. clear F.
      apply wthen_ext; [reflexivity|]. apply wthen_ext; [reflexivity|]. apply wthen_ext; [exact (IH v0 Hv0)|].
      apply wthen_ext; [reflexivity|]. apply wthen_ext; [reflexivity|].
      induction F0 as [|[k v] o Hv F IHo]; [reflexivity|].
      apply wthen_ext; [reflexivity|]. apply wthen_ext; [reflexivity|]. apply wthen_ext; [exact (IH v Hv)|].
      apply wthen_ext; [reflexivity|]. apply wthen_ext; [reflexivity|exact IHo].
    - cbn [tree_of tree_depth] in H.
      assert (F : Forall (fun e => tree_depth (tree_of e) < N.of_nat calls) l).
      { rewrite (max_map _ tree_depth) in H. exact (max_lt (fun e => tree_depth (tree_of e)) l (N.of_nat calls) ltac:(lia)). }
      cbn [write_within write_json_value]. apply wthen_ext; [reflexivity|]. apply wthen_ext; [|reflexivity].
      destruct l as [|e0 l0]; [reflexivity|]. apply wthen_ext; [reflexivity|].
      clear H. inversion F as [|? ? Hv0 F0]; subst. clear F.
      apply wthen_ext; [exact (IH e0 Hv0)|]. apply wthen_ext; [reflexivity|]. apply wthen_ext; [reflexivity|].
      induction F0 as [|v l Hv F IHl]; [reflexivity|].
      apply wthen_ext; [exact (IH v Hv)|]. apply wthen_ext; [reflexivity|]. apply wthen_ext; [reflexivity|exact IHl].
  Qed.

  (** Any value: as many nested calls as it is deep, plus one. *)
  Theorem write_json_within_enough calls v w : tree_depth (tree_of v) < N.of_nat calls ->
    write_json_within calls v w = write_json pw W pretty indent eol v w.
  Proof. intro H. unfold write_json_within, write_json. rewrite write_within_enough by exact H. reflexivity. Qed.
End Within.

(** * C71 for the serializer *)
Theorem C71_serializer pw W pretty indent eol cfg s v w calls : parsed_from pw cfg s v ->
  (exists lim, recursion_limit cfg = Some lim /\ lim < N.of_nat calls) \/ N.of_nat (length s) < 2 * N.of_nat calls ->
  write_json_within pw W pretty indent eol calls v w = write_json pw W pretty indent eol v w.
Proof.
  intros H Hc. apply write_json_within_enough. destruct Hc as [(lim & E & Hl)|Hl].
  - destruct (C35_parsed_admits _ _ _ _ H) as [Hd _]. rewrite E in Hd. lia.
  - pose proof (C68_depth _ _ _ _ H). lia.
Qed.

(** [null] inside [k] arrays. *)
Fixpoint nest (k : nat) : value := match k with O => VNull | S k' => VArray [nest k'] end.
Lemma nest_depth k : tree_depth (tree_of (nest k)) = N.of_nat k.
Proof. induction k as [|k IH]; [reflexivity|]. cbn [nest tree_of tree_depth map fold_right] in *. rewrite IH. lia. Qed.

Lemma nest_faults pw k : forall calls s, (calls <= k)%nat ->
  exists s', write_within pw string_write false [] [] calls (nest k) s = (Fault FFuel, s').
Proof.
  induction k as [|k IH]; intros [|calls] s H; try (eexists; reflexivity); [lia|].
  cbn [nest write_within].
  destruct (w_begin_array string_write false [] s) as [[u|e|f] s1] eqn:E1; [|discriminate E1|discriminate E1].
  destruct (w_new_line string_write false [] [] s1) as [[u2|e|f] s2] eqn:E2; [|discriminate E2|discriminate E2].
  destruct (IH calls s2 ltac:(lia)) as [s' E].
  exists s'. unfold wthen at 1. rewrite E1. do 2 unfold wthen at 1. rewrite E2. unfold wthen at 1. rewrite E. reflexivity.
Qed.

(** The bound is reached: at every depth [k] there is a value for which [k] nested calls are too few and [k + 1] enough. *)
Theorem C71_serializer_bound_is_exact pw k : exists v, tree_depth (tree_of v) = N.of_nat k /\
  (forall calls, (calls <= k)%nat -> fst (write_json_within pw string_write false [] [] calls v []) = Fault FFuel) /\
  (forall calls, (k < calls)%nat ->
     write_json_within pw string_write false [] [] calls v [] = write_json_to pw string_write v []).
Proof.
  exists (nest k). split; [apply nest_depth|]. split; intros calls H.
  - unfold write_json_within. destruct (nest_faults pw k calls (WS string_write [] 0 true) H) as [s' ->]. reflexivity.
  - apply write_json_within_enough. rewrite nest_depth. lia.
Qed.
