(** C82: documents kept in a user-supplied node collection. *)
From Verif Require Import Base Utf8 Utf8Facts StrModel ErrorModel Tokenizer Parser ValueModel DocModel CollectionModel NumModel Spec
  TokBase TokStr TokFacts ParserGen Trace ParserSound ParserComplete Sim SimInst View ParseMain DocFacts PropParse PropEntry.

(** * Specification *)

(** What the documentation of [NodeCollection] asks of an implementation: a push that succeeds adds the
    node at the end, writing through the mutable slice changes that element, and the three ways to look at
    the nodes agree. Nothing is asked of a push that fails, nor of when pushes fail. *)
Definition lawful (c : node_collection) : Prop :=
  (forall st n st', nc_push c st n = (Ok tt, st') -> nc_as_ref c st' = nc_as_ref c st ++ [n]) /\
  (forall st i n, nc_as_ref c (nc_update c st i n) = replace_nth (nc_as_ref c st) i n) /\
  (forall st, nc_as_mut c st = nc_as_ref c st) /\
  (forall st, nc_into_iter c st = nc_as_ref c st).

(** Nothing is stored in a new collection. *)
Definition starts_empty (c : node_collection) : Prop := nc_as_ref c (nc_default c) = [].

(** No push panics. *)
Definition push_returns (c : node_collection) : Prop := forall st n f, fst (nc_push c st n) <> Fault f.

Section Store.
  Variable c : node_collection.

  (** One push. *)
  Definition put (st : nc_st c) (n : node) : res (error_kind infallible) (nc_st c) :=
    match nc_push c st n with
    | (Ok _, st') => Ok st'
    | (Err e, _) => Err e
    | (Fault f, _) => Fault f
    end.

  (** Storing a value: its nodes are pushed in preorder, and the length of a container is raised in place,
      before each key and after each element. The first failing push ends it with that push's error. *)
  Section Loops.
    Variable store : value -> nc_st c -> res (error_kind infallible) (nc_st c).
    Fixpoint store_members (i k : nat) (o : object) (st : nc_st c) : res (error_kind infallible) (nc_st c) :=
      match o with
      | [] => Ok st
      | (key, v) :: o' =>
        let? st1 := put (nc_update c st i (NObject (S k))) (NString key) in
        let? st2 := store v st1 in
        store_members i (S k) o' st2
      end.
    Fixpoint store_elements (i k : nat) (l : list value) (st : nc_st c) : res (error_kind infallible) (nc_st c) :=
      match l with
      | [] => Ok st
      | v :: l' =>
        let? st1 := store v st in
        store_elements i (S k) l' (nc_update c st1 i (NArray (S k)))
      end.
  End Loops.

  Fixpoint store (v : value) (st : nc_st c) : res (error_kind infallible) (nc_st c) :=
    match v with
    | VNull => put st NNull
    | VBoolean b => put st (NBoolean b)
    | VNumber n => put st (NNumber n)
    | VString s => put st (NString s)
    | VObject o =>
      let? st1 := put st (NObject 0) in
      store_members store (length (nc_as_ref c st)) 0 o st1
    | VArray l =>
      let? st1 := put st (NArray 0) in
      store_elements store (length (nc_as_ref c st)) 0 l st1
    end.
End Store.

(** * Proof *)
Section Replay.
  Variable c : node_collection.

  (** The collection after a callback sequence, with the open containers (index, entries). *)
  Definition rstep (x : nc_st c * list (nat * nat)) (e : event)
    : res (error_kind infallible) (nc_st c * list (nat * nat)) :=
    let '(st, K) := x in
    match e with
    | ENull => let? st' := put c st NNull in Ok (st', K)
    | EBoolean b => let? st' := put c st (NBoolean b) in Ok (st', K)
    | ENumber n => let? st' := put c st (NNumber n) in Ok (st', K)
    | EString s => let? st' := put c st (NString s) in Ok (st', K)
    | EBeginObject => let? st' := put c st (NObject 0) in Ok (st', (length (nc_as_ref c st), 0) :: K)
    | EBeginArray => let? st' := put c st (NArray 0) in Ok (st', (length (nc_as_ref c st), 0) :: K)
    | EObjectKey k =>
      match K with
      | (i, n) :: K' => let? st' := put c (nc_update c st i (NObject (S n))) (NString k) in Ok (st', (i, S n) :: K')
      | [] => Fault FFuel
      end
    | EObjectValue => Ok (st, K)
    | EArrayValue =>
      match K with
      | (i, n) :: K' => Ok (nc_update c st i (NArray (S n)), (i, S n) :: K')
      | [] => Fault FFuel
      end
    | EEndObject | EEndArray => match K with _ :: K' => Ok (st, K') | [] => Fault FFuel end
    end.
  Fixpoint replay (x : nc_st c * list (nat * nat)) (tr : list event) : res (error_kind infallible) (nc_st c * list (nat * nat)) :=
    match tr with [] => Ok x | e :: tr' => let? x' := rstep x e in replay x' tr' end.

  Lemma replay_app a b x : replay x (a ++ b) = let? x' := replay x a in replay x' b.
  Proof. revert x. induction a as [|e a IH]; intro x; cbn; [reflexivity|]. destruct (rstep x e); cbn; auto. Qed.
  Lemma replay_one x tr y e : replay x tr = Ok y -> replay x (tr ++ [e]) = rstep y e.
  Proof. intro H. rewrite replay_app, H. cbn. destruct (rstep y e); reflexivity. Qed.

  Lemma replay_events v : forall st K rest,
    replay (st, K) (events v ++ rest) = let? st' := store c v st in replay (st', K) rest.
  Proof.
    induction v as [n|s|b|o IH|l IH|] using value_ind'; intros st K rest;
      try (cbn; destruct (put c st _); reflexivity).
    - rewrite events_object. cbn [app replay rstep store].
      destruct (put c st (NObject 0)) as [st1|e|f]; cbn [bind]; try reflexivity.
      generalize (length (nc_as_ref c st)) as i. generalize 0 as k. revert st1.
      induction IH as [|[key v] o Hv Ho IHo]; intros st1 k i; [reflexivity|].
      cbn [member_events flat_map fst snd app replay rstep store_members] in *.
      destruct (put c (nc_update c st1 i (NObject (S k))) (NString key)) as [st2|e|f]; cbn [bind]; try reflexivity.
      rewrite <- !app_assoc. rewrite Hv. destruct (store c v st2) as [st3|e|f]; cbn [bind]; try reflexivity.
      cbn [app replay rstep bind]. specialize (IHo st3 (S k) i). rewrite <- app_assoc in IHo. exact IHo.
    - rewrite events_array. cbn [app replay rstep store].
      destruct (put c st (NArray 0)) as [st1|e|f]; cbn [bind]; try reflexivity.
      generalize (length (nc_as_ref c st)) as i. generalize 0 as k. revert st1.
      induction IH as [|v l Hv Hl IHl]; intros st1 k i; [reflexivity|].
      cbn [element_events flat_map store_elements] in *.
      rewrite <- !app_assoc. rewrite Hv. destruct (store c v st1) as [st2|e|f]; cbn [bind]; try reflexivity.
      cbn [app replay rstep bind]. specialize (IHl (nc_update c st2 i (NArray (S k))) (S k) i). rewrite <- app_assoc in IHl. exact IHl.
  Qed.
  Lemma replay_value v st : replay (st, []) (events v) = let? st' := store c v st in Ok (st', []).
  Proof. rewrite <- (app_nil_r (events v)), replay_events. reflexivity. Qed.

  Hypothesis Hc : lawful c.

  Lemma put_nodes st n st' : put c st n = Ok st' -> nc_as_ref c st' = nc_as_ref c st ++ [n].
  Proof.
    unfold put. destruct Hc as [H _]. destruct (nc_push c st n) as [[[]|e|f] s] eqn:E; intro K; try discriminate.
    injection K as <-. apply (H _ _ _ E).
  Qed.
  Lemma update_nodes st i n : nc_as_ref c (nc_update c st i n) = replace_nth (nc_as_ref c st) i n.
  Proof. apply Hc. Qed.

  Lemma store_nodes v : forall st st', store c v st = Ok st' -> nc_as_ref c st' = nc_as_ref c st ++ nodes_of v.
  Proof.
    induction v as [n|s|b|o IH|l IH|] using value_ind'; intros st st' E; try (apply put_nodes; exact E).
    - cbn [store] in E. destruct (put c st (NObject 0)) as [st1|e|f] eqn:E1; cbn [bind] in E; try discriminate.
      apply put_nodes in E1. cbn [nodes_of]. fold (member_nodes o).
      assert (G : forall o0 st1, nc_as_ref c st1 = nc_as_ref c st ++ NObject (length o0) :: member_nodes o0 ->
        store_members c (store c) (length (nc_as_ref c st)) (length o0) o st1 = Ok st' ->
        nc_as_ref c st' = nc_as_ref c st ++ NObject (length (o0 ++ o)) :: member_nodes (o0 ++ o)).
      { clear E E1 st1. induction IH as [|[key v] o Hv Ho IHo]; intros o0 st1 E1 E.
        { cbn in E. injection E as <-. rewrite app_nil_r. exact E1. }
        cbn [store_members] in E.
        destruct (put c (nc_update c st1 (length (nc_as_ref c st)) (NObject (S (length o0)))) (NString key)) as [st2|e|f] eqn:E2;
          cbn [bind] in E; try discriminate.
        destruct (store c v st2) as [st3|e|f] eqn:E3; cbn [bind] in E; try discriminate.
        apply put_nodes in E2. rewrite update_nodes, E1, replace_nth_app in E2.
        apply Hv in E3. cbn [snd] in E3. rewrite E2 in E3.
        specialize (IHo (o0 ++ [(key, v)]) st3).
        rewrite <- (app_assoc o0 [(key, v)] o) in IHo. cbn [app] in IHo. apply IHo.
        - rewrite E3. unfold member_nodes. rewrite flat_map_app, app_length, Nat.add_1_r. cbn.
          rewrite app_nil_r, <- !app_assoc. cbn. rewrite <- ?app_assoc. reflexivity.
        - rewrite app_length, Nat.add_1_r. exact E. }
      apply (G [] st1); [exact E1|exact E].
    - cbn [store] in E. destruct (put c st (NArray 0)) as [st1|e|f] eqn:E1; cbn [bind] in E; try discriminate.
      apply put_nodes in E1. cbn [nodes_of]. fold (element_nodes l).
      assert (G : forall o0 st1, nc_as_ref c st1 = nc_as_ref c st ++ NArray (length o0) :: element_nodes o0 ->
        store_elements c (store c) (length (nc_as_ref c st)) (length o0) l st1 = Ok st' ->
        nc_as_ref c st' = nc_as_ref c st ++ NArray (length (o0 ++ l)) :: element_nodes (o0 ++ l)).
      { clear E E1 st1. induction IH as [|v l Hv Hl IHl]; intros o0 st1 E1 E.
        { cbn in E. injection E as <-. rewrite app_nil_r. exact E1. }
        cbn [store_elements] in E.
        destruct (store c v st1) as [st3|e|f] eqn:E3; cbn [bind] in E; try discriminate.
        apply Hv in E3. rewrite E1 in E3.
        specialize (IHl (o0 ++ [v]) (nc_update c st3 (length (nc_as_ref c st)) (NArray (S (length o0))))).
        rewrite <- (app_assoc o0 [v] l) in IHl. cbn [app] in IHl. apply IHl.
        - rewrite update_nodes, E3, <- app_assoc. cbn [app]. rewrite replace_nth_app.
          unfold element_nodes. rewrite flat_map_app, app_length, Nat.add_1_r. cbn.
          rewrite app_nil_r. reflexivity.
        - rewrite app_length, Nat.add_1_r. exact E. }
      apply (G [] st1); [exact E1|exact E].
  Qed.

  (** ** The simulation *)
  Variables (g : bool) (pw : pwidth) (cfg : parse_config).
  Notation CD := (collection_delegate c).
  Notation base := (nc_as_ref c (nc_default c)).

  Fixpoint cflat (F : list (frame CD)) : list node :=
    match F with
    | [] => base
    | FObj _ _ o2 :: F' => cflat F' ++ NObject (length o2) :: member_nodes o2
    | FKey _ _ o2 _ k2 :: F' => cflat F' ++ NObject (S (length o2)) :: member_nodes o2 ++ [NString k2]
    | FArr _ _ a2 :: F' => cflat F' ++ NArray (length a2) :: element_nodes a2
    end.
  Fixpoint cidx (F : list (frame CD)) : Prop :=
    match F with
    | [] => True
    | FObj _ i _ :: F' => i = length (cflat F') /\ cidx F'
    | FKey _ i _ _ _ :: F' => i = length (cflat F') /\ cidx F'
    | FArr _ i _ :: F' => i = length (cflat F') /\ cidx F'
    end.
  Fixpoint cstack (F : list (frame CD)) : list (nat * nat) :=
    match F with
    | [] => []
    | FObj _ i o2 :: F' => (i, length o2) :: cstack F'
    | FKey _ i o2 _ _ :: F' => (i, S (length o2)) :: cstack F'
    | FArr _ i a2 :: F' => (i, length a2) :: cstack F'
    end.

  Definition collection_sim : simulation CD := {|
    sR := fun F st tr => cidx F /\ nc_as_ref c st = cflat F /\ replay (nc_default c, []) tr = Ok (st, cstack F);
    sRV := fun F v v2 st tr => cidx F /\ v = length (cflat F) /\ nc_as_ref c st = cflat F ++ nodes_of v2 /\
             replay (nc_default c, []) tr = Ok (st, cstack F);
    sStop := fun x _ tr => match x with
      | inl e => replay (nc_default c, []) tr = Err e /\ exists st n, fst (nc_push c st n) = Err e
      | inr f => replay (nc_default c, []) tr = Fault f /\ exists st n, fst (nc_push c st n) = Fault f
      end;
    sRE := fun st tr => exists K, replay (nc_default c, []) tr = Ok (st, K);
    sBad := fun _ => False |}.

  Lemma cput_step st K tr n ev K' (Q : nat -> nc_st c -> Prop) :
    replay (nc_default c, []) tr = Ok (st, K) ->
    rstep (st, K) ev = (let? st' := put c st n in Ok (st', K')) ->
    (forall st', nc_as_ref c st' = nc_as_ref c st ++ [n] -> replay (nc_default c, []) (tr ++ [ev]) = Ok (st', K') ->
       Q (length (nc_as_ref c st)) st') ->
    step CD collection_sim (nc_push_node c st n) Q (tr ++ [ev]).
  Proof.
    intros Hr Hs HQ. unfold nc_push_node, step. right. pose proof (replay_one _ _ _ ev Hr) as R. rewrite Hs in R.
    unfold put in R. pose proof (fun st' => put_nodes st n st') as P. unfold put in P.
    destruct (nc_push c st n) as [[[]|e|f] st'] eqn:En; cbn in R |- *;
      try (split; [exact R|exists st, n; rewrite En; reflexivity]).
    apply HQ; [apply P; reflexivity|exact R].
  Qed.

  Lemma as_mut_ref st : nc_as_mut c st = nc_as_ref c st.
  Proof. apply Hc. Qed.

  Lemma collection_sim_ok : sim_ok cfg CD collection_sim.
  Proof.
    split; try (split; intros; contradiction).
    - cbn. intros F st tr (_ & _ & H). eauto.
    - cbn. intros F v v2 st tr (_ & _ & _ & H). eauto.
    - cbn. intros [e|f] st tr ev [H P]; rewrite replay_app, H; auto.
    - cbn. intros F st tr (Hi & Hn & Hr). eapply cput_step; [exact Hr|reflexivity|]. intros st' E R. rewrite Hn in *. auto.
    - cbn. intros F st tr b (Hi & Hn & Hr). eapply cput_step; [exact Hr|reflexivity|]. intros st' E R. rewrite Hn in *. auto.
    - cbn. intros F st tr b (Hi & Hn & Hr). eapply cput_step; [exact Hr|reflexivity|]. intros st' E R. rewrite Hn in *. auto.
    - cbn. intros F st tr b (Hi & Hn & Hr). eapply cput_step; [exact Hr|reflexivity|]. intros st' E R. rewrite Hn in *. auto.
    - cbn. intros F st tr (Hi & Hn & Hr). eapply cput_step; [exact Hr|reflexivity|]. intros st' E R. rewrite Hn in *. auto.
    - cbn. intros F st tr o o2 k ((-> & Hi) & Hn & Hr).
      unfold nc_extend_object. rewrite as_mut_ref, Hn, nth_error_mid. cbn beta iota.
      set (st1 := nc_update c st (length (cflat F)) (NObject (S (length o2)))).
      assert (Hn1 : nc_as_ref c st1 = cflat F ++ NObject (S (length o2)) :: member_nodes o2)
        by (unfold st1; rewrite update_nodes, Hn, replace_nth_app; reflexivity).
      pose proof (replay_one _ _ _ (EObjectKey k) Hr) as R. cbn [rstep] in R. fold st1 in R.
      unfold step, nc_push_node. right. unfold put in R.
      pose proof (fun st' => put_nodes st1 (NString k) st') as P. unfold put in P.
      destruct (nc_push c st1 (NString k)) as [[[]|e|f] st'] eqn:En; cbn in R |- *;
        try (split; [exact R|exists st1, (NString k); rewrite En; reflexivity]).
      split; [auto|]. split; [|exact R]. rewrite (P st' eq_refl), Hn1, <- app_assoc. reflexivity.
    - cbn. intros F st tr o o2 k k2 v v2 ((-> & Hi) & _ & Hn & Hr). right. cbn. split; [auto|].
      split.
      + rewrite Hn. unfold member_nodes. rewrite flat_map_app, app_length, Nat.add_1_r. cbn. rewrite <- !app_assoc. cbn.
        rewrite app_nil_r, <- !app_assoc. reflexivity.
      + rewrite (replay_one _ _ _ _ Hr). cbn. rewrite app_length, Nat.add_1_r. reflexivity.
    - cbn. intros F st tr o o2 ((-> & Hi) & Hn & Hr). rewrite Hn, nth_error_mid. destruct o2; reflexivity.
    - cbn. intros F st tr o o2 ((-> & Hi) & Hn & Hr). right. cbn. split; [exact Hi|]. split; [reflexivity|].
      split; [exact Hn|]. rewrite (replay_one _ _ _ _ Hr). reflexivity.
    - cbn. intros F st tr (Hi & Hn & Hr). eapply cput_step; [exact Hr|reflexivity|]. intros st' E R. rewrite Hn in *. auto.
    - cbn. intros F st tr a a2 v v2 ((-> & Hi) & _ & Hn & Hr). right.
      unfold nc_extend_array. rewrite as_mut_ref, Hn, <- app_assoc. cbn [app]. rewrite nth_error_mid. cbn.
      split; [auto|]. split.
      + rewrite update_nodes, Hn, <- app_assoc. cbn [app]. rewrite replace_nth_app.
        unfold element_nodes. rewrite flat_map_app, app_length, Nat.add_1_r. cbn. rewrite app_nil_r. reflexivity.
      + rewrite (replay_one _ _ _ _ Hr). cbn. rewrite app_length, Nat.add_1_r. reflexivity.
    - cbn. intros F st tr a a2 ((-> & Hi) & Hn & Hr). rewrite Hn, nth_error_mid. destruct a2; reflexivity.
    - cbn. intros F st tr a a2 ((-> & Hi) & Hn & Hr). right. cbn. split; [exact Hi|]. split; [reflexivity|].
      split; [exact Hn|]. rewrite (replay_one _ _ _ _ Hr). reflexivity.
    - cbn. intros v v2 st tr _ (_ & -> & -> & _). destruct v2; cbn; rewrite nth_error_mid; reflexivity.
  Qed.

  Lemma store_returns : push_returns c -> forall v f, store c v (nc_default c) <> Fault f.
  Proof.
    intros Hp. assert (P : forall st n f, put c st n <> Fault f).
    { intros st n f. unfold put. pose proof (Hp st n) as H. destruct (nc_push c st n) as [[a|e'|f'] st']; try discriminate.
      cbn in H. destruct (H f' eq_refl). }
    assert (G : forall v st f, store c v st <> Fault f).
    { intro v. induction v as [n|s|b|o IH|l IH|] using value_ind'; intros st f; try apply P.
      - cbn [store]. pose proof (P st (NObject 0)) as H0. destruct (put c st (NObject 0)) as [st1|e|f0]; cbn; [|discriminate|destruct (H0 f0 eq_refl)].
        clear H0. generalize (length (nc_as_ref c st)) as i. generalize 0 as k. revert st1.
        induction IH as [|[key v] o Hv Ho IHo]; intros st1 k i; cbn [store_members]; [discriminate|].
        set (st1' := nc_update c st1 i (NObject (S k))).
        pose proof (P st1' (NString key)) as H0.
        destruct (put c st1' (NString key)) as [st2|e|f0]; cbn; [|discriminate|destruct (H0 f0 eq_refl)].
        cbn [snd] in Hv. pose proof (Hv st2) as H1.
        destruct (store c v st2) as [st3|e|f0]; cbn; [apply IHo|discriminate|destruct (H1 f0 eq_refl)].
      - cbn [store]. pose proof (P st (NArray 0)) as H0. destruct (put c st (NArray 0)) as [st1|e|f0]; cbn; [|discriminate|destruct (H0 f0 eq_refl)].
        clear H0. generalize (length (nc_as_ref c st)) as i. generalize 0 as k. revert st1.
        induction IH as [|v l Hv Hl IHl]; intros st1 k i; cbn [store_elements]; [discriminate|].
        pose proof (Hv st1) as H1.
        destruct (store c v st1) as [st3|e|f0]; cbn; [apply IHl|discriminate|destruct (H1 f0 eq_refl)]. }
    intros v f. apply G.
  Qed.
End Replay.

Lemma generic_eq c g pw cfg s : lawful c -> good g pw s ->
  let y := fst (parse_bytes g pw cfg trace_delegate s []) in
  let x := collection_of c (parse_bytes g pw cfg (collection_delegate c) s (nc_default c)) in
  match y with
  | Ok v => match store c v (nc_default c) with
            | Ok st => x = Ok st
            | Err k => exists o, x = Err (Error o k) /\ (o <= length s)%nat
            | Fault f => x = Fault f
            end
  | Err e => x = Err e \/
      (exists st n k o, fst (nc_push c st n) = Err k /\ x = Err (Error o k)) \/
      (exists st n f, fst (nc_push c st n) = Fault f /\ x = Fault f)
  | Fault _ => False
  end.
Proof.
  intros Hc Hg. cbv zeta.
  assert (H0 : sR (collection_delegate c) (collection_sim c) [] (nc_default c) []).
  { cbn. auto. }
  pose proof (sim_parse g pw cfg (collection_delegate c) (collection_sim c) (collection_sim_ok c Hc cfg) s (nc_default c) H0) as H.
  cbv zeta in H.
  pose proof (gen_in_range g pw cfg s Hg (D := collection_delegate c) (nc_default c)) as Hrange.
  pose proof (trace_no_fault g pw cfg s Hg) as Hnf.
  assert (Hsound : forall v, fst (parse_bytes g pw cfg trace_delegate s []) = Ok v ->
            snd (parse_bytes g pw cfg trace_delegate s []) = events v).
  { intros v E. destruct (parse_bytes g pw cfg trace_delegate s []) as [r tr] eqn:Ep. cbn in *. subst r.
    destruct (trace_sound g pw cfg s v tr Hg Ep) as (t & _ & _ & _ & _ & ->). reflexivity. }
  destruct (parse_bytes g pw cfg trace_delegate s []) as [y tr]. cbn [fst snd d_error d_value d_st trace_delegate] in *.
  destruct H as [[]|[H|H]].
  - unfold halted in H. destruct (parse_bytes g pw cfg (collection_delegate c) s (nc_default c)) as [[n|[o k]|f] st];
      cbn [fst snd] in *.
    + destruct H.
    + destruct k as [| | | | | | | | | | | | | | | | | | | | | | | |e]; try (exfalso; exact H).
      cbn in H. destruct H as [R (st' & n & P)].
      assert (Ex : collection_of c (Err (Error o (KErrorFromDelegate e)), st) = Err (Error o e)) by reflexivity.
      destruct y as [v|e'|f].
      * rewrite (Hsound v eq_refl), replay_value in R.
        destruct (store c v (nc_default c)) as [st1|k|f]; cbn in R; try discriminate. injection R as ->.
        exists o. split; [exact Ex|]. destruct Hrange as [Hr _]. exact Hr.
      * right. left. exists st', n, e, o. auto.
      * destruct (Hnf f eq_refl).
    + cbn in H. destruct H as [R (st' & n & P)]. destruct y as [v|e'|f'].
      * rewrite (Hsound v eq_refl), replay_value in R.
        destruct (store c v (nc_default c)) as [st1|k|f0]; cbn in R; try discriminate. injection R as ->. reflexivity.
      * right. right. exists st', n, f. auto.
      * destruct (Hnf f' eq_refl).
  - unfold same_outcome in H. destruct (parse_bytes g pw cfg (collection_delegate c) s (nc_default c)) as [x st]. cbn [fst snd] in *.
    destruct y as [v|e|f].
    + destruct x as [n|e|f]; try contradiction. cbn in H. destruct H as (_ & _ & _ & R).
      rewrite (Hsound v eq_refl), replay_value in R.
      destruct (store c v (nc_default c)) as [st1|k|f0]; cbn in R; try discriminate. injection R as ->. reflexivity.
    + destruct x as [n|e'|f]; try contradiction. destruct H as [H _]. left. cbn. subst e'. f_equal.
      destruct e as [o k]. unfold into_infallable, into_fallable. cbn.
      destruct k as [| | | | | | | | | | | | | | | | | | | | | | | |[]]; reflexivity.
    + destruct (Hnf f eq_refl).
Qed.

(** * C82 *)

(** The outcome for text that is accepted as a value is exactly that of storing the value in the new
    collection: the same final state, or the error of the first push that fails (or its panic). *)
Theorem C82_stores_the_value c pw cfg s v : lawful c -> rust_slice pw s ->
  value_from_json_bytes_with_config pw s cfg = Ok v ->
  match store c v (nc_default c) with
  | Ok st => generic_from_json_bytes_with_config c pw s cfg = Ok st
  | Err k => exists o, generic_from_json_bytes_with_config c pw s cfg = Err (Error o k) /\ (o <= length s)%nat
  | Fault f => generic_from_json_bytes_with_config c pw s cfg = Fault f
  end.
Proof.
  intros Hc H E. pose proof (generic_eq c false pw cfg s Hc (rust_slice_good _ _ H)) as G. cbv zeta in G.
  unfold value_from_json_bytes_with_config, parse_json_bytes_with_config in E. rewrite value_parse_eq in E.
  rewrite E in G. exact G.
Qed.

(** What storing a value leaves in the collection: what was there before, then the nodes of the value in preorder. *)
Theorem C82_stored_nodes c v st st' : lawful c -> store c v st = Ok st' -> nc_as_ref c st' = nc_as_ref c st ++ preorder v.
Proof. intros Hc E. rewrite <- nodes_of_preorder. apply (store_nodes c Hc), E. Qed.

(** Text that is rejected as a value is rejected with the same error, unless a push fails before. *)
Theorem C82_rejects_what_values_reject c pw cfg s e : lawful c -> rust_slice pw s ->
  value_from_json_bytes_with_config pw s cfg = Err e ->
  generic_from_json_bytes_with_config c pw s cfg = Err e \/
  (exists st n k o, fst (nc_push c st n) = Err k /\ generic_from_json_bytes_with_config c pw s cfg = Err (Error o k)) \/
  (exists st n f, fst (nc_push c st n) = Fault f /\ generic_from_json_bytes_with_config c pw s cfg = Fault f).
Proof.
  intros Hc H E. pose proof (generic_eq c false pw cfg s Hc (rust_slice_good _ _ H)) as G. cbv zeta in G.
  unfold value_from_json_bytes_with_config, parse_json_bytes_with_config in E. rewrite value_parse_eq in E.
  rewrite E in G. exact G.
Qed.

(** A document that was returned holds the nodes of the value in the text, reads back as that value, and
    its iterator yields it. *)
Theorem C82_documents_hold_the_value c pw cfg s doc : lawful c -> starts_empty c -> rust_slice pw s ->
  generic_from_json_bytes_with_config c pw s cfg = Ok doc ->
  exists v, value_from_json_bytes_with_config pw s cfg = Ok v /\ nc_as_ref c doc = preorder v /\
    value_from_generic c doc = Ok v /\ next_value (generic_iter c doc) = Ok (Some v, []) /\
    skip_next_value (generic_iter c doc) = Ok [].
Proof.
  intros Hc H0 H E. pose proof (generic_eq c false pw cfg s Hc (rust_slice_good _ _ H)) as G. cbv zeta in G.
  unfold value_from_json_bytes_with_config, parse_json_bytes_with_config. rewrite value_parse_eq.
  change (collection_of c (parse_bytes false pw cfg (collection_delegate c) s (nc_default c)) = Ok doc) in E. rewrite E in G.
  destruct (fst (parse_bytes false pw cfg trace_delegate s [])) as [v|e|f]; [|exfalso|contradiction].
  - destruct (store c v (nc_default c)) as [st|k|f] eqn:Es; [|destruct G as (o & G & _); discriminate|discriminate].
    injection G as <-. apply (C82_stored_nodes c v _ _ Hc) in Es. rewrite H0 in Es. cbn [app] in Es.
    exists v. split; [reflexivity|]. split; [exact Es|].
    unfold value_from_generic, generic_iter, doc_iter. destruct Hc as (_ & _ & _ & Hi). rewrite Hi, Es.
    split; [apply value_from_document_preorder|].
    pose proof (next_value_preorder v []) as N1. pose proof (skip_preorder v []) as N2. rewrite app_nil_r in N1, N2. auto.
  - destruct G as [G|[(st & n & k & o & _ & G)|(st & n & f & _ & G)]]; discriminate.
Qed.

(** Parsing into a collection whose pushes return never panics. *)
Theorem C82_never_panics c pw cfg s f : lawful c -> push_returns c -> rust_slice pw s ->
  generic_from_json_bytes_with_config c pw s cfg <> Fault f.
Proof.
  intros Hc Hp H E. pose proof (generic_eq c false pw cfg s Hc (rust_slice_good _ _ H)) as G. cbv zeta in G.
  change (collection_of c (parse_bytes false pw cfg (collection_delegate c) s (nc_default c)) = Fault f) in E. rewrite E in G.
  destruct (fst (parse_bytes false pw cfg trace_delegate s [])) as [v|e|f0]; [| |contradiction].
  - pose proof (store_returns c Hp v) as R.
    destruct (store c v (nc_default c)) as [st|k|f1]; [discriminate|destruct G as (o & G & _); discriminate|].
    destruct (R f1 eq_refl).
  - destruct G as [G|[(st & n & k & o & _ & G)|(st & n & f1 & P & G)]]; try discriminate. apply (Hp _ _ _ P).
Qed.

(** With a collection that never refuses a node, a document exists exactly for the texts of values, and
    the errors are those of values. *)
Theorem C82_unbounded_collections c pw cfg s : lawful c ->
  (forall st n, fst (nc_push c st n) = Ok tt) -> rust_slice pw s ->
  match value_from_json_bytes_with_config pw s cfg with
  | Ok v => exists doc, generic_from_json_bytes_with_config c pw s cfg = Ok doc /\
              nc_as_ref c doc = nc_as_ref c (nc_default c) ++ preorder v
  | Err e => generic_from_json_bytes_with_config c pw s cfg = Err e
  | Fault _ => False
  end.
Proof.
  intros Hc Hp H. pose proof (generic_eq c false pw cfg s Hc (rust_slice_good _ _ H)) as G. cbv zeta in G.
  unfold value_from_json_bytes_with_config, parse_json_bytes_with_config. rewrite value_parse_eq.
  change (generic_from_json_bytes_with_config c pw s cfg)
    with (collection_of c (parse_bytes false pw cfg (collection_delegate c) s (nc_default c))).
  destruct (fst (parse_bytes false pw cfg trace_delegate s [])) as [v|e|f0]; [| |contradiction].
  - assert (S : exists st, store c v (nc_default c) = Ok st).
    { assert (P : forall st n, exists st', put c st n = Ok st').
      { intros st n. unfold put. pose proof (Hp st n) as Q. destruct (nc_push c st n) as [r st']. cbn in Q. subst r. eauto. }
      assert (Q : forall v st, exists st', store c v st = Ok st').
      { clear - P. intro v. induction v as [n|s|b|o IH|l IH|] using value_ind'; intro st; try apply P.
        - cbn [store]. destruct (P st (NObject 0)) as [st1 ->]. cbn [bind].
          generalize (length (nc_as_ref c st)) as i. generalize 0 as k. revert st1.
          induction IH as [|[key v] o Hv Ho IHo]; intros st1 k i; cbn [store_members]; [eauto|].
          destruct (P (nc_update c st1 i (NObject (S k))) (NString key)) as [st2 ->]. cbn [bind].
          destruct (Hv st2) as [st3 E]. cbn [snd] in E. rewrite E. cbn [bind]. apply IHo.
        - cbn [store]. destruct (P st (NArray 0)) as [st1 ->]. cbn [bind].
          generalize (length (nc_as_ref c st)) as i. generalize 0 as k. revert st1.
          induction IH as [|v l Hv Hl IHl]; intros st1 k i; cbn [store_elements]; [eauto|].
          destruct (Hv st1) as [st3 E]. rewrite E. cbn [bind]. apply IHl. }
      apply Q. }
    destruct S as [st Es]. rewrite Es in G. exists st. split; [exact G|]. apply (C82_stored_nodes c v _ _ Hc Es).
  - destruct G as [G|[(st & n & k & o & P & _)|(st & n & f1 & P & _)]]; [exact G| |]; rewrite Hp in P; discriminate.
Qed.

(** The entry points that take text agree with those that take bytes. *)
Theorem C82_str_and_bytes_agree c pw cfg s : rust_str pw s ->
  generic_from_json_with_config c pw s cfg = generic_from_json_bytes_with_config c pw s cfg.
Proof.
  intro H. apply rust_str_good in H.
  unfold generic_from_json_with_config, generic_from_json_bytes_with_config, parse_json_with_config, parse_json_bytes_with_config.
  rewrite (parse_bytes_agree pw cfg _ s H). reflexivity.
Qed.

(** The two collections of the crate are lawful, and [Document]/[HeaplessDocument] are documents over them. *)
Theorem C82_crate_collections cap pw cfg s :
  lawful (crate_collection cap) /\ starts_empty (crate_collection cap) /\ push_returns (crate_collection cap) /\
  generic_from_json_bytes_with_config (crate_collection cap) pw s cfg = document_from_json_bytes_with_config pw cap s cfg /\
  generic_from_json_with_config (crate_collection cap) pw s cfg = document_from_json_with_config pw cap s cfg.
Proof.
  split; [|split; [reflexivity|split; [|split; reflexivity]]].
  - split; [|cbn; auto]. cbn. intros st n st'. unfold push. destruct cap as [k|]; [destruct (Nat.ltb (length st) k)|];
      intro E; try discriminate; injection E as <-; reflexivity.
  - intros st n f. cbn. unfold push. destruct cap as [k|]; [destruct (Nat.ltb (length st) k)|]; discriminate.
Qed.

(** A sample: a collection that keeps its nodes newest first, counts the bytes of the strings it holds, and
    refuses a string that would take them over a budget, with an error of its choosing. *)
Definition node_cost (n : node) : nat := match n with NString s => length (contents_str (js_source s)) | _ => 0 end.
Definition budget_collection (budget : nat) : node_collection := {|
  nc_st := list node * nat; nc_default := ([], 0);
  nc_as_ref := fun x => rev (fst x); nc_as_mut := fun x => rev (fst x);
  nc_update := fun x i n => (rev (replace_nth (rev (fst x)) i n), snd x);
  nc_into_iter := fun x => rev (fst x);
  nc_push := fun x n => if Nat.leb (snd x + node_cost n) budget then (Ok tt, (n :: fst x, snd x + node_cost n))
                        else (Err KRecursionLimitReached, (n :: fst x, 0)) |}.
Example budget_lawful budget : lawful (budget_collection budget) /\ starts_empty (budget_collection budget) /\
  push_returns (budget_collection budget).
Proof.
  split; [|split; [reflexivity|]].
  - split; [|split; [|cbn; auto]].
    + cbn. intros [l k] n [l' k']. destruct (Nat.leb _ _); intro E; [|discriminate]. injection E as <- _. reflexivity.
    + intros st i n. cbn. apply rev_involutive.
  - intros [l k] n f. cbn. destruct (Nat.leb _ _); discriminate.
Qed.
Definition budget_text : list N := bs "{""ab"":[""c"",""def""]}".
Example budget_enough :
  exists doc, generic_from_json_bytes (budget_collection 6) W64 budget_text = Ok doc /\ length (nc_as_ref (budget_collection 6) doc) = 5 /\
    snd doc = 6.
Proof. eexists. split; [vm_compute; reflexivity|]. split; reflexivity. Qed.
Example budget_exceeded :
  generic_from_json_bytes (budget_collection 5) W64 budget_text = Err (Error 11 KRecursionLimitReached) /\
  exists v, value_from_json_bytes W64 budget_text = Ok v /\ store (budget_collection 5) v ([], 0) = Err KRecursionLimitReached.
Proof. split; [vm_compute; reflexivity|]. eexists. split; [vm_compute; reflexivity|vm_compute; reflexivity]. Qed.
Example budget_bad_text :
  generic_from_json_bytes (budget_collection 6) W64 (bs "[1 2]") = Err (Error 2 KExpectedCommaOrEndOfArray).
Proof. vm_compute. reflexivity. Qed.
