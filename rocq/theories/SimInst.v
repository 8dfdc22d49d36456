(** Instances of the simulation theorem: the delegates of the crate. *)
From Verif Require Import Base Utf8 StrModel ErrorModel Tokenizer Parser ValueModel DocModel NumModel Spec TokBase
  TokStr TokFacts Trace ParserGen ParserSound ParserComplete Sim.

Lemma trace_no_fault g pw cfg source : good g pw source ->
  forall f, fst (parse_bytes g pw cfg trace_delegate source []) <> Fault f.
Proof.
  intros Hg f H. pose proof (parse_bytes_gen g pw cfg trace_delegate source Hg []) as G. rewrite H in G.
  destruct G as [st E|st b E|st n E|st s E|st E|st o k E|st o k v E|st o E|st o E|st E|st a v E|st a E|st a E|st v E];
    discriminate.
Qed.

Definition map_ok {E A B} (f : A -> B) (r : res E A) : res E B :=
  match r with Ok a => Ok (f a) | Err e => Err e | Fault x => Fault x end.

(** * Value *)
Section ValueInst.
  Variables (g : bool) (pw : pwidth) (cfg : parse_config).
  Definition value_frame (f : frame value_delegate) : Prop :=
    match f with FObj _ o o2 => o = o2 | FKey _ o o2 k k2 => o = o2 /\ k = k2 | FArr _ a a2 => a = a2 end.
  Definition value_sim : simulation value_delegate := {|
    sR := fun F _ _ => Forall value_frame F;
    sRV := fun F v v2 _ _ => Forall value_frame F /\ v = v2;
    sStop := fun _ _ _ => False;
    sRE := fun _ _ => True;
    sBad := fun _ => False |}.

  Ltac vinv := repeat match goal with
    | H : Forall value_frame (_ :: _) |- _ => inversion_clear H
    | H : value_frame _ |- _ => cbn in H
    | H : _ /\ _ |- _ => destruct H
    end; subst.

  Lemma value_sim_ok : sim_ok cfg value_delegate value_sim.
  Proof.
    split; try (split; intros; contradiction); intros; cbn in *; vinv; auto; try (right; cbn; repeat (split || constructor); auto; fail);
      try reflexivity.
  Qed.

  Theorem value_parse_eq source :
    fst (parse_bytes g pw cfg value_delegate source tt) = fst (parse_bytes g pw cfg trace_delegate source []).
  Proof.
    pose proof (sim_parse g pw cfg value_delegate value_sim value_sim_ok source tt (Forall_nil _)) as H.
    cbv zeta in H. destruct H as [[]|[H|H]].
    - unfold halted in H. destruct (fst (parse_bytes g pw cfg value_delegate source tt)) as [v|[o k]|f]; try destruct H.
      destruct k; destruct H.
    - unfold same_outcome in H.
      destruct (parse_bytes g pw cfg value_delegate source tt) as [x st], (parse_bytes g pw cfg trace_delegate source []) as [y tr].
      cbn [fst snd] in *. destruct x as [v|e|f], y as [v2|e2|f2];
        try contradiction.
      + destruct H as [_ ->]. reflexivity.
      + destruct H as [-> _]. rewrite into_fallable_id. reflexivity.
      + destruct H as [-> _]. reflexivity.
  Qed.
End ValueInst.

(** * Validator *)
Section UnitInst.
  Variables (g : bool) (pw : pwidth) (cfg : parse_config).
  Definition unit_frame (f : frame unit_delegate) : Prop :=
    match f with FObj _ o o2 => o = length o2 | FKey _ o o2 k k2 => o = length o2 | FArr _ a a2 => a = length a2 end.
  Definition unit_sim : simulation unit_delegate := {|
    sR := fun F _ _ => Forall unit_frame F;
    sRV := fun F v v2 _ _ => Forall unit_frame F /\ v = value_kind v2;
    sStop := fun _ _ _ => False;
    sRE := fun _ _ => True;
    sBad := fun _ => False |}.

  Lemma unit_sim_ok : sim_ok cfg unit_delegate unit_sim.
  Proof.
    split; try (split; intros; contradiction); intros; cbn in *;
      repeat match goal with
      | H : Forall unit_frame (_ :: _) |- _ => inversion_clear H
      | H : unit_frame _ |- _ => cbn in H
      | H : _ /\ _ |- _ => destruct H
      end; subst; auto; try (right; cbn; repeat (split || constructor); cbn; rewrite ?app_length; cbn; auto; lia).
    - destruct o2; reflexivity.
    - destruct a2; reflexivity.
  Qed.

  Theorem unit_parse_eq source :
    fst (parse_bytes g pw cfg unit_delegate source tt) =
    map_ok value_kind (fst (parse_bytes g pw cfg trace_delegate source [])).
  Proof.
    pose proof (sim_parse g pw cfg unit_delegate unit_sim unit_sim_ok source tt (Forall_nil _)) as H.
    cbv zeta in H. destruct H as [[]|[H|H]].
    - unfold halted in H. destruct (fst (parse_bytes g pw cfg unit_delegate source tt)) as [v|[o k]|f]; try destruct H.
      destruct k; destruct H.
    - unfold same_outcome in H.
      destruct (parse_bytes g pw cfg unit_delegate source tt) as [x st], (parse_bytes g pw cfg trace_delegate source []) as [y tr].
      cbn [fst snd] in *. destruct x as [v|e|f], y as [v2|e2|f2];
        try contradiction.
      + destruct H as [_ ->]. reflexivity.
      + destruct H as [-> _]. rewrite into_fallable_id. reflexivity.
      + destruct H as [-> _]. reflexivity.
  Qed.
End UnitInst.

(** * Documents *)

(** The preorder node list of a value. *)
Fixpoint nodes_of (v : value) : list node :=
  match v with
  | VNull => [NNull]
  | VBoolean b => [NBoolean b]
  | VNumber n => [NNumber n]
  | VString s => [NString s]
  | VObject o => NObject (length o) :: flat_map (fun e => NString (fst e) :: nodes_of (snd e)) o
  | VArray l => NArray (length l) :: flat_map nodes_of l
  end.
Definition member_nodes (o : object) : list node := flat_map (fun e => NString (fst e) :: nodes_of (snd e)) o.
Definition element_nodes (l : list value) : list node := flat_map nodes_of l.

(** Number of nodes a callback sequence creates. *)
Definition ev_nodes (e : event) : nat :=
  match e with
  | ENull | EBoolean _ | ENumber _ | EString _ | EBeginObject | EObjectKey _ | EBeginArray => 1
  | EObjectValue | EEndObject | EArrayValue | EEndArray => 0
  end.
Definition count_nodes (tr : list event) : nat := list_sum (map ev_nodes tr).

Lemma count_nodes_app a b : count_nodes (a ++ b) = count_nodes a + count_nodes b.
Proof. unfold count_nodes. rewrite map_app. apply list_sum_app. Qed.

Lemma count_nodes_cons e t : count_nodes (e :: t) = ev_nodes e + count_nodes t.
Proof. reflexivity. Qed.

Lemma count_events v : count_nodes (events v) = length (nodes_of v).
Proof.
  induction v as [n|s|b|o IH|l IH|] using value_ind'; try reflexivity.
  - rewrite events_object. cbn [nodes_of length]. rewrite count_nodes_cons, count_nodes_app. cbn.
    assert (count_nodes (member_events o) = length (member_nodes o)); [|unfold member_nodes in *; lia].
    induction IH as [|[k v] o Hv Ho IHo]; [reflexivity|].
    cbn [member_events member_nodes flat_map fst snd] in *. rewrite count_nodes_app, count_nodes_cons, count_nodes_app.
    fold (member_events o). cbn. rewrite app_length. fold (member_nodes o). rewrite IHo, Hv. cbn. lia.
  - rewrite events_array. cbn [nodes_of length]. rewrite count_nodes_cons, count_nodes_app. cbn.
    assert (count_nodes (element_events l) = length (element_nodes l)); [|unfold element_nodes in *; lia].
    induction IH as [|v l Hv Hl IHl]; [reflexivity|].
    cbn [element_events element_nodes flat_map] in *. rewrite count_nodes_app, count_nodes_app.
    fold (element_events l). cbn. rewrite app_length. fold (element_nodes l). rewrite IHl, Hv. cbn. lia.
Qed.

Section NodesInst.
  Variables (g : bool) (pw : pwidth) (cfg : parse_config) (cap : option nat).
  Notation ND := (nodes_delegate cap).

  Fixpoint flat (F : list (frame ND)) : list node :=
    match F with
    | [] => []
    | FObj _ _ o2 :: F' => flat F' ++ NObject (length o2) :: member_nodes o2
    | FKey _ _ o2 _ k2 :: F' => flat F' ++ NObject (S (length o2)) :: member_nodes o2 ++ [NString k2]
    | FArr _ _ a2 :: F' => flat F' ++ NArray (length a2) :: element_nodes a2
    end.
  Fixpoint idx_ok (F : list (frame ND)) : Prop :=
    match F with
    | [] => True
    | FObj _ i _ :: F' => i = length (flat F') /\ idx_ok F'
    | FKey _ i _ _ _ :: F' => i = length (flat F') /\ idx_ok F'
    | FArr _ i _ :: F' => i = length (flat F') /\ idx_ok F'
    end.
  Definition within (n : nat) : Prop := match cap with Some k => (n <= k)%nat | None => True end.

  Definition nodes_sim : simulation ND := {|
    sR := fun F st tr => idx_ok F /\ st = flat F /\ within (length st) /\ count_nodes tr = length st;
    sRV := fun F v v2 st tr => idx_ok F /\ v = length (flat F) /\ st = flat F ++ nodes_of v2 /\ within (length st) /\
             count_nodes tr = length st;
    sStop := fun x _ tr => x = inl KPaylodTooLarge /\ exists k, cap = Some k /\ (k < count_nodes tr)%nat;
    sRE := fun st tr => within (length st) /\ count_nodes tr = length st;
    sBad := fun _ => False |}.

  Lemma replace_nth_app {A} (a b : list A) x y : replace_nth (a ++ x :: b) (length a) y = a ++ y :: b.
  Proof. induction a as [|z a IH]; cbn; [reflexivity|]. rewrite IH. reflexivity. Qed.
  Lemma nth_error_mid {A} (a b : list A) x : nth_error (a ++ x :: b) (length a) = Some x.
  Proof. rewrite nth_error_app2 by lia. rewrite Nat.sub_diag. reflexivity. Qed.

  Lemma push_spec (st : list node) n : within (length st) ->
    (push cap st n = (Ok tt, st ++ [n]) /\ within (S (length st))) \/
    (push cap st n = (Err KPaylodTooLarge, st) /\ exists k, cap = Some k /\ (k <= length st)%nat).
  Proof.
    unfold push, within. destruct cap as [k|]; [|auto]. intro H.
    destruct (Nat.ltb_spec (length st) k); [left|right]; (split; [reflexivity|]); [lia|eauto].
  Qed.

  Lemma push_node_step (st : list node) tr n ev (Q : nat -> list node -> Prop) :
    within (length st) -> count_nodes tr = length st -> ev_nodes ev = 1 ->
    (within (length (st ++ [n])) -> count_nodes (tr ++ [ev]) = length (st ++ [n]) -> Q (length st) (st ++ [n])) ->
    step ND nodes_sim (push_node cap st n) Q (tr ++ [ev]).
  Proof.
    intros Hw Hc Hev HQ. unfold push_node, step.
    assert (Ec : count_nodes (tr ++ [ev]) = S (length st)).
    { rewrite count_nodes_app, Hc. cbn. rewrite Hev. lia. }
    rewrite app_length in HQ. cbn [length] in HQ. right.
    destruct (push_spec st n Hw) as [[-> Hw']|[-> (k & Hk & Hle)]]; cbn.
    - apply HQ; [rewrite Nat.add_1_r; exact Hw'|lia].
    - split; [reflexivity|]. exists k. split; [exact Hk|]. lia.
  Qed.

  Lemma within_eq (n m : nat) : within n -> n = m -> within m.
  Proof. intros H <-. exact H. Qed.

  Lemma nodes_sim_ok : sim_ok cfg ND nodes_sim.
  Proof.
    split; try (split; intros; contradiction).
    - cbn. tauto.
    - cbn. tauto.
    - cbn. intros x st tr ev [-> (k & -> & H)]. split; [reflexivity|]. exists k. split; [reflexivity|].
      rewrite count_nodes_app. lia.
    - cbn. intros F st tr (Hi & -> & Hw & Hc). apply push_node_step; auto.
    - cbn. intros F st tr b (Hi & -> & Hw & Hc). apply push_node_step; auto.
    - cbn. intros F st tr b (Hi & -> & Hw & Hc). apply push_node_step; auto.
    - cbn. intros F st tr b (Hi & -> & Hw & Hc). apply push_node_step; auto.
    - cbn. intros F st tr (Hi & -> & Hw & Hc). apply push_node_step; auto.
    - cbn. intros F st tr o o2 k ((-> & Hi) & -> & Hw & Hc).
      unfold extend_object. rewrite nth_error_mid, replace_nth_app.
      set (st1 := flat F ++ NObject (S (length o2)) :: member_nodes o2) in *.
      assert (Hlen : length st1 = length (flat F ++ NObject (length o2) :: member_nodes o2))
        by (unfold st1; rewrite !app_length; reflexivity).
      pose proof (push_node_step st1 tr (NString k) (EObjectKey k)
        (fun ix c => ix = length st1 /\ within (length c) /\ count_nodes (tr ++ [EObjectKey k]) = length c /\ c = st1 ++ [NString k])) as H.
      destruct H as [[]|H].
      { rewrite Hlen. exact Hw. } { rewrite Hlen. exact Hc. } { reflexivity. } { auto. }
      right. destruct (push_node cap st1 (NString k)) as [[ix|e|f] c]; cbn in *; try exact H.
      destruct H as (_ & H2 & H3 & ->). split; [auto|]. split; [unfold st1; rewrite <- app_assoc; reflexivity|]. auto.
    - cbn. intros F st tr o o2 k k2 v v2 ((-> & Hi) & _ & -> & Hw & Hc). right. cbn. split; [auto|].
      assert (E : (flat F ++ NObject (S (length o2)) :: member_nodes o2 ++ [NString k2]) ++ nodes_of v2 =
                  flat F ++ NObject (length (o2 ++ [(k2, v2)])) :: member_nodes (o2 ++ [(k2, v2)])).
      { unfold member_nodes. rewrite flat_map_app, app_length, Nat.add_1_r. cbn. rewrite <- !app_assoc. cbn.
        rewrite app_nil_r, <- !app_assoc. reflexivity. }
      rewrite E in *. split; [reflexivity|]. split; [exact Hw|]. rewrite count_nodes_app, Hc. cbn. lia.
    - cbn. intros F st tr o o2 ((-> & Hi) & -> & Hw & Hc). rewrite nth_error_mid. destruct o2; reflexivity.
    - cbn. intros F st tr o o2 ((-> & Hi) & -> & Hw & Hc). right. cbn. split; [exact Hi|]. split; [reflexivity|].
      split; [reflexivity|]. split; [exact Hw|]. rewrite count_nodes_app, Hc. cbn. lia.
    - cbn. intros F st tr (Hi & -> & Hw & Hc). apply push_node_step; auto.
    - cbn. intros F st tr a a2 v v2 ((-> & Hi) & _ & -> & Hw & Hc). right.
      unfold extend_array. rewrite <- app_assoc. cbn [app]. rewrite nth_error_mid, replace_nth_app. cbn. split; [auto|].
      assert (E : flat F ++ NArray (S (length a2)) :: element_nodes a2 ++ nodes_of v2 =
                  flat F ++ NArray (length (a2 ++ [v2])) :: element_nodes (a2 ++ [v2])).
      { unfold element_nodes. rewrite flat_map_app, app_length, Nat.add_1_r. cbn. rewrite app_nil_r. reflexivity. }
      assert (El : length (flat F ++ NArray (S (length a2)) :: element_nodes a2 ++ nodes_of v2) =
                  length ((flat F ++ NArray (length a2) :: element_nodes a2) ++ nodes_of v2)).
      { rewrite <- app_assoc, !app_length. cbn [length]. rewrite ?app_length. cbn [length]. rewrite ?app_length. lia. }
      rewrite E in *. split; [reflexivity|]. rewrite El. split; [exact Hw|]. rewrite count_nodes_app, Hc. cbn. lia.
    - cbn. intros F st tr a a2 ((-> & Hi) & -> & Hw & Hc). rewrite nth_error_mid. destruct a2; reflexivity.
    - cbn. intros F st tr a a2 ((-> & Hi) & -> & Hw & Hc). right. cbn. split; [exact Hi|]. split; [reflexivity|].
      split; [reflexivity|]. split; [exact Hw|]. rewrite count_nodes_app, Hc. cbn. lia.
    - cbn. intros v v2 st tr _ (_ & -> & -> & _). destruct v2; reflexivity.
  Qed.

  (** The document parse in terms of the reference parse. *)
  Theorem nodes_parse_eq source : good g pw source ->
    let y := parse_bytes g pw cfg trace_delegate source [] in
    let x := document_of (parse_bytes g pw cfg ND source []) in
    match fst y with
    | Ok v => if match cap with Some k => (length (nodes_of v) <=? k)%nat | None => true end
              then x = Ok (nodes_of v) else exists o, x = Err (Error o KPaylodTooLarge)
    | Err e => x = Err e \/ exists o, x = Err (Error o KPaylodTooLarge) /\ cap <> None
    | Fault f => False
    end.
  Proof.
    intro Hg. cbv zeta.
    assert (H0 : sR ND nodes_sim [] [] []).
    { cbn. unfold within. repeat split. destruct cap; [lia|exact I]. }
    pose proof (sim_parse g pw cfg ND nodes_sim nodes_sim_ok source [] H0) as H. cbv zeta in H.
    pose proof (trace_no_fault g pw cfg source Hg) as Hnf.
    assert (Hsound : forall v, fst (parse_bytes g pw cfg trace_delegate source []) = Ok v ->
              snd (parse_bytes g pw cfg trace_delegate source []) = events v).
    { intros v E. destruct (parse_bytes g pw cfg trace_delegate source []) as [r tr] eqn:Ep. cbn in *. subst r.
      destruct (trace_sound g pw cfg source v tr Hg Ep) as (t & _ & _ & _ & _ & ->). reflexivity. }
    destruct (parse_bytes g pw cfg trace_delegate source []) as [y tr]. cbn [fst snd d_error d_value d_st trace_delegate] in *.
    destruct H as [[]|[H|H]].
    - (* stopped by the delegate *)
      unfold halted in H. destruct (parse_bytes g pw cfg ND source []) as [[n|[o k]|f] st]; cbn [fst snd] in H.
      + destruct H.
      + destruct k; try (exfalso; exact H). cbn in H. destruct H as [E (k & Hk & Hlt)]. injection E as ->.
        assert (Ex : document_of (Err (Error o (KErrorFromDelegate KPaylodTooLarge)), st) = Err (Error o KPaylodTooLarge)) by reflexivity.
        destruct y as [v|e|f].
        * rewrite (Hsound v eq_refl), count_events in Hlt. rewrite Hk.
          destruct (Nat.leb_spec (length (nodes_of v)) k); [lia|]. exists o. exact Ex.
        * right. exists o. split; [exact Ex|]. rewrite Hk. discriminate.
        * destruct (Hnf f eq_refl).
      + cbn in H. destruct H as [E _]. discriminate.
    - unfold same_outcome in H. destruct (parse_bytes g pw cfg ND source []) as [x st]. cbn [fst snd] in H.
      destruct y as [v|e|f].
      + destruct x as [n|e|f]; try contradiction. cbn in H. destruct H as (_ & _ & -> & Hw & Hc).
        unfold within in Hw. cbn. clear H0 n. destruct cap as [k|]; [|reflexivity].
        destruct (Nat.leb_spec (length (nodes_of v)) k); [reflexivity|lia].
      + destruct x as [n|e'|f]; try contradiction. destruct H as [H _]. left. cbn. subst e'. f_equal.
        destruct e as [o k]. unfold into_infallable, into_fallable. cbn.
        destruct k as [| | | | | | | | | | | | | | | | | | | | | | | |[]]; reflexivity.
      + destruct (Hnf f eq_refl).
  Qed.
End NodesInst.

(** * JsonNumber::from_json and JsonString::from_json *)
Section ScalarInst.
  Variables (g : bool) (pw : pwidth) (cfg : parse_config).
  Hypothesis Hall : allow_all_types_at_root cfg = true.
  Variables (V : Type) (k : error_kind infallible)
    (num : json_number -> res (error_kind infallible) V) (str : json_string -> res (error_kind infallible) V)
    (wrap : V -> value).
  (** Each scalar is either wanted or refused with [k]. *)
  Hypothesis Hnum : (forall n, exists v, num n = Ok v /\ wrap v = VNumber n) \/ (forall n, num n = Err k).
  Hypothesis Hstr : (forall s, exists v, str s = Ok v /\ wrap v = VString s) \/ (forall s, str s = Err k).
  Notation SD := (scalar_delegate V k num str).

  Definition wanted (e : event) : Prop := exists v, events (wrap v) = [e].

  Definition scalar_sim : simulation SD := {|
    sR := fun F st tr => F = [] /\ tr = [];
    sRV := fun F (v : d_value SD) v2 st tr => F = [] /\ v2 = wrap v /\ tr = events v2;
    sStop := fun x _ tr => x = inl k /\ exists e r, tr = e :: r /\
       match e with
       | ENumber _ => forall n, num n = Err k
       | EString _ => forall s, str s = Err k
       | _ => True
       end;
    sRE := fun st tr => True;
    sBad := fun _ => False |}.

  Lemma scalar_sim_ok : sim_ok cfg SD scalar_sim.
  Proof.
    assert (Hne : forall A (x : A) (F : list A), x :: F = [] -> False) by discriminate.
    split; try (split; intros; contradiction); cbn; auto;
      try (intros; match goal with H : _ /\ _ |- _ => destruct H end; exfalso; eapply Hne; eassumption).
    - intros x st tr ev [-> (e & r & -> & H)]. split; [reflexivity|]. exists e, (r ++ [ev]). auto.
    - intros F st tr [-> ->]. right. cbn. split; [reflexivity|]. exists ENull, []. auto.
    - intros F st tr b [-> ->]. right. cbn. split; [reflexivity|]. exists (EBoolean b), []. auto.
    - intros F st tr n [-> ->]. right. cbn. destruct Hnum as [Hn|Hn].
      + destruct (Hn n) as (v & -> & Hw). split; [reflexivity|]. rewrite Hw. split; reflexivity.
      + rewrite Hn. split; [reflexivity|]. exists (ENumber n), []. auto.
    - intros F st tr n [-> ->]. right. cbn. destruct Hstr as [Hn|Hn].
      + destruct (Hn n) as (v & -> & Hw). split; [reflexivity|]. rewrite Hw. split; reflexivity.
      + rewrite Hn. split; [reflexivity|]. exists (EString n), []. auto.
    - intros F st tr [-> ->]. right. cbn. split; [reflexivity|]. exists EBeginObject, []. auto.
    - intros F st tr [-> ->]. right. cbn. split; [reflexivity|]. exists EBeginArray, []. auto.
    - intros. congruence.
  Qed.

  Theorem scalar_parse_eq source : good g pw source ->
    let y := parse_bytes g pw cfg trace_delegate source [] in
    let x := map_err into_infallable (fst (parse_bytes g pw cfg SD source tt)) in
    match fst y with
    | Ok v => (exists a, v = wrap a /\ x = Ok a) \/
              (exists o, x = Err (Error o k) /\
                 match v with
                 | VNumber _ => forall n, num n = Err k
                 | VString _ => forall s, str s = Err k
                 | _ => True
                 end)
    | Err e => x = Err e \/ exists o, x = Err (Error o k)
    | Fault f => False
    end.
  Proof.
    intro Hg. cbv zeta.
    pose proof (sim_parse g pw cfg SD scalar_sim scalar_sim_ok source tt (conj eq_refl eq_refl)) as H. cbv zeta in H.
    pose proof (trace_no_fault g pw cfg source Hg) as Hnf.
    assert (Hsound : forall v, fst (parse_bytes g pw cfg trace_delegate source []) = Ok v ->
              snd (parse_bytes g pw cfg trace_delegate source []) = events v).
    { intros v E. destruct (parse_bytes g pw cfg trace_delegate source []) as [r tr] eqn:Ep. cbn in *. subst r.
      destruct (trace_sound g pw cfg source v tr Hg Ep) as (t & _ & _ & _ & _ & ->). reflexivity. }
    destruct (parse_bytes g pw cfg trace_delegate source []) as [y tr]. cbn [fst snd d_error d_value d_st trace_delegate] in *.
    destruct H as [[]|[H|H]].
    - unfold halted in H. destruct (parse_bytes g pw cfg SD source tt) as [[n|[o k0]|f] st]; cbn [fst snd] in H.
      + destruct H.
      + destruct k0; try (exfalso; exact H). cbn in H. destruct H as [E (e & r & Htr & He)]. injection E as ->.
        cbn [fst map_err into_infallable err_offset err_kind kind_into_infallable].
        destruct y as [v|e'|f].
        * right. exists o. split; [reflexivity|]. rewrite (Hsound v eq_refl) in Htr.
          destruct v; cbn in Htr; auto; injection Htr as <- _; exact He.
        * right. exists o. reflexivity.
        * destruct (Hnf f eq_refl).
      + destruct H as [E _]. discriminate.
    - unfold same_outcome in H. destruct (parse_bytes g pw cfg SD source tt) as [x st]. cbn [fst snd] in H.
      destruct y as [v|e|f].
      + destruct x as [n|e|f]; try contradiction. left. destruct H as (_ & H & _). exists n. split; [exact H|reflexivity].
      + destruct x as [n|e'|f]; try contradiction. destruct H as [H _]. left. cbn. subst e'. f_equal.
        destruct e as [o k']. unfold into_infallable, into_fallable. cbn.
        destruct k' as [| | | | | | | | | | | | | | | | | | | | | | | |[]]; reflexivity.
      + destruct (Hnf f eq_refl).
  Qed.
End ScalarInst.
