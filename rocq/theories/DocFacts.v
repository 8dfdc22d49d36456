(** Documents: hydration and skipping on the preorder node list of a value. *)
From Verif Require Import Base Utf8 StrModel ErrorModel Tokenizer Parser ValueModel DocModel Spec View SimInst.

Lemma nodes_of_preorder v : nodes_of v = preorder v.
Proof. reflexivity. Qed.

Lemma preorder_nonnil v : exists n r, preorder v = n :: r.
Proof. destruct v; cbn; eauto. Qed.

(** Number of nodes below the root: the fuel [hydrate] needs. *)
Lemma hydrate_preorder v : forall fuel n r rest, preorder v = n :: r -> (length r < fuel)%nat ->
  hydrate fuel n (r ++ rest) = Ok (v, rest).
Proof.
  induction v as [x|s|b|o IH|l IH|] using value_ind'; intros fuel n r rest E Hf; cbn in E; injection E as <- <-;
    (destruct fuel as [|fuel]; [lia|]); try reflexivity; cbn [hydrate].
  - match goal with |- ?f (length o) [] _ = _ => assert (H : forall acc o' rest', 
       Forall (fun e => forall fuel n r rest, preorder (snd e) = n :: r -> (length r < fuel)%nat -> hydrate fuel n (r ++ rest) = Ok (snd e, rest)) o' ->
       (length (flat_map (fun e => NString (fst e) :: preorder (snd e)) o') <= fuel)%nat ->
       f (length o') acc (flat_map (fun e => NString (fst e) :: preorder (snd e)) o' ++ rest') = Ok (VObject (acc ++ o'), rest')) end.
    { intros acc o'. revert acc. induction o' as [|[k v] o' IHo]; intros acc rest' HF Hl.
      - cbn. rewrite app_nil_r. reflexivity.
      - inversion HF as [|? ? Hv HF']; subst. destruct (preorder_nonnil v) as (n & r & E). 
        cbn [length flat_map fst snd] in *. rewrite E in *. cbn [length app] in *. rewrite app_length in Hl.
        rewrite <- app_assoc.
        rewrite (Hv fuel n r _ eq_refl) by lia. cbn [bind].
        rewrite IHo; [|exact HF'|lia]. rewrite <- app_assoc. reflexivity. }
    apply (H [] o rest IH). lia.
  - match goal with |- ?f (length l) [] _ = _ => assert (H : forall acc l' rest', 
       Forall (fun v => forall fuel n r rest, preorder v = n :: r -> (length r < fuel)%nat -> hydrate fuel n (r ++ rest) = Ok (v, rest)) l' ->
       (length (flat_map preorder l') <= fuel)%nat ->
       f (length l') acc (flat_map preorder l' ++ rest') = Ok (VArray (acc ++ l'), rest')) end.
    { intros acc l'. revert acc. induction l' as [|v l' IHl]; intros acc rest' HF Hl.
      - cbn. rewrite app_nil_r. reflexivity.
      - inversion HF as [|? ? Hv HF']; subst. destruct (preorder_nonnil v) as (n & r & E).
        cbn [length flat_map] in *. rewrite E in *. cbn [length app] in *. rewrite app_length in Hl.
        rewrite <- app_assoc. rewrite (Hv fuel n r _ eq_refl) by lia. cbn [bind].
        rewrite IHl; [|exact HF'|lia]. rewrite <- app_assoc. reflexivity. }
    apply (H [] l rest IH). lia.
Qed.

Theorem value_from_document_preorder v : value_from_document (preorder v) = Ok v.
Proof.
  destruct (preorder_nonnil v) as (n & r & E). rewrite E. cbn [value_from_document].
  pose proof (hydrate_preorder v (S (length r)) n r [] E ltac:(lia)) as H. rewrite app_nil_r in H. rewrite H. reflexivity.
Qed.

Theorem next_value_preorder v rest : next_value (preorder v ++ rest) = Ok (Some v, rest).
Proof.
  destruct (preorder_nonnil v) as (n & r & E). rewrite E. cbn [app next_value].
  rewrite (hydrate_preorder v _ n r rest E); [reflexivity|]. rewrite app_length. lia.
Qed.

Lemma skip_preorder_fuel v : forall fuel rest, (length (preorder v) <= fuel)%nat ->
  skip_next_value_fuel fuel (preorder v ++ rest) = Ok rest.
Proof.
  induction v as [x|s|b|o IH|l IH|] using value_ind'; intros fuel rest Hf; cbn [preorder length] in *;
    (destruct fuel as [|fuel]; [cbn in Hf; lia|]); try reflexivity; cbn [skip_next_value_fuel app preorder].
  - assert (H : forall rest, repeat_skip (length o) (fun it =>
        let? it1 := skip_next_value_fuel fuel it in skip_next_value_fuel fuel it1)
        (flat_map (fun e => NString (fst e) :: preorder (snd e)) o ++ rest) = Ok rest); [|apply H].
    assert (Hl : (length (flat_map (fun e => NString (fst e) :: preorder (snd e)) o) <= fuel)%nat) by (cbn in Hf; lia).
    clear Hf rest. induction o as [|[k v] o IHo]; intro rest; [reflexivity|].
    inversion IH as [|? ? Hv HF]; subst. cbn [length flat_map repeat_skip fst snd app] in *. rewrite app_length in Hl.
    destruct fuel as [|fuel]; [lia|]. cbn [skip_next_value_fuel bind]. fold (skip_next_value_fuel (S fuel)).
    rewrite <- app_assoc. pose proof (Hv (S fuel)) as Hv'. cbn [skip_next_value_fuel] in Hv'. rewrite Hv' by lia. cbn [bind].
    apply IHo; [exact HF|lia].
  - assert (H : forall rest, repeat_skip (length l) (skip_next_value_fuel fuel) (flat_map preorder l ++ rest) = Ok rest); [|apply H].
    assert (Hl : (length (flat_map preorder l) <= fuel)%nat) by (cbn in Hf; lia).
    clear Hf rest. induction l as [|v l IHl]; intro rest; [reflexivity|].
    inversion IH as [|? ? Hv HF]; subst. cbn [length flat_map repeat_skip] in *. rewrite app_length in Hl.
    rewrite <- app_assoc, Hv by lia. cbn [bind]. apply IHl; [exact HF|lia].
Qed.

Theorem skip_preorder v rest : skip_next_value (preorder v ++ rest) = Ok rest.
Proof. apply skip_preorder_fuel. rewrite app_length. lia. Qed.

Lemma skip_empty_fuel fuel : (1 <= fuel)%nat -> skip_next_value_fuel fuel [] = Ok [].
Proof. destruct fuel; [lia|reflexivity]. Qed.

(** Conversely, whatever [hydrate] reads is the preorder of what it returns. *)
Lemma hydrate_sound : forall fuel n rest v rest', hydrate fuel n rest = Ok (v, rest') -> n :: rest = preorder v ++ rest'.
Proof.
  induction fuel as [|fuel IH]; intros n rest v rest' H; [discriminate|]. cbn [hydrate] in H.
  destruct n as [|b|s|x|len|len]; try (injection H as <- <-; reflexivity).
  - match type of H with ?f len [] rest = _ => assert (G : forall len acc rest v rest', f len acc rest = Ok (v, rest') ->
      exists o, v = VObject (acc ++ o) /\ length o = len /\ rest = flat_map (fun e => NString (fst e) :: preorder (snd e)) o ++ rest') end.
    { clear H len rest v rest'. induction len as [|len IHl]; intros acc rest v rest' H.
      - injection H as <- <-. exists []. rewrite app_nil_r. auto.
      - destruct rest as [|[] rest]; try discriminate. destruct rest as [|n2 rest2]; [discriminate|].
        destruct (hydrate fuel n2 rest2) as [[v2 rest3]|[]|f] eqn:E; [|discriminate]. cbn [bind] in H.
        apply IH in E. apply IHl in H as (o & -> & <- & ->). exists ((s, v2) :: o).
        rewrite <- app_assoc. split; [reflexivity|]. split; [reflexivity|]. cbn [flat_map fst snd app].
        rewrite <- app_assoc, <- E. reflexivity. }
    apply G in H as (o & -> & <- & ->). reflexivity.
  - match type of H with ?f len [] rest = _ => assert (G : forall len acc rest v rest', f len acc rest = Ok (v, rest') ->
      exists o, v = VArray (acc ++ o) /\ length o = len /\ rest = flat_map preorder o ++ rest') end.
    { clear H len rest v rest'. induction len as [|len IHl]; intros acc rest v rest' H.
      - injection H as <- <-. exists []. rewrite app_nil_r. auto.
      - destruct rest as [|n2 rest2]; [discriminate|].
        destruct (hydrate fuel n2 rest2) as [[v2 rest3]|[]|f] eqn:E; [|discriminate]. cbn [bind] in H.
        apply IH in E. apply IHl in H as (o & -> & <- & ->). exists (v2 :: o).
        rewrite <- app_assoc. split; [reflexivity|]. split; [reflexivity|]. cbn [flat_map].
        rewrite <- app_assoc, <- E. reflexivity. }
    apply G in H as (o & -> & <- & ->). reflexivity.
Qed.

Theorem next_value_sound it v rest : next_value it = Ok (Some v, rest) -> it = preorder v ++ rest.
Proof.
  destruct it as [|n r]; [discriminate|]. cbn [next_value].
  destruct (hydrate (S (length r)) n r) as [[v' r']|[]|f] eqn:E; [|discriminate]. cbn. intro H. injection H as -> ->.
  eapply hydrate_sound. exact E.
Qed.

(** Skipping never panics, whatever the iterator holds, and never moves back. *)
Lemma skip_total_fuel : forall fuel it, (length it < fuel)%nat ->
  exists pre it', skip_next_value_fuel fuel it = Ok it' /\ it = pre ++ it'.
Proof.
  induction fuel as [|fuel IH]; intros it Hf; [lia|].
  assert (R : forall f, (forall it, (length it < fuel)%nat -> exists pre it', f it = Ok it' /\ it = pre ++ it') ->
    forall k it, (length it < fuel)%nat -> exists pre it', repeat_skip k f it = Ok it' /\ it = pre ++ it').
  { intros f Hfn. induction k as [|k IHk]; intros i Hi; [exists [], i; auto|]. cbn [repeat_skip].
    destruct (Hfn i Hi) as (p & i' & -> & ->). cbn [bind]. rewrite app_length in Hi.
    destruct (IHk i' ltac:(lia)) as (p' & i'' & -> & ->). exists (p ++ p'), i''. rewrite <- app_assoc. auto. }
  assert (G : forall k n r, (length r < fuel)%nat -> (exists pre it', k r = Ok it' /\ r = pre ++ it') ->
     exists pre it', (k r : res infallible (list node)) = Ok it' /\ n :: r = pre ++ it').
  { intros k n r _ (p & i' & E & E2). exists (n :: p), i'. split; [exact E|]. cbn. congruence. }
  cbn [skip_next_value_fuel]. destruct it as [|[|b|s|x|len|len] r]; cbn [length] in Hf.
  - exists [], []. auto.
  - exists [NNull], r. auto.
  - exists [NBoolean b], r. auto.
  - exists [NString s], r. auto.
  - exists [NNumber x], r. auto.
  - apply (G (fun r => repeat_skip len _ r)); [lia|]. apply R; [|lia]. intros i Hi.
    destruct (IH i Hi) as (p & i' & -> & ->). cbn [bind]. rewrite app_length in Hi.
    destruct (IH i' ltac:(lia)) as (p' & i'' & -> & ->). exists (p ++ p'), i''. rewrite <- app_assoc. auto.
  - apply (G (fun r => repeat_skip len _ r)); [lia|]. apply R; [|lia]. exact IH.
Qed.

Theorem skip_total it : exists pre it', skip_next_value it = Ok it' /\ it = pre ++ it'.
Proof. apply skip_total_fuel. lia. Qed.
