(** The hypotheses of C99 hold of a concrete history: a program parses [text0], indexes the value, makes a string and an
    object of its own, writes it into the value, serialises the result, parses a document and iterates it, and reads tokens. *)
From Verif Require Import Base Utf8 Utf8Facts StrModel ErrorModel Tokenizer Parser ValueModel DocModel NumModel ObjectModel Spec View PropParse PropWrite PropIter PropTok PropClient WitBase.
Local Open Scope N_scope.

Definition got (c : call) : list item := match answer W64 c with Ok l => l | _ => [] end.
Ltac step0 c := match goal with H : holds W64 ?e |- _ =>
  let l := eval vm_compute in (got c) in
  let K := fresh "H" in
  assert (K : holds W64 (l ++ e));
  [apply (holds_answer W64 c); [exact H
    |let i := fresh in let Hi := fresh in intros i Hi; cbn [uses map entries flat_map app fst snd] in Hi; cbn [In] in Hi; repeat (destruct Hi as [<-|Hi]; [repeat first [left; reflexivity|right]|]); destruct Hi
    |vm_compute; reflexivity
    |repeat (constructor; [first [exact I|vm_compute; discriminate]|]); constructor]
  |clear H; cbn [app] in K] end.

Definition key0 : list N := bs "a".
Definition new0 : list N := bs "say ""hi""".
Definition made0 : json_string := Eval vm_compute in match js_from_str W64 new0 with Ok x => x | _ => JStr (CRaw (Borrowed [])) 0 end.
Definition array0 : value := Eval vm_compute in match value_get W64 value0 key0 with Ok (Some v) => v | _ => VNull end.
Definition set0 : value := Eval vm_compute in match got (SetIndexStr value0 key0 (VObject [(made0, array0)])) with IValue v :: _ => v | _ => VNull end.
Definition after0 : list node := Eval vm_compute in snd (doc_next (doc_iter doc0)).

Lemma text_new0 : rust_str W64 new0. Proof. str. Qed.
Lemma text_key0 : rust_str W64 key0. Proof. str. Qed.
Lemma history0 : exists env, holds W64 env /\ incl
  [IText text0; IBytes text0; IText key0; IValue value0; IString made0; IValue array0; IValue set0; IDocument doc0; IIter after0; ITokenizer true (tokenizer_new text0)] env.
Proof.
  pose proof (holds_text W64 text0 _ str0 (holds_bytes W64 text0 _ slice0 (holds_text W64 key0 _ text_key0 (holds_text W64 new0 _ text_new0 (holds_nothing W64))))) as H.
  step0 (ParseValue text0 config_default).
  step0 (FromStr new0).
  step0 (Get value0 key0).
  step0 (ObjectFromIter [(made0, array0)]).
  step0 (MakeObject [(made0, array0)]).
  step0 (SetIndexStr value0 key0 (VObject [(made0, array0)])).
  step0 (ToJsonPretty set0).
  step0 (ParseDocumentBytes None text0 config_default).
  step0 (DocumentIterate doc0).
  step0 (IterNext (doc_iter doc0)).
  step0 (TokenizerNew text0).
  eexists. split; [eassumption|]. intros i Hi. cbn [In] in Hi. repeat (destruct Hi as [<-|Hi]; [repeat first [left; reflexivity|right]|]). destruct Hi.
Qed.
Lemma uses0 c : incl (uses c) [IText text0; IBytes text0; IText key0; IValue value0; IString made0; IValue array0; IValue set0; IDocument doc0; IIter after0; ITokenizer true (tokenizer_new text0)] ->
  exists env, holds W64 env /\ incl (uses c) env.
Proof. intro H. destruct history0 as (env & H1 & H2). exists env. split; [exact H1|]. intros i Hi. apply H2, H, Hi. Qed.
Ltac used := intros i Hi; cbn [uses map] in Hi; cbn [In] in Hi; repeat (destruct Hi as [<-|Hi]; [repeat first [left; reflexivity|right]|]); destruct Hi.

Definition at_C99_no_undefined_behaviour : exists env, holds W64 env /\
  (answer W64 (ToJson set0) <> Fault FUtf8UB /\ answer W64 (ToJson set0) <> Fault FCharUB) /\ exists s, answer W64 (ToJson set0) = Ok [IText s].
Proof.
  destruct (uses0 (ToJson set0)) as (env & H & Hu); [used|]. exists env. split; [exact H|]. split; [exact (C99_no_undefined_behaviour W64 env (ToJson set0) H Hu)|].
  eexists. vm_compute. reflexivity.
Qed.
Definition at_C99_only_these_panics : exists env, holds W64 env /\ answer W64 (Index array0 4) = Fault FExpect /\ get_index array0 4 = None.
Proof.
  destruct (uses0 (Index array0 4)) as (env & H & Hu); [used|]. exists env. split; [exact H|].
  assert (E : answer W64 (Index array0 4) = Fault FExpect) by (vm_compute; reflexivity). split; [exact E|].
  exact (proj2 (C99_only_these_panics W64 env _ _ H Hu E)).
Qed.
(** [C99_panics_exactly], read from right to left: an index that is not there, and a text that is too long to count. *)
Definition at_C99_panics_exactly : exists env, holds W64 env /\ get_index array0 4 = None /\ answer W64 (Index array0 4) = Fault FExpect.
Proof.
  destruct (uses0 (Index array0 4)) as (env & H & Hu); [used|]. exists env. split; [exact H|].
  assert (E : get_index array0 4 = None) by (vm_compute; reflexivity). split; [exact E|].
  exact (proj2 (C99_panics_exactly W64 env (Index array0 4) FExpect H Hu) (conj eq_refl E)).
Qed.
