(** Property theorems about reading documents node by node and about sizes (C65, C68). *)
From Verif Require Import Base Utf8 Utf8Facts StrModel ErrorModel Tokenizer Parser ValueModel DocModel NumModel Spec SpecStr SpecNum SpecLex SpecWrite
  TokBase TokStr TokNum TokFacts Trace ParserGen ParserSound ParserComplete Sim SimInst StrSpec StrFacts StrWf StrEsc StrObt View ParseMain DocFacts
  StringScan WriteFacts WriteGrammar WriteStops PropTok PropEntry PropNumber PropStr PropEsc PropValue PropWrite PropText.
Local Open Scope N_scope.

(** [doc] is the document of [v], both parsed from [s] (the document with any capacity, from bytes or from a [str]). *)
Definition document_for (pw : pwidth) (cfg : parse_config) (s : list N) (doc : document) (v : value) : Prop :=
  exists cap,
  (rust_slice pw s /\ document_from_json_bytes_with_config pw cap s cfg = Ok doc /\ value_from_json_bytes_with_config pw s cfg = Ok v) \/
  (rust_str pw s /\ document_from_json_with_config pw cap s cfg = Ok doc /\ value_from_json_with_config pw s cfg = Ok v).

Lemma document_preorder pw cfg s doc v : document_for pw cfg s doc v -> doc = preorder v.
Proof.
  assert (B : forall cap, rust_slice pw s -> document_from_json_bytes_with_config pw cap s cfg = Ok doc -> value_from_json_bytes_with_config pw s cfg = Ok v -> doc = preorder v).
  { intros cap H E Ev. assert (K : document_from_json_bytes_with_config pw None s cfg = Ok doc) by (destruct cap; [apply C14_bounded_capacity in E; tauto|exact E]).
    rewrite C09_C12_document_bytes, Ev in K by exact H. congruence. }
  intros (cap & [(H & E & Ev)|(H & E & Ev)]); [eapply B; eassumption|].
  destruct (C03_entry_points_agree pw cfg cap s H) as (E1 & E2 & _). apply (B cap); [apply rust_str_slice; exact H|congruence|congruence].
Qed.

(** * C65: walking *)

(** What a user's loop [while let Some(n) = it.next()] sees, with the number of rounds as bound. *)
Fixpoint take_nodes (k : nat) (it : list node) : list node * list node :=
  match k with
  | O => ([], it)
  | S k' => match doc_next it with
            | (Some n, it') => let (r, it'') := take_nodes k' it' in (n :: r, it'')
            | (None, it') => ([], it')
            end
  end.

Lemma take_all l : forall k, (length l <= k)%nat -> take_nodes k l = (l, []).
Proof.
  induction l as [|n l IH]; intros [|k] H; cbn [length] in H; try lia; try reflexivity. cbn [take_nodes doc_next]. rewrite IH by lia. reflexivity.
Qed.

(** [next] yields the nodes of the value in document order - containers before their parts, each with the number of its parts - and then [None] forever. *)
Theorem C65_next_walks_in_order pw cfg s doc v k : document_for pw cfg s doc v -> (length (preorder v) <= k)%nat ->
  take_nodes k (doc_iter doc) = (preorder v, []) /\ doc_next [] = (None, []).
Proof. intros H Hk. rewrite (document_preorder _ _ _ _ _ H). split; [apply take_all; exact Hk|reflexivity]. Qed.

(** Any program over the three operations. *)
Inductive op : Type := ONext | OValue | OSkip.
Definition step (o : op) (it : list node) : res infallible (list node) :=
  match o with
  | ONext => Ok (snd (doc_next it))
  | OValue => let? (r, it') := next_value it in Ok it'
  | OSkip => skip_next_value it
  end.
Fixpoint steps (os : list op) (it : list node) : res infallible (list node) :=
  match os with [] => Ok it | o :: r => let? it' := step o it in steps r it' end.

Lemma step_moves v pre it o : preorder v = pre ++ it -> exists pre' it', step o it = Ok it' /\ preorder v = pre' ++ it' /\
  (length it' < length it \/ it = [] /\ it' = [])%nat.
Proof.
  intro E. destruct it as [|n it].
  - exists pre, []. destruct o; auto.
  - destruct (preorder_starts v _ _ E ltac:(discriminate)) as (w & rest & Ew). destruct o; cbn [step doc_next snd].
    + exists (pre ++ [n]), it. split; [reflexivity|]. split; [rewrite <- app_assoc; exact E|]. left. cbn. lia.
    + rewrite Ew, next_value_preorder. cbn [bind]. exists (pre ++ preorder w), rest. split; [reflexivity|].
      split; [rewrite <- app_assoc, <- Ew; exact E|]. left. rewrite app_length. assert (preorder w <> []) by (destruct w; discriminate). destruct (preorder w); [congruence|cbn; lia].
    + rewrite Ew, skip_preorder. exists (pre ++ preorder w), rest. split; [reflexivity|].
      split; [rewrite <- app_assoc, <- Ew; exact E|]. left. rewrite app_length. assert (preorder w <> []) by (destruct w; discriminate). destruct (preorder w); [congruence|cbn; lia].
Qed.

(** No order of calls makes the iterator of a parsed document panic; every call makes progress until the end, and at the end it stays there. *)
Theorem C65_any_program pw cfg s doc v os : document_for pw cfg s doc v ->
  exists pre it, steps os (doc_iter doc) = Ok it /\ doc = pre ++ it /\ ((length it + length os <= length doc)%nat \/ it = []).
Proof.
  intro H. rewrite (document_preorder _ _ _ _ _ H). clear H.
  assert (G : forall os pre it, preorder v = pre ++ it -> exists pre' it', steps os it = Ok it' /\ preorder v = pre' ++ it' /\ ((length it' + length os <= length it)%nat \/ it' = [])).
  { clear os. induction os as [|o os IH]; intros pre it E; [exists pre, it; split; [reflexivity|]; split; [exact E|left; cbn; lia]|]. destruct (step_moves v pre it o E) as (p1 & i1 & E1 & E2 & Hm).
    cbn [steps]. rewrite E1. cbn [bind]. destruct (IH p1 i1 E2) as (p2 & i2 & E3 & E4 & Hm'). exists p2, i2. split; [exact E3|]. split; [exact E4|].
    destruct Hm' as [Hm'| ->]; [|auto]. destruct Hm as [Hm|[-> ->]]; [left; cbn [length]; lia|]. right. destruct i2; [reflexivity|cbn in Hm'; lia]. }
  destruct (G os [] (preorder v) eq_refl) as (p & i & A & B & C). exists p, i. auto.
Qed.

(** Reading an object by hand: [next] for the key, then [next_value] for chosen entries and [skip_next_value] for the others. *)
Fixpoint read_members (want : json_string -> bool) (k : nat) (it : list node) : res infallible (list (json_string * option value) * list node) :=
  match k with
  | O => Ok ([], it)
  | S k' =>
    match doc_next it with
    | (Some (NString key), it1) =>
      let? (x, it2) := (if want key then next_value it1 else let? i := skip_next_value it1 in Ok (None, i)) in
      let? (r, it3) := read_members want k' it2 in Ok ((key, x) :: r, it3)
    | (_, it1) => Ok ([], it1)
    end
  end.
Theorem C65_reading_an_object want o rest :
  exists it, doc_next (preorder (VObject o) ++ rest) = (Some (NObject (length o)), it) /\
  read_members want (length o) it = Ok (map (fun e => (fst e, if want (fst e) then Some (snd e) else None)) o, rest).
Proof.
  exists (flat_map (fun e => NString (fst e) :: preorder (snd e)) o ++ rest). split; [reflexivity|].
  induction o as [|[k v] o IH]; [reflexivity|]. cbn [flat_map app fst snd length read_members doc_next map].
  rewrite <- app_assoc. destruct (want k).
  - rewrite next_value_preorder. cbn [bind]. rewrite IH. reflexivity.
  - rewrite skip_preorder. cbn [bind]. rewrite IH. reflexivity.
Qed.

(** The same for arrays, choosing by position. *)
Fixpoint read_elements (want : nat -> bool) (i k : nat) (it : list node) : res infallible (list (option value) * list node) :=
  match k with
  | O => Ok ([], it)
  | S k' =>
    let? (x, it2) := (if want i then next_value it else let? j := skip_next_value it in Ok (None, j)) in
    let? (r, it3) := read_elements want (S i) k' it2 in Ok (x :: r, it3)
  end.
Fixpoint chosen (want : nat -> bool) (i : nat) (l : list value) : list (option value) :=
  match l with [] => [] | x :: r => (if want i then Some x else None) :: chosen want (S i) r end.
Theorem C65_reading_an_array want l rest :
  exists it, doc_next (preorder (VArray l) ++ rest) = (Some (NArray (length l)), it) /\
  read_elements want 0 (length l) it = Ok (chosen want 0 l, rest).
Proof.
  exists (flat_map preorder l ++ rest). split; [reflexivity|]. generalize 0%nat. induction l as [|v l IH]; intro i; [reflexivity|]. cbn [flat_map app length read_elements chosen].
  rewrite <- app_assoc. destruct (want i).
  - rewrite next_value_preorder. cbn [bind]. rewrite IH. reflexivity.
  - rewrite skip_preorder. cbn [bind]. rewrite IH. reflexivity.
Qed.

(** * C68: sizes *)

Lemma text_nodes pw tc :
  (forall t s, value_text tc t s -> forall v, value_repr pw t v -> (2 * length (preorder v) <= length s + 1)%nat) /\
  (forall l s, elements tc l s -> forall vs, Forall2 (value_repr pw) l vs -> (2 * length (flat_map preorder vs) <= length s + 1)%nat) /\
  (forall l s, members tc l s -> forall o, Forall2 (fun e f => (exists cs, str_body (fst e) cs /\ fst f = string_for pw (fst e) cs) /\ value_repr pw (snd e) (snd f)) l o ->
     (2 * length (flat_map (fun e : json_string * value => NString (fst e) :: preorder (snd e)) o) <= length s + 1)%nat).
Proof.
  apply text_mutind.
  - intros v H. inversion H; subst. cbn. lia.
  - intros v H. inversion H; subst. cbn. lia.
  - intros v H. inversion H; subst. cbn. lia.
  - intros n Hn v H. inversion H; subst. cbn [preorder length]. destruct Hn as (m & i & f & e & _ & Hi & _ & _ & ->). rewrite !app_length.
    destruct Hi as [->|(d & r & _ & _ & ->)]; cbn [length]; lia.
  - intros raw cs Hb v H. inversion H; subst. cbn [preorder length]. lia.
  - intros w Hw v H. inversion H as [ | | | |? ? Hv|]; subst. inversion Hv; subst. cbn [preorder length flat_map]. rewrite app_length. cbn. lia.
  - intros l s _ IH v H. inversion H as [ | | | |? ? Hv|]; subst. specialize (IH _ Hv). cbn [preorder length]. rewrite app_length. cbn [length]. lia.
  - intros w Hw v H. inversion H as [ | | | | |? ? Hv]; subst. inversion Hv; subst. cbn [preorder length flat_map]. rewrite app_length. cbn. lia.
  - intros l s _ IH v H. inversion H as [ | | | | |? ? Hv]; subst. specialize (IH _ Hv). cbn [preorder length]. rewrite app_length. cbn [length]. lia.
  - intros t w1 s w2 tr _ _ IH _ _ vs H. inversion H as [|? v ? ? Hv Hr]; subst. inversion Hr; subst. cbn [flat_map]. rewrite app_nil_r, !app_length. specialize (IH _ Hv). lia.
  - intros t l w1 s w2 r _ _ IH _ _ IHr vs H. inversion H as [|? v ? ? Hv Hr]; subst. cbn [flat_map]. rewrite !app_length. cbn [length]. specialize (IH _ Hv). specialize (IHr _ Hr). lia.
  - intros k cs t w1 w2 w3 s w4 tr _ _ _ _ _ IH _ _ o H. inversion H as [|? [key v] ? ? [_ Hv] Hr]; subst. inversion Hr; subst. cbn [flat_map fst snd] in *. rewrite app_nil_r.
    specialize (IH _ Hv). repeat (rewrite app_length || cbn [length]). lia.
  - intros k cs t l w1 w2 w3 s w4 r _ _ _ _ _ IH _ _ IHr o H. inversion H as [|? [key v] ? ? [_ Hv] Hr]; subst. cbn [flat_map fst snd] in *.
    specialize (IH _ Hv). specialize (IHr _ Hr). cbn [fst snd] in IHr. repeat (rewrite app_length || cbn [length]). lia.
Qed.

(** A document has at most half as many nodes as its source has bytes (rounded up) ... *)
Theorem C68_node_count pw cfg s doc v : document_for pw cfg s doc v -> (2 * length doc <= length s + 1)%nat.
Proof.
  intro H. rewrite (document_preorder _ _ _ _ _ H).
  assert (K : parsed_from pw cfg s v) by (destruct H as (cap & [(A & _ & B)|(A & _ & B)]); [left|right]; auto).
  apply parsed_from_iff in K as (_ & t & ((w & b & w' & _ & Ht & _ & ->) & _) & Hr). pose proof (proj1 (text_nodes pw _) _ _ Ht _ Hr). rewrite !app_length. lia.
Qed.

(** ... so a bounded document with room for that many never rejects a text the unbounded one accepts ... *)
Theorem C68_capacity_that_suffices pw cfg n s : rust_slice pw s -> (length s + 1 <= 2 * n)%nat ->
  forall doc, document_from_json_bytes_with_config pw None s cfg = Ok doc -> document_from_json_bytes_with_config pw (Some n) s cfg = Ok doc.
Proof.
  intros H Hn doc E. apply C14_bounded_capacity; [exact H|]. split; [exact E|]. pose proof E as E'. rewrite C09_C12_document_bytes in E' by exact H.
  destruct (value_from_json_bytes_with_config pw s cfg) as [v| |] eqn:Ev; try discriminate.
  assert (K : document_for pw cfg s doc v) by (exists None; left; auto). apply C68_node_count in K. lia.
Qed.

(** ... and the bound is met for every size. *)
Fixpoint nested_one (n : nat) : list N := match n with O => bs "1" | S n' => bs "[" ++ nested_one n' ++ bs "]" end.
Theorem C68_node_count_is_tight pw n : N.of_nat (2 * n + 1) <= isize_max pw -> exists doc v,
  document_for pw (Config false None true) (nested_one n) doc v /\ length doc = S n /\ (2 * length doc = length (nested_one n) + 1)%nat.
Proof.
  intro Hn. assert (Hlen : length (nested_one n) = (2 * n + 1)%nat).
  { clear Hn. induction n as [|n IH]; [reflexivity|]. cbn [nested_one]. rewrite !app_length, IH. cbn. lia. }
  assert (K : exists v, parsed_from pw (Config false None true) (nested_one n) v /\ length (preorder v) = S n).
  { clear Hlen. induction n as [|n IH].
    - eexists. split; [|apply (f_equal (@List.length node) (eq_refl (preorder (VNumber (JNum (Borrowed (bs "1"))))))) ].
      left. split; [split; [repeat constructor|destruct pw; vm_compute; discriminate]|destruct pw; vm_compute; reflexivity].
    - destruct IH as (v & Hv & Hl); [lia|]. exists (VArray [v]). assert (Hlen : length (nested_one n) = (2 * n + 1)%nat).
      { clear. induction n as [|n IH]; [reflexivity|]. cbn [nested_one]. rewrite !app_length, IH. cbn. lia. }
      split; [apply (C70_wrap pw false None true (nested_one n) v); [exact Hv|rewrite Hlen; lia]|]. cbn [preorder length flat_map]. rewrite app_nil_r, Hl. reflexivity. }
  destruct K as (v & Hv & Hl). exists (preorder v), v. split; [|split; [exact Hl|rewrite Hl, Hlen; lia]]. exists None.
  destruct Hv as [[H E]|[H E]]; [left|right]; (split; [exact H|split; [|exact E]]).
  - rewrite C09_C12_document_bytes, E by exact H. reflexivity.
  - rewrite C09_C12_document_str, E by exact H. reflexivity.
Qed.

(** Compact text is never longer than the source it was parsed from. *)
Theorem C68_compact_not_longer pw cfg s v u : parsed_from pw cfg s v -> to_json pw v = Ok u -> (length u <= length s)%nat.
Proof.
  intros H E. destruct (C36_C37_layout _ _ _ _ H) as (E' & _). rewrite E' in E. injection E as <-.
  apply parsed_from_repr in H as (_ & t & (Ht & _) & Hr). rewrite (value_repr_tree _ _ _ Hr). apply compact_shorter in Ht. lia.
Qed.

(** Nesting takes two bytes per level. *)
Lemma text_depth tc :
  (forall t s, value_text tc t s -> 2 * tree_depth t <= N.of_nat (length s)) /\
  (forall l s, elements tc l s -> Forall (fun t => 2 * tree_depth t <= N.of_nat (length s)) l) /\
  (forall l s, members tc l s -> Forall (fun e => 2 * tree_depth (snd e) <= N.of_nat (length s)) l).
Proof.
  assert (M : forall {A} (f : A -> N) l n, Forall (fun x => 2 * f x <= n) l -> 2 * fold_right (fun t m => N.max (f t) m) 0 l <= n).
  { intros A f l n H. induction H; cbn [fold_right]; lia. }
  apply text_mutind; try (intros; cbn [tree_depth]; lia).
  - intros w _. cbn [tree_depth fold_right length]. rewrite app_length. cbn. lia.
  - intros l s _ IH. apply (M _ tree_depth) in IH. cbn [tree_depth length]. rewrite app_length. cbn [length]. lia.
  - intros w _. cbn [tree_depth fold_right length]. rewrite app_length. cbn. lia.
  - intros l s _ IH. apply (M _ (fun e : list N * tree => tree_depth (snd e))) in IH. cbn [tree_depth length]. rewrite app_length. cbn [length]. lia.
  - intros t w1 s w2 tr _ _ IH _ _. constructor; [rewrite !app_length; lia|constructor].
  - intros t l w1 s w2 r _ _ IH _ _ IHr. constructor; [rewrite !app_length; lia|]. eapply Forall_impl; [|exact IHr]. cbv beta. intros. repeat (rewrite app_length || cbn [length]). lia.
  - intros k cs t w1 w2 w3 s w4 tr _ _ _ _ _ IH _ _. constructor; [cbn [snd]; repeat (rewrite app_length || cbn [length]); lia|constructor].
  - intros k cs t l w1 w2 w3 s w4 r _ _ _ _ _ IH _ _ IHr. constructor; [cbn [snd]; repeat (rewrite app_length || cbn [length]); lia|].
    eapply Forall_impl; [|exact IHr]. cbv beta. intros. repeat (rewrite app_length || cbn [length]). lia.
Qed.
Theorem C68_depth pw cfg s v : parsed_from pw cfg s v -> 2 * tree_depth (tree_of v) <= N.of_nat (length s).
Proof.
  intro H. apply parsed_from_repr in H as (_ & t & ((w & b & w' & _ & Ht & _ & ->) & _) & Hr). rewrite (value_repr_tree _ _ _ Hr).
  apply (proj1 (text_depth _)) in Ht. rewrite !app_length. lia.
Qed.

(** So a recursion limit of half the input's length never rejects anything. *)
Theorem C68_limit_that_suffices pw tc roots n s v : N.of_nat (length s) <= 2 * n + 1 ->
  (parsed_from pw (Config tc (Some n) roots) s v <-> parsed_from pw (Config tc None roots) s v).
Proof.
  intro Hn. split; intro H.
  - apply parsed_from_iff in H as (Hl & t & (H1 & H2 & H3) & Hr). apply parsed_from_iff. split; [exact Hl|]. exists t. split; [|exact Hr]. split; [exact H1|]. split; [exact I|exact H3].
  - pose proof (C68_depth _ _ _ _ H) as Hd. apply parsed_from_iff in H as (Hl & t & (H1 & H2 & H3) & Hr). rewrite (value_repr_tree _ _ _ Hr) in Hd.
    apply parsed_from_iff. split; [exact Hl|]. exists t. split; [|exact Hr]. split; [exact H1|]. split; [cbn; lia|exact H3].
Qed.

(** * Concrete cases *)
Definition iter_source : list N := bs "{""a"":[1,2],""b"":{""c"":null}}".
Example iter_sample : exists doc v, document_for W64 config_default iter_source doc v /\ length doc = 9%nat /\
  steps [ONext; ONext; OSkip; ONext; OValue; OSkip] (doc_iter doc) = Ok [] /\
  steps [ONext; ONext; OSkip] (doc_iter doc) = Ok (skipn 5 doc).
Proof.
  eexists _, _. split; [exists (Some 9%nat); left; split; [apply rust_str_slice, utf8_checked; [vm_compute; reflexivity|vm_compute; discriminate]|split; vm_compute; reflexivity]|].
  split; [vm_compute; reflexivity|]. split; vm_compute; reflexivity.
Qed.
