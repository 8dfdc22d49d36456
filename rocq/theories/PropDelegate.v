(** Property theorems about user-supplied delegates (C15). *)
From Verif Require Import Base Utf8 Utf8Facts StrModel ErrorModel Tokenizer Parser ValueModel DocModel NumModel Spec
  TokBase TokStr TokNum TokFacts ParserGen Trace ParserSound ParserComplete Sim SimInst StrSpec View ParseMain DocFacts
  GrammarFacts PropParse.

(** * Recording the callbacks of any delegate
    [recording D] makes the same calls on [D] and keeps a list of them; a call that fails is recorded too. *)
Definition note {E A S} (ev : event) (log : list event) (r : res E A * S) : res E A * (S * list event) :=
  (fst r, (snd r, log ++ [ev])).
Definition recording (D : delegate) : delegate := {|
  d_st := d_st D * list event;
  d_value := d_value D; d_object := d_object D; d_array := d_array D; d_key := d_key D; d_error := d_error D;
  d_null := fun st => note ENull (snd st) (d_null D (fst st));
  d_boolean := fun st b => note (EBoolean b) (snd st) (d_boolean D (fst st) b);
  d_number := fun st n => note (ENumber n) (snd st) (d_number D (fst st) n);
  d_string := fun st s => note (EString s) (snd st) (d_string D (fst st) s);
  d_begin_object := fun st => note EBeginObject (snd st) (d_begin_object D (fst st));
  d_object_key := fun st o k => note (EObjectKey k) (snd st) (d_object_key D (fst st) o k);
  d_object_value := fun st o k v => note EObjectValue (snd st) (d_object_value D (fst st) o k v);
  d_object_is_empty := fun st o => d_object_is_empty D (fst st) o;
  d_end_object := fun st o => note EEndObject (snd st) (d_end_object D (fst st) o);
  d_begin_array := fun st => note EBeginArray (snd st) (d_begin_array D (fst st));
  d_array_value := fun st a v => note EArrayValue (snd st) (d_array_value D (fst st) a v);
  d_array_is_empty := fun st a => d_array_is_empty D (fst st) a;
  d_end_array := fun st a => note EEndArray (snd st) (d_end_array D (fst st) a);
  d_kind_of := fun st v => d_kind_of D (fst st) v |}.

(** * Truthful delegates
    [usage D st0 F st]: [st] is reached from [st0] by using the handles as the trait documents it, all calls having
    succeeded; [F] lists the open containers, innermost first, with the number of entries added so far.
    [usage_value D st0 F v k st]: likewise, and [v] is a finished value of kind [k] that was not yet used. *)
Section Usage.
  Variables (D : delegate) (st0 : d_st D).
  Inductive open_container : Type :=
  | OpenObject (o : d_object D) (entries : nat)
  | OpenKey (o : d_object D) (entries : nat) (k : d_key D)
  | OpenArray (a : d_array D) (entries : nat).

  Inductive usage : list open_container -> d_st D -> Prop :=
  | us_start : usage [] st0
  | us_begin_object F st o st' : usage F st -> d_begin_object D st = (Ok o, st') -> usage (OpenObject o 0 :: F) st'
  | us_object_key F st o n key o' k st' : usage (OpenObject o n :: F) st ->
      d_object_key D st o key = (Ok (o', k), st') -> usage (OpenKey o' n k :: F) st'
  | us_object_value F st o n k v kind o' st' : usage_value (OpenKey o n k :: F) v kind st ->
      d_object_value D st o k v = (Ok o', st') -> usage (OpenObject o' (S n) :: F) st'
  | us_begin_array F st a st' : usage F st -> d_begin_array D st = (Ok a, st') -> usage (OpenArray a 0 :: F) st'
  | us_array_value F st a n v kind a' st' : usage_value (OpenArray a n :: F) v kind st ->
      d_array_value D st a v = (Ok a', st') -> usage (OpenArray a' (S n) :: F) st'
  with usage_value : list open_container -> d_value D -> json_kind -> d_st D -> Prop :=
  | uv_null F st v st' : usage F st -> d_null D st = (Ok v, st') -> usage_value F v JkNull st'
  | uv_boolean F st b v st' : usage F st -> d_boolean D st b = (Ok v, st') -> usage_value F v JkBoolean st'
  | uv_number F st n v st' : usage F st -> d_number D st n = (Ok v, st') -> usage_value F v JkNumber st'
  | uv_string F st s v st' : usage F st -> d_string D st s = (Ok v, st') -> usage_value F v JkString st'
  | uv_end_object F st o n v st' : usage (OpenObject o n :: F) st -> d_end_object D st o = (Ok v, st') ->
      usage_value F v JkObject st'
  | uv_end_array F st a n v st' : usage (OpenArray a n :: F) st -> d_end_array D st a = (Ok v, st') ->
      usage_value F v JkArray st'.

  Definition truthful : Prop :=
    (forall F st o n, usage (OpenObject o n :: F) st -> d_object_is_empty D st o = Ok (Nat.eqb n 0)) /\
    (forall F st a n, usage (OpenArray a n :: F) st -> d_array_is_empty D st a = Ok (Nat.eqb n 0)) /\
    (forall v k st, usage_value [] v k st -> d_kind_of D st v = Ok k).
End Usage.
Arguments OpenObject {D} o entries.
Arguments OpenKey {D} o entries k.
Arguments OpenArray {D} a entries.

(** A call of [D] recorded as [ev] failed with [x] and left the state [st']. *)
Definition is_failure {E A} (x : E + fault) (r : res E A) : Prop :=
  match r with Ok _ => False | Err e => x = inl e | Fault f => x = inr f end.
Inductive call_failed (D : delegate) (x : d_error D + fault) (st' : d_st D) : event -> Prop :=
| cf_null st : is_failure x (fst (d_null D st)) -> st' = snd (d_null D st) -> call_failed D x st' ENull
| cf_boolean st b : is_failure x (fst (d_boolean D st b)) -> st' = snd (d_boolean D st b) -> call_failed D x st' (EBoolean b)
| cf_number st n : is_failure x (fst (d_number D st n)) -> st' = snd (d_number D st n) -> call_failed D x st' (ENumber n)
| cf_string st s : is_failure x (fst (d_string D st s)) -> st' = snd (d_string D st s) -> call_failed D x st' (EString s)
| cf_begin_object st : is_failure x (fst (d_begin_object D st)) -> st' = snd (d_begin_object D st) ->
    call_failed D x st' EBeginObject
| cf_object_key st o k : is_failure x (fst (d_object_key D st o k)) -> st' = snd (d_object_key D st o k) ->
    call_failed D x st' (EObjectKey k)
| cf_object_value st o k v : is_failure x (fst (d_object_value D st o k v)) -> st' = snd (d_object_value D st o k v) ->
    call_failed D x st' EObjectValue
| cf_end_object st o : is_failure x (fst (d_end_object D st o)) -> st' = snd (d_end_object D st o) ->
    call_failed D x st' EEndObject
| cf_begin_array st : is_failure x (fst (d_begin_array D st)) -> st' = snd (d_begin_array D st) ->
    call_failed D x st' EBeginArray
| cf_array_value st a v : is_failure x (fst (d_array_value D st a v)) -> st' = snd (d_array_value D st a v) ->
    call_failed D x st' EArrayValue
| cf_end_array st a : is_failure x (fst (d_end_array D st a)) -> st' = snd (d_end_array D st a) ->
    call_failed D x st' EEndArray.

Definition prefix_of {A} (p l : list A) : Prop := exists r, l = p ++ r.

(** * Recording does not influence the parse *)
Section Transparent.
  Variables (g : bool) (pw : pwidth) (cfg : parse_config) (D : delegate).
  Notation R := (recording D).
  Definition unrec (s : pstate R) : pstate D := @PS D (ps_iter s) (fst (ps_del s)) (ps_depth s).
  Definition same {A} (m : pm R A) (m2 : pm D A) : Prop :=
    forall s, m2 (unrec s) = (fst (m s), unrec (snd (m s))).

  Lemma same_bind {A B} (m : pm R A) (m2 : pm D A) (k : A -> pm R B) (k2 : A -> pm D B) :
    same m m2 -> (forall a, same (k a) (k2 a)) -> same (pbind R m k) (pbind D m2 k2).
  Proof.
    intros Hm Hk s. unfold pbind. rewrite Hm. destruct (m s) as [[a|e|f] s']; cbn [fst snd]; [|reflexivity..].
    apply Hk.
  Qed.
  Lemma same_tok {A} conv (m : tok A) : same (p_tok_err R conv m) (p_tok_err D conv m).
  Proof. intro s. unfold p_tok_err. cbn [unrec ps_iter ps_del ps_depth]. destruct (m (ps_iter s)). reflexivity. Qed.
  Lemma same_del {A} o (m : d_st R -> res (d_error R) A * d_st R) (m2 : d_st D -> res (d_error D) A * d_st D) :
    (forall st, m2 (fst st) = (fst (m st), fst (snd (m st)))) -> same (p_del R o m) (p_del D o m2).
  Proof.
    intros H s. unfold p_del. cbn [unrec ps_del]. rewrite H. destruct (m (ps_del s)) as [r st]. reflexivity.
  Qed.
  Lemma same_query {A} (m : d_st R -> res infallible A) (m2 : d_st D -> res infallible A) :
    (forall st, m2 (fst st) = m st) -> same (p_query R m) (p_query D m2).
  Proof. intros H s. unfold p_query. cbn [unrec ps_del fst snd]. rewrite H. reflexivity. Qed.
  Lemma same_map_err {A} f (m : pm R A) (m2 : pm D A) : same m m2 -> same (p_map_err R f m) (p_map_err D f m2).
  Proof. intros H s. unfold p_map_err. rewrite H. destruct (m s) as [r s']. reflexivity. Qed.
  Lemma same_begin o : same (begin_nest cfg R o) (begin_nest cfg D o).
  Proof.
    intro s. unfold begin_nest. cbn [unrec ps_depth]. destruct (recursion_limit cfg); [|reflexivity].
    destruct (0 <? ps_depth s)%N; reflexivity.
  Qed.
  Lemma same_end : same (end_nest cfg R) (end_nest cfg D).
  Proof. intro s. unfold end_nest. destruct (recursion_limit cfg); reflexivity. Qed.
  Lemma same_peek : same (peek_array_end R) (peek_array_end D).
  Proof.
    intro s. unfold peek_array_end. cbn [unrec ps_iter]. destruct (tokenizer_peek (ps_iter s)) as [o it].
    destruct o as [[]|]; reflexivity.
  Qed.
  Lemma same_trailing : same (check_trailing R) (check_trailing D).
  Proof.
    intro s. unfold check_trailing. cbn [unrec ps_iter]. destruct (next_non_ws (ps_iter s)) as [[[o b]|] it]; reflexivity.
  Qed.

  Ltac sm := repeat match goal with
      | H : same ?m ?m2 |- same ?m ?m2 => exact H
      | |- same (pbind R _ _) _ => apply same_bind; [|intros ?]
      | |- same (p_offset R) _ => intro; reflexivity
      | |- same (p_tok R _) _ => apply same_tok
      | |- same (p_tok_err R _ _) _ => apply same_tok
      | |- same (p_del R _ _) _ => apply same_del; intros [? ?]; cbn; unfold note; cbn [fst snd]; rewrite <- surjective_pairing; reflexivity
      | |- same (p_query R _) _ => apply same_query; intros; reflexivity
      | |- same (begin_nest cfg R _) _ => apply same_begin
      | |- same (end_nest cfg R) _ => apply same_end
      | |- same (pret R _) _ => intro; reflexivity
      | |- same (perr R _ _) _ => intro; reflexivity
      | |- same (fun s => (Fault _, s)) _ => intro; reflexivity
      | |- same (peek_array_end R) _ => apply same_peek
      | |- same (check_trailing R) _ => apply same_trailing
      | |- same (p_map_err R _ _) _ => apply same_map_err
      | |- same (match ?t with TkNull => _ | _ => _ end) _ => destruct t
      | |- same (match ?t with JkNull => _ | _ => _ end) _ => destruct t
      | |- same (if ?b then _ else _) _ => destruct b
      | |- same (let '(_, _) := ?p in _) _ => destruct p
      end.
  Lemma same_object_loop rv rv2 : same rv rv2 -> forall k o, same (object_loop g pw cfg R rv k o) (object_loop g pw cfg D rv2 k o).
  Proof. intros Hp. induction k as [|k IH]; intro o; cbn [object_loop]; sm. apply IH. Qed.
  Lemma same_array_loop rv rv2 : same rv rv2 -> forall k o, same (array_loop g pw cfg R rv k o) (array_loop g pw cfg D rv2 k o).
  Proof. intros Hp. induction k as [|k IH]; intro o; cbn [array_loop]; sm. apply IH. Qed.
  Lemma same_read_tokens loops fuel : same (read_tokens g pw cfg R loops fuel) (read_tokens g pw cfg D loops fuel).
  Proof.
    induction fuel as [|fuel IH]; cbn [read_tokens]; sm; unfold read_object, read_array; sm;
      [apply same_object_loop|apply same_array_loop]; exact IH.
  Qed.
  Lemma recording_same source st log : parse_bytes g pw cfg D source st =
    (fst (parse_bytes g pw cfg R source (st, log)), fst (snd (parse_bytes g pw cfg R source (st, log)))).
  Proof.
    assert (H : same (parse_body g pw cfg R (S (length source)) (S (length source)))
                     (parse_body g pw cfg D (S (length source)) (S (length source)))).
    { unfold parse_body, check_root. sm. apply same_read_tokens. }
    unfold parse_bytes. specialize (H (parse_state pw cfg R source (st, log))).
    change (unrec (parse_state pw cfg R source (st, log))) with (parse_state pw cfg D source st) in H. rewrite H.
    destruct (parse_body g pw cfg R _ _ _) as [r s]. reflexivity.
  Qed.
End Transparent.

(** * The reference log is always the beginning of a value's event stream *)
Section Prefix.
  Variables (g : bool) (pw : pwidth) (cfg : parse_config).
  Notation T := trace_delegate.

  (** [m] appends to the log; [Q] describes what it appended on success, [P] what it appended in any case. *)
  Definition logs {A} (P : list event -> Prop) (Q : A -> list event -> Prop) (m : pm T A) : Prop :=
    forall s, exists x, ps_del (snd (m s)) = ps_del s ++ x /\ P x /\ forall a, fst (m s) = Ok a -> Q a x.

  Lemma logs_bind {A B} (Pm : list event -> Prop) (Qm : A -> list event -> Prop) (P : list event -> Prop) (Q : B -> list event -> Prop)
    (m : pm T A) (k : A -> pm T B) :
    logs Pm Qm m -> (forall x, Pm x -> P x) ->
    (forall a x, Qm a x -> Pm x -> logs (fun y => P (x ++ y)) (fun b y => Q b (x ++ y)) (k a)) -> logs P Q (pbind T m k).
  Proof.
    intros Hm HP Hk s. unfold pbind. destruct (Hm s) as (x & Ex & Px & Qx).
    destruct (m s) as [[a|e|f] s']; cbn [fst snd] in *.
    - destruct (Hk a x (Qx a eq_refl) Px s') as (y & Ey & Py & Qy). exists (x ++ y).
      rewrite Ey, Ex, app_assoc. auto.
    - exists x. split; [exact Ex|]. split; [auto|discriminate].
    - exists x. split; [exact Ex|]. split; [auto|discriminate].
  Qed.
  (** Steps that do not touch the log. *)
  Definition quiet {A} (m : pm T A) : Prop := forall s, ps_del (snd (m s)) = ps_del s.
  Lemma logs_quiet {A B} (P : list event -> Prop) (Q : B -> list event -> Prop) (m : pm T A) (k : A -> pm T B) : quiet m -> P [] ->
    (forall a, logs P Q (k a)) -> logs P Q (pbind T m k).
  Proof.
    intros Hm H0 Hk s. unfold pbind. specialize (Hm s). destruct (m s) as [[a|e|f] s']; cbn [fst snd] in *.
    - rewrite <- Hm. apply Hk.
    - exists []. rewrite app_nil_r. split; [exact Hm|]. split; [exact H0|discriminate].
    - exists []. rewrite app_nil_r. split; [exact Hm|]. split; [exact H0|discriminate].
  Qed.
  Lemma logs_ret {A} (P : list event -> Prop) (Q : A -> list event -> Prop) (a : A) : P [] -> Q a [] -> logs P Q (pret T a).
  Proof. intros H1 H2 s. exists []. rewrite app_nil_r. repeat split; auto. intros b E. injection E as <-. exact H2. Qed.
  Lemma logs_err {A} (P : list event -> Prop) (Q : A -> list event -> Prop) o k : P [] -> logs P Q (@perr T A o k).
  Proof. intros H1 s. exists []. rewrite app_nil_r. repeat split; auto. intros b E. discriminate. Qed.
  Lemma logs_fuel {A} (P : list event -> Prop) (Q : A -> list event -> Prop) : P [] -> logs P Q (fun s => (Fault FFuel, s)).
  Proof. intros H1 s. exists []. rewrite app_nil_r. repeat split; auto. intros b E. discriminate. Qed.
  Lemma logs_del {A} (P : list event -> Prop) (Q : A -> list event -> Prop) o m (a : list event -> A) ev :
    (forall st, m st = (Ok (a st), st ++ [ev])) -> P [ev] -> (forall st, Q (a st) [ev]) -> logs P Q (p_del T o m).
  Proof.
    intros E H1 H2 s. unfold p_del. rewrite E. exists [ev]. cbn. repeat split; auto. intros b K. injection K as <-. apply H2.
  Qed.
  Lemma logs_weaken {A} (P P' : list event -> Prop) (Q Q' : A -> list event -> Prop) m :
    logs P Q m -> (forall x, P x -> P' x) -> (forall a x, P x -> Q a x -> Q' a x) -> logs P' Q' m.
  Proof. intros H H1 H2 s. destruct (H s) as (x & E & Px & Qx). exists x. repeat split; auto. Qed.
  Lemma logs_map_err {A} (P : list event -> Prop) (Q : A -> list event -> Prop) f (m : pm T A) : logs P Q m -> logs P Q (p_map_err T f m).
  Proof.
    intros H s. unfold p_map_err. destruct (H s) as (x & E & Px & Qx). destruct (m s) as [[a|e|x'] s']; cbn [fst snd] in *;
      exists x; repeat split; auto; intros b K; discriminate.
  Qed.

  Lemma quiet_offset : quiet (p_offset T). Proof. intro s. reflexivity. Qed.
  Lemma quiet_tok {A} conv (m : tok A) : quiet (p_tok_err T conv m).
  Proof. intro s. unfold p_tok_err. destruct (m (ps_iter s)). reflexivity. Qed.
  Lemma quiet_tok' {A} (m : tok A) : quiet (p_tok T m).
  Proof. apply quiet_tok. Qed.
  Lemma quiet_query {A} (m : d_st T -> res infallible A) : quiet (p_query T m). Proof. intro s. reflexivity. Qed.
  Lemma quiet_begin o : quiet (begin_nest cfg T o).
  Proof. intro s. unfold begin_nest. destruct (recursion_limit cfg); [destruct (0 <? ps_depth s)%N|]; reflexivity. Qed.
  Lemma quiet_end : quiet (end_nest cfg T).
  Proof. intro s. unfold end_nest. destruct (recursion_limit cfg); reflexivity. Qed.
  Lemma quiet_peek : quiet (peek_array_end T).
  Proof. intro s. unfold peek_array_end. destruct (tokenizer_peek (ps_iter s)) as [o it]. destruct o as [[]|]; reflexivity. Qed.
  Lemma quiet_trailing : quiet (check_trailing T).
  Proof. intro s. unfold check_trailing. destruct (next_non_ws (ps_iter s)) as [[[o b]|] it]; reflexivity. Qed.
  Lemma quiet_bool (b : bool) {A} (a : A) (m : d_st T -> res infallible A) : quiet (if b then pret T a else p_query T m).
  Proof. destruct b; intro s; reflexivity. Qed.

  Definition part_value (x : list event) : Prop := exists v, prefix_of x (events v).
  Definition part_members (x : list event) : Prop := exists ms, prefix_of x (member_events ms).
  Definition part_elements (x : list event) : Prop := exists l, prefix_of x (element_events l).

  Lemma prefix_refl {A} (l : list A) : prefix_of l l. Proof. exists []. rewrite app_nil_r. reflexivity. Qed.
  Lemma prefix_nil {A} (l : list A) : prefix_of [] l. Proof. exists l. reflexivity. Qed.
  Lemma prefix_app {A} (a p l : list A) : prefix_of p l -> prefix_of (a ++ p) (a ++ l).
  Proof. intros [r ->]. exists r. apply app_assoc. Qed.
  Lemma prefix_more {A} (p l r : list A) : prefix_of p l -> prefix_of p (l ++ r).
  Proof. intros [q ->]. exists (q ++ r). symmetry. apply app_assoc. Qed.

  Ltac quiet := first [apply quiet_offset|apply quiet_tok'|apply quiet_tok|apply quiet_query|apply quiet_begin|
    apply quiet_end|apply quiet_peek|apply quiet_trailing|apply quiet_bool].

  Lemma part_members_key k p : part_value p -> part_members (EObjectKey k :: p).
  Proof. intros [v H]. exists [(k, v)]. cbn. rewrite app_nil_r. apply (prefix_app [EObjectKey k]), prefix_more, H. Qed.
  Lemma part_members_app ms p : part_members p -> part_members (member_events ms ++ p).
  Proof. intros [ms' H]. exists (ms ++ ms'). unfold member_events in *. rewrite flat_map_app. apply prefix_app, H. Qed.
  Lemma part_elements_app l p : part_elements p -> part_elements (element_events l ++ p).
  Proof. intros [l' H]. exists (l ++ l'). unfold element_events in *. rewrite flat_map_app. apply prefix_app, H. Qed.
  Lemma part_elements_value p : part_value p -> part_elements p.
  Proof. intros [v H]. exists [v]. cbn. rewrite app_nil_r. apply prefix_more, H. Qed.
  Lemma part_members_nil : part_members []. Proof. exists []. apply prefix_nil. Qed.
  Lemma part_elements_nil : part_elements []. Proof. exists []. apply prefix_nil. Qed.
  Lemma part_value_nil : part_value []. Proof. exists VNull. apply prefix_nil. Qed.
  Lemma part_value_full v : part_value (events v). Proof. exists v. apply prefix_refl. Qed.

  Definition value_logs := logs part_value (fun v x => x = events v).

  Lemma object_loop_logs rv : value_logs rv -> forall n o,
    logs part_members (fun o' x => exists ms, o' = o ++ ms /\ x = member_events ms) (object_loop g pw cfg T rv n o).
  Proof.
    intro Hrv. induction n as [|n IH]; intro o; cbn [object_loop]; [apply logs_fuel, part_members_nil|].
    apply logs_quiet; [quiet|apply part_members_nil|intro offset].
    apply logs_quiet; [quiet|apply part_members_nil|intro tk].
    destruct tk as [| |st| | | | | | |]; try (apply logs_err, part_members_nil).
    - (* string *)
      eapply (logs_bind (fun x => x = [EObjectKey st]) (fun ok x => ok = (o, st) /\ x = [EObjectKey st])).
      + eapply (logs_del _ _ _ _ (fun _ => (o, st)) (EObjectKey st)); [reflexivity|reflexivity|auto].
      + intros x ->. apply part_members_key, part_value_nil.
      + intros ok x [-> ->] _. cbn [app].
        assert (Pk : part_members [EObjectKey st]) by apply part_members_key, part_value_nil.
        apply logs_quiet; [quiet|exact Pk|intro].
        apply logs_quiet; [quiet|exact Pk|intro tk].
        destruct tk; try (apply logs_err; exact Pk).
        apply logs_quiet; [quiet|exact Pk|intro].
        eapply logs_bind; [exact Hrv|intros; apply part_members_key; assumption|].
        intros v x -> _.
        eapply (logs_bind (fun x => x = [EObjectValue]) (fun o' x => o' = o ++ [(st, v)] /\ x = [EObjectValue])).
        * eapply (logs_del _ _ _ _ (fun _ => o ++ [(st, v)]) EObjectValue); [reflexivity|reflexivity|auto].
        * intros x ->. exists [(st, v)]. cbn. rewrite app_nil_r. apply prefix_refl.
        * intros o' x [-> ->] _.
          assert (E : EObjectKey st :: events v ++ [EObjectValue] = member_events [(st, v)]) by (cbn; rewrite app_nil_r; reflexivity).
          assert (Pf : part_members (EObjectKey st :: events v ++ [EObjectValue])) by (rewrite E; exists [(st, v)]; apply prefix_refl).
          apply logs_quiet; [quiet|rewrite app_nil_r; exact Pf|intro].
          apply logs_quiet; [quiet|rewrite app_nil_r; exact Pf|intro tk2].
          destruct tk2; try (apply logs_err; rewrite app_nil_r; exact Pf).
          -- apply logs_ret; rewrite app_nil_r; [exact Pf|]. exists [(st, v)]. split; [reflexivity|exact E].
          -- eapply logs_weaken; [apply IH| |].
             ++ intros x Hx. change (EObjectKey st :: events v ++ [EObjectValue] ++ x) with ((EObjectKey st :: events v) ++ [EObjectValue] ++ x).
                rewrite app_assoc. change ((EObjectKey st :: events v) ++ [EObjectValue]) with (EObjectKey st :: events v ++ [EObjectValue]).
                rewrite E. apply part_members_app, Hx.
             ++ intros o' x _ (ms & -> & ->). exists ((st, v) :: ms). rewrite <- app_assoc. split; [reflexivity|].
                cbn. rewrite <- app_assoc. reflexivity.
    - (* end *)
      apply logs_quiet; [quiet|apply part_members_nil|intros []].
      + apply logs_ret; [apply part_members_nil|]. exists []. rewrite app_nil_r. auto.
      + apply logs_err, part_members_nil.
  Qed.

  Lemma array_loop_logs rv : value_logs rv -> forall n o,
    logs part_elements (fun o' x => exists ms, o' = o ++ ms /\ x = element_events ms) (array_loop g pw cfg T rv n o).
  Proof.
    intro Hrv. induction n as [|n IH]; intro o; cbn [array_loop]; [apply logs_fuel, part_elements_nil|].
    apply logs_quiet; [quiet|apply part_elements_nil|intro offset].
    apply logs_quiet; [quiet|apply part_elements_nil|intros []].
    - apply logs_quiet; [quiet|apply part_elements_nil|intros []].
      + apply logs_ret; [apply part_elements_nil|]. exists []. rewrite app_nil_r. auto.
      + apply logs_err, part_elements_nil.
    - eapply logs_bind; [exact Hrv|apply part_elements_value|].
      intros v x -> _. assert (Pv : part_elements (events v)) by apply part_elements_value, part_value_full.
      apply logs_quiet; [quiet|rewrite app_nil_r; exact Pv|intro].
      eapply (logs_bind (fun x => x = [EArrayValue]) (fun o' x => o' = o ++ [v] /\ x = [EArrayValue])).
      + eapply (logs_del _ _ _ _ (fun _ => o ++ [v]) EArrayValue); [reflexivity|reflexivity|auto].
      + intros x ->. exists [v]. cbn. rewrite app_nil_r. apply prefix_refl.
      + intros o' x [-> ->] _.
        assert (E : events v ++ [EArrayValue] = element_events [v]) by (cbn; rewrite app_nil_r; reflexivity).
        assert (Pf : part_elements (events v ++ [EArrayValue])) by (rewrite E; exists [v]; apply prefix_refl).
        apply logs_quiet; [quiet|rewrite app_nil_r; exact Pf|intro].
        apply logs_quiet; [quiet|rewrite app_nil_r; exact Pf|intro tk2].
        destruct tk2; try (apply logs_err; rewrite app_nil_r; exact Pf).
        * apply logs_ret; rewrite app_nil_r; [exact Pf|]. exists [v]. split; [reflexivity|exact E].
        * eapply logs_weaken; [apply IH| |].
          -- intros x Hx. rewrite app_assoc, E. apply part_elements_app, Hx.
          -- intros o' x _ (ms & -> & ->). exists (v :: ms). rewrite <- app_assoc. split; [reflexivity|].
             rewrite app_assoc. reflexivity.
  Qed.

  Lemma read_tokens_logs loops fuel : value_logs (read_tokens g pw cfg T loops fuel).
  Proof.
    unfold value_logs. induction fuel as [|fuel IH]; cbn [read_tokens]; [apply logs_fuel, part_value_nil|].
    apply logs_quiet; [quiet|apply part_value_nil|intro offset].
    apply logs_quiet; [quiet|apply part_value_nil|intro tk].
    destruct tk; try (apply logs_err, part_value_nil);
      try (eapply (logs_del _ _ _ _ (fun _ => _)); [reflexivity| |reflexivity];
           first [exact (part_value_full VNull)|exact (part_value_full (VBoolean b))|exact (part_value_full (VNumber n))|exact (part_value_full (VString s))]).
    - apply logs_quiet; [quiet|apply part_value_nil|intros []]. apply logs_map_err. unfold read_object.
      apply logs_quiet; [quiet|apply part_value_nil|intro off2].
      eapply (logs_bind (fun x => x = [EBeginObject]) (fun o x => o = [] /\ x = [EBeginObject])).
      + eapply (logs_del _ _ _ _ (fun _ => []) EBeginObject); [reflexivity|reflexivity|auto].
      + intros x ->. exists (VObject []). exists [EEndObject]. reflexivity.
      + intros o x [-> ->] _. 
        eapply logs_bind; [apply object_loop_logs, IH| |].
        * intros x [ms Hx]. exists (VObject ms). rewrite events_object. apply (prefix_app [EBeginObject]), prefix_more, Hx.
        * intros o x (ms & -> & ->) _. cbn [app].
          assert (Pf : part_value ((EBeginObject :: member_events ms) ++ [])).
          { exists (VObject ms), [EEndObject]. rewrite events_object, app_nil_r. reflexivity. }
          apply logs_quiet; [quiet|exact Pf|intro].
          eapply (logs_bind (fun x => x = [EEndObject]) (fun v x => v = VObject ms /\ x = [EEndObject])).
          -- eapply (logs_del _ _ _ _ (fun _ => VObject ms) EEndObject); [reflexivity|reflexivity|auto].
          -- intros x ->. apply (part_value_full (VObject ms)).
          -- intros v x [-> ->] _. apply logs_quiet; [quiet| |intro].
             ++ cbn [app]. apply (part_value_full (VObject ms)).
             ++ apply logs_ret; [apply (part_value_full (VObject ms))|reflexivity].
    - apply logs_quiet; [quiet|apply part_value_nil|intros []]. apply logs_map_err. unfold read_array.
      apply logs_quiet; [quiet|apply part_value_nil|intro off2].
      eapply (logs_bind (fun x => x = [EBeginArray]) (fun o x => o = [] /\ x = [EBeginArray])).
      + eapply (logs_del _ _ _ _ (fun _ => []) EBeginArray); [reflexivity|reflexivity|auto].
      + intros x ->. exists (VArray []). exists [EEndArray]. reflexivity.
      + intros o x [-> ->] _. 
        eapply logs_bind; [apply array_loop_logs, IH| |].
        * intros x [ms Hx]. exists (VArray ms). rewrite events_array. apply (prefix_app [EBeginArray]), prefix_more, Hx.
        * intros o x (ms & -> & ->) _. cbn [app].
          eapply (logs_bind (fun x => x = [EEndArray]) (fun v x => v = VArray ms /\ x = [EEndArray])).
          -- eapply (logs_del _ _ _ _ (fun _ => VArray ms) EEndArray); [reflexivity|reflexivity|auto].
          -- intros x ->. apply (part_value_full (VArray ms)).
          -- intros v x [-> ->] _. apply logs_quiet; [quiet| |intro].
             ++ cbn [app]. apply (part_value_full (VArray ms)).
             ++ apply logs_ret; [apply (part_value_full (VArray ms))|reflexivity].
  Qed.

  Lemma parse_logs source :
    part_value (snd (parse_bytes g pw cfg T source [])) /\
    forall v, fst (parse_bytes g pw cfg T source []) = Ok v -> snd (parse_bytes g pw cfg T source []) = events v.
  Proof.
    assert (H : value_logs (parse_body g pw cfg T (S (length source)) (S (length source)))).
    { unfold parse_body, value_logs. eapply logs_bind; [apply read_tokens_logs|auto|]. intros v x -> _.
      assert (Pf : part_value (events v ++ [])) by (rewrite app_nil_r; apply part_value_full).
      unfold check_root. destruct (negb (allow_all_types_at_root cfg)).
      - apply logs_quiet; [|exact Pf|intro]. 
        + intro s. unfold pbind, p_query. destruct (d_kind_of T (ps_del s) v) as [[]|[]|]; reflexivity.
        + apply logs_quiet; [quiet|exact Pf|intro]. apply logs_ret; [exact Pf|apply app_nil_r].
      - apply logs_quiet; [intro; reflexivity|exact Pf|intro].
        apply logs_quiet; [quiet|exact Pf|intro]. apply logs_ret; [exact Pf|apply app_nil_r]. }
    unfold parse_bytes. specialize (H (parse_state pw cfg T source [])).
    destruct (parse_body g pw cfg T _ _ _) as [r s]. destruct H as (x & E & P & Q). cbn in E. cbn [fst snd] in *. subst x. auto.
  Qed.
End Prefix.

(** * The simulation for a truthful delegate *)
Section Truthful.
  Variables (g : bool) (pw : pwidth) (cfg : parse_config) (D : delegate) (st0 : d_st D).
  Hypothesis Htrue : truthful D st0.
  Notation R := (recording D).

  Definition abs_frame (f : frame R) : open_container D :=
    match f with
    | FObj _ o o2 => @OpenObject D o (length o2)
    | FKey _ o o2 k _ => @OpenKey D o (length o2) k
    | FArr _ a a2 => @OpenArray D a (length a2)
    end.

  Definition rec_sim : simulation R := {|
    sR := fun (F : list (frame R)) (st : d_st D * list event) tr => snd st = tr /\ usage D st0 (map abs_frame F) (fst st);
    sRV := fun (F : list (frame R)) v v2 (st : d_st D * list event) tr => snd st = tr /\ usage_value D st0 (map abs_frame F) v (value_kind v2) (fst st);
    sStop := fun x (st : d_st D * list event) tr => prefix_of (snd st) tr /\ exists p ev, snd st = p ++ [ev] /\ call_failed D x (fst st) ev;
    sRE := fun (st : d_st D * list event) tr => snd st = tr;
    sBad := fun _ => False |}.

  Lemma rec_step {A} (r : res (d_error D) A * d_st D) ev tr (Q : A -> d_st R -> Prop) :
    (forall x, is_failure x (fst r) -> call_failed D x (snd r) ev) ->
    (forall a st', r = (Ok a, st') -> Q a (st', tr ++ [ev])) ->
    step R rec_sim (note ev tr r) Q (tr ++ [ev]).
  Proof.
    intros Hf Hq. right. destruct r as [[a|e|f] st']; cbn in *.
    - apply Hq. reflexivity.
    - split; [apply prefix_refl|]. exists tr, ev. auto.
    - split; [apply prefix_refl|]. exists tr, ev. auto.
  Qed.

  Lemma rec_sim_ok : sim_ok cfg R rec_sim.
  Proof.
    destruct Htrue as (H1 & H2 & H3).
    split; try (split; intros; contradiction).
    all: try (intros F [st log] tr; intros; cbn [sR sRV rec_sim fst snd map abs_frame] in *;
      repeat match goal with H : _ /\ _ |- _ => destruct H end; subst tr; cbn [d_null d_boolean d_number d_string
        d_begin_object d_object_key d_object_value d_end_object d_begin_array d_array_value d_end_array recording fst snd];
      apply rec_step; [intros x Hx; econstructor; [exact Hx|reflexivity]|
        intros a' st' E; split; [reflexivity|]; cbn [fst snd map abs_frame]; econstructor; eassumption]).
    - intros F [st log] tr [E _]. exact E.
    - intros F v v2 [st log] tr [E _]. exact E.
    - intros x [st log] tr ev ([r ->] & H). cbn in *. split; [exists (r ++ [ev]); symmetry; apply app_assoc|exact H].
    - intros F [st log] tr o o2 k [<- H]. cbn [map abs_frame fst snd] in *. apply rec_step.
      + intros x Hx. econstructor; [exact Hx|reflexivity].
      + intros [o' k'] st' E. split; [reflexivity|]. cbn [fst snd map abs_frame]. econstructor; eassumption.
    - intros F [st log] tr o o2 k k2 v v2 [<- H]. cbn [map abs_frame fst snd] in *. apply rec_step.
      + intros x Hx. econstructor; [exact Hx|reflexivity].
      + intros o' st' E. split; [reflexivity|]. cbn [fst snd map abs_frame]. rewrite app_length, Nat.add_comm. econstructor; eassumption.
    - intros F [st log] tr o o2 [<- H]. cbn [map abs_frame fst snd] in *. apply H1 in H. cbn in *. rewrite H.
      destruct o2; reflexivity.
    - intros F [st log] tr a a2 v v2 [<- H]. cbn [map abs_frame fst snd] in *. apply rec_step.
      + intros x Hx. econstructor; [exact Hx|reflexivity].
      + intros o' st' E. split; [reflexivity|]. cbn [fst snd map abs_frame]. rewrite app_length, Nat.add_comm. econstructor; eassumption.
    - intros F [st log] tr a a2 [<- H]. cbn [map abs_frame fst snd] in *. apply H2 in H. cbn in *. rewrite H.
      destruct a2; reflexivity.
    - intros v v2 [st log] tr _ [<- H]. cbn [map fst snd] in *. apply H3 in H. exact H.
  Qed.

  Lemma truthful_parse source :
    let x := parse_bytes g pw cfg R source (st0, []) in
    let y := parse_bytes g pw cfg trace_delegate source [] in
    match fst x with
    | Err (Error _ (KErrorFromDelegate e)) =>
        prefix_of (snd (snd x)) (snd y) /\ exists p ev, snd (snd x) = p ++ [ev] /\ call_failed D (inl e) (fst (snd x)) ev
    | Fault f => fst y = Fault f \/
        (prefix_of (snd (snd x)) (snd y) /\ exists p ev, snd (snd x) = p ++ [ev] /\ call_failed D (inr f) (fst (snd x)) ev)
    | Ok _ => snd (snd x) = snd y /\ exists v, fst y = Ok v
    | Err e => snd (snd x) = snd y /\ exists e', fst y = Err e' /\ e = into_fallable e'
    end.
  Proof.
    pose proof (sim_parse g pw cfg R rec_sim rec_sim_ok source (st0, []) (conj eq_refl (us_start D st0))) as H.
    cbv zeta in *. destruct (parse_bytes g pw cfg R source (st0, [])) as [x [st log]],
      (parse_bytes g pw cfg trace_delegate source []) as [y tr]. cbn [fst snd] in *.
    destruct H as [[]|[H|H]].
    - unfold halted in H. cbn [fst snd sStop rec_sim] in H. destruct x as [v|[o k]|f]; [contradiction| |right; exact H].
      destruct k; try contradiction. exact H.
    - unfold same_outcome in H. cbn [fst snd sRV sRE rec_sim] in H.
      destruct x as [v|e|f], y as [v2|e2|f2]; try contradiction.
      + destruct H as [H _]. eauto.
      + destruct H as [-> E]. destruct e2 as [o k].
        destruct k as [| | | | | | | | | | | | | | | | | | | | | | | |[]]; cbn; split; auto; eexists; split; reflexivity.
      + destruct H as [-> _]. left. reflexivity.
  Qed.
End Truthful.

(** * C15
    [canonical_log utf8 pw cfg s]: the callbacks made for input [s], a function of the input and the
    configuration alone (obtained with one fixed delegate that accepts everything). *)
Definition canonical_log (utf8 : bool) (pw : pwidth) (cfg : parse_config) (s : list N) : list event :=
  snd (parse_bytes utf8 pw cfg trace_delegate s []).
Definition input_ok (utf8 : bool) (pw : pwidth) (s : list N) : Prop :=
  if utf8 then rust_str pw s else rust_slice pw s.
Lemma input_good utf8 pw s : input_ok utf8 pw s -> good utf8 pw s.
Proof. destruct utf8; [apply rust_str_good|apply rust_slice_good]. Qed.
(** [parse_json_with_config] on a str, [parse_json_bytes_with_config] on bytes. *)
Definition parse_with (utf8 : bool) (pw : pwidth) (D : delegate) (s : list N) (cfg : parse_config) (st : d_st D) :=
  if utf8 then parse_json_with_config pw D s cfg st else parse_json_bytes_with_config pw D s cfg st.
Lemma parse_with_eq utf8 pw D s cfg st : parse_with utf8 pw D s cfg st = parse_bytes utf8 pw cfg D s st.
Proof. destruct utf8; reflexivity. Qed.

(** Recording changes neither the result nor the delegate's own state. *)
Theorem C15_recording_is_transparent utf8 pw cfg D s st log :
  let '(r, st') := parse_with utf8 pw (recording D) s cfg (st, log) in
  parse_with utf8 pw D s cfg st = (r, fst st').
Proof.
  rewrite !parse_with_eq, (recording_same utf8 pw cfg D s st log).
  destruct (parse_bytes utf8 pw cfg (recording D) s (st, log)) as [r st']. reflexivity.
Qed.

Theorem C15_callbacks_of_truthful_delegate utf8 pw cfg D s st0 : input_ok utf8 pw s -> truthful D st0 ->
  let '(r, (st', log)) := parse_with utf8 pw (recording D) s cfg (st0, []) in
  prefix_of log (canonical_log utf8 pw cfg s) /\
  match r with
  | Ok _ => log = canonical_log utf8 pw cfg s
  | Err (Error _ (KErrorFromDelegate e)) =>
      (* the last callback made is one that returned [e]; nothing was called after it *)
      exists p ev, log = p ++ [ev] /\ call_failed D (inl e) st' ev
  | Err _ => log = canonical_log utf8 pw cfg s
  | Fault f => exists p ev, log = p ++ [ev] /\ call_failed D (inr f) st' ev
  end.
Proof.
  intros Hi Ht. rewrite parse_with_eq. pose proof (truthful_parse utf8 pw cfg D st0 Ht s) as H. cbv zeta in H.
  unfold canonical_log. pose proof (trace_no_fault utf8 pw cfg s (input_good _ _ _ Hi)) as Hn.
  destruct (parse_bytes utf8 pw cfg (recording D) s (st0, [])) as [r [st' log]],
    (parse_bytes utf8 pw cfg trace_delegate s []) as [y tr]. cbn [fst snd] in *.
  destruct r as [v|[o k]|f].
  - destruct H as [-> _]. split; [apply prefix_refl|reflexivity].
  - destruct k; try (destruct H as [-> _]; split; [apply prefix_refl|reflexivity]). exact H.
  - destruct H as [H|H]; [destruct (Hn _ H)|exact H].
Qed.

(** The result: accepted exactly as [Value] accepts, unless the delegate itself stops the parse; the parser's own
    errors are the same for every truthful delegate. *)
Theorem C15_results_of_truthful_delegate utf8 pw cfg D s st0 : input_ok utf8 pw s -> truthful D st0 ->
  match fst (parse_with utf8 pw D s cfg st0), fst (parse_with utf8 pw value_delegate s cfg tt) with
  | Ok _, Ok _ => True
  | Err (Error _ (KErrorFromDelegate _)), _ => True
  | Fault f, _ => delegate_faults D f
  | Err e, Err e' => err_offset e = err_offset e' /\ err_kind e = kind_into_fallable (err_kind e')
  | _, _ => False
  end.
Proof.
  intros Hi Ht. rewrite !parse_with_eq. pose proof (truthful_parse utf8 pw cfg D st0 Ht s) as H. cbv zeta in H.
  pose proof (parse_bytes_gen utf8 pw cfg D s (input_good _ _ _ Hi) st0) as G.
  rewrite (value_parse_eq utf8 pw cfg s). rewrite (recording_same utf8 pw cfg D s st0 []) in *.
  destruct (parse_bytes utf8 pw cfg (recording D) s (st0, [])) as [r [st' log]],
    (parse_bytes utf8 pw cfg trace_delegate s []) as [y tr]. cbn [fst snd] in *.
  destruct r as [v|[o k]|f].
  - destruct H as [_ [v' ->]]. exact I.
  - destruct k; try exact I; destruct H as [_ (e' & -> & E)]; destruct e' as [o' k']; unfold into_fallable in E;
      injection E as; subst; auto.
  - exact G.
Qed.

(** Two truthful delegates see the same callbacks, up to the point where one of them stops the parse. *)
Theorem C15_function_of_input utf8 pw cfg D1 st1 D2 st2 s : input_ok utf8 pw s -> truthful D1 st1 -> truthful D2 st2 ->
  let log1 := snd (snd (parse_with utf8 pw (recording D1) s cfg (st1, []))) in
  let log2 := snd (snd (parse_with utf8 pw (recording D2) s cfg (st2, []))) in
  prefix_of log1 log2 \/ prefix_of log2 log1.
Proof.
  intros Hi H1 H2. pose proof (C15_callbacks_of_truthful_delegate utf8 pw cfg D1 s st1 Hi H1) as G1.
  pose proof (C15_callbacks_of_truthful_delegate utf8 pw cfg D2 s st2 Hi H2) as G2.
  destruct (parse_with utf8 pw (recording D1) s cfg (st1, [])) as [r1 [s1 log1]],
    (parse_with utf8 pw (recording D2) s cfg (st2, [])) as [r2 [s2 log2]]. cbn [fst snd].
  destruct G1 as [[x E1] _], G2 as [[y E2] _]. rewrite E2 in E1. clear - E1.
  revert log2 E1. induction log1 as [|a l IH]; intros [|b l2] E; [left|left|right|]; try (eexists; reflexivity).
  cbn in E. injection E as -> E. destruct (IH _ E) as [[z ->]|[z ->]]; [left|right]; exists z; reflexivity.
Qed.

(** For every input, the canonical callbacks begin the event stream of some value (so they are properly bracketed,
    every key follows its object, every value its key); for accepted input they are the whole stream of the value. *)
Theorem C15_canonical_log_is_bracketed utf8 pw cfg s : input_ok utf8 pw s ->
  exists v, prefix_of (canonical_log utf8 pw cfg s) (events v).
Proof. intros _. exact (proj1 (parse_logs utf8 pw cfg s)). Qed.
Theorem C15_canonical_log_of_accepted utf8 pw cfg s v : input_ok utf8 pw s ->
  fst (parse_with utf8 pw value_delegate s cfg tt) = Ok v -> canonical_log utf8 pw cfg s = events v.
Proof.
  intros _ H. rewrite parse_with_eq, value_parse_eq in H. exact (proj2 (parse_logs utf8 pw cfg s) v H).
Qed.

(** * A concrete case: the validator, changed to refuse booleans with an error of its own *)
Scheme usage_mind := Induction for usage Sort Prop with usage_value_mind := Induction for usage_value Sort Prop.
Combined Scheme usage_mutind from usage_mind, usage_value_mind.

Definition picky : delegate := {|
  d_st := unit; d_value := json_kind; d_object := nat; d_array := nat; d_key := unit; d_error := bool;
  d_null := fun st => (Ok JkNull, st);
  d_boolean := fun st b => (Err b, st);
  d_number := fun st _ => (Ok JkNumber, st);
  d_string := fun st _ => (Ok JkString, st);
  d_begin_object := fun st => (Ok O, st);
  d_object_key := fun st object _ => (Ok (object, tt), st);
  d_object_value := fun st object _ _ => (Ok (S object), st);
  d_object_is_empty := fun _ object => Ok (Nat.eqb object 0);
  d_end_object := fun st _ => (Ok JkObject, st);
  d_begin_array := fun st => (Ok O, st);
  d_array_value := fun st array _ => (Ok (S array), st);
  d_array_is_empty := fun _ array => Ok (Nat.eqb array 0);
  d_end_array := fun st _ => (Ok JkArray, st);
  d_kind_of := fun _ value => Ok value |}.

Definition counted (f : open_container picky) : Prop :=
  match f with OpenObject o n => o = n | OpenKey o n _ => o = n | OpenArray a n => a = n end.
Lemma picky_usage : (forall F st, usage picky tt F st -> Forall counted F) /\
  (forall F v k st, usage_value picky tt F v k st -> Forall counted F /\ v = k).
Proof.
  apply usage_mutind; intros; cbn in *;
    repeat match goal with H : (Ok _, _) = (Ok _, _) |- _ => injection H as; subst
                      | H : (Err _, _) = (Ok _, _) |- _ => discriminate
                      | H : _ /\ _ |- _ => destruct H
                      | H : Forall counted (_ :: _) |- _ => inversion_clear H end; cbn in *; subst;
    try split; repeat constructor; auto.
Qed.
Example picky_truthful : truthful picky tt.
Proof.
  split; [|split].
  - intros F st o n H. apply picky_usage in H. inversion_clear H. cbn in *. subst. reflexivity.
  - intros F st o n H. apply picky_usage in H. inversion_clear H. cbn in *. subst. reflexivity.
  - intros v k st H. apply picky_usage in H as [_ ->]. reflexivity.
Qed.
Example picky_run : exists k,
  parse_with false W64 (recording picky) (bs "[1,{""k"":true},null]") config_default (tt, []) =
  (Err (Error 8 (KErrorFromDelegate true)),
   (tt, [EBeginArray; ENumber (JNum (Borrowed (bs "1"))); EArrayValue; EBeginObject; EObjectKey k; EBoolean true])) /\
  stored k = bs "k".
Proof. eexists. split; vm_compute; reflexivity. Qed.
Example picky_accepts : exists log,
  parse_with false W64 (recording picky) (bs "[1,{""k"":3},null]") config_default (tt, []) = (Ok JkArray, (tt, log)) /\
  length log = 12%nat /\ log = canonical_log false W64 config_default (bs "[1,{""k"":3},null]").
Proof. eexists. split; [vm_compute; reflexivity|]. split; vm_compute; reflexivity. Qed.
