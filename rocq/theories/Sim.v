(** Every delegate against the reference delegate: a simulation theorem. *)
From Verif Require Import Base Utf8 StrModel ErrorModel Tokenizer Parser ValueModel Spec TokBase TokStr TokFacts Trace.

(** * Predicates on the delegate state preserved by every method are preserved by the parser *)
Record preserved (D : delegate) (P : d_st D -> Prop) : Prop := {
  pv_null : forall st, P st -> P (snd (d_null D st));
  pv_boolean : forall st b, P st -> P (snd (d_boolean D st b));
  pv_number : forall st n, P st -> P (snd (d_number D st n));
  pv_string : forall st s, P st -> P (snd (d_string D st s));
  pv_begin_object : forall st, P st -> P (snd (d_begin_object D st));
  pv_object_key : forall st o k, P st -> P (snd (d_object_key D st o k));
  pv_object_value : forall st o k v, P st -> P (snd (d_object_value D st o k v));
  pv_end_object : forall st o, P st -> P (snd (d_end_object D st o));
  pv_begin_array : forall st, P st -> P (snd (d_begin_array D st));
  pv_array_value : forall st a v, P st -> P (snd (d_array_value D st a v));
  pv_end_array : forall st a, P st -> P (snd (d_end_array D st a)) }.

Section Preserve.
  Variables (g : bool) (pw : pwidth) (cfg : parse_config) (D : delegate) (P : d_st D -> Prop).
  Hypothesis HP : preserved D P.

  Definition keeps {A} (m : pm D A) : Prop := forall s, P (ps_del s) -> P (ps_del (snd (m s))).

  Lemma keeps_bind {A B} (m : pm D A) (k : A -> pm D B) :
    keeps m -> (forall a, keeps (k a)) -> keeps (pbind D m k).
  Proof.
    intros Hm Hk s Hs. unfold pbind. specialize (Hm s Hs).
    destruct (m s) as [[a|e|f] s']; cbn [snd] in Hm; [|exact Hm..]. apply Hk. exact Hm.
  Qed.
  Lemma keeps_offset : keeps (p_offset D).
  Proof. intros s Hs. exact Hs. Qed.
  Lemma keeps_tok {A} conv (m : tok A) : keeps (p_tok_err D conv m).
  Proof. intros s Hs. unfold p_tok_err. destruct (m (ps_iter s)). exact Hs. Qed.
  Lemma keeps_del {A} o (m : d_st D -> res (d_error D) A * d_st D) :
    (forall st, P st -> P (snd (m st))) -> keeps (p_del D o m).
  Proof. intros H s Hs. unfold p_del. specialize (H _ Hs). destruct (m (ps_del s)). exact H. Qed.
  Lemma keeps_query {A} (m : d_st D -> res infallible A) : keeps (p_query D m).
  Proof. intros s Hs. exact Hs. Qed.
  Lemma keeps_begin_nest o : keeps (begin_nest cfg D o).
  Proof.
    intros s Hs. unfold begin_nest. destruct (recursion_limit cfg); [destruct (0 <? ps_depth s)%N|]; exact Hs.
  Qed.
  Lemma keeps_end_nest : keeps (end_nest cfg D).
  Proof. intros s Hs. unfold end_nest. destruct (recursion_limit cfg); exact Hs. Qed.
  Lemma keeps_ret {A} (a : A) : keeps (pret D a).
  Proof. intros s Hs. exact Hs. Qed.
  Lemma keeps_err {A} o k : keeps (@perr D A o k).
  Proof. intros s Hs. exact Hs. Qed.
  Lemma keeps_fault {A} f : keeps (fun s => (@Fault (error (d_error D)) A f, s)).
  Proof. intros s Hs. exact Hs. Qed.
  Lemma keeps_map_err {A} f (m : pm D A) : keeps m -> keeps (p_map_err D f m).
  Proof. intros H s Hs. unfold p_map_err. specialize (H s Hs). destruct (m s). exact H. Qed.
  Lemma keeps_peek : keeps (peek_array_end D).
  Proof.
    intros s Hs. unfold peek_array_end. destruct (tokenizer_peek (ps_iter s)) as [o it].
    destruct o as [[]|]; exact Hs.
  Qed.
  Lemma keeps_trailing : keeps (check_trailing D).
  Proof.
    intros s Hs. unfold check_trailing. destruct (next_non_ws (ps_iter s)) as [[[o b]|] it]; exact Hs.
  Qed.

  Ltac kp := repeat match goal with
      | H : keeps ?m |- keeps ?m => exact H
      | |- keeps (pbind D _ _) => apply keeps_bind; [|intros ?]
      | |- keeps (p_offset D) => apply keeps_offset
      | |- keeps (p_tok D _) => apply keeps_tok
      | |- keeps (p_tok_err D _ _) => apply keeps_tok
      | |- keeps (p_del D _ _) => apply keeps_del; intros; apply HP; assumption
      | |- keeps (p_query D _) => apply keeps_query
      | |- keeps (begin_nest cfg D _) => apply keeps_begin_nest
      | |- keeps (end_nest cfg D) => apply keeps_end_nest
      | |- keeps (pret D _) => apply keeps_ret
      | |- keeps (perr D _ _) => apply keeps_err
      | |- keeps (peek_array_end D) => apply keeps_peek
      | |- keeps (check_trailing D) => apply keeps_trailing
      | |- keeps (p_map_err D _ _) => apply keeps_map_err
      | |- keeps (fun s => (Fault _, s)) => apply keeps_fault
      | |- keeps (match ?t with TkNull => _ | _ => _ end) => destruct t
      | |- keeps (match ?t with JkNull => _ | _ => _ end) => destruct t
      | |- keeps (if ?b then _ else _) => destruct b
      | |- keeps (let '(_, _) := ?p in _) => destruct p
      end.

  Lemma keeps_object_loop rv : keeps rv -> forall k o, keeps (object_loop g pw cfg D rv k o).
  Proof. intros Hp. induction k as [|k IH]; intro o; cbn [object_loop]; kp. apply IH. Qed.
  Lemma keeps_array_loop rv : keeps rv -> forall k o, keeps (array_loop g pw cfg D rv k o).
  Proof. intros Hp. induction k as [|k IH]; intro o; cbn [array_loop]; kp. apply IH. Qed.
  Lemma keeps_read_tokens loops fuel : keeps (read_tokens g pw cfg D loops fuel).
  Proof.
    induction fuel as [|fuel IH]; cbn [read_tokens]; kp; unfold read_object, read_array; kp;
      [apply keeps_object_loop|apply keeps_array_loop]; exact IH.
  Qed.
  Lemma keeps_check_root v : keeps (check_root cfg D v).
  Proof. unfold check_root. kp. Qed.
  Lemma keeps_parse_body loops fuel : keeps (parse_body g pw cfg D loops fuel).
  Proof. unfold parse_body. kp; [apply keeps_read_tokens|apply keeps_check_root]. Qed.
End Preserve.

(** * The simulation *)
Lemma into_fallable_twice {D} (e : error infallible) : @into_fallable D (into_fallable e) = into_fallable e.
Proof. destruct e as [o k]. destruct k as [| | | | | | | | | | | | | | | | | | | | | | | |[]]; reflexivity. Qed.

Lemma into_fallable_id (e : error infallible) : into_fallable e = e.
Proof. destruct e as [o k]. destruct k as [| | | | | | | | | | | | | | | | | | | | | | | |[]]; reflexivity. Qed.

Section Sim.
  Variables (g : bool) (pw : pwidth) (cfg : parse_config) (D : delegate).
  Notation T := trace_delegate.

  (** Open containers, innermost first: the delegate's handle and the entries collected so far. *)
  Inductive frame : Type :=
  | FObj (o : d_object D) (o2 : object)
  | FKey (o : d_object D) (o2 : object) (k : d_key D) (k2 : json_string)
  | FArr (a : d_array D) (a2 : list value).

  Record simulation : Type := {
    sR : list frame -> d_st D -> list event -> Prop;
    sRV : list frame -> d_value D -> value -> d_st D -> list event -> Prop;
    sStop : d_error D + fault -> d_st D -> list event -> Prop;
    sRE : d_st D -> list event -> Prop;
    sBad : d_st D -> Prop }.

  Variable S : simulation.

  (** A method of [D] against the reference method, which appends [ev]. *)
  Definition step {A} (p : res (d_error D) A * d_st D) (Q : A -> d_st D -> Prop) (tr' : list event) : Prop :=
    sBad S (snd p) \/
    match fst p with
    | Ok a => Q a (snd p)
    | Err e => sStop S (inl e) (snd p) tr'
    | Fault f => sStop S (inr f) (snd p) tr'
    end.

  Record sim_ok : Prop := {
    so_R_RE : forall F st tr, sR S F st tr -> sRE S st tr;
    so_RV_RE : forall F v v2 st tr, sRV S F v v2 st tr -> sRE S st tr;
    so_stop : forall x st tr ev, sStop S x st tr -> sStop S x st (tr ++ [ev]);
    so_bad : preserved D (sBad S);
    so_null : forall F st tr, sR S F st tr ->
      step (d_null D st) (fun v st' => sRV S F v VNull st' (tr ++ [ENull])) (tr ++ [ENull]);
    so_boolean : forall F st tr b, sR S F st tr ->
      step (d_boolean D st b) (fun v st' => sRV S F v (VBoolean b) st' (tr ++ [EBoolean b])) (tr ++ [EBoolean b]);
    so_number : forall F st tr n, sR S F st tr ->
      step (d_number D st n) (fun v st' => sRV S F v (VNumber n) st' (tr ++ [ENumber n])) (tr ++ [ENumber n]);
    so_string : forall F st tr s, sR S F st tr ->
      step (d_string D st s) (fun v st' => sRV S F v (VString s) st' (tr ++ [EString s])) (tr ++ [EString s]);
    so_begin_object : forall F st tr, sR S F st tr ->
      step (d_begin_object D st) (fun o st' => sR S (FObj o [] :: F) st' (tr ++ [EBeginObject])) (tr ++ [EBeginObject]);
    so_object_key : forall F st tr o o2 k, sR S (FObj o o2 :: F) st tr ->
      step (d_object_key D st o k) (fun ok st' => sR S (FKey (fst ok) o2 (snd ok) k :: F) st' (tr ++ [EObjectKey k]))
        (tr ++ [EObjectKey k]);
    so_object_value : forall F st tr o o2 k k2 v v2, sRV S (FKey o o2 k k2 :: F) v v2 st tr ->
      step (d_object_value D st o k v) (fun o' st' => sR S (FObj o' (o2 ++ [(k2, v2)]) :: F) st' (tr ++ [EObjectValue]))
        (tr ++ [EObjectValue]);
    so_object_is_empty : forall F st tr o o2, sR S (FObj o o2 :: F) st tr -> d_object_is_empty D st o = Ok (is_nil o2);
    so_end_object : forall F st tr o o2, sR S (FObj o o2 :: F) st tr ->
      step (d_end_object D st o) (fun v st' => sRV S F v (VObject o2) st' (tr ++ [EEndObject])) (tr ++ [EEndObject]);
    so_begin_array : forall F st tr, sR S F st tr ->
      step (d_begin_array D st) (fun a st' => sR S (FArr a [] :: F) st' (tr ++ [EBeginArray])) (tr ++ [EBeginArray]);
    so_array_value : forall F st tr a a2 v v2, sRV S (FArr a a2 :: F) v v2 st tr ->
      step (d_array_value D st a v) (fun a' st' => sR S (FArr a' (a2 ++ [v2]) :: F) st' (tr ++ [EArrayValue]))
        (tr ++ [EArrayValue]);
    so_array_is_empty : forall F st tr a a2, sR S (FArr a a2 :: F) st tr -> d_array_is_empty D st a = Ok (is_nil a2);
    so_end_array : forall F st tr a a2, sR S (FArr a a2 :: F) st tr ->
      step (d_end_array D st a) (fun v st' => sRV S F v (VArray a2) st' (tr ++ [EEndArray])) (tr ++ [EEndArray]);
    so_kind_of : forall v v2 st tr, allow_all_types_at_root cfg = false -> sRV S [] v v2 st tr ->
      d_kind_of D st v = Ok (value_kind v2) }.

  Hypothesis HS : sim_ok.

  (** The delegate stopped the parse. *)
  Definition halted {A B} (x : res (error (d_error D)) A * d_st D) (y : res (error infallible) B * list event) : Prop :=
    match fst x with
    | Err (Error _ (KErrorFromDelegate e)) => sStop S (inl e) (snd x) (snd y)
    | Fault f => sStop S (inr f) (snd x) (snd y)
    | _ => False
    end.

  Definition del_of {E A D'} (x : res E A * pstate D') : res E A * d_st D' := (fst x, ps_del (snd x)).

  Definition rel {A B} (Q : A -> B -> d_st D -> list event -> Prop)
    (x : res (error (d_error D)) A * pstate D) (y : res (error infallible) B * pstate T) : Prop :=
    sBad S (ps_del (snd x)) \/ halted (del_of x) (del_of y) \/
    (ps_iter (snd x) = ps_iter (snd y) /\ ps_depth (snd x) = ps_depth (snd y) /\
     match fst x, fst y with
     | Ok a, Ok b => Q a b (ps_del (snd x)) (ps_del (snd y))
     | Err e, Err e' => e = into_fallable e' /\ sRE S (ps_del (snd x)) (ps_del (snd y))
     | Fault f, Fault f' => f = f' /\ sRE S (ps_del (snd x)) (ps_del (snd y))
     | _, _ => False
     end).

  Definition simm {A B} (I : d_st D -> list event -> Prop) (Q : A -> B -> d_st D -> list event -> Prop)
    (m : pm D A) (m2 : pm T B) : Prop :=
    forall it d st tr, I st tr -> rel Q (m (@PS D it st d)) (m2 (@PS T it tr d)).

  Lemma stop_preserved x st : preserved T (fun tr => sStop S x st tr).
  Proof. split; intros; apply (so_stop HS); assumption. Qed.

  Lemma sim_bind {A B A2 B2} (I : d_st D -> list event -> Prop) (Q : A -> A2 -> d_st D -> list event -> Prop) (Q' : B -> B2 -> d_st D -> list event -> Prop)
    (m : pm D A) (k : A -> pm D B) (m2 : pm T A2) (k2 : A2 -> pm T B2) :
    simm I Q m m2 ->
    (forall a a2, simm (Q a a2) Q' (k a) (k2 a2)) ->
    (forall a, keeps D (sBad S) (k a)) ->
    (forall x st a2, keeps T (fun tr => sStop S x st tr) (k2 a2)) ->
    simm I Q' (pbind D m k) (pbind T m2 k2).
  Proof.
    intros Hm Hk HB HK it d st tr HI. specialize (Hm it d st tr HI). unfold pbind.
    destruct (m (@PS D it st d)) as [x s1] eqn:E1. destruct (m2 (@PS T it tr d)) as [y s2] eqn:E2.
    destruct Hm as [Hbad|[Hh|(Hit & Hd & Hm)]]; cbn [fst snd] in *.
    - left. destruct x as [a|e|f]; [|exact Hbad..]. apply HB. exact Hbad.
    - right; left. unfold halted, del_of in *. cbn [fst snd] in *.
      destruct x as [a|[o [] ]|f]; try destruct Hh; cbn [fst snd] in *;
        (destruct y as [a2|e2|f2]; [apply (HK _ _ a2 s2 Hh)|exact Hh|exact Hh]).
    - destruct s1 as [it1 st1 d1], s2 as [it2 st2 d2]. cbn [ps_iter ps_del ps_depth] in *. subst it2 d2.
      destruct x as [a|e|f], y as [a2|e2|f2]; cbn in Hm; try destruct Hm.
      + apply (Hk a a2 it1 d1 st1 st2). exact Hm.
      + right; right. cbn. auto.
      + right; right. cbn. auto.
  Qed.

  Lemma sim_conseq {A B} (I I' : d_st D -> list event -> Prop) (Q Q' : A -> B -> d_st D -> list event -> Prop) m m2 :
    simm I Q m m2 -> (forall st tr, I' st tr -> I st tr) -> (forall a b st tr, Q a b st tr -> Q' a b st tr) ->
    simm I' Q' m m2.
  Proof.
    intros H HI HQ it d st tr H0. specialize (H it d st tr (HI _ _ H0)).
    unfold rel in *. destruct (m (@PS D it st d)) as [x s1], (m2 (@PS T it tr d)) as [y s2]. cbn [fst snd] in *.
    destruct H as [H|[H|(H1 & H2 & H)]]; [left; exact H|right; left; exact H|right; right].
    split; [exact H1|]. split; [exact H2|]. destruct x, y; auto.
  Qed.

  Lemma sim_ret {A B} (I : d_st D -> list event -> Prop) (Q : A -> B -> d_st D -> list event -> Prop) a b :
    (forall st tr, I st tr -> Q a b st tr) -> simm I Q (pret D a) (pret T b).
  Proof. intros H it d st tr HI. right; right. cbn. auto. Qed.

  Lemma sim_err {A B} (I : d_st D -> list event -> Prop) (Q : A -> B -> d_st D -> list event -> Prop) o (k : error_kind infallible) :
    (forall st tr, I st tr -> sRE S st tr) ->
    simm I Q (perr D o (kind_into_fallable k)) (perr T o k).
  Proof. intros H it d st tr HI. right; right. cbn. split; [reflexivity|]. split; [reflexivity|]. split; [reflexivity|auto]. Qed.

  Lemma sim_offset (I : d_st D -> list event -> Prop) : simm I (fun a b st tr => a = b /\ I st tr) (p_offset D) (p_offset T).
  Proof. intros it d st tr HI. right; right. cbn. auto. Qed.

  Lemma sim_tok {A} (I : d_st D -> list event -> Prop) conv1 conv2 (m : tok A) :
    (forall st tr, I st tr -> sRE S st tr) ->
    (forall e, conv1 e = into_fallable (conv2 e)) ->
    simm I (fun a b st tr => a = b /\ I st tr) (p_tok_err D conv1 m) (p_tok_err T conv2 m).
  Proof.
    intros HR Hc it d st tr HI. right; right. unfold p_tok_err. cbn [ps_iter ps_del ps_depth].
    destruct (m it) as [[a|e|f] it']; cbn; auto.
  Qed.

  Lemma sim_del {A B} (I : d_st D -> list event -> Prop) (Q : A -> B -> d_st D -> list event -> Prop) o m m2 b ev :
    (forall tr, m2 tr = (Ok b, tr ++ [ev])) ->
    (forall st tr, I st tr -> step (m st) (fun a st' => Q a b st' (tr ++ [ev])) (tr ++ [ev])) ->
    simm I Q (p_del D o m) (p_del T o m2).
  Proof.
    intros E H it d st tr HI. unfold p_del, rel, halted, del_of. cbn [ps_iter ps_del ps_depth]. rewrite E.
    specialize (H st tr HI). destruct (m st) as [[a|e|f] st']; cbn in *; destruct H as [H|H]; auto.
  Qed.

  Lemma sim_query {A} (I : d_st D -> list event -> Prop) (m : d_st D -> res infallible A) m2 (a : A) :
    (forall st tr, I st tr -> m st = Ok a /\ m2 tr = Ok a) ->
    simm I (fun x y st tr => x = a /\ y = a /\ I st tr) (p_query D m) (p_query T m2).
  Proof.
    intros H it d st tr HI. destruct (H st tr HI) as [E1 E2]. right; right. unfold p_query. cbn. rewrite E1, E2. auto.
  Qed.

  Lemma sim_begin_nest (I : d_st D -> list event -> Prop) o : (forall st tr, I st tr -> sRE S st tr) ->
    simm I (fun _ _ st tr => I st tr) (begin_nest cfg D o) (begin_nest cfg T o).
  Proof.
    intros HR it d st tr HI. right; right. unfold begin_nest. cbn [ps_depth].
    destruct (recursion_limit cfg); [destruct (0 <? d)%N|]; cbn; auto.
  Qed.

  Lemma sim_end_nest (I : d_st D -> list event -> Prop) : simm I (fun _ _ st tr => I st tr) (end_nest cfg D) (end_nest cfg T).
  Proof.
    intros it d st tr HI. right; right. unfold end_nest. destruct (recursion_limit cfg); cbn; auto.
  Qed.

  Lemma sim_peek (I : d_st D -> list event -> Prop) : simm I (fun a b st tr => a = b /\ I st tr) (peek_array_end D) (peek_array_end T).
  Proof.
    intros it d st tr HI. right; right. unfold peek_array_end. cbn [ps_iter ps_del ps_depth].
    destruct (tokenizer_peek it) as [[[]|] it']; cbn; auto.
  Qed.

  Lemma sim_trailing (I : d_st D -> list event -> Prop) : (forall st tr, I st tr -> sRE S st tr) ->
    simm I (fun _ _ st tr => I st tr) (check_trailing D) (check_trailing T).
  Proof.
    intros HR it d st tr HI. right; right. unfold check_trailing. cbn [ps_iter ps_del ps_depth].
    destruct (next_non_ws it) as [[[o b]|] it']; cbn; auto.
  Qed.

  Lemma sim_map_err {A B} (I : d_st D -> list event -> Prop) (Q : A -> B -> d_st D -> list event -> Prop) m m2 (k : error_kind infallible) :
    simm I Q m m2 -> simm I Q (p_map_err D (eof_to D (kind_into_fallable k)) m) (p_map_err T (eof_to T k) m2).
  Proof.
    intros H it d st tr HI. specialize (H it d st tr HI). unfold p_map_err, rel, halted, del_of in *.
    destruct (m (@PS D it st d)) as [x s1], (m2 (@PS T it tr d)) as [y s2]. cbn [fst snd] in *.
    destruct H as [H|[H|(H1 & H2 & H)]]; [left; exact H|right; left|right; right].
    - destruct x as [a|[o []]|f]; cbn in *; try destruct H; exact H.
    - split; [exact H1|]. split; [exact H2|]. destruct x as [a|e|f], y as [b|e'|f']; cbn in *; try exact H.
      destruct H as [-> H]. split; [|exact H].
      destruct e' as [o [| | | | | | | | | | | | | | | | | | | | | | | |[]]]; reflexivity.
  Qed.

  Lemma sim_fault {A B} (I : d_st D -> list event -> Prop) (Q : A -> B -> d_st D -> list event -> Prop) f : (forall st tr, I st tr -> sRE S st tr) ->
    simm I Q (fun s => (Fault f, s)) (fun s => (Fault f, s)).
  Proof. intros HR it d st tr HI. right; right. cbn. auto. Qed.

  Ltac kpD := repeat match goal with
      | |- keeps D _ (pbind D _ _) => apply keeps_bind; [|intros ?]
      | |- keeps D _ (p_offset D) => apply keeps_offset
      | |- keeps D _ (p_tok D _) => apply keeps_tok
      | |- keeps D _ (p_tok_err D _ _) => apply keeps_tok
      | |- keeps D _ (p_del D _ _) => apply keeps_del; intros; apply (so_bad HS); assumption
      | |- keeps D _ (p_query D _) => apply keeps_query
      | |- keeps D _ (begin_nest cfg D _) => apply keeps_begin_nest
      | |- keeps D _ (end_nest cfg D) => apply keeps_end_nest
      | |- keeps D _ (pret D _) => apply keeps_ret
      | |- keeps D _ (perr D _ _) => apply keeps_err
      | |- keeps D _ (peek_array_end D) => apply keeps_peek
      | |- keeps D _ (check_trailing D) => apply keeps_trailing
      | |- keeps D _ (p_map_err D _ _) => apply keeps_map_err
      | |- keeps D _ (read_tokens _ _ _ _ _ _) => apply keeps_read_tokens; apply (so_bad HS)
      | |- keeps D _ (object_loop _ _ _ _ _ _ _) => apply keeps_object_loop; [apply (so_bad HS)|]
      | |- keeps D _ (array_loop _ _ _ _ _ _ _) => apply keeps_array_loop; [apply (so_bad HS)|]
      | |- keeps D _ (match ?t with TkNull => _ | _ => _ end) => destruct t
      | |- keeps D _ (match ?t with JkNull => _ | _ => _ end) => destruct t
      | |- keeps D _ (if ?b then _ else _) => destruct b
      | |- keeps D _ (let '(_, _) := ?p in _) => destruct p
      | H : keeps D _ ?m |- keeps D _ ?m => exact H
      end.

  Ltac kpT := repeat match goal with
      | |- keeps T _ (pbind T _ _) => apply keeps_bind; [|intros ?]
      | |- keeps T _ (p_offset T) => apply keeps_offset
      | |- keeps T _ (p_tok T _) => apply keeps_tok
      | |- keeps T _ (p_tok_err T _ _) => apply keeps_tok
      | |- keeps T _ (p_del T _ _) => apply keeps_del; intros; apply (so_stop HS); assumption
      | |- keeps T _ (p_query T _) => apply keeps_query
      | |- keeps T _ (begin_nest cfg T _) => apply keeps_begin_nest
      | |- keeps T _ (end_nest cfg T) => apply keeps_end_nest
      | |- keeps T _ (pret T _) => apply keeps_ret
      | |- keeps T _ (perr T _ _) => apply keeps_err
      | |- keeps T _ (peek_array_end T) => apply keeps_peek
      | |- keeps T _ (check_trailing T) => apply keeps_trailing
      | |- keeps T _ (p_map_err T _ _) => apply keeps_map_err
      | |- keeps T _ (read_tokens _ _ _ _ _ _) => apply keeps_read_tokens; apply stop_preserved
      | |- keeps T _ (object_loop _ _ _ _ _ _ _) => apply keeps_object_loop; [apply stop_preserved|]
      | |- keeps T _ (array_loop _ _ _ _ _ _ _) => apply keeps_array_loop; [apply stop_preserved|]
      | |- keeps T _ (match ?t with TkNull => _ | _ => _ end) => destruct t
      | |- keeps T _ (match ?t with JkNull => _ | _ => _ end) => destruct t
      | |- keeps T _ (if ?b then _ else _) => destruct b
      | |- keeps T _ (let '(_, _) := ?p in _) => destruct p
      | H : forall x st, keeps T _ ?m |- keeps T _ ?m => apply H
      end.

  (** Bind with the side conditions discharged. *)
  Ltac sb := eapply sim_bind; [ | | intros; kpD | intros; kpT ].

  Section Loops.
    Variables (rv : pm D (d_value D)) (rv2 : pm T value).
    Hypothesis Hrv : forall F, simm (sR S F) (fun v v2 st tr => sRV S F v v2 st tr) rv rv2.
    Hypothesis HB : keeps D (sBad S) rv.
    Hypothesis HK : forall x st, keeps T (fun tr => sStop S x st tr) rv2.

    Lemma sim_object_loop n : forall F o o2,
      simm (sR S (FObj o o2 :: F)) (fun o' o2' st tr => sR S (FObj o' o2' :: F) st tr)
        (object_loop g pw cfg D rv n o) (object_loop g pw cfg T rv2 n o2).
    Proof.
      induction n as [|n IH]; intros F o o2; cbn [object_loop].
      { apply sim_fault. apply (so_R_RE HS). }
      sb. { apply sim_offset. }
      intros off ? it d st tr [<- HI]. revert it d st tr HI.
      match goal with |- forall it d st tr, ?P -> rel ?Q (?m _) (?m2 _) => change (simm (sR S (FObj o o2 :: F)) Q m m2) end.
      sb. { apply sim_tok; [apply (so_R_RE HS)|]. intro e. rewrite into_fallable_id. reflexivity. }
      intros tk ? it d st tr [<- HI]. revert it d st tr HI.
      match goal with |- forall it d st tr, ?P -> rel ?Q (?m _) (?m2 _) => change (simm (sR S (FObj o o2 :: F)) Q m m2) end.
      destruct tk as [| |k| | | | | | |];
        try (apply (sim_err _ _ off KObjectKeysMustBeStrings); apply (so_R_RE HS));
        try (apply (sim_err _ _ off KExpectedObjectKey); apply (so_R_RE HS)).
      - (* key *)
        sb. { apply (sim_del _ (fun ok ok2 st tr => snd ok2 = k /\ fst ok2 = o2 /\ sR S (FKey (fst ok) o2 (snd ok) k :: F) st tr)
                 off _ _ (o2, k) (EObjectKey k)); [reflexivity|].
              intros st tr HI. destruct (so_object_key HS F st tr o o2 k HI) as [H|H]; [left; exact H|right].
              destruct (fst (d_object_key D st o k)); auto. }
        intros [o' k'] [o2' k2'] it d st tr (E1 & E2 & HI). cbn [fst snd] in *. subst o2' k2'. revert it d st tr HI.
        match goal with |- forall it d st tr, ?P -> rel ?Q (?m _) (?m2 _) => change (simm (sR S (FKey o' o2 k' k :: F)) Q m m2) end.
        sb. { apply sim_offset. }
        intros off2 ? it d st tr [<- HI]. revert it d st tr HI.
        match goal with |- forall it d st tr, ?P -> rel ?Q (?m _) (?m2 _) => change (simm (sR S (FKey o' o2 k' k :: F)) Q m m2) end.
        sb. { apply sim_tok; [apply (so_R_RE HS)|]. intro e. unfold to_expected_colon. rewrite into_fallable_id. reflexivity. }
        intros tk ? it d st tr [<- HI]. revert it d st tr HI.
        match goal with |- forall it d st tr, ?P -> rel ?Q (?m _) (?m2 _) => change (simm (sR S (FKey o' o2 k' k :: F)) Q m m2) end.
        destruct tk; try (apply (sim_err _ _ off2 KExpectedColon); apply (so_R_RE HS)).
        sb. { apply sim_offset. }
        intros off3 ? it d st tr [<- HI]. revert it d st tr HI.
        match goal with |- forall it d st tr, ?P -> rel ?Q (?m _) (?m2 _) => change (simm (sR S (FKey o' o2 k' k :: F)) Q m m2) end.
        sb. { apply Hrv. }
        intros v v2.
        sb. { apply (sim_del _ (fun o'' o2'' st tr => o2'' = o2 ++ [(k, v2)] /\ sR S (FObj o'' o2'' :: F) st tr)
                off3 _ _ (o2 ++ [(k, v2)]) EObjectValue); [reflexivity|].
              intros st tr HI. destruct (so_object_value HS F st tr o' o2 k' k v v2 HI) as [H|H]; [left; exact H|right].
              destruct (fst (d_object_value D st o' k' v)); auto. }
        intros o'' o2'' it d st tr [-> HI]. revert it d st tr HI.
        match goal with |- forall it d st tr, ?P -> rel ?Q (?m _) (?m2 _) => change (simm (sR S (FObj o'' (o2 ++ [(k, v2)]) :: F)) Q m m2) end.
        sb. { apply sim_offset. }
        intros off4 ? it d st tr [<- HI]. revert it d st tr HI.
        match goal with |- forall it d st tr, ?P -> rel ?Q (?m _) (?m2 _) => change (simm (sR S (FObj o'' (o2 ++ [(k, v2)]) :: F)) Q m m2) end.
        sb. { apply sim_tok; [apply (so_R_RE HS)|]. intro e. rewrite into_fallable_id. reflexivity. }
        intros tk ? it d st tr [<- HI]. revert it d st tr HI.
        match goal with |- forall it d st tr, ?P -> rel ?Q (?m _) (?m2 _) => change (simm (sR S (FObj o'' (o2 ++ [(k, v2)]) :: F)) Q m m2) end.
        destruct tk; try (apply (sim_err _ _ off4 KExpectedCommaOrEndOfObject); apply (so_R_RE HS)).
        + apply sim_ret. auto.
        + apply IH.
      - (* end of object *)
        sb.
        { destruct (allow_trailing_commas cfg).
          - apply (sim_ret _ (fun a b st tr => a = b /\ sR S (FObj o o2 :: F) st tr)). auto.
          - eapply sim_conseq; [eapply (sim_query _ _ _ (is_nil o2))|intros ? ? H; exact H|].
            + intros st tr HI. split; [eapply (so_object_is_empty HS); exact HI|reflexivity].
            + intros a b st tr (-> & -> & H). auto. }
        intros ok ? it d st tr [<- HI]. revert it d st tr HI.
        match goal with |- forall it d st tr, ?P -> rel ?Q (?m _) (?m2 _) => change (simm (sR S (FObj o o2 :: F)) Q m m2) end.
        destruct ok; [apply sim_ret; auto|]. apply (sim_err _ _ off KIllegalTrailingComma). apply (so_R_RE HS).
    Qed.

    Lemma sim_array_loop n : forall F o o2,
      simm (sR S (FArr o o2 :: F)) (fun o' o2' st tr => sR S (FArr o' o2' :: F) st tr)
        (array_loop g pw cfg D rv n o) (array_loop g pw cfg T rv2 n o2).
    Proof.
      induction n as [|n IH]; intros F o o2; cbn [array_loop].
      { apply sim_fault. apply (so_R_RE HS). }
      sb. { apply sim_offset. }
      intros off ? it d st tr [<- HI]. revert it d st tr HI.
      match goal with |- forall it d st tr, ?P -> rel ?Q (?m _) (?m2 _) => change (simm (sR S (FArr o o2 :: F)) Q m m2) end.
      sb. { apply sim_peek. }
      intros b ? it d st tr [<- HI]. revert it d st tr HI.
      match goal with |- forall it d st tr, ?P -> rel ?Q (?m _) (?m2 _) => change (simm (sR S (FArr o o2 :: F)) Q m m2) end.
      destruct b.
      - sb.
        { destruct (allow_trailing_commas cfg).
          - apply (sim_ret _ (fun a b st tr => a = b /\ sR S (FArr o o2 :: F) st tr)). auto.
          - eapply sim_conseq; [eapply (sim_query _ _ _ (is_nil o2))|intros ? ? H; exact H|].
            + intros st tr HI. split; [eapply (so_array_is_empty HS); exact HI|reflexivity].
            + intros a b st tr (-> & -> & H). auto. }
        intros ok ? it d st tr [<- HI]. revert it d st tr HI.
        match goal with |- forall it d st tr, ?P -> rel ?Q (?m _) (?m2 _) => change (simm (sR S (FArr o o2 :: F)) Q m m2) end.
        destruct ok; [apply sim_ret; auto|]. apply (sim_err _ _ off KIllegalTrailingComma). apply (so_R_RE HS).
      - sb. { apply Hrv. }
        intros v v2.
        sb. { apply sim_offset. }
        intros off3 ? it d st tr [<- HI]. revert it d st tr HI.
        match goal with |- forall it d st tr, ?P -> rel ?Q (?m _) (?m2 _) => change (simm (sRV S (FArr o o2 :: F) v v2) Q m m2) end.
        sb. { apply (sim_del _ (fun o'' o2'' st tr => o2'' = o2 ++ [v2] /\ sR S (FArr o'' o2'' :: F) st tr)
                off3 _ _ (o2 ++ [v2]) EArrayValue); [reflexivity|].
              intros st tr HI. destruct (so_array_value HS F st tr o o2 v v2 HI) as [H|H]; [left; exact H|right].
              destruct (fst (d_array_value D st o v)); auto. }
        intros o'' o2'' it d st tr [-> HI]. revert it d st tr HI.
        match goal with |- forall it d st tr, ?P -> rel ?Q (?m _) (?m2 _) => change (simm (sR S (FArr o'' (o2 ++ [v2]) :: F)) Q m m2) end.
        sb. { apply sim_offset. }
        intros off4 ? it d st tr [<- HI]. revert it d st tr HI.
        match goal with |- forall it d st tr, ?P -> rel ?Q (?m _) (?m2 _) => change (simm (sR S (FArr o'' (o2 ++ [v2]) :: F)) Q m m2) end.
        sb. { apply sim_tok; [apply (so_R_RE HS)|]. intro e. rewrite into_fallable_id. reflexivity. }
        intros tk ? it d st tr [<- HI]. revert it d st tr HI.
        match goal with |- forall it d st tr, ?P -> rel ?Q (?m _) (?m2 _) => change (simm (sR S (FArr o'' (o2 ++ [v2]) :: F)) Q m m2) end.
        destruct tk; try (apply (sim_err _ _ off4 KExpectedCommaOrEndOfArray); apply (so_R_RE HS)).
        + apply sim_ret. auto.
        + apply IH.
    Qed.
  End Loops.

  Lemma sim_read_tokens loops fuel : forall F,
    simm (sR S F) (fun v v2 st tr => sRV S F v v2 st tr)
      (read_tokens g pw cfg D loops fuel) (read_tokens g pw cfg T loops fuel).
  Proof.
    induction fuel as [|fuel IH]; intro F; cbn [read_tokens].
    { apply sim_fault. apply (so_R_RE HS). }
    assert (HB : keeps D (sBad S) (read_tokens g pw cfg D loops fuel)) by (apply keeps_read_tokens; apply (so_bad HS)).
    assert (HK : forall x st, keeps T (fun tr => sStop S x st tr) (read_tokens g pw cfg T loops fuel))
      by (intros; apply keeps_read_tokens; apply stop_preserved).
    sb; [apply sim_offset| |unfold read_object, read_array; kpD|unfold read_object, read_array; kpD|unfold read_object, read_array; kpT|unfold read_object, read_array; kpT].
    intros off ? it d st tr [<- HI]. revert it d st tr HI.
    match goal with |- forall it d st tr, ?P -> rel ?Q (?m _) (?m2 _) => change (simm (sR S F) Q m m2) end.
    sb; [|  |unfold read_object, read_array; kpD|unfold read_object, read_array; kpD|unfold read_object, read_array; kpT|unfold read_object, read_array; kpT].
    { apply sim_tok; [apply (so_R_RE HS)|]. intro e. rewrite into_fallable_id. reflexivity. }
    intros tk ? it d st tr [<- HI]. revert it d st tr HI.
    match goal with |- forall it d st tr, ?P -> rel ?Q (?m _) (?m2 _) => change (simm (sR S F) Q m m2) end.
    destruct tk as [|b|s|x| | | | | |].
    - apply (sim_del _ _ off _ _ VNull ENull); [reflexivity|]. intros st tr. apply (so_null HS).
    - apply (sim_del _ _ off _ _ (VBoolean b) (EBoolean b)); [reflexivity|]. intros st tr. apply (so_boolean HS).
    - apply (sim_del _ _ off _ _ (VString s) (EString s)); [reflexivity|]. intros st tr. apply (so_string HS).
    - apply (sim_del _ _ off _ _ (VNumber x) (ENumber x)); [reflexivity|]. intros st tr. apply (so_number HS).
    - (* object *)
      sb; [apply sim_begin_nest; apply (so_R_RE HS)| |unfold read_object; kpD|unfold read_object; kpT].
      intros ? ?. cbn beta. apply (sim_map_err _ _ _ _ KUnclosedObject). unfold read_object.
      sb. { apply sim_offset. }
      intros off2 ? it d st tr [<- HI]. revert it d st tr HI.
      match goal with |- forall it d st tr, ?P -> rel ?Q (?m _) (?m2 _) => change (simm (sR S F) Q m m2) end.
      sb. { apply (sim_del _ (fun o o2 st tr => o2 = [] /\ sR S (FObj o o2 :: F) st tr) off2 _ _ [] EBeginObject); [reflexivity|].
            intros st tr HI. destruct (so_begin_object HS F st tr HI) as [H|H]; [left; exact H|right].
            destruct (fst (d_begin_object D st)); auto. }
      intros o o2 it d st tr [-> HI]. revert it d st tr HI.
      match goal with |- forall it d st tr, ?P -> rel ?Q (?m _) (?m2 _) => change (simm (sR S (FObj o [] :: F)) Q m m2) end.
      sb. { apply (sim_object_loop _ _ IH HB HK). }
      intros o' o2'.
      sb. { apply sim_offset. }
      intros off3 ? it d st tr [<- HI]. revert it d st tr HI.
      match goal with |- forall it d st tr, ?P -> rel ?Q (?m _) (?m2 _) => change (simm (sR S (FObj o' o2' :: F)) Q m m2) end.
      sb. { apply (sim_del _ (fun v v2 st tr => v2 = VObject o2' /\ sRV S F v v2 st tr) off3 _ _ (VObject o2') EEndObject); [reflexivity|].
            intros st tr HI. destruct (so_end_object HS F st tr o' o2' HI) as [H|H]; [left; exact H|right].
            destruct (fst (d_end_object D st o')); auto. }
      intros v v2 it d st tr [-> HI]. revert it d st tr HI.
      match goal with |- forall it d st tr, ?P -> rel ?Q (?m _) (?m2 _) => change (simm (sRV S F v (VObject o2')) Q m m2) end.
      sb. { apply sim_end_nest. }
      intros ? ?. cbn beta. apply sim_ret. auto.
    - apply (sim_err _ _ off (KUnexpected 125)). apply (so_R_RE HS).
    - (* array *)
      sb; [apply sim_begin_nest; apply (so_R_RE HS)| |unfold read_array; kpD|unfold read_array; kpT].
      intros ? ?. cbn beta. apply (sim_map_err _ _ _ _ KUnclosedArray). unfold read_array.
      sb. { apply sim_offset. }
      intros off2 ? it d st tr [<- HI]. revert it d st tr HI.
      match goal with |- forall it d st tr, ?P -> rel ?Q (?m _) (?m2 _) => change (simm (sR S F) Q m m2) end.
      sb. { apply (sim_del _ (fun o o2 st tr => o2 = [] /\ sR S (FArr o o2 :: F) st tr) off2 _ _ [] EBeginArray); [reflexivity|].
            intros st tr HI. destruct (so_begin_array HS F st tr HI) as [H|H]; [left; exact H|right].
            destruct (fst (d_begin_array D st)); auto. }
      intros o o2 it d st tr [-> HI]. revert it d st tr HI.
      match goal with |- forall it d st tr, ?P -> rel ?Q (?m _) (?m2 _) => change (simm (sR S (FArr o [] :: F)) Q m m2) end.
      sb. { apply (sim_array_loop _ _ IH HB HK). }
      intros o' o2'.
      sb. { apply (sim_del _ (fun v v2 st tr => v2 = VArray o2' /\ sRV S F v v2 st tr) off2 _ _ (VArray o2') EEndArray); [reflexivity|].
            intros st tr HI. destruct (so_end_array HS F st tr o' o2' HI) as [H|H]; [left; exact H|right].
            destruct (fst (d_end_array D st o')); auto. }
      intros v v2 it d st tr [-> HI]. revert it d st tr HI.
      match goal with |- forall it d st tr, ?P -> rel ?Q (?m _) (?m2 _) => change (simm (sRV S F v (VArray o2')) Q m m2) end.
      sb. { apply sim_end_nest. }
      intros ? ?. cbn beta. apply sim_ret. auto.
    - apply (sim_err _ _ off (KUnexpected 93)). apply (so_R_RE HS).
    - apply (sim_err _ _ off (KUnexpected 58)). apply (so_R_RE HS).
    - apply (sim_err _ _ off (KUnexpected 44)). apply (so_R_RE HS).
  Qed.

  Lemma sim_check_root v v2 :
    simm (sRV S [] v v2) (fun _ _ st tr => sRV S [] v v2 st tr) (check_root cfg D v) (check_root cfg T v2).
  Proof.
    unfold check_root. destruct (allow_all_types_at_root cfg) eqn:E; cbn [negb]; [apply sim_ret; auto|].
    sb. { eapply (sim_query _ _ _ (value_kind v2)). intros st tr HI. split; [apply (so_kind_of HS v v2 st tr E HI)|reflexivity]. }
    intros k k2 it d st tr (-> & -> & HI). revert it d st tr HI.
    match goal with |- forall it d st tr, ?P -> rel ?Q (?m _) (?m2 _) => change (simm (sRV S [] v v2) Q m m2) end.
    destruct (value_kind v2); try (apply sim_ret; auto; fail);
      (apply (sim_err _ _ 0 KPayloadsShouldBeObjectOrArray); apply (so_RV_RE HS)).
  Qed.

  Lemma sim_parse_body loops fuel :
    simm (sR S []) (fun v v2 st tr => sRV S [] v v2 st tr)
      (parse_body g pw cfg D loops fuel) (parse_body g pw cfg T loops fuel).
  Proof.
    unfold parse_body.
    sb; [apply sim_read_tokens| |apply keeps_check_root|apply keeps_check_root].
    intros v v2. sb. { apply sim_check_root. }
    intros ? ?. cbn beta. sb. { apply sim_trailing. apply (so_RV_RE HS). }
    intros ? ?. cbn beta. apply sim_ret. auto.
  Qed.

  (** The parse with [D] against the reference parse. *)
  Definition same_outcome (x : res (error (d_error D)) (d_value D) * d_st D)
    (y : res (error infallible) value * list event) : Prop :=
    match fst x, fst y with
    | Ok v, Ok v2 => sRV S [] v v2 (snd x) (snd y)
    | Err e, Err e' => e = into_fallable e' /\ sRE S (snd x) (snd y)
    | Fault f, Fault f' => f = f' /\ sRE S (snd x) (snd y)
    | _, _ => False
    end.

  Theorem sim_parse source st : sR S [] st [] ->
    let x := parse_bytes g pw cfg D source st in
    let y := parse_bytes g pw cfg T source [] in
    sBad S (snd x) \/ halted x y \/ same_outcome x y.
  Proof.
    intros HR. pose proof (sim_parse_body (Datatypes.S (length source)) (Datatypes.S (length source)) (bi_new source)
      (match recursion_limit cfg with Some n => n | None => usize_max pw end) st [] HR) as H.
    unfold parse_bytes, parse_state, rel, halted, del_of, same_outcome in *.
    destruct (parse_body g pw cfg D _ _ _) as [x s1], (parse_body g pw cfg T _ _ _) as [y s2]. cbn [fst snd] in *.
    destruct H as [H|[H|(_ & _ & H)]]; [left; exact H|right; left; exact H|right; right; exact H].
  Qed.
End Sim.
