(** Property theorems about string information, accessors, conversions, object editing (C61-C63, C69). *)
From Verif Require Import Base Utf8 Utf8Facts StrModel ErrorModel Tokenizer Parser ValueModel DocModel NumModel Spec SpecStr SpecNum
  TokBase TokStr TokNum TokFacts Trace ParserGen ParserSound ParserComplete Sim SimInst StrSpec StrFacts StrWf StrEsc StrObt View ParseMain DocFacts
  PropTok PropEntry PropNumber PropStr PropEsc PropValue SpecWrite WriteFacts PropWrite ObjectModel.
Local Open Scope N_scope.

(** * C61: JsonStringInfo *)

(** [JsonStringInfo::new(b, n)] reads back as [b] and [n], for every length a string can have ... *)
Theorem C61_info_round_trip pw b n : n <= isize_max pw ->
  has_escapes pw (info_new pw b n) = b /\ expected_length pw (info_new pw b n) = n.
Proof. intro H. split; [apply has_escapes_info; exact H|apply expected_length_info; exact H]. Qed.

Lemma pow_bit n k : n < 2 ^ (k + 1) -> N.land n (2 ^ k) = (if n <? 2 ^ k then 0 else 2 ^ k).
Proof.
  intro H. destruct (N.ltb_spec n (2 ^ k)) as [Hn|Hn].
  - rewrite N.land_comm. apply land_pow2_small. exact Hn.
  - rewrite N.add_1_r, N.pow_succ_r' in H. replace n with ((n - 2 ^ k) + 2 ^ k) by lia. rewrite (N.add_comm (n - 2 ^ k)).
    rewrite <- lor_pow2_small by lia. rewrite N.land_lor_distr_l, N.land_diag, (N.land_comm (n - 2 ^ k)), land_pow2_small by lia. apply N.lor_0_r.
Qed.

(** ... and for longer ones the top bit of the length is taken for the flag. *)
Theorem C61_info_exactly pw b n : n <= usize_max pw ->
  has_escapes pw (info_new pw b n) = (b || (isize_max pw <? n))%bool /\
  expected_length pw (info_new pw b n) = n mod (isize_max pw + 1).
Proof.
  intro H. pose proof (isize_max_mask pw) as E1. pose proof (usize_max_mask pw) as E2.
  unfold has_escapes, expected_length, info_new. rewrite mask_pow in E1, E2. rewrite mask_pow.
  set (k := match pw with W32 => 31 | W64 => 63 end) in *.
  assert (Hk : 2 ^ k <> 0) by (subst k; destruct pw; cbn; lia).
  assert (Hn : n < 2 ^ (k + 1)) by (rewrite N.add_1_r, N.pow_succ_r'; lia).
  replace (isize_max pw + 1) with (2 ^ k) by lia.
  assert (Hu : forall x, N.land x (unescaped_bytes_mask pw) = x mod 2 ^ k).
  { intro x. rewrite <- N.land_ones. f_equal. apply umask_ones. }
  rewrite !Hu. clear Hu.
  assert (Hb : N.land n (2 ^ k) = if isize_max pw <? n then 2 ^ k else 0).
  { rewrite pow_bit by exact Hn. destruct (N.ltb_spec n (2 ^ k)), (N.ltb_spec (isize_max pw) n); try reflexivity; lia. }
  destruct b; cbn [orb].
  - split.
    + rewrite N.land_lor_distr_l, N.land_diag, Hb. destruct (isize_max pw <? n); [rewrite N.lor_diag|rewrite N.lor_0_r]; (destruct (N.eqb_spec (2 ^ k) 0); [contradiction|reflexivity]).
    + rewrite <- !N.land_ones, N.land_lor_distr_l. replace (N.land (2 ^ k) (N.ones k)) with 0; [reflexivity|].
      rewrite N.land_ones, N.mod_same by exact Hk. reflexivity.
  - split; [|reflexivity]. rewrite Hb. destruct (isize_max pw <? n); [destruct (N.eqb_spec (2 ^ k) 0); [contradiction|reflexivity]|reflexivity].
Qed.

(** [JsonStringInfo::NONE] is [new(false, 0)]; equal infos have equal flags and lengths and conversely. *)
Theorem C61_info_equality pw i j : i <= usize_max pw -> j <= usize_max pw ->
  (i = j <-> has_escapes pw i = has_escapes pw j /\ expected_length pw i = expected_length pw j).
Proof.
  intros Hi Hj. split; [intros ->; auto|]. intros [E1 E2].
  destruct (C61_info_exactly pw false i Hi) as [F1 G1]. destruct (C61_info_exactly pw false j Hj) as [F2 G2].
  cbn [info_new orb] in *. unfold info_new in *. rewrite F1, F2 in E1. rewrite G1, G2 in E2.
  pose proof (isize_max_mask pw) as Ea. pose proof (usize_max_mask pw) as Eb. rewrite mask_pow in *.
  set (k := match pw with W32 => 31 | W64 => 63 end) in *. set (m := isize_max pw) in *.
  assert (Hm : m + 1 = 2 ^ k) by lia.
  assert (Q : forall x, x <= usize_max pw -> x mod (m + 1) = if m <? x then x - (m + 1) else x).
  { intros x Hx. destruct (N.ltb_spec m x).
    - symmetry. apply (N.mod_unique x (m + 1) 1); lia.
    - apply N.mod_small. lia. }
  rewrite !Q in E2 by assumption. destruct (N.ltb_spec m i), (N.ltb_spec m j); try discriminate; lia.
Qed.

(** * C62: accessors *)
Definition some_flag {A} (o : option A) : nat := match o with Some _ => 1 | None => 0 end.

(** Exactly one of the accessors answers. *)
Theorem C62_exactly_one_accessor v :
  (some_flag (as_object v) + some_flag (as_array v) + some_flag (as_string v) + some_flag (as_number v) + some_flag (ValueModel.as_bool v) +
   (if is_null v then 1 else 0) = 1)%nat.
Proof. destruct v; reflexivity. Qed.

Lemma number_first n : number n -> exists b r, n = b :: r /\ (b = 45 \/ 48 <= b <= 57).
Proof.
  intros (m & i & f & e & Hm & Hi & _ & _ & ->).
  assert (Hi' : exists b r, i = b :: r /\ 48 <= b <= 57).
  { destruct Hi as [->|(d & r & Hd & _ & ->)]; eexists _, _; (split; [reflexivity|lia]). }
  destruct Hi' as (b & r & -> & Hb). destruct Hm as [->| ->]; cbn [app]; eexists _, _; (split; [reflexivity|]); lia.
Qed.

(** Which one, can be told from the first byte of the text that is not whitespace. *)
Theorem C62_kind_is_told_by_the_first_byte pw cfg s v : parsed_from pw cfg s v ->
  exists w b r, ws w /\ ~ ws_byte b /\ s = w ++ b :: r /\
    (as_object v <> None <-> b = 123) /\ (as_array v <> None <-> b = 91) /\ (as_string v <> None <-> b = 34) /\
    (as_number v <> None <-> b = 45 \/ 48 <= b <= 57) /\
    (ValueModel.as_bool v = Some true <-> b = 116) /\ (ValueModel.as_bool v = Some false <-> b = 102) /\ (is_null v = true <-> b = 110).
Proof.
  intro H. apply parsed_from_repr in H as (_ & t & (Ht & _) & Hr). destruct Ht as (w1 & x & w2 & Hw1 & Hx & _ & ->).
  assert (K : exists b r, x = b :: r /\ ~ ws_byte b /\
    (as_object v <> None <-> b = 123) /\ (as_array v <> None <-> b = 91) /\ (as_string v <> None <-> b = 34) /\
    (as_number v <> None <-> b = 45 \/ 48 <= b <= 57) /\
    (ValueModel.as_bool v = Some true <-> b = 116) /\ (ValueModel.as_bool v = Some false <-> b = 102) /\ (is_null v = true <-> b = 110)).
  { destruct Hx as [ | | |n Hn|raw cs Hb|w Hw|l y Hy|w Hw|l y Hy]; inversion Hr; subst; cbn [as_object as_array as_string as_number ValueModel.as_bool is_null].
    4: { apply number_first in Hn as (b & r & -> & Hb). exists b, r. split; [reflexivity|]. unfold ws_byte. repeat split; intros; try lia; try discriminate; try congruence. }
    all: eexists _, _; (split; [reflexivity|]); unfold ws_byte; repeat split; intros; try lia; try discriminate; try congruence. }
  destruct K as (b & r & -> & Hb & K). exists w1, b, (r ++ w2). split; [exact Hw1|]. split; [exact Hb|]. split; [reflexivity|]. exact K.
Qed.

(** The text of a scalar is what the accessor shows. *)
Theorem C62_scalars_show_their_text pw cfg s v : parsed_from pw cfg s v ->
  (forall n, as_number v = Some n -> exists w w', ws w /\ ws w' /\ s = w ++ jn_str n ++ w') /\
  (forall x, as_string v = Some x -> exists w w', ws w /\ ws w' /\ s = w ++ [34] ++ stored x ++ [34] ++ w' /\ is_json_form x) /\
  (forall b, ValueModel.as_bool v = Some b -> exists w w', ws w /\ ws w' /\ s = w ++ (if b then bs "true" else bs "false") ++ w') /\
  (is_null v = true -> exists w w', ws w /\ ws w' /\ s = w ++ bs "null" ++ w').
Proof.
  intro H. apply parsed_from_repr in H as (_ & t & (Ht & _) & Hr). destruct Ht as (w1 & x & w2 & Hw1 & Hx & Hw2 & ->).
  split; [|split; [|split]].
  - intros n E. destruct v; try discriminate. cbn in E. injection E as ->. inversion Hr; subst. inversion Hx; subst.
    exists w1, w2. cbn. auto.
  - intros y E. destruct v; try discriminate. cbn in E. injection E as ->. inversion Hr; subst. inversion Hx; subst.
    exists w1, w2. split; [exact Hw1|]. split; [exact Hw2|]. split; [|exact I]. cbn. rewrite <- app_assoc. reflexivity.
  - intros b E. destruct v; try discriminate. cbn in E. injection E as ->. inversion Hr; subst. exists w1, w2. inversion Hx; subst; auto.
  - intros E. destruct v; try discriminate. inversion Hr; subst. inversion Hx; subst. exists w1, w2. auto.
Qed.

Lemma ws_split : forall w z (x y : list N), ws w -> ws z -> w ++ 34 :: x = z ++ 34 :: y -> w = z /\ x = y.
Proof.
  induction w as [|b w IH]; intros [|c z] x y Hw Hz E; cbn in E.
  - injection E as E. auto.
  - injection E as <- _. inversion Hz; subst. unfold ws_byte in *. lia.
  - injection E as -> _. inversion Hw; subst. unfold ws_byte in *. lia.
  - injection E as -> E. inversion Hw; subst. inversion Hz; subst. destruct (IH z x y) as [-> ->]; auto.
Qed.
Lemma quoted_inv2 w z w' z' (a b : list N) : ws w -> ws z -> ws w' -> ws z' ->
  w ++ [34] ++ a ++ [34] ++ w' = z ++ [34] ++ b ++ [34] ++ z' -> a = b.
Proof.
  intros Hw Hz Hw' Hz' E. cbn [app] in E. apply ws_split in E as [-> E]; [|assumption|assumption].
  apply (f_equal (@rev N)) in E. rewrite !rev_app_distr in E. cbn [rev] in E. rewrite <- !app_assoc in E. cbn [app] in E.
  apply ws_split in E as [_ E]; [|apply Forall_rev; assumption|apply Forall_rev; assumption].
  apply (f_equal (@rev N)) in E. rewrite !rev_involutive in E. exact E.
Qed.

(** [as_str] answers for strings that need no decoding, with the text between the quotes. *)
Theorem C62_as_str pw cfg s v u : parsed_from pw cfg s v ->
  (value_as_str pw v = Some u <->
   exists w w', ws w /\ ws w' /\ s = w ++ [34] ++ u ++ [34] ++ w' /\ ~ In 92 u /\ as_string v <> None).
Proof.
  intro H. pose proof (parsed_obtainable _ _ (parsed_from_strings _ _ _ _ H)) as Ho.
  destruct (C62_scalars_show_their_text pw cfg s v H) as (_ & Hs & _).
  destruct v as [n|x|b|o|l|]; cbn [value_as_str as_string] in *; try (split; [discriminate|intros (w & w' & _ & _ & _ & _ & K); destruct K; reflexivity]).
  assert (Hx : obtainable pw x) by (inversion Ho; assumption).
  destruct (C23_decoding_never_panics pw x Hx) as (cs & Ed & _).
  destruct (C34_as_str pw x cs Hx Ed) as [K1 K2]. destruct (Hs x eq_refl) as (w & w' & Hw & Hw' & E & Hj). split.
  - intro Eu. rewrite Eu in K1. destruct K1 as [_ ->]. exists w, w'. split; [exact Hw|]. split; [exact Hw'|]. split; [exact E|]. split; [|discriminate].
    intro K. rewrite (K2 Hj K) in Eu. discriminate.
  - intros (z & z' & Hz & Hz' & E' & Hu & _).
    assert (stored x = u).
    { rewrite E in E'. exact (quoted_inv2 w z w' z' _ _ Hw Hz Hw' Hz' E'). }
    subst u. destruct (js_as_str pw x) as [t|]; [destruct K1 as [_ ->]; reflexivity|]. destruct K1 as [_ K1]. contradiction.
Qed.

(** [as_object_mut], [as_array_mut]: there exactly when the shared accessor answers, with the same content; storing through them
    gives the value with the new content. *)
Theorem C62_mutable_accessors v :
  match as_object v with
  | Some o => exists store, as_object_mut v = Some (o, store) /\ forall o', as_object (store o') = Some o'
  | None => as_object_mut v = None
  end /\
  match as_array v with
  | Some l => exists store, as_array_mut v = Some (l, store) /\ forall l', as_array (store l') = Some l'
  | None => as_array_mut v = None
  end.
Proof. destruct v; cbn; split; try reflexivity; eexists; split; reflexivity. Qed.

(** * C63: conversions *)

(** What goes into [Value::from] comes out of the accessor of its kind. *)
Theorem C63_from_then_accessor b o l x :
  ValueModel.as_bool (value_from_bool b) = Some b /\ as_object (value_from_object o) = Some o /\
  as_array (value_from_vec l) = Some l /\ as_string (value_from_json_string x) = Some x.
Proof. auto. Qed.

(** [Value::from(text)] is a string value with that text, for [&str] and [String] alike, and panics exactly when
    [JsonString::from] does. *)
Theorem C63_from_text pw s v : rust_str pw s -> value_from_str pw s = Ok v \/ value_from_string pw s = Ok v ->
  exists x cs, as_string v = Some x /\ built pw s x /\ js_decoded pw x = Ok cs /\ utf8_string cs = s /\
    (forall k, is_utf8 k -> (js_eq_str pw x k = Ok true <-> k = s)).
Proof.
  intros Hs Hv.
  assert (K : exists x, v = VString x /\ built pw s x).
  { destruct Hv as [Hv|Hv]; unfold value_from_str, value_from_string in Hv.
    - destruct (js_from_str pw s) as [x|[]|] eqn:E; try discriminate. injection Hv as <-. exists x. split; [reflexivity|]. split; [exact Hs|auto].
    - destruct (js_from_string pw s) as [x|[]|] eqn:E; try discriminate. injection Hv as <-. exists x. split; [reflexivity|]. split; [exact Hs|auto]. }
  destruct K as (x & -> & Hx). destruct (C31_from_keeps_text pw s x Hx) as (cs & E & Hc & Ed & _). exists x, cs.
  split; [reflexivity|]. split; [exact Hx|]. split; [exact Ed|]. split; [symmetry; exact E|]. intros k Hk.
  destruct (C25_eq_str_is_text_equality pw x cs k) as (b & -> & Hb); [right; eauto|exact Ed|exact Hk|]. rewrite E. split.
  - intro K. injection K as ->. symmetry. apply Hb. reflexivity.
  - intro K. f_equal. apply Hb. symmetry. exact K.
Qed.

Theorem C63_from_text_panics_like_json_string pw s f :
  (value_from_str pw s = Fault f <-> js_from_str pw s = Fault f) /\ (value_from_string pw s = Fault f <-> js_from_string pw s = Fault f).
Proof.
  unfold value_from_str, value_from_string. split; [destruct (js_from_str pw s) as [x|[]|g]|destruct (js_from_string pw s) as [x|[]|g]]; cbn; split; congruence.
Qed.

(** Conversions from [bool] agree with parsing. *)
Theorem C63_from_bool_is_parsed pw (b : bool) cfg : allow_all_types_at_root cfg = true ->
  value_from_json_with_config pw (if b then bs "true" else bs "false") cfg = Ok (value_from_bool b).
Proof. destruct cfg as [tc [n|] r]; cbn; intros ->; destruct b, pw; vm_compute; reflexivity. Qed.

(** [Object::from_iter] keeps all entries in order, duplicates included, and its [get] finds the first with the key. *)
Theorem C63_from_iter pw (l : list (json_string * value)) key : Forall (fun e : json_string * value => obtainable pw (fst e)) l -> is_utf8 key ->
  object_len (object_from_iter (map (fun e : json_string * value => entry_new (fst e) (snd e)) l)) = length l /\
  (forall i, nth_error (object_from_iter (map (fun e : json_string * value => entry_new (fst e) (snd e)) l)) i = nth_error l i) /\
  exists r, object_get pw (object_from_iter (map (fun e : json_string * value => entry_new (fst e) (snd e)) l)) key = Ok r /\
    match r with
    | Some v => exists pre k post, l = pre ++ (k, v) :: post /\ key_is pw key k /\ Forall (fun e => ~ key_is pw key (fst e)) pre
    | None => Forall (fun e => ~ key_is pw key (fst e)) l
    end.
Proof.
  intros Hl Hk. assert (E : map (fun e : json_string * value => entry_new (fst e) (snd e)) l = l).
  { unfold entry_new. erewrite map_ext; [apply map_id|]. intros []. reflexivity. }
  rewrite E. split; [reflexivity|]. split; [reflexivity|]. destruct (C40_get pw l key Hl Hk) as (r & Er & K). exists r. split; [exact Er|]. exact K.
Qed.

(** * C69: editing objects *)

(** [get] on two runs of entries. *)
Lemma object_get_app pw a b key : object_get pw (a ++ b) key =
  match object_get pw a key with Ok None => object_get pw b key | r => r end.
Proof.
  induction a as [|[k v] a IH]; [reflexivity|]. cbn [app object_get]. destruct (js_eq_str pw k key) as [[]|[]|f]; cbn [bind]; [reflexivity| |reflexivity].
  exact IH.
Qed.

Definition found {A} (r : option A) (d : option A) : option A := match r with Some x => Some x | None => d end.

(** A pushed entry is found exactly by its key and only if no earlier entry has it; nothing else changes. *)
Theorem C69_push pw o k v key : keys_obtainable pw o -> obtainable pw k -> is_utf8 key ->
  exists r d, object_get pw o key = Ok r /\ object_get pw (object_push o (k, v)) key = Ok (found r d) /\
    (d = Some v /\ key_is pw key k \/ d = None /\ ~ key_is pw key k).
Proof.
  intros Ho Hk Hs. destruct (C40_get pw o key Ho Hs) as (r & Er & _). destruct (key_test pw k key Hk Hs) as (b & Eb & Hb).
  exists r, (if b then Some v else None). split; [exact Er|]. unfold object_push. rewrite object_get_app, Er. split.
  - destruct r; [reflexivity|]. cbn [object_get]. rewrite Eb. destruct b; reflexivity.
  - destruct b; [left; split; [reflexivity|apply Hb; reflexivity]|right; split; [reflexivity|]]. intro K. apply Hb in K. discriminate.
Qed.

(** An entry inserted in front hides later entries with its key. *)
Theorem C69_insert_front pw o k v key : keys_obtainable pw o -> obtainable pw k -> is_utf8 key ->
  exists o', object_insert o 0 (k, v) = Ok o' /\
  (key_is pw key k -> object_get pw o' key = Ok (Some v)) /\ (~ key_is pw key k -> object_get pw o' key = object_get pw o key).
Proof.
  intros Ho Hk Hs. exists ((k, v) :: o). split; [reflexivity|]. cbn [object_get]. destruct (key_test pw k key Hk Hs) as (b & -> & Hb). split; intro K.
  - rewrite (proj2 Hb K). reflexivity.
  - destruct b; [destruct K; apply Hb; reflexivity|reflexivity].
Qed.

(** Inserting anywhere and removing again gives the object back. *)
Theorem C69_insert_remove o i e :
  if Nat.leb i (object_len o) then exists o', object_insert o i e = Ok o' /\ object_remove o' i = Ok (e, o) /\ object_len o' = S (object_len o)
  else exists f, object_insert o i e = Fault f.
Proof.
  unfold object_insert, object_len. destruct (Nat.leb_spec i (length o)) as [H|H]; [|eauto]. eexists. split; [reflexivity|].
  assert (Hf : length (firstn i o) = i) by (rewrite firstn_length; lia). split.
  - unfold object_remove. rewrite nth_error_app2 by lia. rewrite Hf, Nat.sub_diag. cbn [nth_error]. do 2 f_equal.
    rewrite firstn_app, Hf, Nat.sub_diag, firstn_all2 by lia. cbn [firstn]. rewrite app_nil_r.
    rewrite skipn_app, Hf, (skipn_all2 (firstn i o)) by lia. replace (S i - i)%nat with 1%nat by lia. cbn [skipn app]. apply firstn_skipn.
  - rewrite app_length. cbn [length]. rewrite Hf, skipn_length. lia.
Qed.

(** Removing the entry [get] finds uncovers the next one with that key, and leaves the other keys alone. *)
Theorem C69_remove_uncovers pw o key pre k v post : keys_obtainable pw o -> is_utf8 key -> first_entry pw o key pre k v post ->
  exists o', object_remove o (length pre) = Ok ((k, v), o') /\ o' = pre ++ post /\ object_get pw o' key = object_get pw post key /\
  forall key', is_utf8 key' -> key' <> key -> object_get pw o' key' = object_get pw o key'.
Proof.
  intros Ho Hs (-> & Hk & Hp). apply Forall_app in Ho as [Ho1 Ho2]. inversion Ho2 as [|? ? Hok Ho3]; subst. exists (pre ++ post). split; [|split; [reflexivity|split]].
  - unfold object_remove. rewrite nth_error_app2, Nat.sub_diag by lia. cbn [nth_error]. do 2 f_equal.
    rewrite firstn_app, firstn_all, Nat.sub_diag. cbn [firstn]. rewrite app_nil_r. f_equal. rewrite skipn_app, skipn_all2 by lia.
    replace (S (length pre) - length pre)%nat with 1%nat by lia. reflexivity.
  - rewrite object_get_app. destruct (C40_get pw pre key Ho1 Hs) as ([w|] & -> & K); [|reflexivity].
    destruct K as (p1 & k1 & p2 & -> & Hk1 & _). apply Forall_app in Hp as [_ Hp]. inversion Hp; subst. cbn [fst] in *. contradiction.
  - intros key' Hs' Hne. rewrite !object_get_app. destruct (object_get pw pre key') as [[w|]|[]|]; try reflexivity. cbn [object_get].
    destruct (key_test pw k key' Hok Hs') as (b & -> & Hb). destruct b; [|reflexivity]. exfalso. destruct Hk as (cs & E1 & E2).
    destruct (proj1 Hb eq_refl) as (ds & E3 & E4). congruence.
Qed.

(** [retain(|e| e.key != key)] removes exactly the entries with that key, in order. *)
Theorem C69_retain pw o key : keys_obtainable pw o -> is_utf8 key ->
  exists o', object_retain_not pw o key = Ok o' /\ (forall e, In e o' <-> In e o /\ ~ key_is pw key (fst e)) /\
    object_get pw o' key = Ok None /\ (forall key', is_utf8 key' -> key' <> key -> object_get pw o' key' = object_get pw o key').
Proof.
  intros Ho Hs. induction Ho as [|[k v] o Hk Ho IH].
  - exists []. cbn. repeat split; tauto.
  - destruct IH as (o' & E & H1 & H2 & H3). cbn [fst] in Hk. destruct (key_test pw k key Hk Hs) as (b & Eb & Hb). cbn [object_retain_not]. rewrite Eb, E. cbn [bind].
    eexists. split; [reflexivity|]. destruct b.
    + assert (Hkk : key_is pw key k) by (apply Hb; reflexivity). split; [|split; [exact H2|]].
      * intro e. rewrite H1. cbn [In]. split; [tauto|]. intros [[<-|K] Kn]; [contradiction|auto].
      * intros key' Hs' Hne. rewrite H3 by assumption. cbn [object_get]. destruct (key_test pw k key' Hk Hs') as (b & -> & Hb'). destruct b; [|reflexivity].
        exfalso. destruct Hkk as (cs & E1 & E2). destruct (proj1 Hb' eq_refl) as (ds & E3 & E4). congruence.
    + assert (Hkk : ~ key_is pw key k) by (intro K; apply Hb in K; discriminate). split; [|split].
      * intro e. cbn [In]. rewrite H1. split; [intros [<-|K]; [auto|tauto]|tauto].
      * cbn [object_get]. rewrite Eb. exact H2.
      * intros key' Hs' Hne. cbn [object_get]. destruct (js_eq_str pw k key') as [[]|[]|f]; cbn [bind]; try reflexivity. apply H3; assumption.
Qed.

(** * Concrete cases *)
Example data_sample : parsed_from W64 config_default (bs " ""ab"" ") (match value_from_json W64 (bs " ""ab"" ") with Ok v => v | _ => VNull end) /\
  (match value_from_json W64 (bs " ""ab"" ") with Ok v => value_as_str W64 v | _ => None end) = Some (bs "ab") /\
  (match value_from_json W64 (bs " ""a\nb"" ") with Ok v => value_as_str W64 v | _ => None end) = None.
Proof. split; [|split; vm_compute; reflexivity]. right. split; [apply utf8_checked; [reflexivity|vm_compute; discriminate]|vm_compute; reflexivity]. Qed.

Example info_sample : has_escapes W32 (info_new W32 true 12) = true /\ expected_length W32 (info_new W32 true 12) = 12 /\
  has_escapes W32 (info_new W32 false 0x80000001) = true /\ expected_length W32 (info_new W32 false 0x80000001) = 1.
Proof. vm_compute. auto. Qed.

(** An object with a duplicate key, edited. *)
Definition sample_object : object :=
  [(sample_string (bs "a"), VNull); (sample_string (bs "b"), VBoolean true); (sample_string (bs "a"), VBoolean false)].
Example object_sample : keys_obtainable W64 sample_object /\
  object_get W64 sample_object (bs "a") = Ok (Some VNull) /\
  first_entry W64 sample_object (bs "a") [] (sample_string (bs "a")) VNull (tl sample_object) /\
  object_get W64 (object_push sample_object (sample_string (bs "c"), VNull)) (bs "c") = Ok (Some VNull) /\
  (exists o', object_retain_not W64 sample_object (bs "a") = Ok o' /\ object_len o' = 1%nat).
Proof.
  assert (K : forall s, utf8_valid s = true -> N.of_nat (length s) <= isize_max W64 ->
    js_from_str W64 s = Ok (sample_string s) -> obtainable W64 (sample_string s)).
  { intros s H1 H2 H3. right. exists s. split; [apply utf8_checked; assumption|left; exact H3]. }
  split; [|split; [vm_compute; reflexivity|split; [|split; [vm_compute; reflexivity|]]]].
  - unfold keys_obtainable, sample_object.
    repeat (apply Forall_cons; [cbn [fst]; apply K; [vm_compute; reflexivity|vm_compute; discriminate|vm_compute; reflexivity]|]). apply Forall_nil.
  - split; [reflexivity|]. split; [|constructor]. exists (bs "a"). split; vm_compute; reflexivity.
  - eexists. split; [vm_compute; reflexivity|reflexivity].
Qed.
