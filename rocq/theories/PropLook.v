(** Property theorems: which bytes of the input a run looks at (C90). *)
From Verif Require Import Base Utf8 StrModel ErrorModel Tokenizer Parser ValueModel DocModel LookModel LookFacts LookLocal LookEach PropDelegate PropTok PropTime.

Lemma each_in s a n n' b k p : each s a n n' b k -> In p k -> (n <= p <= n')%nat.
Proof.
  intros [H1 H2] Hp. specialize (H2 p). apply (count_occ_In Nat.eq_dec) in Hp. unfold lim in H2. bools; lia.
Qed.
(** A run that succeeds has looked at the end of the input. *)
Lemma body_at_end utf8 pw cfg D s loops fuel st dep :
  match c_parse_body utf8 pw cfg D loops fuel (PS (BI s 0) st dep) with ((Ok _, t), k) => ps_iter t = BI s (length s) /\ In (length s) k | _ => True end.
Proof.
  pose proof (few_tokens s utf8 pw cfg D loops fuel 0 st dep ltac:(lia)) as H. unfold c_parse_body, cpbind at 1.
  destruct (c_read_tokens utf8 pw cfg D loops fuel _) as [[[v|e|f] s1] k1]; [|exact I..]. destruct H as (n1 & H1 & H2 & _).
  unfold cpbind, blind. pose proof (st_root cfg D v s1) as Hr. destruct (check_root cfg D v s1) as [[[]|e|f] s2]; cbn [snd] in Hr; [|exact I..].
  unfold c_check_trailing, c_next_non_ws. rewrite Hr, H1. destruct (ws_step_each s 0 n1 ltac:(lia) ltac:(lia)) as (n2 & k2 & -> & H3 & _).
  unfold c_next. destruct (next_known s n2 ltac:(lia)) as [(b & -> & Hb)|E2]; [exact I|rewrite E2]. cbn [bi_offset].
  unfold bi_next in E2. cbn [bi_bytes bi_offset] in E2. destruct (nth_error s n2) eqn:E3; [discriminate|]. apply nth_error_None in E3.
  replace n2 with (length s) by lia. cbn [pret]. split; [reflexivity|]. rewrite !in_app_iff. right. right. left. right. left. reflexivity.
Qed.

(** What a parsing run looks at. *)
Lemma parse_looks utf8 pw cfg D s st :
  let '(r, looks) := c_parse_bytes utf8 pw cfg D s st in
  exists n, (n <= length s)%nat /\ (forall p, (p < n)%nat -> In p looks) /\ (forall p, In p looks -> (p <= n)%nat) /\ (forall p, count p looks <= 5)%nat /\
    (forall s', (forall p, In p looks -> nth_error s' p = nth_error s p) -> c_parse_bytes utf8 pw cfg D s' st = (r, looks)) /\
    (forall v, fst r = Ok v -> n = length s /\ In n looks).
Proof.
  unfold c_parse_bytes, parse_state, bi_new. set (dep := match recursion_limit cfg with Some d => d | None => _ end).
  pose proof (ploc_body s s utf8 pw cfg D ltac:(lia) (fun p Hp => eq_refl) st dep) as H1.
  pose proof (PE_body s utf8 pw cfg D (S (length s)) (S (length s)) 0 st dep ltac:(lia)) as H2.
  assert (H3 := fun s' => ploc_body s s' utf8 pw cfg D ltac:(lia) (fun p Hp => match Nat.nlt_0_r p Hp with end) st dep).
  pose proof (body_at_end utf8 pw cfg D s (S (length s)) (S (length s)) st dep) as H4.
  destruct (c_parse_body utf8 pw cfg D (S (length s)) (S (length s)) (PS (BI s 0) st dep)) as [[r t] k].
  destruct (H1 (fun p _ => eq_refl)) as (n & En & (H5 & _ & H6) & _). destruct H2 as (n' & En' & H7). rewrite En in En'. injection En' as <-.
  exists n. split; [lia|]. split; [intros p Hp; apply H6; lia|]. split; [intros p Hp; apply (each_in _ _ _ _ _ _ _ H7 Hp)|]. split; [|split].
  - intro p. destruct H7 as [_ H7]. specialize (H7 p). unfold lim in H7. destruct r; bools; lia.
  - intros s' Hs. specialize (H3 s' Hs). destruct H3 as (n' & _ & _ & ->). reflexivity.
  - intros v Hv. cbn [fst] in Hv. subst r. destruct H4 as [H4 H8]. rewrite En in H4. injection H4 as ->. auto.
Qed.

(** * C90 *)
(** [looks] is the list of the positions a run looks at, in order ([length s] stands for the end of the input).  It is complete: an input
    that has the same bytes at these positions (or ends where [s] ends, if the end is among them) has the same run: the same
    result, the same final state of the delegate, and the same looks. *)
Theorem C90_nothing_else_is_looked_at utf8 pw cfg D s st s' :
  let '(r, looks) := c_parse_bytes utf8 pw cfg D s st in
  (forall p, In p looks -> nth_error s' p = nth_error s p) ->
  parse_with utf8 pw D s' cfg st = r /\ parse_with utf8 pw D s cfg st = r /\ c_parse_bytes utf8 pw cfg D s' st = (r, looks).
Proof.
  pose proof (parse_looks utf8 pw cfg D s st) as H. rewrite !parse_with_eq, <- !parse_eq. destruct (c_parse_bytes utf8 pw cfg D s st) as [r looks].
  destruct H as (n & _ & _ & _ & _ & H & _). intro Hs. rewrite (H s' Hs). auto.
Qed.
(** No position is looked at more than five times, and no position is skipped: what has been looked at is an initial part of the input, all
    of it (with its end) if the run succeeds. *)
Theorem C90_each_position_at_most_five_times utf8 pw cfg D s st :
  let '(r, looks) := c_parse_bytes utf8 pw cfg D s st in
  (forall p, count_occ Nat.eq_dec looks p <= 5)%nat /\
  (forall p, In p looks -> p <= length s)%nat /\
  (forall p q, In q looks -> (p < q)%nat -> In p looks) /\
  (forall v, fst r = Ok v -> forall p, (p <= length s)%nat -> In p looks).
Proof.
  pose proof (parse_looks utf8 pw cfg D s st) as H. destruct (c_parse_bytes utf8 pw cfg D s st) as [r looks].
  destruct H as (n & H1 & H2 & H3 & H4 & _ & H5). split; [exact H4|]. split; [intros p Hp; specialize (H3 p Hp); lia|]. split.
  - intros p q Hq Hp. apply H2. specialize (H3 q Hq). lia.
  - intros v Hv p Hp. destruct (H5 v Hv) as [-> H6]. destruct (Nat.eq_dec p (length s)) as [->|]; [exact H6|apply H2; lia].
Qed.

(** * Tokenizer *)
Lemma tok_step_local utf8 pw s s' n c : (n <= length s)%nat -> below s s' n ->
  let '((o, it), k) := c_tok_step utf8 pw (BI s n) c in
  exists n', it = BI s n' /\ (n <= n' <= length s)%nat /\ (forall p, In p k -> (n <= p <= n')%nat) /\
    (agrees s s' k -> below s s' n' /\ c_tok_step utf8 pw (BI s' n) c = ((o, BI s' n'), k)).
Proof.
  intros Hn Hb. destruct c; unfold c_tok_step.
  - unfold c_tokenizer_next, c_next_non_ws. destruct (ws_step_each s 0 n ltac:(lia) Hn) as (n1 & k1 & E1 & H1). rewrite E1.
    pose proof (skip_ws_loc s s' n Hn) as H1'. rewrite E1 in H1'.
    unfold c_next. cbn [bi_offset]. destruct (next_known s n1 ltac:(destruct H1; lia)) as [(b & E2 & Hl)|E2]; rewrite E2.
    + pose proof (E_read_peek s utf8 pw n1 b (n1 + 1)%nat ltac:(lia)) as H2. pose proof (loc_read_peek s s' utf8 pw n1 b (n1 + 1)) as H2'. unfold loc in H2'.
      destruct (c_read_peek utf8 pw n1 b (BI s (n1 + 1))) as [[r it] k2]. destruct H2 as (n2 & -> & H2). exists n2. split; [reflexivity|]. split; [destruct H1, H2; lia|]. split.
      * intros p Hp. rewrite !in_app_iff in Hp. destruct Hp as [[Hp|[<-|[]]]|Hp].
        -- pose proof (each_in _ _ _ _ _ _ _ H1 Hp). destruct H2. lia.
        -- destruct H1, H2. lia.
        -- pose proof (each_in _ _ _ _ _ _ _ H2 Hp). destruct H1. lia.
      * intro Ha. apply agrees_app in Ha. destruct Ha as [Ha Ha2]. apply agrees_app in Ha. destruct Ha as [Ha1 Han]. apply agrees1 in Han. destruct Han as [Han _].
        destruct (H1' Ha1) as (o & Eo & [Hc1 Hc2] & ->). injection Eo as <-. cbn [bi_offset].
        destruct (next_loc s s' n1 ltac:(lia) Han) as [(b' & E3 & -> & _)|[E3 _]]; rewrite E2 in E3; [|discriminate]. injection E3 as <-.
        assert (Hb1 : below s s' (n1 + 1)).
        { intros p Hp. destruct (Nat.lt_ge_cases p n); [apply Hb; lia|]. destruct (Nat.eq_dec p n1) as [->|]; [exact Han|apply Ha1, Hc2; lia]. }
        destruct (H2' ltac:(lia) Hb1 Ha2) as (n2' & E4 & (H3 & _ & H4) & ->). injection E4 as <-. split; [|reflexivity].
        eapply below_step; [exact Hb1|exact H4|exact Ha2].
    + exists n1. split; [reflexivity|]. split; [destruct H1; lia|]. split.
      * intros p Hp. rewrite in_app_iff in Hp. destruct Hp as [Hp|[<-|[]]]; [|destruct H1; lia]. exact (each_in _ _ _ _ _ _ _ H1 Hp).
      * intro Ha. apply agrees_app in Ha. destruct Ha as [Ha1 Han]. apply agrees1 in Han. destruct Han as [Han _].
        destruct (H1' Ha1) as (o & Eo & [Hc1 Hc2] & ->). injection Eo as <-. cbn [bi_offset].
        destruct (next_loc s s' n1 ltac:(lia) Han) as [(b' & E3 & _)|[_ ->]]; [rewrite E2 in E3; discriminate|]. split; [|reflexivity].
        eapply below_step; [exact Hb|exact Hc2|exact Ha1].
  - idtac.
    pose proof (E_next_or_eof s utf8 pw 0 ltac:(lia) n Hn) as H2. pose proof (loc_next_or_eof s s' utf8 pw n Hn Hb) as H2'.
    destruct (c_next_or_eof utf8 pw (BI s n)) as [[r it] k]. destruct H2 as (n2 & -> & H2). exists n2. split; [reflexivity|]. split; [apply H2|].
    split; [intros p Hp; exact (each_in _ _ _ _ _ _ _ H2 Hp)|]. intro Ha. destruct (H2' Ha) as (n2' & E4 & (H3 & _ & H4) & ->). injection E4 as <-. split; [|reflexivity].
    eapply below_step; [exact Hb|exact H4|exact Ha].
  - unfold c_tokenizer_peek. destruct (ws_step_each s 0 n ltac:(lia) Hn) as (n1 & k1 & E1 & H1). rewrite E1.
    pose proof (skip_ws_loc s s' n Hn) as H1'. rewrite E1 in H1'. unfold c_peek, bi_peek. cbn [bi_bytes bi_offset].
    assert (Hk : forall p, In p (k1 ++ [n1]) -> (n <= p <= n1)%nat).
    { intros p Hp. rewrite in_app_iff in Hp. destruct Hp as [Hp|[<-|[]]]; [|destruct H1; lia]. exact (each_in _ _ _ _ _ _ _ H1 Hp). }
    assert (Hs : agrees s s' (k1 ++ [n1]) -> below s s' n1 /\ c_skip_ws (BI s' n) = (BI s' n1, k1) /\ nth_error s' n1 = nth_error s n1).
    { intro Ha. apply agrees_app in Ha. destruct Ha as [Ha1 Han]. apply agrees1 in Han. destruct (H1' Ha1) as (o & Eo & [Hc1 Hc2] & ->). injection Eo as <-.
      split; [|split; [reflexivity|exact (proj1 Han)]]. eapply below_step; [exact Hb|exact Hc2|exact Ha1]. }
    destruct (nth_error s n1) as [b|] eqn:E; exists n1; (split; [reflexivity|]); (split; [apply H1|]); (split; [exact Hk|]); intro Ha; destruct (Hs Ha) as (H2 & -> & H3); (split; [exact H2|]);
      cbn [bi_bytes bi_offset]; rewrite H3; reflexivity.
Qed.
(** The positions a sequence of calls looks at lie before or at the offset it arrives at. *)
Lemma tok_run_upto utf8 pw s calls : forall n, (n <= length s)%nat ->
  let '((os, it), k) := c_tok_run utf8 pw (BI s n) calls in exists n', it = BI s n' /\ (n <= n' <= length s)%nat /\ (forall p, In p k -> (p <= n')%nat).
Proof.
  induction calls as [|c calls IH]; intros n Hn; cbn [c_tok_run].
  { exists n. split; [reflexivity|]. split; [lia|]. intros p []. }
  pose proof (tok_step_local utf8 pw s s n c Hn (fun p Hp => eq_refl)) as H. destruct (c_tok_step utf8 pw (BI s n) c) as [[o it1] k1]. destruct H as (n1 & -> & H1 & H2 & _).
  specialize (IH n1 (proj2 H1)). destruct (c_tok_run utf8 pw (BI s n1) calls) as [[os it2] k2]. destruct IH as (n2 & -> & H3 & H4). exists n2. split; [reflexivity|]. split; [lia|].
  intros p Hp. apply in_app_iff in Hp. destruct Hp as [Hp|Hp]; [specialize (H2 p Hp); lia|exact (H4 p Hp)].
Qed.
Lemma tok_run_same utf8 pw s s' calls : forall n, (n <= length s)%nat -> below s s' n ->
  let '((os, it), k) := c_tok_run utf8 pw (BI s n) calls in
  agrees s s' k -> c_tok_run utf8 pw (BI s' n) calls = ((os, BI s' (bi_offset it)), k).
Proof.
  induction calls as [|c calls IH]; intros n Hn Hb; cbn [c_tok_run]; [reflexivity|].
  pose proof (tok_step_local utf8 pw s s' n c Hn Hb) as H. destruct (c_tok_step utf8 pw (BI s n) c) as [[o it1] k1]. destruct H as (n1 & -> & H1 & _ & H3).
  specialize (IH n1 (proj2 H1)). destruct (c_tok_run utf8 pw (BI s n1) calls) as [[os it2] k2]. intro Ha. apply agrees_app in Ha. destruct Ha as [Ha1 Ha2].
  destruct (H3 Ha1) as [Hb1 ->]. rewrite (IH Hb1 Ha2). reflexivity.
Qed.

(** Calls of [next], [next_or_eof] and [peek] in any order: two inputs that agree at the positions looked at give the same observations. *)
Theorem C90_tokenizer_nothing_else_is_looked_at utf8 pw s s' calls :
  let '(r, looks) := c_tok_run utf8 pw (tokenizer_new s) calls in
  (forall p, In p looks -> nth_error s' p = nth_error s p) ->
  fst (tok_run utf8 pw (tokenizer_new s') calls) = fst r /\
  tokenizer_offset (snd (tok_run utf8 pw (tokenizer_new s') calls)) = tokenizer_offset (snd r) /\
  r = tok_run utf8 pw (tokenizer_new s) calls.
Proof.
  pose proof (tok_run_same utf8 pw s s' calls 0 ltac:(lia) (fun p Hp => match Nat.nlt_0_r p Hp with end)) as H. rewrite <- !tok_run_eq.
  unfold tokenizer_new, bi_new in *. destruct (c_tok_run utf8 pw (BI s 0) calls) as [[os it] k]. intro Hs. rewrite (H Hs). auto.
Qed.
(** The tokenizer never looks further than one byte past its offset: what it has returned so far is the same on every input that begins with
    the same [offset + 1] bytes (and the bytes from there on need not even have arrived). *)
Theorem C90_one_byte_of_look_ahead utf8 pw s s' calls :
  let '(observed, it) := tok_run utf8 pw (tokenizer_new s) calls in
  firstn (S (tokenizer_offset it)) s' = firstn (S (tokenizer_offset it)) s ->
  fst (tok_run utf8 pw (tokenizer_new s') calls) = observed /\
  tokenizer_offset (snd (tok_run utf8 pw (tokenizer_new s') calls)) = tokenizer_offset it.
Proof.
  pose proof (tok_run_upto utf8 pw s calls 0 ltac:(lia)) as H1. pose proof (C90_tokenizer_nothing_else_is_looked_at utf8 pw s s' calls) as H2.
  unfold tokenizer_new, bi_new in *. rewrite <- (tok_run_eq utf8 pw calls (BI s 0)).
  destruct (c_tok_run utf8 pw (BI s 0) calls) as [[os it] k]. destruct H1 as (n & -> & H3 & H4). cbn [fst snd tokenizer_offset bi_offset] in *. intro Hf.
  destruct H2 as (H5 & H6 & _); [|auto]. intros p Hp. specialize (H4 p Hp).
  rewrite <- (firstn_skipn (S n) s'), <- (firstn_skipn (S n) s), Hf. destruct (Nat.lt_ge_cases p (length (firstn (S n) s))) as [L|L].
  - rewrite !nth_error_app1 by exact L. reflexivity.
  - (* the first input ends before [p], and so does the second *)
    assert (Ls : (length s <= p)%nat) by (rewrite firstn_length in L; lia).
    assert (Ls' : (length s' <= p)%nat) by (apply (f_equal (@length N)) in Hf; rewrite !firstn_length in Hf; lia).
    rewrite <- Hf at 1. rewrite !firstn_skipn. rewrite !(proj2 (nth_error_None _ _)) by assumption. reflexivity.
Qed.

(** * Samples *)
(** Five looks at one position happen (at the end of "1", at the comma of "[1,2]"); the first error of "[tru ..." is found before the rest is seen. *)
Example C90_samples :
  snd (c_parse_bytes true W64 config_new unit_delegate (bs "1") tt) = [0; 0; 1; 1; 1; 1; 1]%nat /\
  count_occ Nat.eq_dec (snd (c_parse_bytes true W64 config_new unit_delegate (bs "[1,2]") tt)) 2 = 5%nat /\
  snd (c_parse_bytes true W64 config_new unit_delegate (bs "[tru!,,,") tt) = [0; 0; 1; 1; 1; 1; 2; 3; 4]%nat /\
  snd (c_parse_bytes false W64 config_new unit_delegate [34; 195; 169; 34]%N tt) = [0; 0; 1; 2; 2; 3; 1; 2; 3; 4; 4]%nat.
Proof. vm_compute. repeat split. Qed.
(** The hypothesis of the first theorem met by a different input. *)
Example C90_sample_other_input :
  (forall p, In p (snd (c_parse_bytes true W64 config_new unit_delegate (bs "[tru!,,,") tt)) -> nth_error (bs "[tru!]") p = nth_error (bs "[tru!,,,") p) /\
  fst (parse_with true W64 unit_delegate (bs "[tru!]") config_new tt) = Err (Error 4 (KUnexpected 33)).
Proof.
  split; [|vm_compute; reflexivity]. intros p Hp. vm_compute in Hp. repeat (destruct Hp as [<-|Hp]; [reflexivity|]). destruct Hp.
Qed.
(** One [next] on a number: its end is seen by looking at one more byte. *)
Example C90_look_ahead_sample :
  fst (tok_run true W64 (tokenizer_new (bs "12,x")) [CallNext]) = [ObsNext (Some (Ok (TkNumber (JNum (Borrowed (bs "12")))))) 2] /\
  fst (tok_run true W64 (tokenizer_new (bs "12,")) [CallNext]) = [ObsNext (Some (Ok (TkNumber (JNum (Borrowed (bs "12")))))) 2] /\
  fst (tok_run true W64 (tokenizer_new (bs "123")) [CallNext]) = [ObsNext (Some (Ok (TkNumber (JNum (Borrowed (bs "123")))))) 3].
Proof. vm_compute. repeat split. Qed.
