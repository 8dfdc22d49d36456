(** Property theorem C95: one value per line (JSON Lines / NDJSON). *)
From Verif Require Import Base Utf8 StrModel ErrorModel Parser ValueModel Spec View SpecWrite StrObt PropNumber PropEsc PropWrite PropText.
Local Open Scope N_scope.

(** What reading line by line gives (Rust's [str::lines], [BufRead::lines]): the pieces between line feeds, without
    a carriage return at their end; no empty last piece. *)
Definition strip_cr (l : list N) : list N :=
  match rev l with b :: r => if b =? 13 then rev r else l | [] => [] end.
Fixpoint read_lines (line s : list N) : list (list N) :=
  match s with
  | [] => match line with [] => [] | _ => [line] end
  | b :: r => if b =? 10 then strip_cr line :: read_lines [] r else read_lines (line ++ [b]) r
  end.
Definition lines (s : list N) : list (list N) := read_lines [] s.

Example lines_sample : lines (bs "a" ++ [10] ++ bs "b" ++ [13; 10; 10] ++ bs "c") = [bs "a"; bs "b"; []; bs "c"] /\ lines (bs "a" ++ [10]) = [bs "a"].
Proof. split; reflexivity. Qed.

Definition plain_line (u : list N) : Prop := Forall (fun b => 32 <= b) u.

Lemma read_lines_plain u : plain_line u -> forall line r, read_lines line (u ++ r) = read_lines (line ++ u) r.
Proof.
  induction 1 as [|b u Hb Hu IH]; intros line r; [rewrite app_nil_r; reflexivity|].
  cbn [app read_lines].
  destruct (N.eqb_spec b 10) as [->|_]; [lia|]. rewrite IH, <- app_assoc. reflexivity.
Qed.

Lemma strip_cr_plain u : plain_line u -> strip_cr u = u.
Proof.
  intro H. unfold strip_cr. rewrite <- (rev_involutive u) at 2. apply Forall_rev in H. destruct (rev u) as [|b r] eqn:E; [reflexivity|]. inversion H as [|? ? Hb _]; subst.
  destruct (N.eqb_spec b 13); [lia|]. rewrite <- E. symmetry. apply rev_involutive.
Qed.

Lemma lines_plain e us : e = [10] \/ e = [13; 10] -> Forall plain_line us -> lines (List.concat (map (fun u => u ++ e) us)) = us.
Proof.
  intros He H. unfold lines. induction H as [|u us Hu Hus IH]; [reflexivity|].
  cbn [map List.concat]. rewrite <- app_assoc, read_lines_plain by exact Hu. cbn [app].
  destruct He as [->| ->]; cbn [app read_lines N.eqb Pos.eqb].
  - rewrite strip_cr_plain by exact Hu. f_equal. exact IH.
  - f_equal; [|exact IH]. unfold strip_cr. rewrite rev_app_distr. cbn. apply rev_involutive.
Qed.

Lemma numbers_in (P : json_number -> Prop) v : (forall x, number_in x v -> P x) -> all_numbers P v.
Proof.
  induction v as [n|s|b|o IH|l IH|] using value_ind'; intro H; constructor.
  - apply H. constructor.
  - rewrite Forall_forall in *. intros e He. apply IH; [exact He|]. intros x Hx. apply H. destruct e as [k w]; eapply number_member; eassumption.
  - rewrite Forall_forall in *. intros e He. apply IH; [exact He|]. intros x Hx. apply H. eapply number_elem; eassumption.
Qed.
Lemma parsed_constructible pw cfg s v : parsed_from pw cfg s v -> constructible pw v.
Proof.
  intro H. split; [exact (parsed_obtainable _ _ (parsed_from_strings _ _ _ _ H))|].
  apply numbers_in. intros x Hx. destruct H as [[H E]|[H E]]; [eapply number_of_bytes|eapply number_of_str]; eassumption.
Qed.

(** Writing parsed values one per line and reading the lines back gives the values. *)
Theorem C95_one_value_per_line pw cfg e ss vs : e = [10] \/ e = [13; 10] -> Forall2 (parsed_from pw cfg) ss vs ->
  exists us, Forall2 (fun v u => to_json pw v = Ok u) vs us /\
    lines (List.concat (map (fun u => u ++ e) us)) = us /\
    Forall2 (fun u v => value_from_json_with_config pw u cfg = Ok v /\ value_from_json_bytes_with_config pw u cfg = Ok v) us vs.
Proof.
  intros He H.
  assert (K : exists us, Forall2 (fun v u => to_json pw v = Ok u) vs us /\ Forall plain_line us /\
    Forall2 (fun u v => value_from_json_with_config pw u cfg = Ok v /\ value_from_json_bytes_with_config pw u cfg = Ok v) us vs).
  { induction H as [|s v ss vs Hs H IH]; [exists []; repeat constructor|].
    destruct IH as (us & H1 & H2 & H3). destruct (C35_compact_round_trip _ _ _ _ Hs) as (u & E & _ & _ & _ & E1 & E2).
    exists (u :: us). split; [constructor; assumption|]. split; [|constructor; auto].
    constructor; [|assumption]. eapply C64_compact_is_one_line; [|exact E]. eapply parsed_constructible, Hs. }
  destruct K as (us & H1 & H2 & H3). exists us. split; [exact H1|]. split; [apply lines_plain; assumption|exact H3].
Qed.

(** Values built by the program: every text is one line as well, whatever the strings contain, and can be told apart
    by the line ends. *)
Theorem C95_built_values pw e vs us : e = [10] \/ e = [13; 10] -> Forall (constructible pw) vs ->
  Forall2 (fun v u => to_json pw v = Ok u) vs us -> lines (List.concat (map (fun u => u ++ e) us)) = us.
Proof.
  intros He Hc H. apply lines_plain; [exact He|]. induction H as [|v u vs us E H IH]; constructor.
  - inversion Hc; subst. eapply C64_compact_is_one_line; eassumption.
  - apply IH. inversion Hc; assumption.
Qed.


Example C95_sample : Forall2 (parsed_from W64 config_new) [bs "{ ""a"" : [1, ""\n""] }"; bs " null"]
    [match value_from_json_bytes W64 (bs "{ ""a"" : [1, ""\n""] }") with Ok v => v | _ => VNull end; VNull] /\
  lines (bs "{""a"":[1,""\n""]}" ++ [10] ++ bs "null" ++ [10]) = [bs "{""a"":[1,""\n""]}"; bs "null"].
Proof.
  split; [|reflexivity]. repeat apply Forall2_cons; [..|apply Forall2_nil]; left; (split; [split; [repeat constructor|vm_compute; discriminate]|vm_compute; reflexivity]).
Qed.
