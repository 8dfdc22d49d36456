(** Three kinds of error are never raised by tokenizer and parser themselves; they come from delegates only. *)
From Verif Require Import Base Utf8 StrModel ErrorModel Tokenizer Parser.

Definition own_kind {E} (k : error_kind E) : Prop :=
  match k with KPaylodTooLarge | KExpectedString | KExpectedNumber => False | _ => True end.

Definition tok_own {A} (m : tok A) : Prop := forall it, match m it with (Err e, _) => own_kind (err_kind e) | _ => True end.
Definition res_own {A} (r : res (error infallible) A) : Prop := match r with Err e => own_kind (err_kind e) | _ => True end.
Lemma own_bind {A B} (m : tok A) (k : A -> tok B) : tok_own m -> (forall a, tok_own (k a)) -> tok_own (tbind m k).
Proof. intros Hm Hk it. specialize (Hm it). unfold tbind. destruct (m it) as [[a|e|f] it']; [apply Hk|exact Hm|exact I]. Qed.
Lemma own_read : tok_own bi_read.
Proof. intro it. unfold bi_read. destruct (bi_next it) as [[x|] it']; exact I. Qed.
Lemma own_lift {A} (r : res (error infallible) A) : res_own r -> tok_own (tlift r).
Proof. intros H it. exact H. Qed.
Lemma res_add_bytes pw i n : res_own (add_bytes pw i n).
Proof. unfold add_bytes. destruct (checked_add _ _ _); exact I. Qed.
Lemma res_add_escape pw i n : res_own (add_bytes_from_escape pw i n).
Proof. unfold add_bytes_from_escape. destruct (checked_add _ _ _); exact I. Qed.
Lemma res_merge a b : res_own (merge_surrogate_pair a b).
Proof. unfold merge_surrogate_pair, bind, u32_sub. destruct (_ <=? a)%N; [|exact I]. destruct (_ <=? b)%N; exact I. Qed.
Lemma res_char c : res_own (char_from_u32_unchecked c).
Proof. unfold char_from_u32_unchecked. destruct (is_scalar c); exact I. Qed.
Lemma res_unchecked it a b : res_own (str_unchecked it a b).
Proof. unfold str_unchecked. destruct (slice _ _ _); [|exact I]. destruct (utf8_valid l); exact I. Qed.
Ltac ow := repeat match goal with
  | H : forall x, tok_own _ |- _ => apply H
  | |- tok_own (tbind _ _) => apply own_bind; [|intros ?]
  | |- tok_own (tret _) => intros ?; exact I
  | |- tok_own (terr _) => intros ?; exact I
  | |- tok_own (tfault _) => intros ?; exact I
  | |- tok_own bump => intros ?; exact I
  | |- tok_own get_iter => intros ?; exact I
  | |- tok_own bi_read => apply own_read
  | |- tok_own (tlift _) => apply own_lift; first [apply res_add_bytes|apply res_add_escape|apply res_merge|apply res_char|apply res_unchecked]
  | |- tok_own (let '(_, _) := ?p in _) => destruct p
  | |- tok_own (if ?b then _ else _) => destruct b
  | |- tok_own (match ?t with Some _ => _ | None => _ end) => destruct t
  end.
Lemma own_hex : forall n acc, tok_own (read_hex n acc).
Proof. induction n as [|n IH]; intro acc; cbn [read_hex]; ow. Qed.
Lemma own_second c : tok_own (read_second_half c).
Proof. unfold read_second_half. ow; apply own_hex. Qed.
Lemma own_escape pw i : tok_own (read_string_escape pw i).
Proof. unfold read_string_escape. ow; try apply own_hex; apply own_second. Qed.
Lemma own_string g pw start : forall fuel i, tok_own (read_string_loop g pw fuel start i).
Proof.
  induction fuel as [|fuel IH]; intro i; cbn [read_string_loop]; [ow|]. intro it. destruct (bi_next it) as [[[o b]|] it1]; [|exact I].
  cbn zeta. destruct (table_get _ _ b); [revert it1; change (tok_own (tbind (tlift (add_bytes pw i 1)) (fun i' => read_string_loop g pw fuel start i'))); ow|].
  destruct (b =? 34)%N. { revert it1. intro it1. pose proof (res_unchecked it1 (start + 1) o) as H. unfold tbind, tlift. destruct (str_unchecked _ _ _); [exact I|exact H|exact I]. }
  destruct (b =? 92)%N. { revert it1. change (tok_own (tbind (read_string_escape pw i) (fun i' => read_string_loop g pw fuel start i'))). ow. apply own_escape. }
  destruct (128 <=? b)%N.
  { generalize (skip_high it1). intro it2. pose proof (res_add_bytes pw i (N.of_nat (bi_offset it2 - o))) as H. unfold tbind, tlift.
    destruct (add_bytes pw i _) as [i'|e|f]; [|exact H|exact I]. destruct (slice _ _ _) as [run|]; [|exact I].
    destruct (utf8_valid run); [apply IH|exact I]. }
  destruct (b <=? 31)%N; exact I.
Qed.
Lemma own_int r : tok_own (read_int r). Proof. intro it. unfold read_int. destruct (int_loop _ _ _). exact I. Qed.
Lemma own_digits : tok_own read_digits. Proof. intro it. unfold read_digits. destruct (digits_loop _ _ _). exact I. Qed.
Lemma own_number st start : tok_own (read_number_from_source st start).
Proof.
  unfold read_number_from_source, read_number_int, read_number_frac, read_number_exp. ow; try apply own_digits; destruct st; ow; apply own_int.
Qed.
Lemma own_literal : forall l, tok_own (read_literal l).
Proof.
  induction l as [|c l IH]; cbn [read_literal]; [ow|]. intro it. destruct (bi_next it) as [[[o b]|] it1]; [|exact I].
  destruct (negb _); [exact I|apply IH].
Qed.
Lemma own_next g pw : tok_own (next_or_eof g pw).
Proof.
  intro it. unfold next_or_eof, read_non_ws. pose proof (own_read (skip_ws it)) as H. destruct (bi_read (skip_ws it)) as [[[o b]|[o k]|f] it1].
  - revert it1 H. intros it1 _. revert it1. change (tok_own (read_peek g pw o b)). unfold read_peek. ow; try apply own_number; try apply own_literal.
    unfold read_string_from_source. intro it2. apply own_string.
  - destruct k as [| | | | | | | | | | | | | | | | | | | | | | | |[]]; exact H.
  - exact I.
Qed.
