(** Property theorems about error messages (C60). *)
From Verif Require Import Base Utf8 Utf8Facts StrModel ErrorModel Tokenizer Parser ValueModel ErrorDisplay Spec SpecNum PropExact View PropParse WriteFacts PropWrite.
Local Open Scope N_scope.

(** * Decimal numbers *)
Lemma decimal_app a b : decimal (a ++ b) = decimal a * 10 ^ N.of_nat (length b) + decimal b.
Proof.
  induction a as [|d r IH]; [cbn; lia|]. cbn [app decimal]. rewrite IH, app_length, Nat2N.inj_add, N.pow_add_r. ring.
Qed.

Lemma fmt_dec_loop_spec : forall fuel n acc, n < 5 * 2 ^ N.of_nat fuel -> fuel <> O ->
  exists d, fmt_dec_loop fuel n acc = d ++ acc /\ num_int d /\ decimal d = n.
Proof.
  induction fuel as [|fuel IH]; intros n acc Hn Hf; [congruence|]. cbn [fmt_dec_loop].
  destruct (N.eqb_spec (n / 10) 0) as [E|E].
  - assert (n < 10) by lia. exists [48 + n mod 10]. split; [reflexivity|]. split.
    + rewrite N.mod_small by assumption. destruct (N.eq_dec n 0) as [->|Hn0]; [left; reflexivity|].
      right. exists (48 + n), []. split; [lia|]. split; [constructor|reflexivity].
    + cbn [decimal length]. rewrite N.mod_small by assumption. change (10 ^ N.of_nat 0) with 1. lia.
  - assert (Hfuel : fuel <> O).
    { intros ->. change (N.of_nat 1) with 1 in Hn. change (2 ^ 1) with 2 in Hn. lia. }
    rewrite Nat2N.inj_succ, N.pow_succ_r' in Hn.
    destruct (IH (n / 10) ((48 + n mod 10) :: acc)) as (d & Ed & Hd & Vd); [|exact Hfuel|].
    { assert (n / 10 <= n / 2) by lia. lia. }
    exists (d ++ [48 + n mod 10]). rewrite Ed, <- app_assoc. split; [reflexivity|]. split.
    + assert (Hm : n mod 10 < 10) by (apply N.mod_lt; lia).
      destruct Hd as [->|(x & r & Hx & Hr & ->)].
      * cbn in Vd. lia.
      * right. exists x, (r ++ [48 + n mod 10]). split; [exact Hx|]. split; [|reflexivity].
        apply Forall_app. split; [exact Hr|]. constructor; [unfold digit; lia|constructor].
    + rewrite decimal_app, Vd. cbn [decimal length]. change (10 ^ N.of_nat 0) with 1. change (10 ^ N.of_nat 1) with 10.
      pose proof (N.div_mod n 10). lia.
Qed.

Lemma fmt_dec_spec n : num_int (fmt_dec n) /\ decimal (fmt_dec n) = n.
Proof.
  unfold fmt_dec. destruct (fmt_dec_loop_spec (S (N.size_nat n)) n []) as (d & -> & H1 & H2); [|discriminate|rewrite app_nil_r; auto].
  assert (n < 2 ^ N.of_nat (N.size_nat n)).
  { clear. destruct n as [|p]; [reflexivity|]. cbn [N.size_nat]. induction p as [p IH|p IH|]; cbn [Pos.size_nat];
      try rewrite Nat2N.inj_succ, N.pow_succ_r'; [| |reflexivity]; lia. }
  rewrite Nat2N.inj_succ, N.pow_succ_r'. lia.
Qed.

Lemma num_int_digits d : num_int d -> d <> [] /\ Forall digit d.
Proof.
  intros [->|(x & r & Hx & Hr & ->)]; (split; [discriminate|]); constructor; try assumption; try constructor; unfold digit in *; lia.
Qed.

Lemma digits_split : forall d d' x x' (r r' : list N), Forall digit d -> Forall digit d' -> ~ digit x -> ~ digit x' ->
  d ++ x :: r = d' ++ x' :: r' -> d = d' /\ x :: r = x' :: r'.
Proof.
  induction d as [|a d IH]; intros [|a' d'] x x' r r' Hd Hd' Hx Hx' E; cbn in E.
  - auto.
  - injection E as -> _. inversion Hd'; subst; contradiction.
  - injection E as -> _. inversion Hd; subst; contradiction.
  - injection E as -> E. inversion Hd; subst. inversion Hd'; subst. destruct (IH d' x x' r r') as [-> ->]; auto.
Qed.

Lemma fmt_dec_inj n m : fmt_dec n = fmt_dec m -> n = m.
Proof. intro E. destruct (fmt_dec_spec n) as [_ <-]. destruct (fmt_dec_spec m) as [_ <-]. rewrite E. reflexivity. Qed.

(** * Texts *)
Lemma pieces_string l : forall w, write_pieces string_write w l = (true, w ++ List.concat l).
Proof.
  induction l as [|x r IH]; intro w; cbn; [rewrite app_nil_r; reflexivity|]. rewrite IH, <- app_assoc. reflexivity.
Qed.
Lemma error_to_string_eq {D} (show : D -> list (list N)) e : error_to_string show e = List.concat (error_display show e).
Proof. unfold error_to_string, error_fmt. rewrite pieces_string. reflexivity. Qed.
Lemma kind_to_string_eq {D} (show : D -> list (list N)) k : kind_to_string show k = List.concat (kind_display show k).
Proof. unfold kind_to_string, kind_fmt. rewrite pieces_string. reflexivity. Qed.

(** * C60 *)

(** [err.to_string()] is "error at ", the offset in decimal, ": ", [err.kind().to_string()]. *)
Theorem C60_message_shape {D} (show : D -> list (list N)) o k : exists d,
  integer_literal d (Z.of_nat o) /\
  error_to_string show (Error o k) = bs "error at " ++ d ++ bs ": " ++ kind_to_string show k /\
  kind_to_string show k <> [].
Proof.
  exists (fmt_dec (N.of_nat o)). destruct (fmt_dec_spec (N.of_nat o)) as [H1 H2]. split; [|split].
  - replace (Z.of_nat o) with (Z.of_N (decimal (fmt_dec (N.of_nat o)))) by (rewrite H2; lia). constructor. exact H1.
  - rewrite error_to_string_eq, kind_to_string_eq. cbn [error_display List.concat err_offset err_kind]. rewrite !app_assoc. reflexivity.
  - rewrite kind_to_string_eq. destruct k; discriminate.
Qed.

(** The text of [ErrorKind::Unexpected(b)] shows the byte as a decimal number. *)
Theorem C60_unexpected_shows_a_number {D} (show : D -> list (list N)) b : exists d,
  integer_literal d (Z.of_N b) /\ kind_to_string show (KUnexpected b) = bs "unexpected character: '" ++ d ++ bs "'".
Proof.
  exists (fmt_dec b). destruct (fmt_dec_spec b) as [H1 H2]. split; [|rewrite kind_to_string_eq; reflexivity].
  rewrite <- H2 at 2. constructor. exact H1.
Qed.

(** Two kinds with one text. *)
Inductive same_message {D} (show : D -> list (list N)) : error_kind D -> error_kind D -> Prop :=
| sm_same k : same_message show k k
| sm_digits_1 : same_message show KExpectedDigit KExpectedDecimalDigit
| sm_digits_2 : same_message show KExpectedDecimalDigit KExpectedDigit
| sm_delegate d d' : List.concat (show d) = List.concat (show d') ->
    same_message show (KErrorFromDelegate d) (KErrorFromDelegate d').

Lemma kind_message_iff {D} (show : D -> list (list N)) k k' :
  List.concat (kind_display show k) = List.concat (kind_display show k') <-> same_message show k k'.
Proof.
  split.
  - destruct k as [ | | | | | | | |b| | | | | | | | | | | | | | | |d]; destruct k' as [ | | | | | | | |b'| | | | | | | | | | | | | | | |d'];
      try (intros _; constructor; fail); cbn [kind_display List.concat];
      try (try (generalize (fmt_dec b); intros ?); try (generalize (fmt_dec b'); intros ?);
           try (generalize (List.concat (show d)); intros ?); try (generalize (List.concat (show d')); intros ?);
           vm_compute; discriminate).
    + intro H. rewrite !app_nil_r in H. apply app_inv_head in H. destruct (digits_split (fmt_dec b) (fmt_dec b') 39 39 [] []) as [K _].
      * apply num_int_digits, fmt_dec_spec.
      * apply num_int_digits, fmt_dec_spec.
      * unfold digit; lia.
      * unfold digit; lia.
      * exact H.
      * apply fmt_dec_inj in K as <-. constructor.
    + intro H. apply app_inv_head in H. constructor. exact H.
  - intros [k0| | |d d' E]; try reflexivity. cbn [kind_display List.concat]. rewrite E. reflexivity.
Qed.

(** Two errors have the same text iff they have the same offset and kinds with the same text: only
    [ExpectedDigit] and [ExpectedDecimalDigit] share one (and delegate errors whose own texts are equal). *)
Theorem C60_messages_tell_errors_apart_partial {D} (show : D -> list (list N)) e e' :
  error_to_string show e = error_to_string show e' <->
  err_offset e = err_offset e' /\ same_message show (err_kind e) (err_kind e').
Proof.
  destruct e as [o k], e' as [o' k']. cbn [err_offset err_kind]. rewrite !error_to_string_eq. cbn [error_display List.concat err_offset err_kind].
  rewrite <- kind_message_iff. split.
  - intro H. apply app_inv_head in H. destruct (digits_split (fmt_dec (N.of_nat o)) (fmt_dec (N.of_nat o')) 58 58
      (32 :: List.concat (kind_display show k)) (32 :: List.concat (kind_display show k'))) as [K1 K2].
    + apply num_int_digits, fmt_dec_spec.
    + apply num_int_digits, fmt_dec_spec.
    + unfold digit; lia.
    + unfold digit; lia.
    + exact H.
    + apply fmt_dec_inj in K1. split; [lia|]. injection K2 as K2. exact K2.
  - intros [-> ->]. reflexivity.
Qed.

(** Not all kinds can be told apart by their texts. *)
Theorem C60_messages_tell_errors_apart_refuted : exists e e' : error infallible,
  e <> e' /\ error_to_string infallible_show e = error_to_string infallible_show e'.
Proof. exists (Error 0 KExpectedDigit), (Error 0 KExpectedDecimalDigit). split; [discriminate|reflexivity]. Qed.

(** Nor does a text show the character it is about: [Unexpected] shows a number and [UnclosedObject] two braces. *)
Theorem C60_messages_show_the_character_refuted :
  (exists b, 32 < b < 127 /\ kind_to_string infallible_show (KUnexpected b) <> bs "unexpected character: '" ++ [b] ++ bs "'") /\
  kind_to_string infallible_show KUnclosedObject <> bs "expected end of object ('}')".
Proof. split; [exists 47; split; [lia|vm_compute; discriminate]|vm_compute; discriminate]. Qed.

(** Without a delegate error the text is one line of printable ASCII. *)
Theorem C60_messages_are_printable (e : error infallible) :
  Forall (fun b => 32 <= b <= 126) (error_to_string infallible_show e).
Proof.
  rewrite error_to_string_eq. destruct e as [o k]. cbn [error_display List.concat err_offset err_kind].
  assert (Hd : forall n, Forall (fun b => 32 <= b <= 126) (fmt_dec n)).
  { intro n. eapply Forall_impl; [|apply num_int_digits, fmt_dec_spec]. unfold digit. cbv beta. intros. lia. }
  assert (Hb : forall x, forallb (fun b => (32 <=? b) && (b <=? 126)) x = true -> Forall (fun b => 32 <= b <= 126) x).
  { intros x H. rewrite forallb_forall in H. apply Forall_forall. intros b Hin. specialize (H b Hin). lia. }
  repeat (apply Forall_app; split); try apply Hd; try (apply Hb; reflexivity).
  destruct k; try (apply Hb; reflexivity); [|destruct d].
  cbn [kind_display List.concat]. repeat (apply Forall_app; split); try apply Hd; apply Hb; reflexivity.
Qed.

(** A destination that fails gets a prefix of the pieces and the failure is reported. *)
Theorem C60_display_to_any_writer {D} (show : D -> list (list N)) e : exists pieces,
  List.concat pieces = error_to_string show e /\
  forall W w, error_fmt show W e w = do_calls W w (map CallStr pieces).
Proof.
  exists (error_display show e). split; [symmetry; apply error_to_string_eq|]. intros W w. unfold error_fmt.
  generalize (error_display show e). intro l. revert w. induction l as [|x r IH]; intro w; [reflexivity|].
  cbn [write_pieces map do_calls do_call]. destruct (w_write_str W w x) as [[] w']; [apply IH|reflexivity].
Qed.

(** * Concrete cases *)
Example message_sample : exists e, value_from_json_bytes_with_config W64 (bs "[1,  /]") config_default = Err e /\
  error_to_string infallible_show e = bs "error at 5: unexpected character: '47'".
Proof. eexists. split; [vm_compute; reflexivity|vm_compute; reflexivity]. Qed.
Example message_sample_2 : error_to_string (fun n => [bs "oops "; fmt_dec n]) (Error 1204 (KErrorFromDelegate 70)) =
  bs "error at 1204: error from delegate: oops 70".
Proof. vm_compute; reflexivity. Qed.
