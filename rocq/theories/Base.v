(** Common definitions of the model: results, faults, slices.

    Modelling conventions (see DESIGN.md):
    - a byte or a char (Unicode scalar value) is an [N];
    - a [&[u8]] is a [list N]; a [str]/[String] is the [list N] of its UTF-8 bytes;
    - [Result] is [res] with constructors [Ok]/[Err]; every panic and every
      undefined-behaviour condition of an unsafe call is the third constructor [Fault]. *)
From Coq Require Export List Bool Arith NArith ZArith Lia.
From Coq Require Export ZifyBool ZifyNat ZifyN.
Export ListNotations.

Ltac Zify.zify_post_hook ::= Z.div_mod_to_equations.

(** Why a run of the Rust program would not return normally. *)
Inductive fault : Type :=
| FUnreachable        (* an [unreachable!()] was reached *)
| FIndex              (* slice or str index out of range / not on a char boundary *)
| FExpect             (* [expect]/[unwrap] on None or Err *)
| FOverflow           (* arithmetic overflow or underflow *)
| FUtf8UB             (* [from_utf8_unchecked] on bytes that are not UTF-8 *)
| FCharUB             (* [char::from_u32_unchecked] on a non scalar value *)
| FFuel.              (* the model's loop bound was too small (never happens, proved) *)

(** Rust's [Result<A, E>] extended with abnormal termination. *)
Inductive res (E A : Type) : Type :=
| Ok (a : A)
| Err (e : E)
| Fault (f : fault).
Arguments Ok {E A} a.
Arguments Err {E A} e.
Arguments Fault {E A} f.

Definition bind {E A B} (m : res E A) (k : A -> res E B) : res E B :=
  match m with Ok a => k a | Err e => Err e | Fault f => Fault f end.

Declare Scope res_scope.
Delimit Scope res_scope with res.
Notation "'let?' x := m 'in' k" := (bind m (fun x => k))
  (at level 200, x pattern, m at level 100, k at level 200, right associativity) : res_scope.
Open Scope res_scope.

(** Rust's [Infallible] as an error type: no error is possible. *)
Definition infallible := Empty_set.

(** [&s[a..b]] on byte slices: panics (here [None]) unless [a <= b <= len]. *)
Definition slice {A} (s : list A) (a b : nat) : option (list A) :=
  if (a <=? b) && (b <=? length s) then Some (firstn (b - a) (skipn a s)) else None.

(** All elements are bytes. *)
Definition is_bytes (s : list N) : Prop := Forall (fun b => (b < 256)%N) s.

(** Facts about the above. *)
Lemma slice_app {A} (x y z : list A) :
  slice (x ++ y ++ z) (length x) (length x + length y) = Some y.
Proof.
  unfold slice. rewrite !app_length.
  replace (length x <=? length x + length y) with true by (symmetry; apply Nat.leb_le; lia).
  replace (length x + length y <=? length x + (length y + length z)) with true
    by (symmetry; apply Nat.leb_le; lia).
  cbn. f_equal. replace (length x + length y - length x) with (length y) by lia.
  rewrite skipn_app, skipn_all, Nat.sub_diag. cbn.
  rewrite firstn_app, firstn_all, Nat.sub_diag. cbn. apply app_nil_r.
Qed.

Lemma is_bytes_app s t : is_bytes (s ++ t) <-> is_bytes s /\ is_bytes t.
Proof. unfold is_bytes. apply Forall_app. Qed.

Lemma is_bytes_cons b s : is_bytes (b :: s) <-> (b < 256)%N /\ is_bytes s.
Proof. unfold is_bytes. split; [intro H; inversion H; auto | intros [? ?]; constructor; auto]. Qed.

Lemma is_bytes_nil : is_bytes [].
Proof. constructor. Qed.

(** Bytes of an ASCII string literal, for examples. *)
From Coq Require Export Ascii String.
Definition bs (s : string) : list N := List.map N_of_ascii (list_ascii_of_string s).
Arguments bs s%string.
Close Scope string_scope.
Notation length := List.length.
