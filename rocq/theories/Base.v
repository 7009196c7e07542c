(** Outcomes of C++ calls and small list tools shared by all models. *)
From Coq Require Import ZArith List Lia Bool Arith.
Import ListNotations.
Open Scope Z_scope.

(** How a call ends.  [Assert] is a failed NS_ASSERT (debug builds), [Abort] is NS_ABORT,
    [UB] is undefined behaviour (out of bounds, null dereference, invalid iterator,
    indeterminate value). *)
Inductive result (A : Type) : Type :=
| Ok (a : A)
| Assert
| Abort
| UB.
Arguments Ok {A} a.
Arguments Assert {A}.
Arguments Abort {A}.
Arguments UB {A}.

Definition rbind {A B} (m : result A) (f : A -> result B) : result B :=
  match m with
  | Ok a => f a
  | Assert => Assert
  | Abort => Abort
  | UB => UB
  end.

Definition rmap {A B} (f : A -> B) (m : result A) : result B :=
  rbind m (fun a => Ok (f a)).

(** [NS_ASSERT (b)] and [NS_ABORT_UNLESS (b)] as guards. *)
Definition assert_ (b : bool) : result unit := if b then Ok tt else Assert.
Definition abort_unless (b : bool) : result unit := if b then Ok tt else Abort.

Notation "'do' x <- m ; k" := (rbind m (fun x => k))
  (at level 200, x pattern, m at level 100, k at level 200).
Notation "m ;; k" := (rbind m (fun _ => k)) (at level 100, right associativity).

(** Unsigned 16, 32 and 64 bit truncation. *)
Definition u8 (x : Z) : Z := x mod 256.
Definition u16 (x : Z) : Z := x mod 65536.
Definition u32 (x : Z) : Z := x mod 4294967296.
Definition u64 (x : Z) : Z := x mod 18446744073709551616.

Definition byte (b : Z) : Prop := 0 <= b < 256.
Definition is_u16 (x : Z) : Prop := 0 <= x < 65536.

(** Replace the n-th element; unchanged when n is out of range. *)
Fixpoint set_nth {A} (n : nat) (x : A) (l : list A) : list A :=
  match l, n with
  | [], _ => []
  | _ :: r, O => x :: r
  | y :: r, S m => y :: set_nth m x r
  end.

Lemma set_nth_length : forall A n (x : A) l, length (set_nth n x l) = length l.
Proof. induction n; destruct l; simpl; auto. Qed.

Lemma set_nth_same : forall A n (x : A) l, (n < length l)%nat ->
  nth_error (set_nth n x l) n = Some x.
Proof.
  induction n; destruct l; simpl; intros; try lia; auto.
  apply IHn. lia.
Qed.

Lemma set_nth_other : forall A n m (x : A) l, n <> m ->
  nth_error (set_nth n x l) m = nth_error l m.
Proof.
  induction n; destruct l; destruct m; simpl; intros; try lia; auto.
Qed.

Lemma nth_error_ext : forall A (l l' : list A),
  (forall n, nth_error l n = nth_error l' n) -> l = l'.
Proof.
  induction l as [|a l IH]; destruct l' as [|b l']; intros H; auto.
  - specialize (H O). discriminate.
  - specialize (H O). discriminate.
  - f_equal; [specialize (H O); simpl in H; congruence|].
    apply IH. intros n. apply (H (S n)).
Qed.

Lemma nth_error_seq : forall n s k, (k < n)%nat -> nth_error (seq s n) k = Some (s + k)%nat.
Proof.
  induction n; simpl; intros s k H; [lia|].
  destruct k; simpl; [f_equal; lia|]. rewrite IHn by lia. f_equal; lia.
Qed.
