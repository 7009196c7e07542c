(** The constellation seen as the record of what was added. *)
From Coq Require Import Bool List Arith ZArith QArith.
Import ListNotations.
Open Scope nat_scope.

(** Device added at slot (p,i) by a history, if any. *)
Fixpoint added_at (adds : list (nat * nat * nat)) (p i : nat) : option nat :=
  match adds with
  | [] => None
  | (p', i', d) :: r => if (p =? p') && (i =? i') then Some d else added_at r p i
  end.

(** All slots, plane after plane. *)
Definition slots (P S : nat) : list (nat * nat) :=
  flat_map (fun p => map (fun i => (p, i)) (seq 0 S)) (seq 0 P).

(** The devices present, in slot order. *)
Definition listing (P S : nat) (adds : list (nat * nat * nat)) : list nat :=
  flat_map (fun s => match added_at adds (fst s) (snd s) with Some d => [d] | None => [] end) (slots P S).

(** A history the grid has room for: slots in range and pairwise different. *)
Definition slot_of (a : nat * nat * nat) : nat * nat := fst a.
Definition dev_of (a : nat * nat * nat) : nat := snd a.
Definition admissible (P S : nat) (adds : list (nat * nat * nat)) : Prop :=
  NoDup (map slot_of adds) /\
  Forall (fun a => fst (slot_of a) < P /\ snd (slot_of a) < S) adds.

(** Squared distance of two points. *)
Definition apart (a b : Q * Q * Q) : Q :=
  let '(ax, ay, az) := a in
  let '(bx, by_, bz) := b in
  ((ax - bx) ^ 2 + (ay - by_) ^ 2 + (az - bz) ^ 2)%Q.
