(** * What the computations in double precision should give

    Distances, cumulative sums and the like in exact real numbers. *)

From Coq Require Import List Reals.
From Verif Require Import DoubleModel.
From Flocq Require Import Core BinarySingleNaN.
Import ListNotations.
Open Scope R_scope.

(** The real number a finite double stands for, and the double nearest to a real number. *)
Definition real_of (x : double) : R := @B2R 53 1024 x.
Definition stands_for (x : double) (r : R) : Prop := is_finite x = true /\ real_of x = r.
Definition nearest (r : R) : R := round radix2 (FLT_exp (-1074) 53) ZnearestE r.

(** ** Replicas: inversion of the distribution *)
Fixpoint total (q : list R) : R := match q with [] => 0 | x :: q => x + total q end.
(** The sum of the coefficients of fewer than [n] replicas. *)
Definition below (q : list R) (n : nat) : R := total (firstn n q).
(** A distribution of the number of replicas: none for zero, the others add up to one. *)
Definition distribution (q : list R) : Prop := nth 0 q 1 = 0 /\ (forall x, In x q -> 0 <= x) /\ total q = 1.
(** Its coefficients as the nearest doubles. *)
Definition as_doubles (cs : list double) (q : list R) : Prop := Forall2 (fun c x => stands_for c (nearest x)) cs q.

(** ** Distances *)
Record point := mkPoint { px : R; py : R; pz : R }.
Definition place (v : dvec) : point := mkPoint (real_of (dvx v)) (real_of (dvy v)) (real_of (dvz v)).
Definition square_of_distance (a b : point) : R := (px a - px b) ^ 2 + (py a - py b) ^ 2 + (pz a - pz b) ^ 2.
Definition apart (a b : point) : R := sqrt (square_of_distance a b).
(** Three finite coordinates of at most [m] in size. *)
Definition inside (m : R) (v : dvec) : Prop :=
  (is_finite (dvx v) = true /\ Rabs (real_of (dvx v)) <= m) /\ (is_finite (dvy v) = true /\ Rabs (real_of (dvy v)) <= m) /\
  (is_finite (dvz v) = true /\ Rabs (real_of (dvz v)) <= m).
