(** What is asked of the C library for elevations, and of the positions. *)
From Coq Require Import Reals Bool.
From Flocq Require Import Core BinarySingleNaN.
From Verif Require Import Base OrbitModel DoubleModel DoubleSpec.
Open Scope R_scope.

(** The arc sine errs by at most [10^-12], and is not a number outside its domain. *)
Record asin_library (dasin : double -> double) : Prop := {
  asin_inside : forall x, is_finite x = true -> Rabs (real_of x) <= 1 -> is_finite (dasin x) = true /\ Rabs (real_of (dasin x) - asin (real_of x)) <= 1 / 10 ^ 12;
  asin_outside : forall x, is_finite x = true -> 1 < Rabs (real_of x) -> is_nan (dasin x) = true
}.

Definition vec_of (v : dvec) : vec := Vec (real_of (dvx v)) (real_of (dvy v)) (real_of (dvz v)).
(** A station and a satellite up to 100000 km from the centre of the Earth, a thousand km and more the one, a km and more from each other. *)
Definition apart_enough (sat ground : dvec) : Prop :=
  inside (10 ^ 8) sat /\ inside (10 ^ 8) ground /\ 10 ^ 6 <= norm (vec_of ground) /\ 10 ^ 3 <= norm (vsub (vec_of sat) (vec_of ground)).
(** An angle to the nearest micro-radian. *)
Definition micro : R := 1 / 10 ^ 6.
