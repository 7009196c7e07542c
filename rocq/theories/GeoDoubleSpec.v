(** What is asked of the C library for the conversion of positions, and of the position. *)
From Coq Require Import Reals Bool.
From Flocq Require Import Core BinarySingleNaN.
From Verif Require Import Base OrbitModel GeodeticSpec DoubleModel DoubleSpec.
Open Scope R_scope.

(** The functions err by at most [10^-12], four thousand times what they should.  The arc tangent is asked nothing where its sign depends on
    the sign of a zero. *)
Definition slack : R := 1 / 10 ^ 12.
Record library (dsin dcos : double -> double) (datan2 : double -> double -> double) (deg : double) : Prop := {
  lib_sin : forall x, is_finite x = true -> Rabs (real_of x) <= 4 -> is_finite (dsin x) = true /\ Rabs (real_of (dsin x) - sin (real_of x)) <= slack;
  lib_cos : forall x, is_finite x = true -> Rabs (real_of x) <= 4 -> is_finite (dcos x) = true /\ Rabs (real_of (dcos x) - cos (real_of x)) <= slack;
  lib_atan2 : forall y x, is_finite y = true -> is_finite x = true -> 0 < real_of x \/ real_of y <> 0 ->
    is_finite (datan2 y x) = true /\ Rabs (real_of (datan2 y x) - atan2 (real_of y) (real_of x)) <= slack;
  lib_deg : is_finite deg = true /\ Rabs (real_of deg - 180 / PI) <= 1 / 10 ^ 9
}.

(** The doubles of a position are those of a point with these coordinates. *)
Definition stands_at (pos : dvec) (phi lambda h : R) : Prop :=
  stands_for (dvx pos) (vx (at_height phi lambda h)) /\ stands_for (dvy pos) (vy (at_height phi lambda h)) /\ stands_for (dvz pos) (vz (at_height phi lambda h)).
