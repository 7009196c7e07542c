(** The elevation of satellites in double precision (circular-orbit.cc:234-254), and the two decisions it is for.

    The arc sine of the C library is a variable. *)
From Coq Require Import ZArith Bool.
From Flocq Require Import Core BinarySingleNaN.
From Verif Require Import Base DoubleModel.

Section Library.
Variable dasin : double -> double.

(** Operator - and GetLength of ns-3's vectors. *)
Definition d_minus (a b : dvec) : dvec := mkDvec (dsub (dvx a) (dvx b)) (dsub (dvy a) (dvy b)) (dsub (dvz a) (dvz b)).
Definition d_dot (a b : dvec) : double := dadd (dadd (dmul (dvx a) (dvx b)) (dmul (dvy a) (dvy b))) (dmul (dvz a) (dvz b)).
Definition d_length (a : dvec) : double := dsqrt (d_dot a a).

(** circular-orbit.cc:239-249 *)
Definition d_cos_zenith (sat ground : dvec) : double :=
  let ground2sat := d_minus sat ground in
  ddiv (d_dot ground ground2sat) (dmul (d_length ground) (d_length ground2sat)).
(** circular-orbit.cc:251-253 *)
Definition d_elevation (sat ground : dvec) : double := dasin (d_cos_zenith sat ground).
(** ground-sat-success-elevation.cc:106-108, at least the angle [m]. *)
Definition d_heard (m : double) (sat ground : dvec) : bool := dle m (d_elevation sat ground).
(** ground-node-sat-tracker-elevation.cc:121-122, above it. *)
Definition d_considered (m : double) (sat ground : dvec) : bool := dlt m (d_elevation sat ground).
End Library.
