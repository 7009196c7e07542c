(** The point at geodetic latitude [phi], longitude [lambda] and height [h] over the WGS84 ellipsoid. *)
From Coq Require Import Reals.
From Verif Require Import OrbitModel OrbitProps.
Open Scope R_scope.

Definition at_height (phi lambda h : R) : vec :=
  Vec ((prime_vertical phi + h) * cos phi * cos lambda) ((prime_vertical phi + h) * cos phi * sin lambda) ((prime_vertical phi * (1 - e2) + h) * sin phi).
