(** Distances within a plane of a constellation. *)
From Coq Require Import Reals.
From Verif Require Import Base OrbitModel.
Open Scope R_scope.

(** The chord between the slots [i] and [j] of a plane of [S], at the height that the sphere of radius [rs] gives. *)
Definition ring_chord (rs radius : R) (S i j : nat) : R := 2 * (rs + (radius - earth_radius)) * Rabs (sin (PI * (INR i - INR j) / INR S)).
(** Half a millionth of the radius. *)
Definition ring_slack (radius : R) : R := 5 / 10 ^ 7 * radius.
