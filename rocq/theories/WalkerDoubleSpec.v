(** The Walker constellation in real numbers. *)
From Coq Require Import Reals Arith.
From Flocq Require Import Core BinarySingleNaN.
From Verif Require Import Base OrbitModel DoubleModel DoubleSpec LaunchDoubleSpec.
Open Scope R_scope.

(** The orbit of the [k]-th satellite, the inclination in radians, the radius in metres. *)
Definition walker_orbit (P S F k : nat) (inc radius : R) : orbit :=
  Orbit inc (node_degrees P S k * (PI / 180)) radius (phase_degrees P S F k * (PI / 180)).
(** Inclination up to a turn, altitude up to 43000 km. *)
Definition launchable (inc alt : double) : Prop :=
  is_finite inc = true /\ Rabs (real_of inc) <= 8 /\ is_finite alt = true /\ 1 <= real_of alt <= 43 * 10 ^ 6.
