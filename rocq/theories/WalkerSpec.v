(** A Walker constellation in motion. *)
From Coq Require Import Reals.
From Verif Require Import OrbitModel OrbitSpec.
Open Scope R_scope.

(** The point at angle [a] after the ascending node on a circle of radius [r] tilted by [incl] about the x axis. *)
Definition tilted (incl r a : R) : vec := Vec (r * cos a) (r * sin a * cos incl) (r * sin a * sin incl).

(** The part of a turn that satellite [i] of plane [p] is after its ascending node at time 0, and of its node. *)
Definition slot_phase (P S F p i : nat) : R := 2 * PI * (INR i / INR S + INR F * INR p / (INR P * INR S)).
Definition slot_node (P p : nat) : R := 2 * PI * INR p / INR P.

Definition slot_point (incl r w : R) (P S F p i : nat) (t : R) : vec :=
  rotate (slot_node P p) (tilted incl r (w * t + slot_phase P S F p i)).

(** How far a satellite at angle [x] is from its neighbour in the next plane. *)
Definition plane_gap (incl r : R) (P S F : nat) (x : R) : R :=
  distance (tilted incl r x) (rotate (2 * PI / INR P) (tilted incl r (x + 2 * PI * INR F / (INR P * INR S)))).
