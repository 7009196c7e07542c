(** Satellites in sight, from their orbits, in double precision. *)
From Coq Require Import Reals Bool List.
From Flocq Require Import Core BinarySingleNaN.
From Verif Require Import Base OrbitModel DoubleModel DoubleSpec ElevationDoubleSpec ConstellationModel.
Open Scope R_scope.

(** A place on Earth. *)
Definition on_ground (ground : dvec) : Prop :=
  is_finite (dvx ground) = true /\ is_finite (dvy ground) = true /\ is_finite (dvz ground) = true /\ 10 ^ 6 <= norm (vec_of ground) <= 64 * 10 ^ 5.
(** A tenth of a minute of arc. *)
Definition fine_angle : R := 3 / 10 ^ 5.
(** Of the devices of a constellation that are at the places [at_], none is nearer than [d] by more than [e]. *)
Definition nearest_to (e : R) (c : constellation) (at_ : dev -> vec) (ground : vec) (d : dev) : Prop :=
  In (Some d) (concat (con_grid c)) /\ forall d', In (Some d') (concat (con_grid c)) -> distance (at_ d) ground <= distance (at_ d') ground + e.
