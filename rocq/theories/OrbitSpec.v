(** What positions, elevations and visibility should be. *)
From Coq Require Import Reals.
From Verif Require Import OrbitModel.
Open Scope R_scope.

Definition vadd (a b : vec) : vec := Vec (vx a + vx b) (vy a + vy b) (vz a + vz b).
Definition scale (k : R) (a : vec) : vec := Vec (k * vx a) (k * vy a) (k * vz a).

(** The plane of an orbit: direction of the ascending node, direction a quarter of a turn ahead, and normal. *)
Definition node_dir (o : orbit) : vec := Vec (cos (ascending_node o)) (sin (ascending_node o)) 0.
Definition ahead_dir (o : orbit) : vec :=
  Vec (- (cos (inclination o) * sin (ascending_node o))) (cos (inclination o) * cos (ascending_node o)) (sin (inclination o)).
Definition normal_dir (o : orbit) : vec :=
  Vec (sin (inclination o) * sin (ascending_node o)) (- (sin (inclination o) * cos (ascending_node o))) (cos (inclination o)).

(** Uniform circular motion with angular speed [w], starting [orbit_phase] after the ascending node. *)
Definition circular_motion (o : orbit) (w t : R) : vec :=
  let a := w * t + orbit_phase o in
  scale (orbit_radius o) (vadd (scale (cos a) (node_dir o)) (scale (sin a) (ahead_dir o))).

(** Rotation about the polar axis. *)
Definition rotate (a : R) (v : vec) : vec :=
  Vec (vx v * cos a - vy v * sin a) (vx v * sin a + vy v * cos a) (vz v).

(** Every point of the segment is at least [r] from the centre. *)
Definition segment_clear (r : R) (a b : vec) : Prop :=
  forall s, 0 <= s <= 1 -> r <= norm (vadd (scale (1 - s) a) (scale s b)).

(** The satellite is straight above the ground point: farther out on the same ray. *)
Definition straight_above (sat ground : vec) : Prop := exists k, 0 < k /\ vsub sat ground = scale k ground.
Definition straight_below (sat ground : vec) : Prop := exists k, k < 0 /\ vsub sat ground = scale k ground.
Definition in_horizon_plane (sat ground : vec) : Prop := dot ground (vsub sat ground) = 0.

(** The point at this latitude, longitude and distance from the centre. *)
Definition spherical (lat lon radius : R) : vec :=
  Vec (radius * cos lat * cos lon) (radius * cos lat * sin lon) (radius * sin lat).
