(** What is asked of the C library for Earth-fixed positions. *)
From Coq Require Import Reals Bool.
From Flocq Require Import Core BinarySingleNaN.
From Verif Require Import Base OrbitModel OrbitSpec DoubleModel DoubleSpec ElevationDoubleSpec OrbitDoubleModel OrbitDoubleSpec.
Open Scope R_scope.

(** Nothing is asked of the arc sine outside its domain.  The arc tangent may be anything of a polar angle of the origin. *)
Record fixed_library (dasin : double -> double) (datan2 : double -> double -> double) (deg rad dsphere : double) : Prop := {
  fl_asin : forall x, is_finite x = true -> Rabs (real_of x) <= 1 -> is_finite (dasin x) = true /\ Rabs (real_of (dasin x) - asin (real_of x)) <= tight;
  fl_atan2 : forall y x, is_finite y = true -> is_finite x = true ->
    exists a k, Rabs a <= PI /\ 0 <= k /\ real_of x = k * cos a /\ real_of y = k * sin a /\ is_finite (datan2 y x) = true /\ Rabs (real_of (datan2 y x) - a) <= tight;
  fl_deg : is_finite deg = true /\ Rabs (real_of deg - 180 / PI) <= 1 / 10 ^ 14;
  fl_rad : is_finite rad = true /\ Rabs (real_of rad - PI / 180) <= 1 / 10 ^ 17;
  fl_sphere : is_finite dsphere = true /\ 6300000 <= real_of dsphere <= 6400000
}.

(** Each coordinate is right to [e]. *)
Definition right_to (e : R) (v : dvec) (w : vec) : Prop :=
  (is_finite (dvx v) = true /\ Rabs (real_of (dvx v) - vx w) <= e) /\ (is_finite (dvy v) = true /\ Rabs (real_of (dvy v) - vy w) <= e) /\
  (is_finite (dvz v) = true /\ Rabs (real_of (dvz v) - vz w) <= e).
(** Coordinates of up to 60000 km, three thousand kilometres and more from the centre of the Earth. *)
Definition plain (v : dvec) : Prop := inside (6 * 10 ^ 7) v /\ 10 ^ 13 <= dot (vec_of v) (vec_of v).
(** The motion on the circle as seen from the Earth, which has turned since; at the height that the sphere of radius [rs] gives. *)
Definition earth_motion (rs : R) (o : orbit) (t : R) : vec :=
  scale ((rs + (orbit_radius o - earth_radius)) / orbit_radius o) (rotate (- (earth_rotation * t)) (circular_motion o (mean_motion (orbit_radius o)) t)).
