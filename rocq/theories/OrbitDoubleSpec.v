(** What is asked of the C library and of boost for the motion of satellites, and of the orbits. *)
From Coq Require Import Reals Bool.
From Flocq Require Import Core BinarySingleNaN.
From Verif Require Import Base OrbitModel OrbitSpec DoubleModel DoubleSpec OrbitDoubleModel.
Open Scope R_scope.

(** Functions and constants err by at most [10^-15], a few units in the last place.  The arc tangent gives a polar angle of the point, of
    those a turn apart whichever. *)
Definition tight : R := 1 / 10 ^ 15.
Record orbit_library (dsin dcos dhalf : double -> double) (datan2 : double -> double -> double) (twopi dpi : double) : Prop := {
  ol_sin : forall x, is_finite x = true -> Rabs (real_of x) <= 1000 -> is_finite (dsin x) = true /\ Rabs (real_of (dsin x) - sin (real_of x)) <= tight;
  ol_cos : forall x, is_finite x = true -> Rabs (real_of x) <= 1000 -> is_finite (dcos x) = true /\ Rabs (real_of (dcos x) - cos (real_of x)) <= tight;
  ol_half : forall x, is_finite x = true -> 1 / 10 ^ 12 <= real_of x <= 1 ->
    is_finite (dhalf x) = true /\ Rabs (real_of (dhalf x) - sqrt (real_of x)) <= tight * sqrt (real_of x);
  ol_atan2 : forall y x, is_finite y = true -> is_finite x = true -> 1 / 2 <= real_of x * real_of x + real_of y * real_of y <= 2 ->
    exists a k, Rabs a <= PI /\ 0 < k /\ real_of x = k * cos a /\ real_of y = k * sin a /\
      is_finite (datan2 y x) = true /\ Rabs (real_of (datan2 y x) - a) <= tight;
  ol_turn : is_finite twopi = true /\ Rabs (real_of twopi - 2 * PI) <= tight;
  ol_pi : is_finite dpi = true /\ Rabs (real_of dpi - PI) <= tight
}.

(** From the surface to 50000 km, angles of the plane of up to eight radians, phases of up to 150 radians. *)
Definition good_orbit (o : dorbit) : Prop :=
  (is_finite (do_inclination o) = true /\ Rabs (real_of (do_inclination o)) <= 8) /\ (is_finite (do_node o) = true /\ Rabs (real_of (do_node o)) <= 8) /\
  (is_finite (do_phase o) = true /\ Rabs (real_of (do_phase o)) <= 150) /\ (is_finite (do_radius o) = true /\ earth_radius <= real_of (do_radius o) <= 5 * 10 ^ 7).
(** Within a week. *)
Definition within_week (t : double) : Prop := is_finite t = true /\ 0 <= real_of t <= 604800.
(** The orbit meant. *)
Definition orbit_of (o : dorbit) : orbit := Orbit (real_of (do_inclination o)) (real_of (do_node o)) (real_of (do_radius o)) (real_of (do_phase o)).
(** Each coordinate is right to a millimetre. *)
Definition right_to_mm (v : dvec) (w : vec) : Prop :=
  (is_finite (dvx v) = true /\ Rabs (real_of (dvx v) - vx w) <= 1 / 1000) /\ (is_finite (dvy v) = true /\ Rabs (real_of (dvy v) - vy w) <= 1 / 1000) /\
  (is_finite (dvz v) = true /\ Rabs (real_of (dvz v) - vz w) <= 1 / 1000).
