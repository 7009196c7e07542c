(** Earth-fixed positions of satellites in double precision (circular-orbit.cc:187-205).

    The functions of the C library and the factors between degrees and radians are variables, and so is the radius ns-3 uses for its
    sphere, [dsphere].  On the sphere the eccentricity is zero and ns-3's radius of curvature is that radius. *)
From Coq Require Import ZArith Bool.
From Flocq Require Import Core BinarySingleNaN.
From Verif Require Import Base DoubleModel ElevationDoubleModel OrbitDoubleModel.
Open Scope Z_scope.

Section Library.
Variables (dasin dsin dcos dhalf : double -> double) (datan2 : double -> double -> double) (twopi dpi deg rad dsphere : double).

(** planet.h:69-70: 6371.009 km in metres, and radians per second. *)
Definition d_earth_radius : double := dmul (ddiv (dint 6371009) (dint 1000)) (dint 1000).
Definition d_earth_rotation : double := ddiv (dint 7292115922) (dint (10 ^ 14)).

(** GeographicToCartesianCoordinates of ns-3, for the sphere; angles in degrees. *)
Definition d_to_cartesian (latitude longitude altitude : double) : dvec :=
  let lat := dmul rad latitude in
  let lon := dmul rad longitude in
  let r := dadd dsphere altitude in
  mkDvec (dmul (dmul r (dcos lat)) (dcos lon)) (dmul (dmul r (dcos lat)) (dsin lon)) (dmul r (dsin lat)).

(** circular-orbit.cc:192-204, from the position as to the stars *)
Definition d_fixed (raw : dvec) (t : double) : dvec :=
  let radius := d_length raw in
  let latitude := dasin (ddiv (dvz raw) radius) in
  let prime_meridian_ascension := dadd (dint 0) (dmul t d_earth_rotation) in
  let sat_ascension := datan2 (dvy raw) (dvx raw) in
  d_to_cartesian (dmul latitude deg) (dmul (dsub sat_ascension prime_meridian_ascension) deg) (dsub radius d_earth_radius).

(** circular-orbit.cc:173-205; [t] is the time in seconds *)
Definition d_position (o : dorbit) (t : double) : result dvec :=
  do raw <- d_inertial dsin dcos dhalf datan2 twopi dpi o t ;
  Ok (d_fixed raw t).
End Library.
