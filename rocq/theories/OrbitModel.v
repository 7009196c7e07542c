(** Satellite positions, elevations, visibility models: model/orbit/circular-orbit-impl.cc, model/circular-orbit.cc,
    model/sat2sat-success-model.cc, model/ground-sat-success-distance.cc, model/ground-sat-success-elevation.cc and
    model/orbit/satpos/planet.h.

    Doubles are modelled by exact real numbers: rounding is not modelled.  The one NaN that the code can produce from
    reasonable inputs (the square root of a negative number in CalcMaxDistance) is modelled by [None]. *)
From Coq Require Import Reals.
From Verif Require Import Base.
Open Scope R_scope.

(** ns-3's [Vector]. *)
Record vec := Vec { vx : R; vy : R; vz : R }.
Definition vsub (a b : vec) : vec := Vec (vx a - vx b) (vy a - vy b) (vz a - vz b).
Definition dot (a b : vec) : R := vx a * vx b + vy a * vy b + vz a * vz b.
(** [Vector::GetLength] *)
Definition norm (a : vec) : R := sqrt (dot a a).
(** [CalculateDistance] *)
Definition distance (a b : vec) : R := norm (vsub b a).

(** The C library's [atan2]. *)
Definition atan2 (y x : R) : R :=
  if Rlt_dec 0 x then atan (y / x)
  else if Rlt_dec x 0 then (if Rle_dec 0 y then atan (y / x) + PI else atan (y / x) - PI)
  else if Rlt_dec 0 y then PI / 2
  else if Rlt_dec y 0 then - (PI / 2)
  else 0.

(** The C library's [round]: nearest integer, halves away from zero. *)
Definition floor (x : R) : R := IZR (Int_part x).
Definition round (x : R) : R := if Rle_dec 0 x then floor (x + 1 / 2) else - floor (- x + 1 / 2).

Definition rltb (x y : R) : bool := if Rlt_dec x y then true else false.
Definition rleb (x y : R) : bool := if Rle_dec x y then true else false.

(** planet.h:69-70 and circular-orbit-impl.cc:40: SI units. *)
Definition earth_mass : R := 597 * 10 ^ 22.
Definition earth_radius : R := 6371009.
Definition earth_rotation : R := 7292115922 / 10 ^ 14.
Definition big_g : R := 667430 / 10 ^ 16.

(** circular-orbit-impl.cc:42-46: mean motion. *)
Definition mean_motion (radius : R) : R := sqrt (big_g * earth_mass / radius ^ 3).

(** circular-orbit-impl.h:63-66 *)
Record orbit := Orbit { inclination : R; ascending_node : R; orbit_radius : R; orbit_phase : R }.

(** circular-orbit.cc:141-150 ([LaunchSat]). *)
Definition launch_sat (incl node altitude phase : R) : orbit := Orbit incl node (altitude + earth_radius) phase.

(** circular-orbit-impl.cc:63-77: the true anomaly, brought to the turn of the eccentric anomaly [E]. *)
Definition true_anomaly (E : R) : R :=
  let theta := 2 * atan2 (sin (E / 2)) (cos (E / 2)) in
  if Rlt_dec theta E then theta + round ((E - theta) / (2 * PI)) * (2 * PI)
  else theta - round ((theta - E) / (2 * PI)) * (2 * PI).

(** circular-orbit-impl.cc:55-101 *)
Definition inertial (o : orbit) (t : R) : result vec :=
  let E := mean_motion (orbit_radius o) * t + orbit_phase o in
  let cos_theta := (cos E - 0) / (1 - 0 * cos E) in
  let theta := true_anomaly E in
  assert_ (rltb (Rabs (E - theta)) PI) ;;
  let sin_theta := sin theta in
  let x := orbit_radius o * cos_theta in
  let y := orbit_radius o * sin_theta in
  let z := 0 in
  let '(x, y, z) := (x, y * cos (inclination o) - z * sin (inclination o), y * sin (inclination o) + z * cos (inclination o)) in
  let '(x, y, z) := (x * cos (ascending_node o) - y * sin (ascending_node o), x * sin (ascending_node o) + y * cos (ascending_node o), z) in
  Ok (Vec x y z).

(** circular-orbit-impl.cc:148-154 *)
Definition orbital_period (o : orbit) : R := 2 * PI / mean_motion (orbit_radius o).

(** circular-orbit-impl.cc:103-107 *)
Definition sat_altitude (o : orbit) : R := orbit_radius o - earth_radius.

(** circular-orbit-impl.cc:109-122 *)
Definition ground_distance_at_elevation (o : orbit) (e g : R) : R :=
  let h := sat_altitude o in
  sqrt (2 * (g * sin e) ^ 2 - 2 * g * sin e * sqrt ((g * sin e) ^ 2 + 2 * g * h + h ^ 2) + 2 * g * h + h ^ 2).

(** boost's conversions and ns-3's DEG2RAD. *)
Definition degrees (x : R) : R := x * (180 / PI).
Definition radians (x : R) : R := x * (PI / 180).

(** ns-3's [GeographicPositions::GeographicToCartesianCoordinates] on the sphere, whose eccentricity is 0.  [rs] is the
    radius ns-3 uses for its sphere (a constant of ns-3, not in this repository). *)
Definition geographic_to_cartesian (rs latitude longitude altitude : R) : vec :=
  let lat := radians latitude in
  let lon := radians longitude in
  Vec ((rs + altitude) * cos lat * cos lon) ((rs + altitude) * cos lat * sin lon) ((rs + altitude) * sin lat).

(** The value in ns-3 (src/mobility/model/geographic-positions.cc, EARTH_RADIUS), as far as we know: it is not in this
    repository, so theorems keep [rs] general where they can. *)
Definition ns3_sphere_radius : R := 6371000.

(** circular-orbit.cc:173-205 ([getRawPosition], [DoGetPosition]). *)
Definition position (rs : R) (o : orbit) (t : R) : result vec :=
  do raw <- inertial o t ;
  let radius := norm raw in
  let latitude := asin (vz raw / radius) in
  let prime_meridian_ascension := 0 + t * earth_rotation in
  let sat_ascension := atan2 (vy raw) (vx raw) in
  Ok (geographic_to_cartesian rs (degrees latitude) (degrees (sat_ascension - prime_meridian_ascension)) (radius - earth_radius)).

(** circular-orbit.cc:234-255 ([getSatElevation]), given the position of the satellite. *)
Definition sat_elevation (sat ground : vec) : R :=
  let ground2sat := vsub sat ground in
  asin (dot ground ground2sat / (norm ground * norm ground2sat)).

(** distancesolver.cc:64-77 ([GroundObserver]). *)
Definition ground_observer (latitude longitude radius t : R) : vec :=
  let apparent := longitude + earth_rotation * t in
  Vec (radius * cos apparent * cos latitude) (radius * sin apparent * cos latitude) (radius * sin latitude).

(** distancesolver.cc:84-94, 177-184: the function whose zeros are looked for. *)
Definition sq_distance (a b : vec) : R := (vx b - vx a) ^ 2 + (vy b - vy a) ^ 2 + (vz b - vz a) ^ 2.
Definition distance_function (o : orbit) (lat lon radius target t : R) : result R :=
  rmap (fun s => sq_distance s (ground_observer lat lon radius t) - target ^ 2) (inertial o t).

(** circular-orbit.cc:64-66 (WGS84). *)
Definition wgs84_axis : R := 6378137.
Definition wgs84_ecc : R := 818191908426215 / 10 ^ 16.

(** circular-orbit.cc:92-110 ([CartesianToGeographicCoordinates] for WGS84): first latitude, one round of the loop, and
    the loop itself as a relation (it may never end). [p] is the distance to the polar axis. *)
Definition axis_distance (pos : vec) : R := sqrt (vx pos ^ 2 + vy pos ^ 2).
Definition latitude_start (p z : R) : R := atan2 z (p * (1 - wgs84_ecc * wgs84_ecc)).
Definition latitude_round (p z lat : R) : R :=
  let e2 := wgs84_ecc * wgs84_ecc in
  let n := wgs84_axis / sqrt (1 - e2 * sin lat * sin lat) in
  let v := p / cos lat in
  atan2 z (p * (1 - e2 * n / v)).
Definition latitude_tolerance : R := radians (926 / 10 ^ 8).
Inductive latitude_loop (p z : R) : R -> R -> Prop :=
| loop_stop : forall lat, Rabs (latitude_round p z lat - lat) <= latitude_tolerance -> latitude_loop p z lat (latitude_round p z lat)
| loop_again : forall lat r, Rabs (latitude_round p z lat - lat) > latitude_tolerance ->
    latitude_loop p z (latitude_round p z lat) r -> latitude_loop p z lat r.

(** circular-orbit.cc:112-135: canonical ranges and assertions, in degrees. *)
Definition canonical (lat lon : R) : result (R * R) :=
  let lat := degrees lat in
  let lon := degrees lon in
  let '(lat, lon) :=
    if Rlt_dec 90 lat then (180 - lat, lon + (if Rlt_dec lon 0 then 180 else - 180))
    else if Rlt_dec lat (- 90) then (- 180 - lat, lon + (if Rlt_dec lon 0 then 180 else - 180))
    else (lat, lon) in
  let lon := if Req_EM_T lon 180 then - 180 else lon in
  assert_ (rleb (- 180) lon) ;; assert_ (rltb lon 180) ;; assert_ (rleb (- 90) lat) ;; assert_ (rleb lat 90) ;;
  Ok (radians lat, radians lon).

(** [to_geographic pos r]: the function, called on [pos], ends with outcome [r]. *)
Definition to_geographic (pos : vec) (r : result (R * R)) : Prop :=
  exists lat, latitude_loop (axis_distance pos) (vz pos) (latitude_start (axis_distance pos) (vz pos)) lat /\
    r = canonical lat (atan2 (vy pos) (vx pos)).

(** sat2sat-success-model.cc:39, 86-93 ([CalcMaxDistance]); [None] is NaN. *)
Definition min_altitude_for_visibility : R := 80000.
Definition calc_max_distance (h : R) : option R :=
  let r := min_altitude_for_visibility + earth_radius in
  if Rlt_dec (h * h - r * r) 0 then None else Some (2 * sqrt (h * h - r * r)).
(** A comparison with NaN is false. *)
Definition within (d : R) (limit : option R) : bool := match limit with Some m => rleb d m | None => false end.

(** What the success models look at in a node: its mobility object, if any, and whether that is a circular orbit. *)
Inductive mobile := NoMobility | OnGround (p : vec) | OnOrbit (p : vec).
Definition mobility_position (m : mobile) : option vec := match m with NoMobility => None | OnGround p | OnOrbit p => Some p end.
Definition orbit_position (m : mobile) : option vec := match m with OnOrbit p => Some p | _ => None end.

(** sat2sat-success-model.cc:66-84 and ground-sat-success-distance.cc:57-75, [TramsmitSuccess] *)
Definition success_distance (limit : option R) (src dst : mobile) : result bool :=
  match mobility_position src, mobility_position dst with
  | Some a, Some b => Ok (within (distance a b) limit)
  | _, _ => Abort
  end.

(** ground-sat-success-elevation.cc:81-107 *)
Definition success_elevation (min_elevation : R) (src dst : mobile) : result bool :=
  let '(sat, ground) :=
    match orbit_position src with
    | Some s => (Some s, mobility_position dst)
    | None => (orbit_position dst, mobility_position src)
    end in
  match sat, ground with
  | Some s, Some g => Ok (rleb min_elevation (sat_elevation s g))
  | _, _ => Abort
  end.

(** sat2sat-channel.cc:90-105 and 111-145: two satellites attached to a channel, then the visibility test.  The limit
    comes from the orbit of the second satellite attached. *)
Definition isl_success (rs : R) (first second : orbit) (t : R) : result bool :=
  do a <- position rs first t ;
  do b <- position rs second t ;
  success_distance (calc_max_distance (orbit_radius second)) (OnOrbit a) (OnOrbit b).
