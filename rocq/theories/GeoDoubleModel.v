(** [CartesianToGeographicCoordinates] (circular-orbit.cc:68-138) with doubles, for WGS84.

    The functions of the C library are variables: nothing is said of their rounding.  [deg] is the factor between radians and degrees, the
    quantities of boost are their numbers. *)
From Coq Require Import ZArith List Bool.
From Flocq Require Import Core BinarySingleNaN.
From Verif Require Import Base DoubleModel.
Open Scope Z_scope.

Section Library.
Variables (dsin dcos : double -> double) (datan2 : double -> double -> double) (deg : double).

(** circular-orbit.cc:60-66 *)
Definition d_axis : double := dint 6378137.
Definition d_ecc : double := ddiv (dint 818191908426215) (dint (10 ^ 16)).
Definition d_e2 : double := dmul d_ecc d_ecc.

(** circular-orbit.cc:95-97 *)
Definition d_axis_distance (pos : dvec) : double := ddistance pos (mkDvec (dint 0) (dint 0) (dvz pos)).
Definition d_latitude_start (p z : double) : double := datan2 z (dmul p (dsub (dint 1) d_e2)).

(** circular-orbit.cc:101-106 *)
Definition d_latitude_round (p z lat : double) : double :=
  let n := ddiv d_axis (dsqrt (dsub (dint 1) (dmul (dmul d_e2 (dsin lat)) (dsin lat)))) in
  let v := ddiv p (dcos lat) in
  datan2 z (dmul p (dsub (dint 1) (ddiv (dmul d_e2 n) v))).

(** circular-orbit.cc:108-109; the bound in radians *)
Definition d_again (new old : double) : bool := dlt (ddiv (ddiv (dint 926) (dint (10 ^ 8))) deg) (Babs (dsub new old)).

(** circular-orbit.cc:99-109, a relation since the loop may not end *)
Inductive d_latitude_loop (p z : double) : double -> double -> Prop :=
| d_loop_stop : forall lat, d_again (d_latitude_round p z lat) lat = false -> d_latitude_loop p z lat (d_latitude_round p z lat)
| d_loop_more : forall lat r, d_again (d_latitude_round p z lat) lat = true ->
    d_latitude_loop p z (d_latitude_round p z lat) r -> d_latitude_loop p z lat r.

(** circular-orbit.cc:111-137 *)
Definition d_canonical (lat lon : double) : result (double * double) :=
  let lat := dmul lat deg in
  let lon := dmul lon deg in
  let turn := if dlt lon (dint 0) then dint 180 else dint (- 180) in
  let '(lat, lon) :=
    if dlt (dint 90) lat then (dsub (dint 180) lat, dadd lon turn)
    else if dlt lat (dint (- 90)) then (dsub (dint (- 180)) lat, dadd lon turn)
    else (lat, lon) in
  let lon := if Beqb lon (dint 180) then dint (- 180) else lon in
  assert_ (dle (dint (- 180)) lon) ;;
  assert_ (dlt lon (dint 180)) ;;
  assert_ (dle (dint (- 90)) lat) ;;
  assert_ (dle lat (dint 90)) ;;
  Ok (ddiv lat deg, ddiv lon deg).

Definition d_to_geographic (pos : dvec) (r : result (double * double)) : Prop :=
  exists lat, d_latitude_loop (d_axis_distance pos) (dvz pos) (d_latitude_start (d_axis_distance pos) (dvz pos)) lat /\
    r = d_canonical lat (datan2 (dvy pos) (dvx pos)).
End Library.
