(** The motion of satellites in double precision (circular-orbit-impl.cc:40-101).

    The functions of the C library and the constants of boost are variables; [dhalf x] is [pow (x, 0.5)], what boost makes of [root<2>].
    The quantities of boost are their numbers in SI units; [pow<3>] is two multiplications. *)
From Coq Require Import ZArith Bool.
From Flocq Require Import Core BinarySingleNaN.
From Verif Require Import Base DoubleModel.
Open Scope Z_scope.

Section Library.
Variables (dsin dcos dhalf : double -> double) (datan2 : double -> double -> double) (twopi dpi : double).

(** circular-orbit-impl.cc:40, planet.h:69 *)
Definition d_big_g : double := ddiv (dint 667430) (dint (10 ^ 16)).
Definition d_earth_mass : double := dint (597 * 10 ^ 22).
(** circular-orbit-impl.cc:42-46 *)
Definition d_motion (radius : double) : double := dhalf (ddiv (dmul d_big_g d_earth_mass) (dmul radius (dmul radius radius))).

(** circular-orbit-impl.h:63-66 *)
Record dorbit := mkDorbit { do_inclination : double; do_node : double; do_radius : double; do_phase : double }.

(** circular-orbit-impl.cc:65-76 *)
Definition d_true_anomaly (E : double) : double :=
  let half := ddiv E (dint 2) in
  let theta := dmul (dint 2) (datan2 (dsin half) (dcos half)) in
  if dlt theta E then dadd theta (dmul (dround (ddiv (dsub E theta) twopi)) twopi)
  else dsub theta (dmul (dround (ddiv (dsub theta E) twopi)) twopi).

(** circular-orbit-impl.cc:55-101 *)
Definition d_inertial (o : dorbit) (t : double) : result dvec :=
  let E := dadd (dmul (d_motion (do_radius o)) t) (do_phase o) in
  let cos_theta := ddiv (dsub (dcos E) (dint 0)) (dsub (dint 1) (dmul (dint 0) (dcos E))) in
  let theta := d_true_anomaly E in
  assert_ (dlt (Babs (dsub E theta)) dpi) ;;
  let sin_theta := dsin theta in
  let x := dmul (do_radius o) cos_theta in
  let y := dmul (do_radius o) sin_theta in
  let z := dint 0 in
  let i := do_inclination o in
  let '(x, y, z) := (x, dsub (dmul y (dcos i)) (dmul z (dsin i)), dadd (dmul y (dsin i)) (dmul z (dcos i))) in
  let n := do_node o in
  let '(x, y, z) := (dsub (dmul x (dcos n)) (dmul y (dsin n)), dadd (dmul x (dsin n)) (dmul y (dcos n)), z) in
  Ok (mkDvec x y z).
End Library.
