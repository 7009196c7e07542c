(** From the angles of the helper to the orbit of a satellite (constellation-helper.cc:91-92, circular-orbit.cc:144-152), in double
    precision.  [rad] is the factor from degrees to radians of boost; the inclination and the altitude are given in radians and metres. *)
From Coq Require Import ZArith.
From Flocq Require Import Core BinarySingleNaN.
From Verif Require Import Base DoubleModel LaunchModel OrbitDoubleModel FixedDoubleModel.

Definition d_launch_sat (rad : double) (o : LaunchModel.orbit double) : dorbit :=
  mkDorbit (o_inclination o) (dmul (o_ascending_node o) rad) (dadd (o_altitude o) d_earth_radius) (dmul (o_phase o) rad).
