(** Where launched satellites are: helper/constellation-helper.cc and model/circular-orbit.cc together. *)
From Coq Require Import Reals QArith Qreals.
From Verif Require Import Base LaunchModel OrbitModel.
Open Scope R_scope.

(** The call of LaunchSat (constellation-helper.cc:91-92): the angles of the helper are in degrees
    (constellation-helper.h:57-61) and converted; every double is a rational number. *)
Definition launched_orbit (o : LaunchModel.orbit Q) : OrbitModel.orbit :=
  launch_sat (radians (Q2R (o_inclination o))) (radians (Q2R (o_ascending_node o))) (Q2R (o_altitude o)) (radians (Q2R (o_phase o))).
