(** The questions of the mobility model to the predictor: circular-orbit.cc:255-335.

    [g] is the position of the ground node (its [ConstantPositionMobilityModel]; that it has one is asserted), [now] the simulation time or
    the time given.  Times are real numbers: the rounding of [Seconds] to the resolution of the simulator is left out. *)
From Coq Require Import Reals.
From Verif Require Import Base OrbitModel PassModel.
Open Scope R_scope.

Section Ask.
Variable solver : solver_type.

(** circular-orbit.cc:255-274; nothing is said of [r] when the conversion fails an assertion. *)
Definition next_time_at_distance (o : orbit) (target : R) (g : vec) (now r : R) : Prop :=
  exists lat lon, to_geographic g (Ok (lat, lon)) /\ next_time solver o target lat lon (norm g) now r.

(** circular-orbit.cc:276-290 *)
Definition next_time_at_elevation (o : orbit) (e : R) (g : vec) (now r : R) : Prop :=
  next_time_at_distance o (ground_distance_at_elevation o e (norm g)) g now r.

(** circular-orbit.cc:292-316 *)
Definition try_time_at_distance (o : orbit) (target : R) (g : vec) (now : R) (r : option R) : Prop :=
  exists lat lon, to_geographic g (Ok (lat, lon)) /\ r = find_next_cross solver o target lat lon (norm g) now.

(** circular-orbit.cc:318-333 *)
Definition try_time_at_elevation (o : orbit) (e : R) (g : vec) (now : R) (r : option R) : Prop :=
  try_time_at_distance o (ground_distance_at_elevation o e (norm g)) g now r.
End Ask.
