(** A station that follows satellites in motion: the trackers (TrackerModel) over circular orbits (OrbitModel).

    Simulation time counts nanoseconds (ns-3's default resolution). *)
From Coq Require Import Reals ZArith.
From Verif Require Import Base SatAddrModel ConstellationModel TrackerModel OrbitModel.
Open Scope R_scope.

(** Simulator::Now ().GetSeconds () *)
Definition seconds (t : Z) : R := IZR t / 10 ^ 9.

Section Station.
(** The radius of ns-3's sphere, the orbit of the node of each satellite device, and the position of the station, which
    stays where it is. *)
Variable rs : R.
Variable orbits : nat -> orbit.
Variable here : vec.

(** What GetPosition answers for the node of a satellite (circular-orbit.cc:188-205); it always answers
    ([position_rotated]). *)
Definition sat_at (t : Z) (d : nat) : vec :=
  match position rs (orbits d) (seconds t) with Ok p => p | _ => Vec 0 0 0 end.

(** getSqDistance (constellation.cc:43-49) of a satellite from the station. *)
Definition sq_away (t : Z) (d : nat) : R := OrbitModel.sq_distance (sat_at t d) here.

(** The periodic tracker at work: its state after [n] events (ground-node-sat-tracker-periodic.cc:56-115). *)
Definition station_run (c : constellation) (addr : nat -> sat_address) (interval offset t0 : Z) (r0 : sat_address) (n : nat) : option (result tracker) :=
  periodic_run c rleb sq_away addr interval n (periodic_init interval offset t0 r0).

(** The test of getVisibleSats (ground-node-sat-tracker-elevation.cc:120-121). *)
Definition sees (min_elevation : R) (t : Z) (d : nat) : bool := rltb min_elevation (sat_elevation (sat_at t d) here).
End Station.
