(** The unit tests of the repository, run on the model.  They are no proofs about the code: they check that the definitions
    the theorems are about give the numbers the authors expect.

    test/icarus-address-test-suite.cc and test/icarus-test-suite.cc are covered whole; of the last, the test of the next pass
    is proved as far as what is known of GSL's root finder goes.  test/icarus-mac-model-test-suite.cc compares averages of
    random runs with tabulated values, so it is not covered. *)
From Coq Require Import Reals Lra Psatz ZArith QArith List Bool Arith Ascii String.
From Interval Require Import Tactic.
From Verif Require Import Base SatAddrModel AddrTextModel ConstellationModel LaunchModel IslModel SetupModel SetupSpec
  OrbitModel OrbitSpec OrbitProofs OrbitProps PassModel PassProps.
Import ListNotations.

(** * Addresses (test/icarus-address-test-suite.cc:42-67) *)

(** SatAddress (0xf00f, 0xe11e, 0xd22d) on both kinds of host. *)
Example address_test : forall h,
  let test := sat_make h 61455 57630 53805 in
  ga_data (convert_to h 7 test) = [240; 15; 225; 30; 210; 45]%Z /\
  exists new, convert_from h 7 (mkGen 0 [240; 15; 225; 30; 210; 45]%Z) = Ok new /\ sat_eqb h new test = true /\
    get_constellation h new = 61455%Z /\ get_plane h new = 57630%Z /\ get_index h new = 53805%Z /\
  exists test2 s, read_address h (istringstream (txt "f00f:e11e:d22d")) = (Ok test2, s) /\ sat_eqb h test test2 = true.
Proof. intros []; (split; [reflexivity|eexists; repeat split; eexists; eexists; split; reflexivity]). Qed.

(** * Grids of links (test/icarus-test-suite.cc:178-211, 302-308) *)

Section Grids.
Open Scope nat_scope.

(** One helper for a constellation of [P] planes of [S] satellites at 250 km and 60 degrees with phasing 1; the nodes are
    new. *)
Definition grid_plan (P S : nat) (h : nat) : plan := mkPlan 1 P S 1 250000 60.
Definition grid_before : before := mkBefore (fun _ => false) (fun _ => false) (fun _ => []).
Definition grid_script (P S : nat) : result (world Q) :=
  setup rational true LittleEndian (start (grid_plan P S) grid_before 0 0)
    [SNew (seq 0 (P * S)) 0; SIsl (seq 0 (P * S)) 0].
(** Every satellite of the constellation sits on a node with this number of devices. *)
Definition grid_passes (P S links : nat) : bool :=
  match grid_script P S with
  | Ok w => forallb (fun p => forallb (fun i =>
              match get_satellite (h_con (sw_helpers w 0)) p i with
              | Ok (Some d) => match nth_error (sw_devs w) d with
                               | Some v => List.length (sn_devs (sw_nodes w (dv_node v))) =? links
                               | None => false end
              | _ => false end) (seq 0 S)) (seq 0 P)
  | _ => false
  end.

Example grid_tests :
  grid_passes 6 20 5 = true /\ grid_passes 1 1 1 = true /\ grid_passes 1 2 2 = true /\ grid_passes 2 1 2 = true /\
  grid_passes 2 2 3 = true /\ grid_passes 3 2 4 = true /\ grid_passes 2 3 4 = true.
Proof. vm_compute. repeat split. Qed.
End Grids.

(** * Orbits *)

Open Scope R_scope.

(** test/icarus-test-suite.cc:108-141, 274-300: distances to a satellite at 400 km, within a kilometre. *)
Definition distance_test (elevation expected : R) : Prop :=
  Rabs (ground_distance_at_elevation (launch_sat 0 0 400000 0) (radians elevation) earth_radius - expected) <= 1000.
Example elevation_tests :
  distance_test 10 1439415 /\ distance_test 25 843933 /\ distance_test 45 549884 /\ distance_test 60 457419 /\ distance_test 90 400000.
Proof.
  unfold distance_test, ground_distance_at_elevation, launch_sat, sat_altitude, radians, earth_radius; cbn [orbit_radius].
  repeat split; interval with (i_prec 60).
Qed.
Print Assumptions elevation_tests.

(** test/icarus-test-suite.cc:75-106: at the start and after 9384 s, within a metre of 6621 km from the centre; at the end
    within a kilometre of the expected place. *)
Definition test_orbit : orbit := launch_sat (radians 60) 0 250000 0.
Definition orbit_test (rs : R) : Prop := exists p q,
  position rs test_orbit 0 = Ok p /\ Rabs (norm p - 6621000) <= 1 /\
  position rs test_orbit 9384 = Ok q /\ Rabs (norm q - 6621000) <= 1 /\ Rabs (vx q - -2096050) <= 1000.

Lemma test_norm : forall rs t, 0 <= rs -> exists p, position rs test_orbit t = Ok p /\ norm p = rs + 250000.
Proof.
  intros rs t H. destruct (position_offset_partial rs test_orbit t) as (raw & p & _ & P & N & _).
  - unfold test_orbit, launch_sat, earth_radius; cbn. lra.
  - exact H.
  - exists p. split; [exact P|]. rewrite N. unfold test_orbit, launch_sat, earth_radius; cbn. lra.
Qed.

(** The test passes exactly for spheres of ns-3 within a metre of the value we use. *)
Example orbit_tests : forall rs, 0 <= rs -> (orbit_test rs <-> Rabs (rs - ns3_sphere_radius) <= 1).
Proof.
  intros rs H. unfold ns3_sphere_radius. split.
  - intros (p & q & P & N & _). destruct (test_norm rs 0 H) as (p' & P' & N'). rewrite P in P'. injection P' as <-.
    rewrite N' in N. replace (rs - 6371000) with (rs + 250000 - 6621000) by ring. exact N.
  - intros D. apply Rabs_le_inv in D. destruct (test_norm rs 0 H) as (p & P & N). destruct (test_norm rs 9384 H) as (q & Q & N').
    exists p, q. split; [exact P|]. split; [rewrite N; apply Rabs_le; lra|]. split; [exact Q|]. split; [rewrite N'; apply Rabs_le; lra|].
    destruct (position_rotated rs test_orbit 9384) as (raw & I & Q'); [unfold test_orbit, launch_sat, earth_radius; cbn; lra|].
    rewrite Q in Q'. injection Q' as ->. rewrite inertial_motion in I. injection I as <-.
    unfold scale, rotate, circular_motion, vadd, node_dir, ahead_dir, mean_motion, test_orbit, launch_sat, radians; cbn [vx vy vz orbit_radius inclination ascending_node orbit_phase].
    unfold scale; cbn [vx vy vz]. rewrite sin_0, cos_0. unfold earth_radius, earth_rotation, big_g, earth_mass.
    assert (B : 6370999 <= rs <= 6371001) by lra. interval with (i_prec 80).
Qed.
Print Assumptions orbit_tests.

(** So whatever radius ns-3 has, if the test passes then it is not that of the module, and positions are not at the altitude
    asked for (C46). *)
Example orbit_test_offset : forall rs, 0 <= rs -> orbit_test rs -> ~ earth_fixed_claim rs.
Proof.
  intros rs H T C. apply orbit_tests in T; [|exact H]. apply earth_fixed_partial in C. subst rs.
  unfold earth_radius, ns3_sphere_radius in T. apply Rabs_le_inv in T. lra.
Qed.

(** * The next pass (test/icarus-test-suite.cc:213-258, 281-286) *)

(** A station at 30 degrees north on the ellipsoid; the first time the satellite is at 25 degrees over it should be within ten
    seconds of 6075.39 s. *)
Definition pass_orbit : orbit := launch_sat (radians 45) 0 400000 0.
Definition pass_station : vec := on_ellipsoid (radians 30) 0.
Definition pass_target : R := ground_distance_at_elevation pass_orbit (radians 25) (norm pass_station).
Definition pass_distance : R -> R := distance_at pass_orbit pass_target (radians 30) 0 (norm pass_station).

(** circular-orbit.cc:272-289 asks ns-3 for the coordinates of the station. *)
Example pass_station_found : to_geographic pass_station (Ok (radians 30, 0)).
Proof. apply geodetic_on_ellipsoid; unfold radians; pose proof PI_RGT_0; lra. Qed.

Lemma pass_radius : 6372824 <= norm pass_station <= 6372825.
Proof.
  unfold norm, dot, pass_station, on_ellipsoid, prime_vertical, e2, wgs84_ecc, wgs84_axis, radians; cbn [vx vy vz].
  rewrite sin_0, cos_0. split; interval with (i_prec 80).
Qed.
Lemma pass_target_bounds : 843954 <= pass_target <= 843956.
Proof.
  unfold pass_target, ground_distance_at_elevation, sat_altitude, pass_orbit, launch_sat, radians, earth_radius; cbn [orbit_radius].
  unfold norm, dot, pass_station, on_ellipsoid, prime_vertical, e2, wgs84_ecc, wgs84_axis, radians; cbn [vx vy vz].
  rewrite sin_0, cos_0. split; interval with (i_prec 80).
Qed.

Lemma pass_rate : 11329479053 / 10 ^ 13 <= mean_motion (orbit_radius pass_orbit) <= 11329479054 / 10 ^ 13.
Proof. unfold mean_motion, pass_orbit, launch_sat, big_g, earth_mass, earth_radius; cbn [orbit_radius]. split; interval with (i_prec 80). Qed.

Lemma pass_distance_eq : forall t, pass_distance t =
  6771009 * 6771009 + norm pass_station * norm pass_station
  - 2 * (6771009 * norm pass_station * (cos (mean_motion (orbit_radius pass_orbit) * t) * (cos (PI / 6) * cos (earth_rotation * t))
      + sin (mean_motion (orbit_radius pass_orbit) * t) * (cos (PI / 4) * (cos (PI / 6) * sin (earth_rotation * t)) + sin (PI / 4) * sin (PI / 6))))
  - pass_target * pass_target.
Proof.
  intros t. unfold pass_distance. rewrite distance_at_eq. set (g := norm pass_station). set (d := pass_target). set (n := mean_motion _).
  unfold dot, circular_motion, ground_observer, scale, vadd, node_dir, ahead_dir, pass_orbit, launch_sat, earth_radius;
    cbn [vx vy vz orbit_radius inclination ascending_node orbit_phase].
  unfold scale; cbn [vx vy vz]. rewrite sin_0, cos_0. unfold radians.
  replace (45 * (PI / 180)) with (PI / 4) by field. replace (30 * (PI / 180)) with (PI / 6) by field.
  rewrite ?Rplus_0_r, ?Rplus_0_l. ring.
Qed.

(** The satellite is too far until 6075 s and near enough at 6076 s. *)
Lemma pass_far : forall t, -1 <= t <= 6075 -> 0 < pass_distance t.
Proof.
  intros t T. rewrite pass_distance_eq. pose proof pass_radius as G. pose proof pass_target_bounds as D. pose proof pass_rate as N.
  set (g := norm pass_station) in *. set (d := pass_target) in *. set (n := mean_motion _) in *. clearbody g d n. unfold earth_rotation.
  interval with (i_prec 60, i_bisect t, i_depth 40).
Qed.
Lemma pass_near : pass_distance 6076 < 0.
Proof.
  rewrite pass_distance_eq. pose proof pass_radius as G. pose proof pass_target_bounds as D. pose proof pass_rate as N.
  set (g := norm pass_station) in *. set (d := pass_target) in *. set (n := mean_motion _) in *. clearbody g d n. unfold earth_rotation.
  interval with (i_prec 60).
Qed.

(** The first time at the target is within a second of the expected one.  Whatever the root finder does within its contract,
    no answer is earlier than ten seconds before it.  That the finder does not miss this pass, so that no answer is later than
    ten seconds after, is not proved: at both ends of every interval it is given here the satellite is too far, and GSL
    promises nothing then (see [pass_claim]). *)
Example pass_tests :
  (exists x, Rabs (x - 607539 / 100) <= 10 /\ at_target pass_orbit pass_target (radians 30) 0 (norm pass_station) x /\
    forall y, 0 <= y -> at_target pass_orbit pass_target (radians 30) 0 (norm pass_station) y -> 6075 <= y) /\
  forall solver r, solver_contract solver ->
    next_time solver pass_orbit pass_target (radians 30) 0 (norm pass_station) 0 r -> 607539 / 100 - 10 <= r.
Proof.
  pose proof pass_target_bounds as D. assert (D0 : 0 <= pass_target) by lra.
  pose proof (f_signs pass_orbit pass_target (radians 30) 0 (norm pass_station) D0) as Sg. fold pass_distance in Sg.
  assert (Ho : 0 < orbit_radius pass_orbit) by (unfold pass_orbit, launch_sat, earth_radius; cbn; lra).
  split.
  - destruct (crossing_between pass_orbit pass_target (radians 30) 0 (norm pass_station) 6075 6076 ltac:(lra)) as (x & X & Z).
    { fold pass_distance. pose proof (pass_far 6075 ltac:(lra)). pose proof pass_near. nra. }
    exists x. split; [apply Rabs_le; lra|]. split; [apply Sg; exact Z|]. intros y Y A. apply Sg in A.
    destruct (Rle_dec 6075 y) as [L|L]; [exact L|]. pose proof (pass_far y ltac:(lra)). lra.
  - intros solver r C H.
    enough (K : forall now, next_time solver pass_orbit pass_target (radians 30) 0 (norm pass_station) now r -> 0 <= now -> 6074 <= r)
      by (specialize (K 0 H ltac:(lra)); lra).
    clear H. intros now H. induction H as [now r F|now r F H IH]; intros N.
    + destruct (pass_partial solver C pass_orbit pass_target (radians 30) 0 (norm pass_station) now r Ho D0 F) as (B & W & _).
      destruct (Rle_dec 6074 r) as [L|L]; [exact L|]. exfalso.
      destruct W as [W|W]; apply Sg in W; [pose proof (pass_far (r - 1) ltac:(lra))|pose proof (pass_far (r + 1) ltac:(lra))]; lra.
    + apply IH. pose proof (period_pos pass_orbit Ho). lra.
Qed.
Print Assumptions pass_tests.
