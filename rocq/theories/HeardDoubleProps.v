(** C141: the elevation of launched satellites in double precision. *)
From Coq Require Import ZArith List Lia Bool Arith Reals Lra Psatz.
From Flocq Require Import Core BinarySingleNaN.
From Verif Require Import Base SatAddrModel ConstellationModel LaunchModel OrbitModel OrbitSpec OrbitProofs TrackingProofs GeodeticProofs DoubleModel DoubleSpec DoubleProofs DoubleProps ElevationDoubleModel ElevationDoubleSpec ElevationDoubleProofs ElevationDoubleProps OrbitDoubleModel OrbitDoubleSpec OrbitDoubleProofs OrbitDoubleProps FixedDoubleModel FixedDoubleSpec FixedDoubleProofs FixedDoubleProps LaunchDoubleModel LaunchDoubleSpec LaunchDoubleProofs LaunchDoubleProps SightDoubleSpec SightDoubleProofs SightDoubleProps LinkDoubleSpec LinkDoubleProps WalkerDoubleModel WalkerDoubleSpec WalkerDoubleProps HeardDoubleSpec.
Import ListNotations.
Open Scope R_scope.

Section Library.
Variables (dasin dsin dcos dhalf : double -> double) (datan2 : double -> double -> double) (twopi dpi deg rad dsphere : double).
Hypothesis orbits : orbit_library dsin dcos dhalf datan2 twopi dpi.
Hypothesis fixed : fixed_library dasin datan2 deg rad dsphere.
Hypothesis arcs : asin_library dasin.
Let fly o := d_position dasin dsin dcos dhalf datan2 twopi dpi deg rad dsphere (d_launch_sat rad o).

(** Launched satellites have the elevation that they have in the exact Walker constellation, to eight seconds of arc save straight above
    and below, and are heard and considered by it. *)
Theorem launched_heard : forall debug ho id P S F alt inc ds, sizes P S F -> (length ds <= P * S)%nat -> launchable inc alt ->
  exists s outs radius, launch_all doubles debug ho (helper_new doubles id alt inc P S F) ds = Ok (s, outs) /\ length outs = length ds /\
    Rabs (radius - (6371009 + real_of alt)) <= 1 / 10 ^ 6 /\
    forall k a o t ground m, nth_error outs k = Some (a, o) -> phase_degrees P S F k <= 8400 -> within_week t -> on_ground ground -> is_finite m = true ->
      let place := earth_motion (real_of dsphere) (walker_orbit P S F k (real_of inc) radius) (real_of t) in
      10 ^ 5 <= distance (vec_of ground) place ->
      exists sat, fly o t = Ok sat /\ let e := sat_elevation place (vec_of ground) in
        (Rabs e <= PI / 2 - clear_angle -> is_finite (d_elevation dasin sat ground) = true /\ Rabs (real_of (d_elevation dasin sat ground) - e) <= clear_angle) /\
        (e + clear_angle <= real_of m -> d_heard dasin m sat ground = false /\ d_considered dasin m sat ground = false) /\
        (real_of m + clear_angle <= e -> - (PI / 2) + clear_angle <= e <= PI / 2 - clear_angle -> d_heard dasin m sat ground = true /\ d_considered dasin m sat ground = true).
Proof.
  intros debug ho id P S F alt inc ds Z L La. destruct (walker_double _ _ _ _ _ _ _ _ _ _ orbits fixed debug ho id P S F alt inc ds Z L La) as (s0 & outs & radius & E & Lo & Rr & W).
  exists s0, outs, radius. split; [exact E|]. split; [exact Lo|]. split; [exact Rr|]. destruct La as (_ & _ & _ & Ba). destruct (fl_sphere _ _ _ _ _ fixed) as (_ & Bs).
  assert (Br : 6371009 <= radius <= 4938 * 10 ^ 4) by (apply Rabs_le_inv in Rr; lra).
  intros k a o t ground m Hk Pk T (Fx & Fy & Fz & Gn) Fm. cbn zeta. intros D. destruct (W k a o Hk Pk t T) as (sat & Ev & Rv). exists sat. split; [exact Ev|].
  assert (Rn : norm (earth_motion (real_of dsphere) (walker_orbit P S F k (real_of inc) radius) (real_of t)) = real_of dsphere + (radius - 6371009)) by (apply (earth_motion_norm (real_of dsphere) (walker_orbit P S F k (real_of inc) radius) (real_of t)); cbn; lra).
  set (s := earth_motion _ _ _) in *. set (g := vec_of ground) in *. unfold distance in D. set (v := vsub s g) in *. set (w := vsub (vec_of sat) g).
  pose proof (right_distance (12 / 10 ^ 8 * radius) _ _ ltac:(lra) Rv) as N.
  assert (In : inside (10 ^ 8) sat).
  { destruct Rv as ((Gx & X) & (Gy & Y) & (Gz & Zz)). destruct (part_norm s) as (Px & Py & Pz & _). rewrite Rn in Px, Py, Pz. apply Rabs_le_inv in X, Y, Zz, Px, Py, Pz. unfold inside. repeat split; try assumption; apply Rabs_le; lra. }
  assert (Wv : vsub w v = vsub (vec_of sat) s) by (unfold w, v, vsub; cbn [vx vy vz]; f_equal; ring).
  assert (Far : radius <= 66 * norm v).
  { pose proof (norm_plus v g) as Tr. unfold v in Tr at 1. rewrite sub_add, Rn in Tr. lra. }
  assert (B : norm (vsub w v) <= 15 / 10 ^ 6 * norm v) by (rewrite Wv; lra).
  destruct (elevation_moves g v w ltac:(lra) ltac:(lra) ltac:(lra)) as (Wp & M).
  assert (Near : Rabs (sat_elevation (vec_of sat) g - sat_elevation s g) <= 30 / 10 ^ 6).
  { unfold sat_elevation. cbn zeta. fold v w. rewrite Rabs_minus_sym. eapply Rle_trans; [exact M|].
    assert (norm (vsub w v) / norm v <= 15 / 10 ^ 6); [|lra]. apply (Rmult_le_reg_r (norm v)); [lra|]. unfold Rdiv at 1. rewrite Rmult_assoc, Rinv_l, Rmult_1_r by lra. exact B. }
  assert (Ap : apart_enough sat ground).
  { split; [exact In|]. destruct (part_norm g) as (Px & Py & Pz & _). unfold g, vec_of in Px, Py, Pz. cbn [vx vy vz] in Px, Py, Pz. fold (vec_of ground) in Px, Py, Pz. fold g in Px, Py, Pz.
    split; [unfold inside; repeat split; try assumption; lra|]. fold g w. split; [lra|].
    pose proof (norm_plus w (vsub v w)) as Tr. rewrite add_sub in Tr.
    replace (norm (vsub v w)) with (norm (vsub w v)) in Tr by (unfold norm; f_equal; unfold dot, vsub; cbn [vx vy vz]; ring). lra. }
  apply Rabs_le_inv in Near. pose proof (elevation_decided_partial dasin sat ground m arcs Ap Fm) as Dec. cbn zeta in Dec. destruct Dec as (Low & Hi). fold g in Low, Hi. unfold clear_angle, micro in *. repeat split.
  - apply (elevation_double_near dasin sat ground arcs Ap). fold g. unfold micro. apply Rabs_le_inv in H. apply Rabs_le. lra.
  - destruct (elevation_double_near dasin sat ground arcs Ap) as (_ & Ne); [fold g; unfold micro; apply Rabs_le_inv in H; apply Rabs_le; lra|]. fold g in Ne. unfold micro in Ne. apply Rabs_le_inv in Ne. apply Rabs_le. lra.
  - apply Low. lra.
  - apply Low. lra.
  - apply Hi; lra.
  - apply Hi; lra.
Qed.
End Library.
Print Assumptions launched_heard.

(** Two satellites 650 km up on one orbit, seen at the start from 6357 km along the equator: of angles above a sixteenth of a radian the
    first is considered and the second, on the other side of the Earth, is not. *)
Example launched_heard_case : forall dasin dsin dcos dhalf datan2 twopi dpi deg rad,
  orbit_library dsin dcos dhalf datan2 twopi dpi -> fixed_library dasin datan2 deg rad (dint 6371000) -> asin_library dasin ->
  let fly o := d_position dasin dsin dcos dhalf datan2 twopi dpi deg rad (dint 6371000) (d_launch_sat rad o) (dint 0) in
  exists s a o b p u v, launch_all doubles true LittleEndian (helper_new doubles 1 (dint 650000) (dnum 3 (-1)) 1 2 0) [0%nat; 1%nat] = Ok (s, [(a, o); (b, p)]) /\ fly o = Ok u /\ fly p = Ok v /\
    d_considered dasin (dnum 1 (-4)) u some_place = true /\ d_considered dasin (dnum 1 (-4)) v some_place = false.
Proof.
  intros dasin dsin dcos dhalf datan2 twopi dpi deg rad L K As. cbn zeta. assert (H : Rabs (IZR 3 * bpow radix2 (-1)) <= bpow radix2 1023) by (change (bpow radix2 (-1)) with (/ 2); apply big_below_max; rewrite Rabs_pos_eq; lra).
  destruct (dnum_ok 3 (-1) H) as (F3 & V3). rewrite rnd_scaled in V3 by lia. change (bpow radix2 (-1)) with (/ 2) in V3. destruct (dint_ok 650000 ltac:(lia)) as (Fa & Va). destruct (dint_ok 6371000 ltac:(lia)) as (Fe & R2). destruct (dint_ok 0 ltac:(lia)) as (F0 & V0). change val with real_of in *.
  destruct (half_ok 4 ltac:(auto)) as (F4 & V4). change (- (4))%Z with (-4)%Z in *. change (bpow radix2 (-4)) with (/ 16) in V4. destruct some_place_is as (Q & On & _).
  assert (Ph : forall k, (k < 2)%nat -> node_degrees 1 2 k = 0 /\ phase_degrees 1 2 0 k = 180 * INR k).
  { intros k Hk. unfold node_degrees, phase_degrees. rewrite Nat.div_small, Nat.mod_small by lia. cbn [INR]. split; field. }
  destruct (launched_heard _ _ _ _ _ _ _ _ _ _ L K As true LittleEndian 1%Z 1 2 0 (dint 650000) (dnum 3 (-1)) [0%nat; 1%nat]) as (s & outs & radius & E & Lo & Rr & W); [unfold sizes; lia|cbn; lia|split; [exact F3|]; rewrite V3, Va; repeat split; try exact Fa; try (rewrite Rabs_pos_eq; lra); lra|].
  rewrite Va in Rr. apply Rabs_le_inv in Rr. destruct outs as [|[a o] [|[b p] [|? ?]]]; cbn in Lo; try discriminate Lo.
  assert (M : forall x, (x = 0 \/ x = PI) -> earth_motion 6371000 (Orbit (3 * / 2) (0 * (PI / 180)) radius x) 0 = Vec (cos x * (6371000 + (radius - 6371009))) 0 0).
  { intros x X. assert (S0 : sin x = 0) by (destruct X as [->| ->]; [apply sin_0|apply sin_PI]). unfold earth_motion, circular_motion, rotate, scale, vadd, node_dir, ahead_dir, earth_radius. cbn [vx vy vz inclination ascending_node orbit_radius orbit_phase].
    rewrite !Rmult_0_r, !Rmult_0_l, Ropp_0, !Rplus_0_l, cos_0, sin_0, S0. f_equal; field; lra. }
  assert (T : within_week (dint 0)) by (split; [exact F0|rewrite V0; lra]). destruct (Ph 0%nat ltac:(lia)) as (A1 & A2). destruct (Ph 1%nat ltac:(lia)) as (B1 & B2).
  pose proof (W 0%nat a o (dint 0) some_place (dnum 1 (-4)) eq_refl ltac:(rewrite A2; cbn [INR]; lra) T On F4) as W0. pose proof (W 1%nat b p (dint 0) some_place (dnum 1 (-4)) eq_refl ltac:(rewrite B2; cbn [INR]; lra) T On F4) as W1. clear W. cbv beta zeta in W0, W1. unfold walker_orbit in W0, W1. rewrite A1, A2, V0, V3, V4, R2, Q in W0. rewrite B1, B2, V0, V3, V4, R2, Q in W1. cbn [INR] in W0, W1.
  replace (180 * 0 * (PI / 180)) with 0 in W0 by field. replace (180 * 1 * (PI / 180)) with PI in W1 by field. rewrite (M 0) in W0 by auto. rewrite (M PI) in W1 by auto. rewrite cos_0, Rmult_1_l in W0. rewrite cos_PI in W1. clear M Ph.
  set (X := 6371000 + (radius - 6371009)) in *. assert (BX : 7020999 <= X <= 7021001) by (unfold X; lra). clearbody X.
  assert (Ng : 6350000 <= norm (Vec 6000000 2100000 0) <= 6360000).
  { unfold norm, dot. cbn [vx vy vz]. split; [rewrite <- (sqrt_sq_nonneg 6350000) by lra|rewrite <- (sqrt_sq_nonneg 6360000) by lra]; apply sqrt_le_1_alt; lra. }
  assert (Nv : forall x, 2100000 <= norm (vsub (Vec x 0 0) (Vec 6000000 2100000 0))).
  { intros x. destruct (part_norm (vsub (Vec x 0 0) (Vec 6000000 2100000 0))) as (_ & Py & _). unfold vsub at 1 in Py. cbn [vy] in Py. apply Rabs_le_inv in Py. lra. }
  pose proof pi_bounds as Pb. unfold clear_angle in *.
  destruct W0 as (u & Eu & _ & _ & Hi); [unfold distance; pose proof (Nv X); lra|]. destruct W1 as (v & Ev & _ & Low & _); [unfold distance; pose proof (Nv (-1 * X)); lra|].
  exists s, a, o, b, p, u, v. split; [exact E|]. split; [exact Eu|]. split; [exact Ev|]. split.
  - assert (El : 1 / 10 <= sat_elevation (Vec X 0 0) (Vec 6000000 2100000 0) <= 24 / 100); [|apply Hi; lra].
    assert (Nw : 2330000 <= norm (vsub (Vec X 0 0) (Vec 6000000 2100000 0)) <= 2340000).
    { unfold norm, dot, vsub. cbn [vx vy vz]. split; [rewrite <- (sqrt_sq_nonneg 2330000) by lra|rewrite <- (sqrt_sq_nonneg 2340000) by lra]; apply sqrt_le_1_alt; nra. }
    unfold sat_elevation. cbn zeta. set (n := norm (Vec 6000000 2100000 0)) in *. set (m := norm (vsub _ _)) in *.
    assert (Mn : 6350000 * 2330000 <= n * m <= 6360000 * 2340000) by (split; apply Rmult_le_compat; lra). unfold dot, vsub. cbn [vx vy vz].
    set (x := _ / (n * m)). assert (Bx : 11 / 100 <= x <= 12 / 100).
    { assert (Xe : x * (n * m) = 6000000 * (X - 6000000) - 2100000 * 2100000) by (unfold x; field; lra). split; apply (Rmult_le_reg_r (n * m)); try lra; rewrite Xe; lra. }
    clearbody x. pose proof (asin_bound x) as Ab. assert (Sx : sin (asin x) = x) by (apply sin_asin; lra).
    assert (Ap : 0 < asin x) by (destruct (Rlt_or_le 0 (asin x)) as [|Hn]; [assumption|]; exfalso; pose proof (sin_ge_0 (- asin x) ltac:(lra) ltac:(lra)) as Sn; rewrite sin_neg in Sn; lra).
    split; [pose proof (sin_lt_x (asin x) Ap); lra|].
    assert (Cp : 0 < cos (asin x)) by (rewrite cos_asin by lra; apply sqrt_lt_R0; unfold Rsqr; nra). pose proof (small_angle (asin x) ltac:(lra) Cp) as Sm. rewrite Sx, !Rabs_pos_eq in Sm by lra. lra.
  - assert (El : sat_elevation (Vec (-1 * X) 0 0) (Vec 6000000 2100000 0) <= 0); [|apply Low; lra].
    unfold sat_elevation. cbn zeta. pose proof (Nv (-1 * X)) as Nw. set (n := norm (Vec 6000000 2100000 0)) in *. set (m := norm (vsub _ _)) in *.
    set (x := _ / (n * m)). assert (Nm : 0 < n * m) by (apply Rmult_lt_0_compat; lra). assert (Bx : x <= 0).
    { unfold x, dot, vsub. cbn [vx vy vz]. apply (Rmult_le_reg_r (n * m)); [lra|]. unfold Rdiv. rewrite Rmult_assoc, Rinv_l by lra. nra. }
    pose proof (asin_bound x) as Ab. destruct (Rle_or_lt (asin x) 0) as [|Hn]; [assumption|]. exfalso.
    destruct (Rle_or_lt (-1) x) as [Hx|Hx]; [pose proof (sin_gt_0 (asin x) Hn ltac:(lra)) as Sn; rewrite sin_asin in Sn; lra|].
    unfold asin in Hn. destruct (Rle_dec x (-1)); lra.
Qed.
