(** Theorems about orbits, elevations and visibility. *)
From Coq Require Import Reals Lra Psatz ZArith Lia.
From Verif Require Import Base OrbitModel OrbitSpec OrbitProofs.
Open Scope R_scope.

(** * C54: satellites stay on their orbit *)

(** At every time the position is defined (the assertion holds), on the sphere and in the plane of the orbit, with
    latitude bounded by the inclination, and moves uniformly at the Keplerian rate. *)
Theorem stays_on_orbit : forall o t, 0 < orbit_radius o ->
  exists v w, inertial o t = Ok v /\ norm v = orbit_radius o /\ dot v (normal_dir o) = 0 /\
    Rabs (vz v) <= orbit_radius o * Rabs (sin (inclination o)) /\
    (0 <= inclination o <= PI / 2 -> Rabs (asin (vz v / norm v)) <= inclination o) /\
    0 < w /\ w * w * orbit_radius o ^ 3 = big_g * earth_mass /\ v = circular_motion o w t.
Proof.
  intros o t H. exists (circular_motion o (mean_motion (orbit_radius o)) t), (mean_motion (orbit_radius o)).
  set (w := mean_motion (orbit_radius o)). pose proof (norm_circular o w t ltac:(lra)) as N.
  assert (Zb : Rabs (vz (circular_motion o w t)) <= orbit_radius o * Rabs (sin (inclination o))).
  { unfold circular_motion, scale, vadd, node_dir, ahead_dir; cbn [vx vy vz]. rewrite Rmult_0_r, Rplus_0_l.
    rewrite Rabs_mult, (Rabs_right (orbit_radius o)) by lra. apply Rmult_le_compat_l; [lra|]. rewrite Rabs_mult.
    pose proof (SIN_bound (w * t + orbit_phase o)) as B. pose proof (Rabs_pos (sin (inclination o))).
    assert (Rabs (sin (w * t + orbit_phase o)) <= 1) by (apply Rabs_le; lra). nra. }
  split; [apply inertial_motion|]. split; [exact N|]. split.
  { unfold circular_motion, dot, normal_dir, scale, vadd, node_dir, ahead_dir; cbn [vx vy vz].
    pose proof (trig1 (ascending_node o)) as T. set (sn := sin (ascending_node o)) in *. set (cn := cos (ascending_node o)) in *.
    transitivity (orbit_radius o * sin (w * t + orbit_phase o) * cos (inclination o) * sin (inclination o) * (1 - (sn * sn + cn * cn))); [ring|].
    rewrite T. ring. }
  split; [exact Zb|]. split.
  { intros I. rewrite N. set (u := vz (circular_motion o w t) / orbit_radius o).
    assert (S0 : 0 <= sin (inclination o)) by (apply sin_ge_0; lra).
    rewrite (Rabs_right (sin _)) in Zb by lra.
    assert (U : - sin (inclination o) <= u <= sin (inclination o)).
    { apply Rabs_le_inv in Zb. unfold u. split; apply Rmult_le_reg_r with (orbit_radius o); try exact H; unfold Rdiv; rewrite Rmult_assoc, Rinv_l by lra; lra. }
    pose proof (SIN_bound (inclination o)) as B. pose proof (asin_bound u) as AB.
    assert (SA : sin (asin u) = u) by (apply sin_asin; lra).
    apply Rabs_le. split.
    - destruct (Rle_dec (- inclination o) (asin u)) as [L|L]; [exact L|exfalso]. apply Rnot_le_lt in L.
      apply sin_increasing_1 in L; try lra. rewrite SA, sin_neg in L. lra.
    - destruct (Rle_dec (asin u) (inclination o)) as [L|L]; [exact L|exfalso]. apply Rnot_le_lt in L.
      apply sin_increasing_1 in L; try lra. }
  split; [apply mean_motion_pos; exact H|]. split; [|reflexivity].
  unfold w, mean_motion. rewrite sqrt_sqrt; [field; lra|].
  apply Rlt_le, Rdiv_lt_0_compat; [unfold big_g, earth_mass; lra|apply pow_lt; exact H].
Qed.
Print Assumptions stays_on_orbit.

(** It repeats after the orbital period, and after nothing but multiples of it. *)
Theorem orbit_repeats : forall o t s, 0 < orbit_radius o ->
  (inertial o (t + s) = inertial o t <-> exists k : Z, s = IZR k * orbital_period o).
Proof.
  intros o t s H. rewrite !inertial_motion. pose proof (mean_motion_pos _ H) as W. unfold orbital_period.
  set (w := mean_motion (orbit_radius o)) in *. clearbody w. split.
  - intros E. injection E as Ex Ey Ez.
    set (a := w * t + orbit_phase o) in *. replace (w * (t + s) + orbit_phase o) with (a + w * s) in Ex, Ey, Ez by (unfold a; ring).
    set (b := a + w * s) in *.
    unfold node_dir, ahead_dir in *; cbn [vx vy vz] in *.
    pose proof (trig1 (inclination o)) as I. pose proof (trig1 (ascending_node o)) as N.
    apply Rmult_eq_reg_l in Ex; [|lra]. apply Rmult_eq_reg_l in Ey; [|lra]. apply Rmult_eq_reg_l in Ez; [|lra].
    set (si := sin (inclination o)) in *. set (ci := cos (inclination o)) in *.
    set (sn := sin (ascending_node o)) in *. set (cn := cos (ascending_node o)) in *.
    assert (C : cos b = cos a).
    { transitivity ((cos b * cn + sin b * - (ci * sn)) * cn + (cos b * sn + sin b * (ci * cn)) * sn).
      - transitivity (cos b * (sn * sn + cn * cn)); [rewrite N; ring|ring].
      - rewrite Ex, Ey. transitivity (cos a * (sn * sn + cn * cn)); [ring|rewrite N; ring]. }
    assert (S : sin b = sin a).
    { assert (Q : sin b * ci = sin a * ci).
      { transitivity ((cos b * cn + sin b * - (ci * sn)) * - sn + (cos b * sn + sin b * (ci * cn)) * cn).
        - transitivity (sin b * ci * (sn * sn + cn * cn)); [rewrite N; ring|ring].
        - rewrite Ex, Ey. transitivity (sin a * ci * (sn * sn + cn * cn)); [ring|rewrite N; ring]. }
      transitivity (sin b * (si * si + ci * ci)); [rewrite I; ring|].
      transitivity ((cos b * 0 + sin b * si) * si + sin b * ci * ci); [ring|]. rewrite Ez, Q.
      transitivity (sin a * (si * si + ci * ci)); [ring|rewrite I; ring]. }
    destruct (same_angle _ _ C S) as [k K]. exists k. apply Rmult_eq_reg_l with w; [|lra].
    unfold b in K. transitivity (2 * IZR k * PI); [lra|field; lra].
  - intros [k ->]. f_equal. unfold circular_motion. cbv zeta.
    replace (w * (t + IZR k * (2 * PI / w)) + orbit_phase o) with (w * t + orbit_phase o + 2 * IZR k * PI) by (field; lra).
    assert (P : forall x, cos (x + 2 * IZR k * PI) = cos x /\ sin (x + 2 * IZR k * PI) = sin x).
    { intros x. rewrite cos_plus, sin_plus. 
      assert (S1 : sin (IZR k * PI) = 0) by (apply sin_eq_0_1; exists k; reflexivity).
      replace (2 * IZR k * PI) with (2 * (IZR k * PI)) by ring. rewrite cos_2a_sin, sin_2a, S1. split; ring. }
    destruct (P (w * t + orbit_phase o)) as [-> ->]. reflexivity.
Qed.
Print Assumptions orbit_repeats.

(** A polar satellite a quarter of a turn after its node is over the pole. *)
Example over_the_pole : inertial (Orbit (PI / 2) 0 7000000 (PI / 2)) 0 = Ok (Vec 0 0 7000000).
Proof.
  rewrite inertial_motion. unfold circular_motion, scale, vadd, node_dir, ahead_dir; cbn [vx vy vz orbit_phase orbit_radius inclination ascending_node].
  rewrite Rmult_0_r, Rplus_0_l, cos_PI2, sin_PI2, cos_0, sin_0. do 2 f_equal; ring.
Qed.

(** * C55: Earth-fixed position *)

(** [rs] is the radius of ns-3's sphere. *)
Definition earth_fixed_claim (rs : R) : Prop := forall o t raw p, 0 < orbit_radius o ->
  inertial o t = Ok raw -> position rs o t = Ok p ->
  p = rotate (- (earth_rotation * t)) raw /\ norm p = norm raw /\ vz p = vz raw.

(** It is right exactly when ns-3 uses the radius of this module for its sphere. *)
Theorem earth_fixed_partial : forall rs, earth_fixed_claim rs <-> rs = earth_radius.
Proof.
  intros rs. split.
  - intros C. destruct (position_rotated rs (Orbit (PI / 2) 0 7000000 (PI / 2)) 0) as (raw & I & Q); [cbn; lra|].
    specialize (C (Orbit (PI / 2) 0 7000000 (PI / 2)) 0 raw _ ltac:(cbn; lra) I Q). destruct C as (_ & _ & Z).
    rewrite over_the_pole in I. injection I as <-. unfold scale, rotate in Z; cbn [vx vy vz orbit_radius] in Z.
    replace ((rs + (7000000 - earth_radius)) / 7000000 * 7000000) with (rs + (7000000 - earth_radius)) in Z by field. lra.
  - intros -> o t raw p H I Q. destruct (position_rotated earth_radius o t H) as (raw' & I' & Q').
    rewrite I in I'. injection I' as <-. rewrite Q in Q'. injection Q' as ->.
    replace ((earth_radius + (orbit_radius o - earth_radius)) / orbit_radius o) with 1 by (field; lra).
    rewrite scale_1. split; [reflexivity|]. split; [apply rotate_norm|reflexivity].
Qed.
Print Assumptions earth_fixed_partial.

Theorem earth_fixed_refuted : ~ earth_fixed_claim ns3_sphere_radius.
Proof. intros C. apply earth_fixed_partial in C. unfold ns3_sphere_radius, earth_radius in C. lra. Qed.
Print Assumptions earth_fixed_refuted.

(** With any ns-3 sphere the satellite is moved radially by the difference of the two radii. *)
Theorem position_offset_partial : forall rs o t, earth_radius <= orbit_radius o -> 0 <= rs ->
  exists raw p, inertial o t = Ok raw /\ position rs o t = Ok p /\
    norm p = orbit_radius o + (rs - earth_radius) /\
    exists k, 0 <= k /\ p = scale k (rotate (- (earth_rotation * t)) raw).
Proof.
  intros rs o t H Hr. assert (0 < earth_radius) by (unfold earth_radius; lra).
  destruct (position_rotated rs o t ltac:(lra)) as (raw & I & Q). exists raw. eexists. split; [exact I|]. split; [exact Q|].
  assert (K : 0 <= (rs + (orbit_radius o - earth_radius)) / orbit_radius o).
  { apply Rmult_le_pos; [lra|]. left. apply Rinv_0_lt_compat. lra. }
  split; [|eexists; split; [exact K|reflexivity]].
  rewrite scale_norm, rotate_norm by exact K. rewrite inertial_motion in I. injection I as <-.
  rewrite norm_circular by lra. field. lra.
Qed.
Print Assumptions position_offset_partial.

(** The pass predictor puts the ground station where it is only if it is given its geocentric coordinates. *)
Theorem predictor_distance_partial : forall o t lat lon radius, 0 < orbit_radius o ->
  exists raw p, inertial o t = Ok raw /\ position earth_radius o t = Ok p /\
    distance p (spherical lat lon radius) = distance raw (ground_observer lat lon radius t).
Proof.
  intros o t lat lon radius H. destruct (position_rotated earth_radius o t H) as (raw & I & Q).
  exists raw. eexists. split; [exact I|]. split; [exact Q|].
  replace ((earth_radius + (orbit_radius o - earth_radius)) / orbit_radius o) with 1 by (field; lra).
  rewrite scale_1, observer_rotated, <- (rotate_distance (earth_rotation * t)), rotate_rotate.
  replace (earth_rotation * t + - (earth_rotation * t)) with 0 by ring. rewrite rotate_0. reflexivity.
Qed.
Print Assumptions predictor_distance_partial.

(** It is given the geodetic latitude instead. *)
Definition e2 : R := wgs84_ecc * wgs84_ecc.
Lemma e2_bounds : 0 < e2 < 1 / 100.
Proof. unfold e2, wgs84_ecc. lra. Qed.

(** The point at geodetic latitude [phi] on the WGS84 ellipsoid. *)
Definition prime_vertical (phi : R) : R := wgs84_axis / sqrt (1 - e2 * sin phi * sin phi).
Definition on_ellipsoid (phi lambda : R) : vec :=
  Vec (prime_vertical phi * cos phi * cos lambda) (prime_vertical phi * cos phi * sin lambda) (prime_vertical phi * (1 - e2) * sin phi).

Lemma prime_vertical_pos : forall phi, 0 < prime_vertical phi.
Proof.
  intros phi. unfold prime_vertical. apply Rdiv_lt_0_compat; [unfold wgs84_axis; lra|]. apply sqrt_lt_R0.
  pose proof (SIN_bound phi). pose proof e2_bounds. nra.
Qed.

Lemma canonical_id : forall lat lon, - (PI / 2) <= lat <= PI / 2 -> - PI < lon < PI -> canonical lat lon = Ok (lat, lon).
Proof.
  intros lat lon La Lo. unfold canonical. pose proof PI_RGT_0 as P.
  assert (D : forall x k, degrees x <= k <-> x <= k * (PI / 180)).
  { intros x k. unfold degrees. split; intros X.
    - apply Rmult_le_reg_r with (180 / PI); [apply Rdiv_lt_0_compat; lra|]. replace (k * (PI / 180) * (180 / PI)) with k by (field; lra). exact X.
    - apply Rmult_le_reg_r with (PI / 180); [lra|]. replace (x * (180 / PI) * (PI / 180)) with x by (field; lra). exact X. }
  assert (D' : forall x k, k <= degrees x <-> k * (PI / 180) <= x).
  { intros x k. unfold degrees. split; intros X.
    - apply Rmult_le_reg_r with (180 / PI); [apply Rdiv_lt_0_compat; lra|]. replace (k * (PI / 180) * (180 / PI)) with k by (field; lra). exact X.
    - apply Rmult_le_reg_r with (PI / 180); [lra|]. replace (x * (180 / PI) * (PI / 180)) with x by (field; lra). exact X. }
  destruct (Rlt_dec 90 (degrees lat)) as [x|x]. { exfalso. apply (Rlt_not_le _ _ x). apply D. lra. }
  destruct (Rlt_dec (degrees lat) (- 90)) as [y|y]. { exfalso. apply (Rlt_not_le _ _ y). apply D'. lra. }
  assert (L180 : degrees lon < 180). { apply Rnot_le_lt. intros Q. apply D' in Q. lra. }
  destruct (Req_EM_T (degrees lon) 180) as [z|z]; [lra|].
  unfold rleb, rltb. destruct (Rle_dec (- 180) (degrees lon)) as [|n]; [|exfalso; apply n, D'; lra].
  destruct (Rlt_dec (degrees lon) 180); [|lra].
  destruct (Rle_dec (- 90) (degrees lat)); [|lra]. destruct (Rle_dec (degrees lat) 90); [|lra].
  cbn [assert_ rbind]. rewrite !radians_degrees. reflexivity.
Qed.

(** The conversion is exact for every point of the ellipsoid off the poles and the date line: one round, no failed
    assertion, and the geodetic coordinates of the point. *)
Theorem geodetic_on_ellipsoid : forall phi lambda, - (PI / 2) < phi < PI / 2 -> - PI < lambda < PI ->
  to_geographic (on_ellipsoid phi lambda) (Ok (phi, lambda)).
Proof.
  intros phi lambda Hp Hl. pose proof (prime_vertical_pos phi) as N. pose proof e2_bounds as E. pose proof PI_RGT_0 as P.
  assert (C : 0 < cos phi) by (apply cos_gt_0; lra).
  assert (Ax : axis_distance (on_ellipsoid phi lambda) = prime_vertical phi * cos phi).
  { unfold axis_distance, on_ellipsoid; cbn [vx vy vz].
    replace ((prime_vertical phi * cos phi * cos lambda) ^ 2 + (prime_vertical phi * cos phi * sin lambda) ^ 2)
      with ((prime_vertical phi * cos phi) * (prime_vertical phi * cos phi) * (sin lambda * sin lambda + cos lambda * cos lambda)) by ring.
    rewrite trig1, Rmult_1_r. apply sqrt_sq_nonneg. nra. }
  assert (Zv : vz (on_ellipsoid phi lambda) = (prime_vertical phi * (1 - e2)) * sin phi) by reflexivity.
  assert (Q : 0 < prime_vertical phi * (1 - e2)) by nra.
  assert (St : latitude_start (prime_vertical phi * cos phi) (prime_vertical phi * (1 - e2) * sin phi) = phi).
  { unfold latitude_start. fold e2. replace (prime_vertical phi * cos phi * (1 - e2)) with (prime_vertical phi * (1 - e2) * cos phi) by ring.
    apply atan2_of_polar; [exact Q|lra]. }
  assert (Rd : latitude_round (prime_vertical phi * cos phi) (prime_vertical phi * (1 - e2) * sin phi) phi = phi).
  { unfold latitude_round. fold e2. change (wgs84_axis / sqrt (1 - e2 * sin phi * sin phi)) with (prime_vertical phi).
    replace (prime_vertical phi * cos phi * (1 - e2 * prime_vertical phi / (prime_vertical phi * cos phi / cos phi)))
      with (prime_vertical phi * (1 - e2) * cos phi) by (field; split; lra).
    apply atan2_of_polar; [exact Q|lra]. }
  exists phi. rewrite Ax, Zv, St. split.
  - pose proof (loop_stop (prime_vertical phi * cos phi) (prime_vertical phi * (1 - e2) * sin phi) phi) as Ls. rewrite Rd in Ls.
    apply Ls. rewrite Rminus_diag_eq, Rabs_R0 by reflexivity. unfold latitude_tolerance, radians. lra.
  - unfold on_ellipsoid; cbn [vx vy]. rewrite atan2_of_polar by (nra || lra). rewrite canonical_id by lra. reflexivity.
Qed.
Print Assumptions geodetic_on_ellipsoid.

Definition predictor_distance_claim : Prop := forall o t g lat lon raw p, 0 < orbit_radius o ->
  to_geographic g (Ok (lat, lon)) -> inertial o t = Ok raw -> position earth_radius o t = Ok p ->
  distance p g = distance raw (ground_observer lat lon (norm g) t).

(** The station of the predictor is north of a station of the northern hemisphere, whatever its altitude: the loop keeps
    the latitude above the geocentric one. *)
Lemma round_above : forall p z lat, 0 < p -> 0 < z -> e2 * wgs84_axis / sqrt (1 - e2) < sqrt (p * p + z * z) ->
  0 < lat < PI / 2 -> z / p < tan lat ->
  0 < latitude_round p z lat < PI / 2 /\ z / p < tan (latitude_round p z lat).
Proof.
  intros p z lat Hp Hz Big L T. pose proof e2_bounds as E.
  assert (C : 0 < cos lat) by (apply cos_gt_0; lra). assert (S : 0 < sin lat) by (apply sin_gt_0; lra).
  pose proof (prime_vertical_pos lat) as N. set (n := prime_vertical lat) in *.
  (* the denominator of the new tangent lies strictly between 0 and p *)
  assert (S1 : sin lat * sin lat <= 1) by (pose proof (SIN_bound lat); nra).
  assert (Nb : n <= wgs84_axis / sqrt (1 - e2)).
  { unfold n, prime_vertical. apply Rmult_le_compat_l; [unfold wgs84_axis; lra|]. apply Rinv_le_contravar; [apply sqrt_lt_R0; lra|].
    apply sqrt_le_1_alt. nra. }
  assert (Sec : sqrt (p * p + z * z) <= p / cos lat).
  { apply Rsqr_incr_0_var; [|apply Rlt_le, Rdiv_lt_0_compat; assumption]. rewrite Rsqr_sqrt by nra. unfold Rsqr.
    unfold tan in T. assert (T1 : z * cos lat < sin lat * p).
    { apply Rmult_lt_compat_r with (r := p * cos lat) in T; [|nra].
      replace (z / p * (p * cos lat)) with (z * cos lat) in T by (field; lra).
      replace (sin lat / cos lat * (p * cos lat)) with (sin lat * p) in T by (field; lra). exact T. }
    assert (T2 : (z * cos lat) * (z * cos lat) <= (sin lat * p) * (sin lat * p)) by (apply Rmult_le_compat; nra).
    pose proof (trig1 lat) as Tr.
    apply Rmult_le_reg_r with (cos lat * cos lat); [nra|].
    replace (p / cos lat * (p / cos lat) * (cos lat * cos lat)) with (p * p) by (field; lra).
    assert (X : p * p * (cos lat * cos lat) + (sin lat * p) * (sin lat * p) = p * p).
    { transitivity (p * p * (sin lat * sin lat + cos lat * cos lat)); [ring|rewrite Tr; ring]. } nra. }
  assert (V : e2 * n < p / cos lat).
  { eapply Rle_lt_trans; [|eapply Rlt_le_trans; [exact Big|exact Sec]].
    replace (e2 * wgs84_axis / sqrt (1 - e2)) with (e2 * (wgs84_axis / sqrt (1 - e2))) by (unfold Rdiv; ring).
    apply Rmult_le_compat_l; lra. }
  set (v := p / cos lat) in *. assert (Vp : 0 < v) by (unfold v; apply Rdiv_lt_0_compat; assumption).
  assert (F : 0 < e2 * n / v < 1).
  { split; [apply Rdiv_lt_0_compat; nra|]. apply Rmult_lt_reg_r with v; [exact Vp|]. unfold Rdiv. rewrite Rmult_assoc, Rinv_l by lra. lra. }
  set (d := p * (1 - e2 * n / v)). assert (Dd : 0 < d < p) by (unfold d; nra).
  assert (Eq : latitude_round p z lat = atan (z / d)).
  { unfold latitude_round. fold e2. change (wgs84_axis / sqrt (1 - e2 * sin lat * sin lat)) with n. fold v. fold d.
    unfold atan2. destruct (Rlt_dec 0 d); [reflexivity|lra]. }
  rewrite Eq. assert (Q : 0 < z / d) by (apply Rdiv_lt_0_compat; lra). split.
  - pose proof (atan_bound (z / d)). apply atan_increasing in Q. rewrite atan_0 in Q. lra.
  - rewrite tan_atan. unfold Rdiv. apply Rmult_lt_compat_l; [exact Hz|]. apply Rinv_lt_contravar; nra.
Qed.

Theorem predicted_station_north : forall g lat lon, 0 < axis_distance g -> 0 < vz g ->
  e2 * wgs84_axis / sqrt (1 - e2) < norm g -> to_geographic g (Ok (lat, lon)) ->
  vz g < vz (spherical lat lon (norm g)).
Proof.
  intros g lat lon Hp Hz Big (l & Lp & Cn). set (p := axis_distance g) in *. set (z := vz g) in *.
  assert (Nm : norm g = sqrt (p * p + z * z)).
  { unfold norm, p, axis_distance. f_equal. unfold dot. rewrite sqrt_sqrt by nra. unfold z. ring. }
  rewrite Nm in Big. pose proof e2_bounds as E.
  assert (St : 0 < latitude_start p z < PI / 2 /\ z / p < tan (latitude_start p z)).
  { unfold latitude_start. fold e2. assert (0 < p * (1 - e2) < p) by nra. unfold atan2.
    destruct (Rlt_dec 0 (p * (1 - e2))); [|lra]. assert (Q : 0 < z / (p * (1 - e2))) by (apply Rdiv_lt_0_compat; lra). split.
    - pose proof (atan_bound (z / (p * (1 - e2)))). apply atan_increasing in Q. rewrite atan_0 in Q. lra.
    - rewrite tan_atan. unfold Rdiv. apply Rmult_lt_compat_l; [exact Hz|]. apply Rinv_lt_contravar; nra. }
  assert (R : 0 < l < PI / 2 /\ z / p < tan l).
  { revert St Lp. generalize (latitude_start p z). intros s St Lp. induction Lp as [s _|s r _ _ IH].
    - apply round_above; tauto.
    - apply IH; [exact Cn|]. apply round_above; tauto. }
  assert (C : 0 < cos l) by (apply cos_gt_0; lra). assert (S : 0 < sin l) by (apply sin_gt_0; lra).
  assert (Sl : z < norm g * sin l).
  { rewrite Nm. destruct R as [_ T]. unfold tan in T.
    assert (T1 : z * cos l < p * sin l).
    { apply Rmult_lt_compat_r with (r := p * cos l) in T; [|nra].
      replace (z / p * (p * cos l)) with (z * cos l) in T by (field; lra).
      replace (sin l / cos l * (p * cos l)) with (p * sin l) in T by (field; lra). exact T. }
    apply Rsqr_incrst_0; [|lra|apply Rmult_le_pos; [apply sqrt_pos|lra]].
    rewrite Rsqr_mult, Rsqr_sqrt by nra. unfold Rsqr. pose proof (trig1 l) as Tr.
    assert (T2 : (z * cos l) * (z * cos l) < (p * sin l) * (p * sin l)) by (apply Rmult_gt_0_lt_compat; nra).
    assert (X : z * z = z * z * (sin l * sin l) + (z * cos l) * (z * cos l)).
    { transitivity (z * z * (sin l * sin l + cos l * cos l)); [rewrite Tr; ring|ring]. } rewrite X. nra. }
  assert (Rg : canonical l (atan2 (vy g) (vx g)) = Ok (lat, lon)) by (symmetry; exact Cn).
  assert (lat = l).
  { unfold canonical in Rg. pose proof PI_RGT_0 as P.
    assert (B : degrees l <= 90). { unfold degrees. apply Rmult_le_reg_r with (PI / 180); [lra|]. replace (l * (180 / PI) * (PI / 180)) with l by (field; lra). lra. }
    assert (B0 : 0 < degrees l). { unfold degrees. apply Rmult_lt_0_compat; [lra|apply Rdiv_lt_0_compat; lra]. }
    destruct (Rlt_dec 90 (degrees l)); [lra|]. destruct (Rlt_dec (degrees l) (- 90)); [lra|].
    revert Rg. set (lo := if Req_EM_T _ _ then _ else _). clearbody lo. clear.
    destruct (rleb (-180) lo); [|discriminate]. destruct (rltb lo 180); [|discriminate].
    destruct (rleb (-90) (degrees l)); [|discriminate]. destruct (rleb (degrees l) 90); [|discriminate].
    cbn. rewrite radians_degrees. intros [= <- _]. reflexivity. }
  subst lat. unfold spherical; cbn [vz]. exact Sl.
Qed.
Print Assumptions predicted_station_north.

(** So for a station at geodetic latitude 45 degrees the predictor measures other distances than the channel. *)
Theorem predictor_distance_refuted : ~ predictor_distance_claim.
Proof.
  intros C. pose proof PI_RGT_0 as P. pose proof e2_bounds as E.
  set (g := on_ellipsoid (PI / 4) 0).
  pose proof (geodetic_on_ellipsoid (PI / 4) 0 ltac:(lra) ltac:(lra)) as G. fold g in G.
  destruct (position_rotated earth_radius (Orbit (PI / 2) 0 7000000 (PI / 2)) 0) as (raw & I & Q); [cbn; lra|].
  specialize (C (Orbit (PI / 2) 0 7000000 (PI / 2)) 0 g (PI / 4) 0 raw _ ltac:(cbn; lra) G I Q). rewrite over_the_pole in I. injection I as <-.
  cbn [orbit_radius] in C. replace ((earth_radius + (7000000 - earth_radius)) / 7000000) with 1 in C by field.
  rewrite scale_1, Rmult_0_r, Ropp_0, rotate_0, observer_rotated, Rmult_0_r, rotate_0 in C.
  pose proof (prime_vertical_pos (PI / 4)) as N.
  assert (C4 : 0 < cos (PI / 4)) by (apply cos_gt_0; lra). assert (S4 : 0 < sin (PI / 4)) by (apply sin_gt_0; lra).
  assert (Vz : 0 < vz g) by (unfold g, on_ellipsoid; cbn [vz]; apply Rmult_lt_0_compat; nra).
  assert (SC : sin (PI / 4) = cos (PI / 4)) by (rewrite sin_PI4, cos_PI4; reflexivity).
  assert (Ax : axis_distance g = prime_vertical (PI / 4) * cos (PI / 4)).
  { unfold axis_distance, g, on_ellipsoid; cbn [vx vy]. rewrite cos_0, sin_0, Rmult_1_r, Rmult_0_r.
    replace ((prime_vertical (PI / 4) * cos (PI / 4)) ^ 2 + 0 ^ 2) with ((prime_vertical (PI / 4) * cos (PI / 4)) * (prime_vertical (PI / 4) * cos (PI / 4))) by ring.
    apply sqrt_sq_nonneg. nra. }
  assert (Big : e2 * wgs84_axis / sqrt (1 - e2) < norm g).
  { assert (N1 : wgs84_axis <= prime_vertical (PI / 4)).
    { unfold prime_vertical. replace wgs84_axis with (wgs84_axis / 1) at 1 by field. apply Rmult_le_compat_l; [unfold wgs84_axis; lra|].
      apply Rinv_le_contravar; [apply sqrt_lt_R0; pose proof (SIN_bound (PI / 4)); nra|]. rewrite <- sqrt_1 at 2. apply sqrt_le_1_alt.
      pose proof (SIN_bound (PI / 4)). nra. }
    assert (N2 : prime_vertical (PI / 4) * (1 - e2) * sin (PI / 4) <= norm g).
    { unfold norm. rewrite <- (sqrt_sq_nonneg (prime_vertical (PI / 4) * (1 - e2) * sin (PI / 4))) by (apply Rlt_le; exact Vz).
      apply sqrt_le_1_alt. unfold dot. change (vz g) with (prime_vertical (PI / 4) * (1 - e2) * sin (PI / 4)). nra. }
    assert (Hs : 1 / 2 <= sin (PI / 4)).
    { rewrite SC. pose proof (trig1 (PI / 4)) as T. rewrite SC in T. nra. }
    assert (Hq : 1 / 2 <= sqrt (1 - e2)).
    { rewrite <- (sqrt_sq_nonneg (1 / 2)) by lra. apply sqrt_le_1_alt. lra. }
    eapply Rlt_le_trans; [|exact N2]. apply Rle_lt_trans with (1 / 50 * wgs84_axis).
    - assert (0 < wgs84_axis) by (unfold wgs84_axis; lra).
      apply Rmult_le_reg_r with (sqrt (1 - e2)); [lra|]. unfold Rdiv at 1. rewrite Rmult_assoc, Rinv_l by lra. nra.
    - assert (0 < wgs84_axis) by (unfold wgs84_axis; lra).
      apply Rlt_le_trans with (wgs84_axis * (99 / 100) * (1 / 2)); [lra|].
      apply Rmult_le_compat; [nra|lra| |exact Hs]. apply Rmult_le_compat; lra. }
  pose proof (predicted_station_north g (PI / 4) 0 ltac:(rewrite Ax; nra) Vz Big G) as Nth.
  (* over the pole, equal distances mean equal heights *)
  assert (Eq : forall u, distance (Vec 0 0 7000000) u * distance (Vec 0 0 7000000) u = dot u u + 7000000 * 7000000 - 14000000 * vz u).
  { intros u. unfold distance. rewrite norm_sq. unfold dot, vsub; cbn [vx vy vz]. ring. }
  pose proof (Eq g) as E1. rewrite C, Eq in E1.
  assert (Sp : dot (spherical (PI / 4) 0 (norm g)) (spherical (PI / 4) 0 (norm g)) = dot g g).
  { rewrite <- (norm_sq g). unfold dot, spherical; cbn [vx vy vz]. set (n := norm g).
    rewrite cos_0, sin_0. transitivity (n * n * (sin (PI / 4) * sin (PI / 4) + cos (PI / 4) * cos (PI / 4))); [ring|rewrite trig1; ring]. }
  rewrite Sp in E1. lra.
Qed.
Print Assumptions predictor_distance_refuted.

(** * C56: elevation *)

Theorem elevation_defined : forall sat g, dot g g <> 0 -> sat <> g ->
  (-1 <= dot g (vsub sat g) / (norm g * norm (vsub sat g)) <= 1) /\
  - (PI / 2) <= sat_elevation sat g <= PI / 2 /\
  (sat_elevation sat g = PI / 2 <-> straight_above sat g) /\
  (sat_elevation sat g = - (PI / 2) <-> straight_below sat g) /\
  (sat_elevation sat g = 0 <-> in_horizon_plane sat g).
Proof.
  intros sat g Hg Hs.
  assert (Dd : dot (vsub sat g) (vsub sat g) <> 0).
  { intros D. apply Hs. destruct sat as [x y z], g as [x' y' z']. unfold dot, vsub in D; cbn in D.
    apply sum_sq_0 in D. destruct D as (A & B & C). f_equal; lra. }
  pose proof (norm_pos_of _ Hg) as Ng. pose proof (norm_pos_of _ Dd) as Nd.
  pose proof (cos_zenith_bound g (vsub sat g) Ng Nd) as B. unfold sat_elevation, in_horizon_plane.
  set (d := vsub sat g) in *. set (u := dot g d / (norm g * norm d)) in *.
  pose proof (asin_bound u) as AB. pose proof PI_RGT_0 as P.
  assert (SA : sin (asin u) = u) by (apply sin_asin; exact B).
  assert (Nn : 0 < norm g * norm d) by nra.
  assert (U : dot g d = u * (norm g * norm d)) by (unfold u; field; lra).
  (* parallel vectors: equality in the Cauchy-Schwarz inequality *)
  assert (Par : u * u = 1 -> d = scale (u * norm d / norm g) g).
  { intros U1. assert (E : dot g d * dot g d = dot g g * dot d d).
    { rewrite U, <- !norm_sq. transitivity (u * u * (norm g * norm g * (norm d * norm d))); [ring|rewrite U1; ring]. }
    assert (K : u * norm d / norm g = dot g d / dot g g) by (rewrite <- norm_sq, U; field; lra). rewrite K.
    clear - E Hg. destruct g as [x y z], d as [a b c]. unfold dot, scale in *; cbn [vx vy vz] in *.
    set (k := (x * a + y * b + z * c) / (x * x + y * y + z * z)).
    assert (Kd : k * (x * x + y * y + z * z) = x * a + y * b + z * c) by (unfold k; field; exact Hg).
    assert (S0 : (a - k * x) * (a - k * x) + (b - k * y) * (b - k * y) + (c - k * z) * (c - k * z) = 0).
    { transitivity (a * a + b * b + c * c - 2 * k * (x * a + y * b + z * c) + k * (k * (x * x + y * y + z * z))); [ring|].
      rewrite Kd. apply Rmult_eq_reg_l with (x * x + y * y + z * z); [|exact Hg].
      transitivity ((x * x + y * y + z * z) * (a * a + b * b + c * c) - (k * (x * x + y * y + z * z)) * (x * a + y * b + z * c)); [ring|].
      rewrite Kd, Rmult_0_r. lra. }
    apply sum_sq_0 in S0. destruct S0 as (A & B & C). f_equal; lra. }
  split; [exact B|]. split; [exact AB|]. split; [|split].
  - split.
    + intros A. assert (U1 : u = 1) by (rewrite <- SA, A; apply sin_PI2).
      exists (u * norm d / norm g). split; [apply Rdiv_lt_0_compat; [rewrite U1|]; lra|]. apply Par. rewrite U1. ring.
    + intros (k & Hk & E). fold d in E. assert (U1 : u = 1).
      { unfold u. rewrite E, scale_norm by lra. replace (dot g (scale k g)) with (k * dot g g) by (unfold dot, scale; cbn; ring).
        rewrite <- norm_sq. field. split; lra. }
      rewrite U1. apply asin_1.
  - split.
    + intros A. assert (U1 : u = - 1) by (rewrite <- SA, A, sin_neg, sin_PI2; reflexivity).
      exists (u * norm d / norm g). split; [|apply Par; rewrite U1; ring].
      rewrite U1. assert (0 < norm d / norm g) by (apply Rdiv_lt_0_compat; lra). unfold Rdiv in *. lra.
    + intros (k & Hk & E). fold d in E. assert (U1 : u = - (1)).
      { unfold u. rewrite E. assert (Nk : norm (scale k g) = - k * norm g).
        { replace (scale k g) with (scale (- k) (scale (- (1)) g)) by (unfold scale; cbn; f_equal; ring).
          rewrite scale_norm by lra. f_equal. unfold norm. f_equal. unfold dot, scale; cbn. ring. }
        rewrite Nk. replace (dot g (scale k g)) with (k * dot g g) by (unfold dot, scale; cbn; ring). rewrite <- norm_sq. field. split; lra. }
      rewrite U1, asin_opp, asin_1. reflexivity.
  - split.
    + intros A. rewrite A, sin_0 in SA. rewrite U, <- SA. ring.
    + intros D. assert (U0 : u = 0) by (unfold u; rewrite D; unfold Rdiv; ring). rewrite U0. apply asin_0.
Qed.
Print Assumptions elevation_defined.

Lemma elevation_range : forall sat g, - (PI / 2) <= sat_elevation sat g <= PI / 2.
Proof. intros. apply asin_bound. Qed.

(** Among satellites at the same distance from the centre, no lower than the station, the nearer is the higher. *)
Theorem elevation_monotone : forall a b g, 0 < norm g -> norm a = norm b -> norm g <= norm a ->
  0 < distance a g -> 0 < distance b g ->
  (distance a g < distance b g <-> sat_elevation b g < sat_elevation a g).
Proof.
  intros a b g Hg Eq Hh Ha Hb.
  pose proof (elevation_law a g Hg Ha) as La. pose proof (elevation_law b g Hg Hb) as Lb.
  rewrite <- norm_sq in La, Lb. rewrite <- Eq in Lb.
  pose proof (elevation_range a g) as Ra. pose proof (elevation_range b g) as Rb.
  set (ea := sat_elevation a g) in *. set (eb := sat_elevation b g) in *.
  set (da := distance a g) in *. set (db := distance b g) in *. set (h := norm a) in *. set (r := norm g) in *.
  assert (Mono : forall x y, - (PI / 2) <= x <= PI / 2 -> - (PI / 2) <= y <= PI / 2 -> (x < y <-> sin x < sin y)).
  { intros x y X Y. split; intros; [apply sin_increasing_1; lra|apply sin_increasing_0; lra]. }
  rewrite (Mono eb ea Rb Ra). set (sa := sin ea) in *. set (sb := sin eb) in *.
  (* sine times distance *)
  assert (Hh2 : r * r <= h * h) by nra.
  assert (Sa : 2 * r * da * sa = h * h - r * r - da * da) by lra.
  assert (Sb : 2 * r * db * sb = h * h - r * r - db * db) by lra.
  assert (Key : 2 * r * (da * db) * (sa - sb) = (db - da) * ((h * h - r * r) + da * db)).
  { transitivity (db * (2 * r * da * sa) - da * (2 * r * db * sb)); [ring|]. rewrite Sa, Sb. ring. }
  assert (P1 : 0 < 2 * r * (da * db)) by (assert (0 < da * db) by nra; nra).
  assert (P2 : 0 < (h * h - r * r) + da * db) by nra.
  split; intros L.
  - assert (0 < 2 * r * (da * db) * (sa - sb)) by (rewrite Key; apply Rmult_lt_0_compat; lra). nra.
  - assert (0 < (db - da) * ((h * h - r * r) + da * db)) by (rewrite <- Key; apply Rmult_lt_0_compat; lra). nra.
Qed.
Print Assumptions elevation_monotone.

(** * C53: slant range *)

Definition slant_range_claim (o : orbit) (sat g : vec) (e : R) : Prop :=
  sat_elevation sat g = e <-> distance sat g = ground_distance_at_elevation o e (norm g).

(** Right for stations at exactly the Earth radius. *)
Theorem slant_range_partial : forall o sat g e, norm sat = orbit_radius o -> norm g = earth_radius -> earth_radius <= orbit_radius o ->
  0 < distance sat g -> - (PI / 2) <= e <= PI / 2 -> slant_range_claim o sat g e.
Proof.
  intros o sat g e Hs Hg Ho Hd He. assert (Rp : 0 < earth_radius) by (unfold earth_radius; lra).
  pose proof (elevation_law sat g ltac:(lra) Hd) as L. rewrite <- norm_sq, Hs, Hg in L.
  pose proof (elevation_range sat g) as Er.
  unfold slant_range_claim, ground_distance_at_elevation, sat_altitude. rewrite Hg.
  set (r := earth_radius) in *. set (h := orbit_radius o) in *. set (d := distance sat g) in *. set (s := sin e).
  assert (A : (r * s) ^ 2 + 2 * r * (h - r) + (h - r) ^ 2 = (r * s) * (r * s) + (h * h - r * r)) by ring. rewrite A.
  set (q := sqrt ((r * s) * (r * s) + (h * h - r * r))).
  assert (Q2 : q * q = (r * s) * (r * s) + (h * h - r * r)) by (apply sqrt_sqrt; nra).
  assert (Q0 : 0 <= q) by apply sqrt_pos.
  assert (Qs : r * s <= q) by nra.
  assert (F : 2 * (r * s) ^ 2 - 2 * r * s * q + 2 * r * (h - r) + (h - r) ^ 2 = (q - r * s) * (q - r * s)).
  { transitivity ((r * s) * (r * s) - 2 * (r * s) * q + ((r * s) * (r * s) + (h * h - r * r))); [ring|]. rewrite <- Q2. ring. }
  rewrite F, sqrt_sq_nonneg by lra. split.
  - intros E. rewrite E in L. fold s in L.
    assert (D : (d + r * s) * (d + r * s) = q * q) by (rewrite Q2; nra).
    assert (G0 : 0 <= d + r * s). { assert (0 <= d * (d + 2 * (r * s))) by nra. nra. }
    nra.
  - intros E. assert (D : (d + r * s) * (d + r * s) = q * q) by (replace (d + r * s) with q by lra; ring).
    rewrite Q2 in D. assert (S : sin (sat_elevation sat g) = s).
    { apply Rmult_eq_reg_l with (2 * r * d); [|nra]. nra. }
    unfold s in S. destruct (Rtotal_order (sat_elevation sat g) e) as [X|[X|X]]; [|exact X|].
    + apply sin_increasing_1 in X; lra.
    + apply sin_increasing_1 in X; lra.
Qed.
Print Assumptions slant_range_partial.

(** Wrong for every other station: whatever the satellite and the elevation, the distance computed for the elevation at
    which the satellite is seen is not its distance. *)
Theorem slant_range_refuted : forall o sat g, norm sat = orbit_radius o -> earth_radius <= orbit_radius o ->
  0 < norm g -> norm g <> earth_radius -> 0 < distance sat g ->
  distance sat g <> ground_distance_at_elevation o (sat_elevation sat g) (norm g).
Proof.
  intros o sat g Hs Ho Hg Hn Hd E. assert (Rp : 0 < earth_radius) by (unfold earth_radius; lra).
  pose proof (elevation_law sat g Hg Hd) as L. rewrite <- norm_sq, Hs in L.
  unfold ground_distance_at_elevation, sat_altitude in E.
  set (n := norm g) in *. set (r := earth_radius) in *. set (h := orbit_radius o) in *. set (d := distance sat g) in *.
  set (s := sin (sat_elevation sat g)) in *.
  set (B := 2 * n * (h - r) + (h - r) ^ 2) in *. assert (B0 : 0 <= B) by (unfold B; nra).
  replace ((n * s) ^ 2 + 2 * n * (h - r) + (h - r) ^ 2) with ((n * s) * (n * s) + B) in E by (unfold B; ring).
  set (q := sqrt ((n * s) * (n * s) + B)) in *.
  assert (Q2 : q * q = (n * s) * (n * s) + B) by (apply sqrt_sqrt; nra).
  assert (Q0 : 0 <= q) by apply sqrt_pos. assert (Qs : n * s <= q) by nra.
  replace (2 * (n * s) ^ 2 - 2 * n * s * q + 2 * n * (h - r) + (h - r) ^ 2) with ((q - n * s) * (q - n * s)) in E.
  2:{ transitivity ((n * s) * (n * s) - 2 * (n * s) * q + q * q); [ring|]. rewrite Q2. unfold B. ring. }
  rewrite sqrt_sq_nonneg in E by lra.
  assert (D : (d + n * s) * (d + n * s) = q * q) by (replace (d + n * s) with q by lra; ring).
  rewrite Q2 in D. assert (X : (h - (n + (h - r))) * (h + (n + (h - r))) = 0) by (unfold B in D; nra).
  apply Rmult_integral in X. destruct X; lra.
Qed.
Print Assumptions slant_range_refuted.

(** A station on the WGS84 equator, a satellite straight above it at 550 km. *)
Example slant_range_case : exists o sat g, norm sat = orbit_radius o /\ earth_radius <= orbit_radius o /\
  norm g = wgs84_axis /\ ~ slant_range_claim o sat g (PI / 2).
Proof.
  set (h := earth_radius + 550000). exists (Orbit 0 0 h 0), (Vec h 0 0), (Vec wgs84_axis 0 0).
  assert (N : forall x, 0 <= x -> norm (Vec x 0 0) = x).
  { intros x Hx. unfold norm, dot; cbn. replace (x * x + 0 * 0 + 0 * 0) with (x * x) by ring. apply sqrt_sq_nonneg. exact Hx. }
  assert (Hh : h = 6921009) by (unfold h, earth_radius; lra).
  assert (D : distance (Vec h 0 0) (Vec wgs84_axis 0 0) = h - wgs84_axis).
  { unfold distance, norm, dot, vsub; cbn. transitivity (sqrt ((h - wgs84_axis) * (h - wgs84_axis))); [f_equal; ring|].
    apply sqrt_sq_nonneg. rewrite Hh. unfold wgs84_axis. lra. }
  assert (El : sat_elevation (Vec h 0 0) (Vec wgs84_axis 0 0) = PI / 2).
  { apply (proj1 (proj2 (proj2 (elevation_defined (Vec h 0 0) (Vec wgs84_axis 0 0) ltac:(unfold dot, wgs84_axis; cbn; lra) ltac:(intros [= X]; rewrite Hh in X; unfold wgs84_axis in X; lra))))).
    exists ((h - wgs84_axis) / wgs84_axis). split; [rewrite Hh; unfold wgs84_axis; lra|].
    unfold vsub, scale; cbn. f_equal; try ring. unfold wgs84_axis. field. }
  split; [cbn; apply N; lra|]. split; [cbn; unfold h; lra|]. split; [apply N; unfold wgs84_axis; lra|].
  intros C. apply (slant_range_refuted (Orbit 0 0 h 0) (Vec h 0 0) (Vec wgs84_axis 0 0)).
  - cbn. apply N. lra.
  - cbn. unfold h. lra.
  - rewrite N; unfold wgs84_axis; lra.
  - rewrite N; unfold wgs84_axis, earth_radius; lra.
  - rewrite D, Hh. unfold wgs84_axis. lra.
  - rewrite El. apply C. exact El.
Qed.

(** * C52: inter-satellite line of sight *)

Lemma segment_point : forall a b s, norm a = norm b ->
  dot (vadd (scale (1 - s) a) (scale s b)) (vadd (scale (1 - s) a) (scale s b)) =
  norm a * norm a - s * (1 - s) * (distance a b * distance a b).
Proof.
  intros a b s E. assert (E2 : dot a a = dot b b) by (rewrite <- !norm_sq, E; reflexivity).
  unfold distance. rewrite !norm_sq. destruct a as [x y z], b as [x' y' z']. unfold dot, vadd, scale, vsub in *; cbn [vx vy vz] in *.
  apply Rminus_diag_uniq.
  transitivity ((s - 1) * 0 + s * (x' * x' + y' * y' + z' * z' - (x * x + y * y + z * z))); [ring|]. rewrite E2. ring.
Qed.

Lemma clear_iff : forall r a b, 0 <= r -> norm a = norm b ->
  (segment_clear r a b <-> r * r <= norm a * norm a - distance a b * distance a b / 4).
Proof.
  intros r a b Hr E. pose proof (segment_point a b) as Sg. split.
  - intros C. specialize (C (1 / 2) ltac:(lra)). specialize (Sg (1 / 2) E).
    set (m := vadd (scale (1 - 1 / 2) a) (scale (1 / 2) b)) in *. rewrite <- norm_sq in Sg. nra.
  - intros H s Hs. specialize (Sg s E). set (m := vadd (scale (1 - s) a) (scale s b)) in *. rewrite <- norm_sq in Sg.
    pose proof (norm_nonneg m). set (d := distance a b) in *. assert (s * (1 - s) <= 1 / 4) by (pose proof (Rle_0_sqr (s - 1 / 2)) as X; unfold Rsqr in X; lra).
    assert (s * (1 - s) * (d * d) <= 1 / 4 * (d * d)) by (apply Rmult_le_compat_r; [apply Rle_0_sqr|assumption]).
    apply Rsqr_incr_0_var; [|assumption]. unfold Rsqr. lra.
Qed.

Definition line_of_sight_claim (rs : R) : Prop := forall o1 o2 t p1 p2, 0 < orbit_radius o1 -> orbit_radius o1 = orbit_radius o2 ->
  position rs o1 t = Ok p1 -> position rs o2 t = Ok p2 ->
  exists ok, isl_success rs o1 o2 t = Ok ok /\
    (ok = true <-> segment_clear (earth_radius + 80000) p1 p2).

(** Holds when ns-3's sphere has the radius of this module's Earth. *)
Theorem line_of_sight_partial : line_of_sight_claim earth_radius.
Proof.
  intros o1 o2 t p1 p2 H E P1 P2. unfold isl_success. rewrite P1, P2. cbn [rbind success_distance mobility_position].
  eexists. split; [reflexivity|].
  assert (Nm : forall o p, 0 < orbit_radius o -> position earth_radius o t = Ok p -> norm p = orbit_radius o).
  { intros o p Ho Q. destruct (position_rotated earth_radius o t Ho) as (raw & I & Q'). rewrite Q in Q'. injection Q' as ->.
    replace ((earth_radius + (orbit_radius o - earth_radius)) / orbit_radius o) with 1 by (field; lra).
    rewrite scale_1, rotate_norm. rewrite inertial_motion in I. injection I as <-. apply norm_circular. lra. }
  pose proof (Nm _ _ H P1) as N1. assert (H2 : 0 < orbit_radius o2) by lra. pose proof (Nm _ _ H2 P2) as N2.
  unfold calc_max_distance, min_altitude_for_visibility. rewrite <- E in *. set (h := orbit_radius o1) in *.
  replace (80000 + earth_radius) with (earth_radius + 80000) by ring.
  set (r := earth_radius + 80000). assert (Hr : 0 <= r) by (unfold r, earth_radius; lra).
  rewrite (clear_iff r p1 p2 Hr) by congruence. rewrite N1. set (d := distance p1 p2).
  assert (Dn : 0 <= d) by (unfold d, distance; apply norm_nonneg).
  destruct (Rlt_dec (h * h - r * r) 0) as [L|L]; cbn [within].
  - split; [discriminate|]. intros C. exfalso. nra.
  - assert (Q : sqrt (h * h - r * r) * sqrt (h * h - r * r) = h * h - r * r) by (apply sqrt_sqrt; lra).
    pose proof (sqrt_pos (h * h - r * r)) as Q0. set (q := sqrt (h * h - r * r)) in *.
    unfold rleb. destruct (Rle_dec d (2 * q)) as [X|X]; split; intros Y; try reflexivity; try discriminate; nra.
Qed.
Print Assumptions line_of_sight_partial.

(** Two equatorial satellites at 550 km whose link is let through although it dips below 80 km. *)
Theorem line_of_sight_refuted : ~ line_of_sight_claim ns3_sphere_radius.
Proof.
  intros C. set (h := 6921009). set (r := 6451009).
  set (q := sqrt (h * h - r * r)).
  assert (Qp : 0 < h * h - r * r) by (unfold h, r; lra).
  assert (Q2 : q * q = h * h - r * r) by (apply sqrt_sqrt; lra).
  assert (Q0 : 0 <= q) by apply sqrt_pos.
  assert (Qb : 2500000 <= q <= 2600000).
  { split; apply Rsqr_incr_0_var; unfold Rsqr; rewrite ?Q2; unfold h, r; lra. }
  set (a := asin (q / (h - 9))).
  assert (Ub : 0 <= q / (h - 9) <= 1).
  { split; [apply Rmult_le_pos; [lra|left; apply Rinv_0_lt_compat; unfold h; lra]|].
    apply Rmult_le_reg_r with (h - 9); [unfold h; lra|]. unfold Rdiv. rewrite Rmult_assoc, Rinv_l by (unfold h; lra). unfold h in *. lra. }
  assert (Sa : sin a = q / (h - 9)) by (apply sin_asin; lra).
  pose proof (trig1 a) as Tr.
  assert (Po : forall ph, position ns3_sphere_radius (Orbit 0 0 h ph) 0 = Ok (Vec ((h - 9) * cos ph) ((h - 9) * sin ph) 0)).
  { intros ph. destruct (position_rotated ns3_sphere_radius (Orbit 0 0 h ph) 0) as (raw & I & Q); [cbn; unfold h; lra|].
    rewrite Q, inertial_motion in *. injection I as <-. f_equal. cbn [orbit_radius].
    rewrite Rmult_0_r, Ropp_0, rotate_0. unfold circular_motion, scale, vadd, node_dir, ahead_dir; cbn [vx vy vz orbit_phase orbit_radius inclination ascending_node].
    rewrite Rmult_0_r, Rplus_0_l, cos_0, sin_0. unfold ns3_sphere_radius, earth_radius, h. f_equal; field. }
  destruct (C (Orbit 0 0 h a) (Orbit 0 0 h (- a)) 0 _ _ ltac:(cbn; unfold h; lra) eq_refl (Po a) (Po (- a))) as (ok & S & Iff).
  rewrite cos_neg, sin_neg in *.
  set (p1 := Vec ((h - 9) * cos a) ((h - 9) * sin a) 0) in *. set (p2 := Vec ((h - 9) * cos a) ((h - 9) * - sin a) 0) in *.
  assert (D : distance p1 p2 = 2 * q).
  { unfold distance, norm, dot, vsub, p1, p2; cbn [vx vy vz]. rewrite Sa.
    transitivity (sqrt ((2 * q) * (2 * q))); [f_equal; field; unfold h; lra|apply sqrt_sq_nonneg; lra]. }
  assert (N1 : dot p1 p1 = (h - 9) * (h - 9)).
  { unfold dot, p1; cbn [vx vy vz]. transitivity ((h - 9) * (h - 9) * (sin a * sin a + cos a * cos a)); [ring|rewrite Tr; ring]. }
  assert (NN : norm p1 = norm p2) by (unfold norm; f_equal; unfold dot, p1, p2; cbn [vx vy vz]; ring).
  assert (O : ok = true).
  { unfold isl_success in S. rewrite (Po a), (Po (- a)), cos_neg, sin_neg in S. cbn [rbind success_distance mobility_position orbit_radius] in S.
    fold p1 p2 in S. rewrite D in S. injection S as <-. unfold calc_max_distance, min_altitude_for_visibility.
    replace (80000 + earth_radius) with r by (unfold r, earth_radius; lra).
    destruct (Rlt_dec (h * h - r * r) 0); [lra|]. fold q. cbn [within]. unfold rleb. destruct (Rle_dec (2 * q) (2 * q)); [reflexivity|lra]. }
  apply Iff in O. apply clear_iff in O; [|unfold earth_radius; lra|exact NN]. rewrite norm_sq, N1, D in O.
  replace (earth_radius + 80000) with r in O by (unfold r, earth_radius; lra).
  replace (2 * q * (2 * q) / 4) with (q * q) in O by field. rewrite Q2 in O. unfold h, r in O. lra.
Qed.
Print Assumptions line_of_sight_refuted.

(** * C57: symmetry of the visibility models *)

Theorem visibility_symmetric : forall limit min_elevation a b,
  success_distance limit a b = success_distance limit b a /\
  (orbit_position a = None \/ orbit_position b = None ->
     success_elevation min_elevation a b = success_elevation min_elevation b a).
Proof.
  intros limit m a b. split.
  - unfold success_distance. destruct (mobility_position a), (mobility_position b); try reflexivity. rewrite distance_sym. reflexivity.
  - unfold success_elevation. destruct a, b; cbn; intros [H|H]; try discriminate; reflexivity.
Qed.
Print Assumptions visibility_symmetric.

(** They answer whenever there is a station and a satellite, with the distance and the elevation of the satellite. *)
Theorem visibility_answers : forall limit min_elevation s g,
  (exists b, success_distance (Some limit) (OnGround g) (OnOrbit s) = Ok b /\ (b = true <-> distance s g <= limit)) /\
  (exists b, success_elevation min_elevation (OnGround g) (OnOrbit s) = Ok b /\ (b = true <-> min_elevation <= sat_elevation s g)).
Proof.
  intros limit m s g. split; eexists; (split; [reflexivity|]); unfold within, rleb.
  - rewrite (distance_sym g s). destruct (Rle_dec (distance s g) limit); split; auto; discriminate.
  - destruct (Rle_dec m (sat_elevation s g)); split; auto; discriminate.
Qed.
Print Assumptions visibility_answers.

(** Between two satellites on different orbits the elevation model is not symmetric. *)
Theorem elevation_between_satellites_refuted :
  ~ (forall m a b, success_elevation m a b = success_elevation m b a).
Proof.
  intros H. specialize (H 0 (OnOrbit (Vec 2 0 0)) (OnOrbit (Vec 1 0 0))). cbn in H. injection H as H. revert H.
  pose proof PI_RGT_0 as P.
  assert (A : sat_elevation (Vec 2 0 0) (Vec 1 0 0) = PI / 2).
  { apply elevation_defined; [unfold dot; cbn; lra|intros [= X]; lra|]. exists 1. split; [lra|]. unfold vsub, scale; cbn. f_equal; ring. }
  assert (B : sat_elevation (Vec 1 0 0) (Vec 2 0 0) = - (PI / 2)).
  { apply elevation_defined; [unfold dot; cbn; lra|intros [= X]; lra|]. exists (- (1 / 2)). split; [lra|]. unfold vsub, scale; cbn. f_equal; field. }
  rewrite A, B. unfold rleb. destruct (Rle_dec 0 (PI / 2)); [|lra]. destruct (Rle_dec 0 (- (PI / 2))); [lra|discriminate].
Qed.
Print Assumptions elevation_between_satellites_refuted.

(** For a station at the Earth radius, being seen above an elevation is being nearer than its slant range. *)
Theorem elevation_is_range : forall o sat g m, norm sat = orbit_radius o -> norm g = earth_radius -> earth_radius < orbit_radius o ->
  - (PI / 2) <= m <= PI / 2 ->
  success_elevation m (OnGround g) (OnOrbit sat) =
  success_distance (Some (ground_distance_at_elevation o m (norm g))) (OnGround g) (OnOrbit sat).
Proof.
  intros o sat g m Hs Hg Ho Hm. assert (Rp : 0 < earth_radius) by (unfold earth_radius; lra).
  cbn [success_elevation success_distance mobility_position orbit_position within]. rewrite (distance_sym g sat). f_equal.
  assert (Hd : 0 < distance sat g).
  { destruct (norm_nonneg (vsub g sat)) as [X|X]; [exact X|exfalso].
    assert (D0 : dot (vsub g sat) (vsub g sat) = 0) by (rewrite <- norm_sq, <- X; ring).
    assert (sat = g). { destruct sat as [x y z], g as [x' y' z']. unfold dot, vsub in D0; cbn in D0. apply sum_sq_0 in D0. f_equal; lra. }
    subst sat. lra. }
  pose proof (elevation_law sat g ltac:(lra) Hd) as L. rewrite <- norm_sq, Hs, Hg in L.
  pose proof (elevation_range sat g) as Er.
  unfold ground_distance_at_elevation, sat_altitude. rewrite Hg.
  set (r := earth_radius) in *. set (h := orbit_radius o) in *. set (d := distance sat g) in *. set (s := sin m).
  set (e := sat_elevation sat g) in *.
  replace ((r * s) ^ 2 + 2 * r * (h - r) + (h - r) ^ 2) with ((r * s) * (r * s) + (h * h - r * r)) by ring.
  set (q := sqrt ((r * s) * (r * s) + (h * h - r * r))).
  assert (Hh : 0 < h * h - r * r) by nra.
  assert (Q2 : q * q = (r * s) * (r * s) + (h * h - r * r)) by (apply sqrt_sqrt; nra).
  assert (Q0 : 0 <= q) by apply sqrt_pos.
  assert (Qs : - (r * s) < q /\ r * s < q) by (split; nra).
  replace (2 * (r * s) ^ 2 - 2 * r * s * q + 2 * r * (h - r) + (h - r) ^ 2) with ((q - r * s) * (q - r * s)).
  2:{ transitivity ((r * s) * (r * s) - 2 * (r * s) * q + q * q); [ring|]. rewrite Q2. ring. }
  rewrite sqrt_sq_nonneg by lra.
  assert (Iff : m <= e <-> d <= q - r * s).
  { assert (M1 : m <= e <-> s <= sin e).
    { unfold s. split; intros X.
      - destruct X as [X|X]; [left; apply sin_increasing_1; lra|rewrite X; lra].
      - apply Rnot_lt_le. intros Y. apply sin_increasing_1 in Y; lra. }
    rewrite M1. set (u := sin e) in *.
    set (k := q - r * s) in *. assert (K : 0 < k) by (unfold k; lra).
    assert (Kq : k * (k + 2 * (r * s)) = h * h - r * r).
    { transitivity (q * q - r * s * (r * s)); [unfold k; ring|lra]. }
    assert (Du : d * (d + 2 * (r * u)) = h * h - r * r) by lra.
    assert (K2 : 0 < k + 2 * (r * s)) by (apply Rmult_lt_reg_l with k; lra).
    assert (D2 : 0 < d + 2 * (r * u)) by (apply Rmult_lt_reg_l with d; lra).
    split; intros X.
    - apply Rnot_lt_le. intros Y. assert (r * s <= r * u) by (apply Rmult_le_compat_l; lra).
      assert (k * (k + 2 * (r * s)) < d * (d + 2 * (r * u))) by (apply Rmult_gt_0_lt_compat; lra). lra.
    - apply Rnot_lt_le. intros Y. assert (r * u < r * s) by (apply Rmult_lt_compat_l; lra).
      assert (d * (d + 2 * (r * u)) < k * (k + 2 * (r * s))); [|lra].
      apply Rle_lt_trans with (k * (d + 2 * (r * u))); [apply Rmult_le_compat_r; lra|apply Rmult_lt_compat_l; lra]. }
  unfold rleb. destruct (Rle_dec m e) as [X|X], (Rle_dec d (q - r * s)) as [Y|Y]; try reflexivity; exfalso; tauto.
Qed.
Print Assumptions elevation_is_range.
