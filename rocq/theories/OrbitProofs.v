From Coq Require Import Reals Lra Psatz ZArith Lia.
From Verif Require Import Base OrbitModel OrbitSpec.
Open Scope R_scope.

(** * Angles *)

Lemma cos_is_1 : forall x, cos x = 1 -> exists k : Z, x = 2 * IZR k * PI.
Proof.
  intros x H. assert (S : sin (x / 2) = 0).
  { pose proof (cos_2a_sin (x / 2)) as D. replace (2 * (x / 2)) with x in D by field. rewrite H in D.
    apply Rsqr_0_uniq. unfold Rsqr. lra. }
  destruct (sin_eq_0_0 _ S) as [k Hk]. exists k. lra.
Qed.

Lemma same_angle : forall a b, cos a = cos b -> sin a = sin b -> exists k : Z, a = b + 2 * IZR k * PI.
Proof.
  intros a b C S. destruct (cos_is_1 (a - b)) as [k K].
  - rewrite cos_minus, C, S. pose proof (sin2_cos2 b). unfold Rsqr in *. lra.
  - exists k. lra.
Qed.

Lemma same_angle_eq : forall a b, - PI < a <= PI -> - PI < b <= PI -> cos a = cos b -> sin a = sin b -> a = b.
Proof.
  intros a b Ha Hb C S. destruct (same_angle a b C S) as [k K]. pose proof PI_RGT_0 as P.
  assert (L : -1 < IZR k < 1) by (split; nra).
  assert (k = 0%Z). { destruct L as [L1 L2]. apply lt_IZR in L1, L2. lia. }
  subst k. lra.
Qed.

Lemma sqrt_sq_nonneg : forall x, 0 <= x -> sqrt (x * x) = x.
Proof. intros x H. apply sqrt_square. exact H. Qed.

Lemma atan_polar : forall x y, 0 < x -> x = sqrt (x * x + y * y) * cos (atan (y / x)) /\ y = sqrt (x * x + y * y) * sin (atan (y / x)).
Proof.
  intros x y H. rewrite cos_atan, sin_atan.
  assert (E : sqrt (x * x + y * y) = x * sqrt (1 + (y / x)²)).
  { rewrite <- (sqrt_sq_nonneg x) at 3 by lra. rewrite <- sqrt_mult.
    - f_equal. unfold Rsqr. field. lra.
    - nra.
    - pose proof (Rle_0_sqr (y / x)). lra. }
  assert (P : 0 < sqrt (1 + (y / x)²)). { apply sqrt_lt_R0. pose proof (Rle_0_sqr (y / x)). lra. }
  rewrite E. split; field; repeat split; lra.
Qed.

Lemma atan2_polar : forall y x, x = sqrt (x * x + y * y) * cos (atan2 y x) /\ y = sqrt (x * x + y * y) * sin (atan2 y x).
Proof.
  intros y x. unfold atan2. destruct (Rlt_dec 0 x) as [H|H]; [apply atan_polar; exact H|].
  destruct (Rlt_dec x 0) as [H'|H'].
  - destruct (atan_polar (- x) (- y)) as [A B]; [lra|].
    replace (- y / - x) with (y / x) in A, B by (field; lra).
    replace (- x * - x + - y * - y) with (x * x + y * y) in A, B by ring.
    destruct (Rle_dec 0 y).
    + rewrite neg_cos, neg_sin. split; lra.
    + replace (atan (y / x) - PI) with (- (PI - atan (y / x))) by ring.
      rewrite cos_neg, sin_neg, cos_minus, sin_minus, cos_PI, sin_PI. split; lra.
  - assert (x = 0) by lra. subst x. replace (0 * 0 + y * y) with (y * y) by ring.
    destruct (Rlt_dec 0 y).
    + rewrite sqrt_sq_nonneg by lra. rewrite cos_PI2, sin_PI2. split; lra.
    + destruct (Rlt_dec y 0).
      * replace (y * y) with (- y * - y) by ring. rewrite sqrt_sq_nonneg by lra.
        rewrite cos_neg, sin_neg, cos_PI2, sin_PI2. split; lra.
      * assert (y = 0) by lra. subst y. rewrite Rmult_0_l, sqrt_0. split; ring.
Qed.

Lemma atan2_bound : forall y x, - PI < atan2 y x <= PI.
Proof.
  intros y x. pose proof PI_RGT_0 as P. unfold atan2.
  pose proof (atan_bound (y / x)) as A.
  destruct (Rlt_dec 0 x); [lra|]. destruct (Rlt_dec x 0).
  - assert (Q : 0 <= y -> y / x <= 0). { intros. apply Ropp_le_cancel. rewrite Ropp_0. replace (- (y / x)) with (y / - x) by (field; lra). apply Rmult_le_pos; [lra|]. left. apply Rinv_0_lt_compat. lra. }
    assert (Q2 : y < 0 -> 0 < y / x). { intros. replace (y / x) with (- y / - x) by (field; lra). apply Rdiv_lt_0_compat; lra. }
    destruct (Rle_dec 0 y) as [h|h].
    + specialize (Q h). assert (atan (y / x) <= 0). { destruct Q as [Q|Q]; [apply atan_increasing in Q; rewrite atan_0 in Q; lra|rewrite Q, atan_0; lra]. } lra.
    + specialize (Q2 ltac:(lra)). apply atan_increasing in Q2. rewrite atan_0 in Q2. lra.
  - destruct (Rlt_dec 0 y); [lra|]. destruct (Rlt_dec y 0); lra.
Qed.

Lemma atan2_of_polar : forall q a, 0 < q -> - PI < a <= PI -> atan2 (q * sin a) (q * cos a) = a.
Proof.
  intros q a Q A. destruct (atan2_polar (q * sin a) (q * cos a)) as [C S].
  replace (q * cos a * (q * cos a) + q * sin a * (q * sin a)) with (q * q) in C, S.
  2:{ pose proof (sin2_cos2 a) as T. unfold Rsqr in T. transitivity (q * q * (sin a * sin a + cos a * cos a)); [rewrite T; ring|ring]. }
  rewrite sqrt_sq_nonneg in C, S by lra.
  apply same_angle_eq; [apply atan2_bound|exact A| |]; apply Rmult_eq_reg_l with q; lra.
Qed.

Lemma Rabs_le_inv : forall x y, Rabs x <= y -> - y <= x <= y.
Proof. intros x y H. unfold Rabs in H. destruct (Rcase_abs x); lra. Qed.

Lemma sum_sq_0 : forall a b c, a * a + b * b + c * c = 0 -> a = 0 /\ b = 0 /\ c = 0.
Proof. intros a b c H. repeat split; apply Rsqr_0_uniq; unfold Rsqr; nra. Qed.

(** * The anomaly *)

Lemma floor_IZR : forall k x, IZR k <= x < IZR k + 1 -> floor x = IZR k.
Proof.
  intros k x H. unfold floor, Int_part. f_equal.
  assert ((k + 1)%Z = up x); [|lia]. apply tech_up; rewrite plus_IZR; simpl; lra.
Qed.

Lemma round_IZR : forall k, round (IZR k) = IZR k.
Proof.
  intros k. unfold round. destruct (Rle_dec 0 (IZR k)).
  - apply floor_IZR. lra.
  - rewrite (floor_IZR (- k)); rewrite opp_IZR; lra.
Qed.

Lemma true_anomaly_eq : forall E, true_anomaly E = E.
Proof.
  intros E. unfold true_anomaly. pose proof PI_RGT_0 as P.
  destruct (atan2_polar (sin (E / 2)) (cos (E / 2))) as [C S].
  replace (cos (E / 2) * cos (E / 2) + sin (E / 2) * sin (E / 2)) with 1 in C, S
    by (pose proof (sin2_cos2 (E / 2)) as T; unfold Rsqr in T; lra).
  rewrite sqrt_1, Rmult_1_l in C, S.
  destruct (same_angle _ _ C S) as [k K].
  set (b := atan2 (sin (E / 2)) (cos (E / 2))) in *. clearbody b.
  replace ((E - 2 * b) / (2 * PI)) with (IZR (2 * k)) by (rewrite mult_IZR; field_simplify; [|lra]; replace E with (2 * (E / 2)) by field; rewrite K; field; lra).
  replace ((2 * b - E) / (2 * PI)) with (IZR (- (2 * k))).
  2:{ rewrite opp_IZR, mult_IZR. replace E with (2 * (E / 2)) by field. rewrite K. field. lra. }
  rewrite !round_IZR, opp_IZR, mult_IZR. destruct (Rlt_dec (2 * b) E); lra.
Qed.

Lemma inertial_motion : forall o t, inertial o t = Ok (circular_motion o (mean_motion (orbit_radius o)) t).
Proof.
  intros o t. unfold inertial. rewrite true_anomaly_eq. rewrite Rminus_diag_eq by reflexivity. rewrite Rabs_R0.
  unfold rltb. destruct (Rlt_dec 0 PI) as [_|n]; [|exfalso; apply n, PI_RGT_0]. cbn [assert_ rbind].
  f_equal. unfold circular_motion, scale, vadd, node_dir, ahead_dir; cbn [vx vy vz].
  f_equal; field.
Qed.

Lemma trig1 : forall x, sin x * sin x + cos x * cos x = 1.
Proof. intros x. pose proof (sin2_cos2 x) as H. unfold Rsqr in H. exact H. Qed.

Lemma dot_circular : forall o w t, dot (circular_motion o w t) (circular_motion o w t) = orbit_radius o * orbit_radius o.
Proof.
  intros o w t. unfold circular_motion, dot, scale, vadd, node_dir, ahead_dir; cbn [vx vy vz].
  set (a := w * t + orbit_phase o). clearbody a. pose proof (trig1 a) as A. pose proof (trig1 (inclination o)) as I.
  pose proof (trig1 (ascending_node o)) as N. destruct o as [i n r ph]; cbn [inclination ascending_node orbit_radius] in *.
  set (sa := sin a) in *. set (ca := cos a) in *. set (si := sin i) in *. set (ci := cos i) in *. set (sn := sin n) in *. set (cn := cos n) in *.
  transitivity (r * r * (ca * ca * (sn * sn + cn * cn) + sa * sa * (ci * ci * (sn * sn + cn * cn) + si * si))); [ring|].
  rewrite N. transitivity (r * r * (ca * ca + sa * sa * (si * si + ci * ci))); [ring|]. rewrite I.
  transitivity (r * r * (sa * sa + ca * ca)); [ring|]. rewrite A. ring.
Qed.

Lemma norm_nonneg : forall v, 0 <= norm v.
Proof. intros. apply sqrt_pos. Qed.

Lemma dot_nonneg : forall v, 0 <= dot v v.
Proof. intros [x y z]. unfold dot; cbn. nra. Qed.

Lemma norm_sq : forall v, norm v * norm v = dot v v.
Proof. intros v. apply sqrt_sqrt, dot_nonneg. Qed.

Lemma norm_circular : forall o w t, 0 <= orbit_radius o -> norm (circular_motion o w t) = orbit_radius o.
Proof. intros o w t H. unfold norm. rewrite dot_circular. apply sqrt_sq_nonneg. exact H. Qed.

Lemma mean_motion_pos : forall r, 0 < r -> 0 < mean_motion r.
Proof.
  intros r H. unfold mean_motion. apply sqrt_lt_R0. apply Rdiv_lt_0_compat; [|apply pow_lt; exact H].
  unfold big_g, earth_mass. lra.
Qed.

(** * Earth-fixed position *)

Lemma radians_degrees : forall x, radians (degrees x) = x.
Proof. intros x. unfold radians, degrees. pose proof PI_RGT_0. field. lra. Qed.

Lemma norm_pos_of : forall v, dot v v <> 0 -> 0 < norm v.
Proof. intros v H. apply sqrt_lt_R0. pose proof (dot_nonneg v). lra. Qed.

(** Latitude and ascension of a vector, put back together. *)
Lemma spherical_parts : forall v, dot v v <> 0 ->
  let q := sqrt (vx v * vx v + vy v * vy v) in
  norm v * cos (asin (vz v / norm v)) = q /\ norm v * sin (asin (vz v / norm v)) = vz v.
Proof.
  intros v H q. pose proof (norm_pos_of v H) as P. pose proof (norm_sq v) as N. unfold dot in N.
  assert (B : -1 <= vz v / norm v <= 1).
  { assert (Z2 : vz v * vz v <= norm v * norm v) by (rewrite N; nra).
    split; [apply Rmult_le_reg_r with (norm v)|apply Rmult_le_reg_r with (norm v)]; try exact P; unfold Rdiv; rewrite ?Rmult_assoc, ?Rinv_l by lra; nra. }
  rewrite sin_asin by exact B. rewrite cos_asin by exact B. split; [|field; lra].
  unfold q. rewrite <- (sqrt_sq_nonneg (norm v)) at 1 by lra. rewrite <- sqrt_mult; [|nra|unfold Rsqr; nra].
  f_equal. unfold Rsqr. field_simplify; [|lra]. replace (norm v ^ 2) with (norm v * norm v) by ring. rewrite N. ring.
Qed.

Lemma position_rotated : forall rs o t, 0 < orbit_radius o ->
  exists raw, inertial o t = Ok raw /\
    position rs o t = Ok (scale ((rs + (orbit_radius o - earth_radius)) / orbit_radius o) (rotate (- (earth_rotation * t)) raw)).
Proof.
  intros rs o t Hr. unfold position. rewrite inertial_motion. eexists. split; [reflexivity|]. cbn [rbind].
  pose proof (norm_circular o (mean_motion (orbit_radius o)) t ltac:(lra)) as Nm.
  pose proof (dot_circular o (mean_motion (orbit_radius o)) t) as Dt.
  set (v := circular_motion o (mean_motion (orbit_radius o)) t) in *. clearbody v.
  assert (D0 : dot v v <> 0) by (rewrite Dt; nra).
  destruct (spherical_parts v D0) as [C S]. rewrite Nm in *.
  destruct (atan2_polar (vy v) (vx v)) as [X Y].
  set (la := asin (vz v / orbit_radius o)) in *. set (lo := atan2 (vy v) (vx v)) in *.
  set (q := sqrt (vx v * vx v + vy v * vy v)) in *. clearbody la lo q.
  f_equal. unfold geographic_to_cartesian. rewrite !radians_degrees.
  replace (lo - (0 + t * earth_rotation)) with (lo - earth_rotation * t) by ring.
  rewrite cos_minus, sin_minus. unfold scale, rotate; cbn [vx vy vz]. rewrite cos_neg, sin_neg.
  set (r := orbit_radius o) in *. set (co := cos (earth_rotation * t)). set (so := sin (earth_rotation * t)).
  assert (C' : cos la = q / r) by (rewrite <- C; field; lra).
  assert (S' : sin la = vz v / r) by (rewrite <- S; field; lra).
  rewrite C', S'.
  f_equal; [rewrite X, Y; field; lra|rewrite X, Y; field; lra|field; lra].
Qed.

Lemma rotate_dot : forall a u v, dot (rotate a u) (rotate a v) = dot u v.
Proof.
  intros a [x y z] [x' y' z']. unfold dot, rotate; cbn [vx vy vz]. pose proof (trig1 a) as A.
  set (s := sin a) in *. set (c := cos a) in *.
  transitivity ((x * x' + y * y') * (s * s + c * c) + z * z'); [ring|]. rewrite A. ring.
Qed.

Lemma rotate_sub : forall a u v, vsub (rotate a u) (rotate a v) = rotate a (vsub u v).
Proof. intros a [x y z] [x' y' z']. unfold vsub, rotate; cbn [vx vy vz]. f_equal; ring. Qed.

Lemma rotate_norm : forall a v, norm (rotate a v) = norm v.
Proof. intros. unfold norm. rewrite rotate_dot. reflexivity. Qed.

Lemma rotate_distance : forall a u v, distance (rotate a u) (rotate a v) = distance u v.
Proof. intros. unfold distance. rewrite rotate_sub. apply rotate_norm. Qed.

Lemma observer_rotated : forall lat lon r t, ground_observer lat lon r t = rotate (earth_rotation * t) (spherical lat lon r).
Proof.
  intros. unfold ground_observer, rotate, spherical; cbn [vx vy vz]. rewrite cos_plus, sin_plus. f_equal; ring.
Qed.

Lemma rotate_rotate : forall a b v, rotate a (rotate b v) = rotate (a + b) v.
Proof.
  intros a b [x y z]. unfold rotate; cbn [vx vy vz]. rewrite cos_plus, sin_plus. f_equal; ring.
Qed.

Lemma rotate_0 : forall v, rotate 0 v = v.
Proof. intros [x y z]. unfold rotate; cbn [vx vy vz]. rewrite cos_0, sin_0. f_equal; ring. Qed.

Lemma scale_1 : forall v, scale 1 v = v.
Proof. intros [x y z]. unfold scale; cbn. f_equal; ring. Qed.

Lemma scale_norm : forall k v, 0 <= k -> norm (scale k v) = k * norm v.
Proof.
  intros k v H. unfold norm. transitivity (sqrt (k * k) * sqrt (dot v v)); [|rewrite sqrt_sq_nonneg by exact H; reflexivity].
  rewrite <- sqrt_mult; [|nra|apply dot_nonneg]. f_equal. destruct v as [x y z]. unfold dot, scale; cbn. ring.
Qed.

Lemma distance_sym : forall a b, distance a b = distance b a.
Proof. intros [x y z] [x' y' z']. unfold distance, norm. f_equal. unfold dot, vsub; cbn. ring. Qed.

(** * Elevation *)

Lemma cauchy_schwarz : forall a b, dot a b * dot a b <= dot a a * dot b b.
Proof.
  intros [x y z] [x' y' z']. unfold dot; cbn [vx vy vz].
  pose proof (Rle_0_sqr (x * y' - y * x')) as A. pose proof (Rle_0_sqr (x * z' - z * x')) as B. pose proof (Rle_0_sqr (y * z' - z * y')) as C.
  unfold Rsqr in *. lra.
Qed.

Lemma cos_zenith_bound : forall a b, 0 < norm a -> 0 < norm b -> -1 <= dot a b / (norm a * norm b) <= 1.
Proof.
  intros a b Ha Hb. pose proof (cauchy_schwarz a b) as C. rewrite <- !norm_sq in C.
  set (n := norm a * norm b). assert (0 < n) by (unfold n; nra).
  assert (C' : dot a b * dot a b <= n * n) by (unfold n; lra).
  split; apply Rmult_le_reg_r with n; try assumption; unfold Rdiv; rewrite ?Rmult_assoc, ?Rinv_l by lra; nra.
Qed.

(** The sine of the elevation, through distances: |sat|^2 = |g|^2 + d^2 + 2 |g| d sin e. *)
Lemma elevation_law : forall sat g, 0 < norm g -> 0 < distance sat g ->
  dot sat sat = norm g * norm g + distance sat g * distance sat g + 2 * norm g * distance sat g * sin (sat_elevation sat g).
Proof.
  intros sat g Hg Hd. rewrite distance_sym in Hd |- *. unfold distance in *. unfold sat_elevation.
  rewrite sin_asin by (apply cos_zenith_bound; assumption).
  set (d := vsub sat g) in *.
  assert (E : 2 * norm g * norm d * (dot g d / (norm g * norm d)) = 2 * dot g d) by (field; lra). rewrite E, !norm_sq.
  unfold d. destruct sat, g. unfold dot, vsub; cbn. ring.
Qed.
