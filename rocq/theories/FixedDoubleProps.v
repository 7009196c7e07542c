(** C134: Earth-fixed positions of satellites in double precision. *)
From Coq Require Import ZArith Reals Bool Lra Lia Psatz.
From Flocq Require Import Core BinarySingleNaN.
From Verif Require Import Base OrbitModel OrbitSpec OrbitProofs GeodeticProofs DoubleModel DoubleSpec DoubleProofs ElevationDoubleModel ElevationDoubleSpec ElevationDoubleProofs GeoDoubleProofs OrbitDoubleModel OrbitDoubleSpec OrbitDoubleProofs OrbitDoubleProps FixedDoubleModel FixedDoubleSpec FixedDoubleProofs.
Open Scope R_scope.

(** The sine of the latitude never comes out above 1, straight over the poles included. *)
Theorem latitude_double_defined : forall v, plain v -> is_finite (ddiv (dvz v) (d_length v)) = true /\ Rabs (real_of (ddiv (dvz v) (d_length v))) <= 1.
Proof. intros v P. destruct (slope_near v P) as (F & B & _). split; assumption. Qed.
Print Assumptions latitude_double_defined.

Lemma raw_plain : forall v c r, right_to_mm v c -> 6371009 <= r <= 5 * 10 ^ 7 -> dot c c = r * r -> plain v /\ Rabs (norm (vec_of v) - r) <= 7 / 1000.
Proof.
  intros v c r ((Fx & Ex) & (Fy & Ey) & (Fz & Ez)) B D. change real_of with val in *. unfold dot in D. apply Rabs_le_inv in Ex, Ey, Ez.
  assert (Cb : Rabs (vx c) <= r /\ Rabs (vy c) <= r /\ Rabs (vz c) <= r).
  { repeat split; apply Rabs_le; split; nra. }
  destruct Cb as (Cx & Cy & Cz). apply Rabs_le_inv in Cx, Cy, Cz.
  assert (S : Rabs (dot (vec_of v) (vec_of v) - r * r) <= 61 / 10000 * r).
  { unfold dot, vec_of. cbn [vx vy vz]. change real_of with val. set (p := val (dvx v) - vx c) in *. set (q := val (dvy v) - vy c) in *. set (s := val (dvz v) - vz c) in *.
    replace (val (dvx v)) with (vx c + p) by (unfold p; ring). replace (val (dvy v)) with (vy c + q) by (unfold q; ring). replace (val (dvz v)) with (vz c + s) by (unfold s; ring).
    rewrite <- D. replace ((vx c + p) * (vx c + p) + (vy c + q) * (vy c + q) + (vz c + s) * (vz c + s) - (vx c * vx c + vy c * vy c + vz c * vz c)) with ((2 * vx c * p + p * p) + (2 * vy c * q + q * q) + (2 * vz c * s + s * s)) by ring.
    assert (T : forall a e, - r <= a <= r -> - (1 / 1000) <= e <= 1 / 1000 -> - (203 / 100000 * r) <= 2 * a * e + e * e <= 203 / 100000 * r).
    { clear - B. intros a e Ha He. split; nra. }
    pose proof (T (vx c) p Cx Ex). pose proof (T (vy c) q Cy Ey). pose proof (T (vz c) s Cz Ez). apply Rabs_le. lra. }
  apply Rabs_le_inv in S. pose proof (norm_sq (vec_of v)) as N. pose proof (norm_nonneg (vec_of v)) as N0. assert (R2 : 6371009 * 6371009 <= r * r) by (apply Rmult_le_compat; lra).
  split.
  - split; [|lra]. unfold inside. change real_of with val. repeat split; try assumption; apply Rabs_le; lra.
  - set (n := norm (vec_of v)) in *. rewrite <- N in S. clear - S N0 B. apply Rabs_le. split; nra.
Qed.

(** For a week the position is a number, right to one part in ten million of the radius of the orbit. *)
Theorem position_double : forall dasin dsin dcos dhalf datan2 twopi dpi deg rad dsphere o t,
  orbit_library dsin dcos dhalf datan2 twopi dpi -> fixed_library dasin datan2 deg rad dsphere -> good_orbit o -> within_week t ->
  exists v, d_position dasin dsin dcos dhalf datan2 twopi dpi deg rad dsphere o t = Ok v /\
    right_to (real_of (do_radius o) / 10 ^ 7) v (earth_motion (real_of dsphere) (orbit_of o) (real_of t)).
Proof.
  intros dasin dsin dcos dhalf datan2 twopi dpi deg rad dsphere o t L K G T. destruct (motion_double _ _ _ _ _ _ o t L G T) as (raw & E & M).
  unfold d_position. rewrite E. cbn [rbind]. eexists. split; [reflexivity|]. destruct G as (_ & _ & _ & Fr & Br). unfold earth_radius in Br.
  assert (D : dot (circular_motion (orbit_of o) (mean_motion (real_of (do_radius o))) (real_of t)) (circular_motion (orbit_of o) (mean_motion (real_of (do_radius o))) (real_of t)) = real_of (do_radius o) * real_of (do_radius o)) by apply dot_circular.
  unfold earth_motion. cbn [orbit_radius orbit_of]. fold (orbit_of o). set (c := circular_motion (orbit_of o) (mean_motion (real_of (do_radius o))) (real_of t)) in *. clearbody c.
  set (r := real_of (do_radius o)) in *. clearbody r. destruct (raw_plain raw c r M Br D) as (P & N). clear D.
  pose proof (fixed_near _ _ _ _ _ _ _ _ _ _ L K raw t P T) as F. cbn zeta in F. destruct (fl_sphere _ _ _ _ _ K) as (_ & Bs). change real_of with val in *.
  set (fx := d_fixed dasin dsin dcos datan2 deg rad dsphere raw t) in *. clearbody fx. pose proof (part_norm (vec_of raw)) as Pn. cbn [vec_of vx vy vz] in Pn. set (n := norm (vec_of raw)) in *. set (rs := val dsphere) in *. clearbody rs n. clear L K E T Fr P.
  apply Rabs_le_inv in N. unfold earth_radius in *. set (w := earth_rotation * val t) in *. clearbody w.
  destruct M as ((_ & Mx) & (_ & My) & (_ & Mz)). destruct F as ((Fx & Ex) & (Fy & Ey) & (Fz & Ez)). change real_of with val in *. unfold rotate, scale, vec_of in *. cbn [vx vy vz] in *. rewrite cos_neg, sin_neg in *. change real_of with val in *.
  pose proof (COS_bound w) as Cw. pose proof (SIN_bound w) as Sw. set (co := cos w) in *. set (si := sin w) in *. clearbody co si.
  assert (Q : forall a' a : R, Rabs (a' - a) <= 2 / 1000 -> Rabs a' <= 2 * n -> Rabs ((rs + n - 6371009) / n * a' - (rs + (r - 6371009)) / r * a) <= 3 / 1000).
  { intros a' a Ha Hb. replace ((rs + n - 6371009) / n * a' - (rs + (r - 6371009)) / r * a) with ((a' - a) + (rs - 6371009) * (a' * (r - n) / (n * r)) + (rs - 6371009) * / r * (a' - a)) by (field; lra).
    assert (I1 : Rabs ((rs - 6371009) * / r) <= 1 / 50).
    { rewrite Rabs_mult, (Rabs_pos_eq (/ r)) by (apply Rlt_le, Rinv_0_lt_compat; lra). apply (Rmult_le_reg_r r); [lra|]. rewrite Rmult_assoc, Rinv_l, Rmult_1_r by lra. apply Rabs_le. lra. }
    assert (I2 : Rabs (a' * (r - n) / (n * r)) <= 14 / 1000 * / 6371009).
    { unfold Rdiv. rewrite Rinv_mult_distr by lra. replace (a' * (r - n) * (/ n * / r)) with ((a' * / n) * (r - n) * / r) by ring. rewrite !Rabs_mult, (Rabs_pos_eq (/ n)), (Rabs_pos_eq (/ r)) by (apply Rlt_le, Rinv_0_lt_compat; lra).
      assert (J : Rabs a' * / n <= 2) by (apply (Rmult_le_reg_r n); [lra|]; rewrite Rmult_assoc, Rinv_l by lra; lra).
      apply Rmult_le_compat; [apply Rmult_le_pos; [apply Rmult_le_pos; [apply Rabs_pos|apply Rlt_le, Rinv_0_lt_compat; lra]|apply Rabs_pos]|apply Rlt_le, Rinv_0_lt_compat; lra| |apply Rinv_le_contravar; lra].
      apply Rle_trans with (2 * (7 / 1000)); [|lra]. apply Rmult_le_compat; [apply Rmult_le_pos; [apply Rabs_pos|apply Rlt_le, Rinv_0_lt_compat; lra]|apply Rabs_pos|exact J|apply Rabs_le; lra]. }
    assert (I3 : Rabs ((rs - 6371009) * (a' * (r - n) / (n * r))) <= 72000 * (14 / 1000 * / 6371009)) by (rewrite Rabs_mult; apply Rmult_le_compat; try apply Rabs_pos; [apply Rabs_le; lra|exact I2]).
    assert (I4 : Rabs ((rs - 6371009) * / r * (a' - a)) <= 1 / 50 * (2 / 1000)) by (rewrite Rabs_mult; apply Rmult_le_compat; try apply Rabs_pos; assumption).
    eapply Rle_trans; [apply Rabs_triang|]. pose proof (Rabs_triang (a' - a) ((rs - 6371009) * (a' * (r - n) / (n * r)))). lra. }
  destruct Pn as (Px & Py & Pz & _).
  assert (Co : Rabs co <= 1) by (apply Rabs_le; lra). assert (Si : Rabs si <= 1) by (apply Rabs_le; lra).
  assert (Fin : forall y a' a, Rabs (y - (rs + n - 6371009) / n * a') <= 9 / 10 ^ 8 * (rs + n - 6371009) -> Rabs (a' - a) <= 2 / 1000 -> Rabs a' <= 2 * n -> Rabs (y - (rs + (r - 6371009)) / r * a) <= r / 10 ^ 7).
  { intros y a' a Hy Ha Hb. pose proof (Q a' a Ha Hb) as Hq. pose proof (Rabs_triang (y - (rs + n - 6371009) / n * a') ((rs + n - 6371009) / n * a' - (rs + (r - 6371009)) / r * a)) as Tr.
    replace (y - (rs + n - 6371009) / n * a' + ((rs + n - 6371009) / n * a' - (rs + (r - 6371009)) / r * a)) with (y - (rs + (r - 6371009)) / r * a) in Tr by ring. lra. }
  assert (Mix : forall p q e, Rabs p <= e -> Rabs q <= e -> forall k l, Rabs k <= 1 -> Rabs l <= 1 -> Rabs (p * k + q * l) <= 2 * e).
  { intros p q e Hp Hq k l Hk Hl. pose proof (part_abs p k e Hp Hk). pose proof (part_abs q l e Hq Hl). pose proof (Rabs_triang (p * k) (q * l)). lra. }
  unfold right_to. change real_of with val. cbn [vx vy vz]. split; [|split]; (split; [assumption|]).
  - apply (Fin _ _ _ Ex).
    + replace (val (dvx raw) * co - val (dvy raw) * - si - (vx c * co - vy c * - si)) with ((val (dvx raw) - vx c) * co + (val (dvy raw) - vy c) * si) by ring. replace (2 / 1000) with (2 * (1 / 1000)) by lra. apply Mix; assumption.
    + replace (val (dvx raw) * co - val (dvy raw) * - si) with (val (dvx raw) * co + val (dvy raw) * si) by ring. apply Mix; assumption.
  - apply (Fin _ _ _ Ey).
    + replace (val (dvx raw) * - si + val (dvy raw) * co - (vx c * - si + vy c * co)) with ((val (dvx raw) - vx c) * - si + (val (dvy raw) - vy c) * co) by ring. replace (2 / 1000) with (2 * (1 / 1000)) by lra. apply Mix; try assumption. rewrite Rabs_Ropp. assumption.
    + apply Mix; try assumption. rewrite Rabs_Ropp. assumption.
  - apply (Fin _ _ _ Ez); lra.
Qed.
Print Assumptions position_double.

(** There are such libraries, and in exact numbers this is the position of [OrbitModel]. *)
Theorem earth_motion_is : forall rs o t, 0 < orbit_radius o -> position rs o t = Ok (earth_motion rs o t).
Proof. intros rs o t R. destruct (position_rotated rs o t R) as (raw & E & ->). rewrite inertial_motion in E. injection E as <-. reflexivity. Qed.
Print Assumptions earth_motion_is.

Definition scaled (k : Z) (r : R) : double := dnum (ZnearestE (r * bpow radix2 k)) (- k).
Lemma scaled_near : forall k r, (0 <= k <= 60)%Z -> Rabs (r * bpow radix2 k) <= 9007199254740991 -> is_finite (scaled k r) = true /\ Rabs (real_of (scaled k r) - r) <= / 2 * bpow radix2 (- k).
Proof.
  intros k r K B. unfold scaled. set (y := r * bpow radix2 k) in *. set (n := ZnearestE y). pose proof (Znearest_half (fun t => negb (Z.even t)) y) as N. change (Rabs (y - IZR n) <= / 2) in N.
  assert (Nb : (Z.abs n <= 2 ^ 53)%Z).
  { apply le_IZR. rewrite abs_IZR. pose proof (Rabs_triang (IZR n - y) y) as T. replace (IZR n - y + y) with (IZR n) in T by ring. rewrite (Rabs_minus_sym (IZR n)) in T. change (IZR (2 ^ 53)) with 9007199254740992. lra. }
  pose proof (rnd_scaled n (- k) Nb ltac:(lia)) as R. assert (S : bpow radix2 (- k) <= 1) by (apply (bpow_le radix2 (- k) 0); lia). pose proof (bpow_ge_0 radix2 (- k)) as S0.
  destruct (dnum_ok n (- k)) as (F' & V').
  { rewrite Rabs_mult, <- abs_IZR, (Rabs_pos_eq (bpow radix2 (- k))) by assumption. apply Rle_trans with (IZR (2 ^ 53) * 1); [apply Rmult_le_compat; [apply IZR_le; lia|assumption|apply IZR_le; exact Nb|assumption]|].
    rewrite Rmult_1_r. apply Rle_trans with (bpow radix2 53); [right; reflexivity|apply bpow_le; lia]. }
  split; [exact F'|]. change real_of with val. rewrite V', R. assert (E : r = y * bpow radix2 (- k)).
  { unfold y. rewrite Rmult_assoc, <- bpow_plus. replace (k + - k)%Z with 0%Z by lia. cbn. ring. }
  rewrite E at 1. replace (IZR n * bpow radix2 (- k) - y * bpow radix2 (- k)) with ((IZR n - y) * bpow radix2 (- k)) by ring. rewrite Rabs_mult, (Rabs_pos_eq (bpow radix2 (- k))), Rabs_minus_sym by assumption. apply Rmult_le_compat_r; assumption.
Qed.
Lemma some_fixed_library : fixed_library (fun x => fifty (asin (real_of x))) (fun y x => fifty (atan2 (real_of y) (real_of x))) (scaled 47 (180 / PI)) (scaled 58 (PI / 180)) (dint 6371000).
Proof.
  pose proof pi_bounds as P. constructor.
  - intros x _ _. apply fifty_near. pose proof (asin_bound (real_of x)). apply Rabs_le. lra.
  - intros y x _ _. destruct (atan2_polar (real_of y) (real_of x)) as (X & Y). pose proof (atan2_bound (real_of y) (real_of x)) as Bd.
    exists (atan2 (real_of y) (real_of x)), (sqrt (real_of x * real_of x + real_of y * real_of y)). split; [apply Rabs_le; lra|]. split; [apply sqrt_pos|]. split; [exact X|]. split; [exact Y|].
    apply fifty_near. apply Rabs_le. lra.
  - assert (D : 0 <= 180 / PI <= 60). { split; [apply Rlt_le, Rdiv_lt_0_compat; lra|]. apply (Rmult_le_reg_r PI); [lra|]. unfold Rdiv. rewrite Rmult_assoc, Rinv_l by lra. lra. }
    destruct (scaled_near 47 (180 / PI)) as (F & E); [lia|change (bpow radix2 47) with 140737488355328; rewrite Rabs_pos_eq; lra|]. split; [exact F|]. eapply Rle_trans; [exact E|]. change (bpow radix2 (- (47))) with (/ 140737488355328). lra.
  - destruct (scaled_near 58 (PI / 180)) as (F & E); [lia|change (bpow radix2 58) with 288230376151711744; rewrite Rabs_pos_eq; lra|]. split; [exact F|]. eapply Rle_trans; [exact E|]. change (bpow radix2 (- (58))) with (/ 288230376151711744). lra.
  - change real_of with val. destruct (dint_ok 6371000 ltac:(lia)) as (F & ->). split; [exact F|lra].
Qed.

(** The satellite of [motion_double_case]: over the equator at the start, 650 km above the sphere. *)
Example position_double_case : forall dasin dsin dcos dhalf datan2 twopi dpi deg rad,
  orbit_library dsin dcos dhalf datan2 twopi dpi -> fixed_library dasin datan2 deg rad (dint 6371000) ->
  (exists v, d_position dasin dsin dcos dhalf datan2 twopi dpi deg rad (dint 6371000) some_dorbit (dint 0) = Ok v /\ right_to 1 v (Vec 7021000 0 0)) /\
  (exists v, d_position dasin dsin dcos dhalf datan2 twopi dpi deg rad (dint 6371000) some_dorbit (dint 86400) = Ok v /\
    right_to 1 v (earth_motion 6371000 (Orbit (3 / 2) 0 7021009 0) 86400)).
Proof.
  intros dasin dsin dcos dhalf datan2 twopi dpi deg rad L K. destruct some_good as (G & D & Z). destruct (position_double _ _ _ _ _ _ _ _ _ _ _ _ L K G Z) as (v & Ev & Rv). destruct (position_double _ _ _ _ _ _ _ _ _ _ _ _ L K G D) as (w & Ew & Rw).
  assert (O : orbit_of some_dorbit = Orbit (3 / 2) 0 7021009 0).
  { unfold orbit_of, some_dorbit. cbn [do_inclination do_node do_radius do_phase]. change real_of with val. destruct (dint_ok 0 ltac:(lia)) as (_ & ->). destruct (dint_ok 7021009 ltac:(lia)) as (_ & ->).
    assert (H : Rabs (IZR 3 * bpow radix2 (-1)) <= bpow radix2 1023) by (change (bpow radix2 (-1)) with (/ 2); apply big_below_max; rewrite Rabs_pos_eq; lra).
    destruct (dnum_ok 3 (-1) H) as (_ & V3). rewrite rnd_scaled in V3 by lia. rewrite V3. reflexivity. }
  assert (R1 : real_of (do_radius some_dorbit) = 7021009) by apply (dint_ok 7021009 ltac:(lia)). assert (R2 : real_of (dint 6371000) = 6371000) by apply (dint_ok 6371000 ltac:(lia)).
  assert (T0 : real_of (dint 0) = 0) by apply (dint_ok 0 ltac:(lia)). assert (T1 : real_of (dint 86400) = 86400) by apply (dint_ok 86400 ltac:(lia)).
  rewrite O, R1, R2 in *. rewrite T0 in Rv. rewrite T1 in Rw.
  assert (W : forall v c, right_to (7021009 / 10 ^ 7) v c -> right_to 1 v c). { intros v0 c ((A1 & A2) & (B1 & B2) & (C1 & C2)). unfold right_to. repeat split; try assumption; lra. }
  split; [exists v|exists w]; (split; [assumption|]); apply W; [|exact Rw].
  replace (Vec 7021000 0 0) with (earth_motion 6371000 (Orbit (3 / 2) 0 7021009 0) 0); [exact Rv|].
  unfold earth_motion, circular_motion, rotate, vadd, scale, node_dir, ahead_dir, earth_radius. cbn [vx vy vz inclination ascending_node orbit_radius orbit_phase]. rewrite !Rmult_0_r, Rplus_0_r, Ropp_0, cos_0, sin_0. f_equal; field.
Qed.
