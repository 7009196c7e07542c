(** C133: the motion of satellites in double precision. *)
From Coq Require Import ZArith Reals Bool Lra Lia Psatz.
From Flocq Require Import Core BinarySingleNaN.
From Verif Require Import Base OrbitModel OrbitSpec OrbitProofs GeodeticProofs DoubleModel DoubleSpec DoubleProofs DoubleDistanceProofs GeoDoubleProofs OrbitDoubleModel OrbitDoubleSpec OrbitDoubleProofs.
Open Scope R_scope.

(** For a week, the assertion holds and each coordinate is within a millimetre of uniform motion on the circle. *)
Theorem motion_double : forall dsin dcos dhalf datan2 twopi dpi o t, orbit_library dsin dcos dhalf datan2 twopi dpi -> good_orbit o -> within_week t ->
  exists v, d_inertial dsin dcos dhalf datan2 twopi dpi o t = Ok v /\ right_to_mm v (circular_motion (orbit_of o) (mean_motion (real_of (do_radius o))) (real_of t)).
Proof. intros dsin dcos dhalf datan2 twopi dpi o t L. exact (inertial_double dsin dcos dhalf datan2 twopi dpi L o t). Qed.
Print Assumptions motion_double.

(** The angle reached is not lost by bringing it to one turn and back, up to [10^-12] radians. *)
Theorem anomaly_double : forall dsin dcos dhalf datan2 twopi dpi E, orbit_library dsin dcos dhalf datan2 twopi dpi -> is_finite E = true -> Rabs (real_of E) <= 938 ->
  is_finite (d_true_anomaly dsin dcos datan2 twopi E) = true /\ Rabs (real_of (d_true_anomaly dsin dcos datan2 twopi E) - real_of E) <= 1 / 10 ^ 12.
Proof. intros dsin dcos dhalf datan2 twopi dpi E L. exact (anomaly_near dsin dcos dhalf datan2 twopi dpi L E). Qed.
Print Assumptions anomaly_double.

(** There are such libraries. *)
Definition fifty (r : R) : double := dnum (ZnearestE (r * bpow radix2 50)) (-50).
Lemma fifty_near : forall r, Rabs r <= 7 -> is_finite (fifty r) = true /\ Rabs (real_of (fifty r) - r) <= tight.
Proof.
  intros r B. unfold fifty. set (y := r * bpow radix2 50). set (n := ZnearestE y). pose proof (Znearest_half (fun t => negb (Z.even t)) y) as N. change (Rabs (y - IZR n) <= / 2) in N.
  apply Rabs_le_inv in B. assert (Y : Rabs y <= 7 * 1125899906842624) by (apply Rabs_le; unfold y; change (bpow radix2 50) with 1125899906842624; nra).
  assert (Nb : (Z.abs n <= 2 ^ 53)%Z).
  { apply le_IZR. rewrite abs_IZR. pose proof (Rabs_triang (IZR n - y) y) as T. replace (IZR n - y + y) with (IZR n) in T by ring. rewrite (Rabs_minus_sym (IZR n)) in T. change (IZR (2 ^ 53)) with 9007199254740992. lra. }
  pose proof (rnd_scaled n (-50) Nb ltac:(lia)) as R. destruct (dnum_ok n (-50)) as (F' & V').
  { rewrite Rabs_mult, <- abs_IZR, (Rabs_pos_eq (bpow radix2 (-50))) by apply bpow_ge_0. apply Rle_trans with (IZR (2 ^ 53) * 1); [apply Rmult_le_compat; [apply IZR_le; lia|apply bpow_ge_0|apply IZR_le; exact Nb|change (bpow radix2 (-50)) with (/ 1125899906842624); lra]|].
    rewrite Rmult_1_r. apply Rle_trans with (bpow radix2 53); [right; reflexivity|apply bpow_le; lia]. }
  split; [exact F'|]. change real_of with val. rewrite V', R. change (bpow radix2 (-50)) with (/ 1125899906842624).
  unfold y in N. change (bpow radix2 50) with 1125899906842624 in N. apply Rabs_le_inv in N. unfold tight. apply Rabs_le. lra.
Qed.
Lemma some_orbit_library : orbit_library (fun x => fifty (sin (real_of x))) (fun x => fifty (cos (real_of x))) dsqrt (fun y x => fifty (atan2 (real_of y) (real_of x))) (fifty (2 * PI)) (fifty PI).
Proof.
  assert (P : 3 < PI < 7 / 2).
  { split; [pose proof PI2_3_2; lra|]. pose proof (proj2 (PI_ineq 4)) as H. unfold PI_tg, tg_alt in H. cbn in H. lra. }
  constructor.
  - intros x _ _. apply fifty_near. pose proof (sin_abs (real_of x)). lra.
  - intros x _ _. apply fifty_near. pose proof (cos_abs (real_of x)). lra.
  - intros x F B. change real_of with val in *. destruct (dsqrt_ok x F ltac:(lra)) as (Fs & _ & _). split; [exact Fs|].
    destruct (@Bsqrt_correct 53 1024 dprec dmax mode_NE x) as (V & _ & _). change (val (dsqrt x) = rnd (sqrt (val x))) in V. rewrite V.
    assert (S : 1 / 10 ^ 6 <= sqrt (val x)) by (rewrite <- (sqrt_sq_nonneg (1 / 10 ^ 6)) by lra; apply sqrt_le_1_alt; lra).
    destruct (rnd_rel (sqrt (val x))) as (e & E & ->); [apply not_tiny; lra|]. replace (sqrt (val x) * (1 + e) - sqrt (val x)) with (e * sqrt (val x)) by ring. rewrite Rabs_mult, (Rabs_pos_eq (sqrt (val x))) by lra.
    apply Rmult_le_compat_r; [lra|]. rewrite u_val in E. unfold tight. lra.
  - intros y x _ _ B. destruct (atan2_polar (real_of y) (real_of x)) as (X & Y). pose proof (atan2_bound (real_of y) (real_of x)) as Bd.
    exists (atan2 (real_of y) (real_of x)), (sqrt (real_of x * real_of x + real_of y * real_of y)). split; [apply Rabs_le; lra|]. split; [apply sqrt_lt_R0; lra|]. split; [exact X|]. split; [exact Y|].
    apply fifty_near. apply Rabs_le. lra.
  - apply fifty_near. rewrite Rabs_pos_eq; lra.
  - apply fifty_near. rewrite Rabs_pos_eq; lra.
Qed.

(** A satellite 650 km up on an orbit inclined by 1.5 radians, at its node and a day later. *)
Definition some_dorbit : dorbit := mkDorbit (dnum 3 (-1)) (dint 0) (dint 7021009) (dint 0).
Lemma some_good : good_orbit some_dorbit /\ within_week (dint 86400) /\ within_week (dint 0).
Proof.
  unfold good_orbit, within_week, some_dorbit, earth_radius. cbn [do_inclination do_node do_radius do_phase]. change real_of with val.
  destruct (dint_ok 0 ltac:(lia)) as (F0 & ->). destruct (dint_ok 7021009 ltac:(lia)) as (F1 & ->). destruct (dint_ok 86400 ltac:(lia)) as (F2 & ->).
  assert (H : Rabs (IZR 3 * bpow radix2 (-1)) <= bpow radix2 1023) by (change (bpow radix2 (-1)) with (/ 2); apply big_below_max; rewrite Rabs_pos_eq; lra).
  destruct (dnum_ok 3 (-1) H) as (F3 & V3). rewrite rnd_scaled in V3 by lia. rewrite V3. change (bpow radix2 (-1)) with (/ 2). rewrite Rabs_R0, Rabs_pos_eq by lra.
  repeat split; try assumption; lra.
Qed.
Example motion_double_case : forall dsin dcos dhalf datan2 twopi dpi, orbit_library dsin dcos dhalf datan2 twopi dpi ->
  (exists v, d_inertial dsin dcos dhalf datan2 twopi dpi some_dorbit (dint 0) = Ok v /\ right_to_mm v (Vec 7021009 0 0)) /\
  (exists v, d_inertial dsin dcos dhalf datan2 twopi dpi some_dorbit (dint 86400) = Ok v /\
    right_to_mm v (circular_motion (Orbit (3 / 2) 0 7021009 0) (sqrt (big_g * earth_mass / 7021009 ^ 3)) 86400)).
Proof.
  intros dsin dcos dhalf datan2 twopi dpi L. destruct some_good as (G & D & Z). destruct (motion_double _ _ _ _ _ _ _ _ L G Z) as (v & Ev & Rv). destruct (motion_double _ _ _ _ _ _ _ _ L G D) as (w & Ew & Rw).
  assert (O : orbit_of some_dorbit = Orbit (3 / 2) 0 7021009 0).
  { unfold orbit_of, some_dorbit. cbn [do_inclination do_node do_radius do_phase]. change real_of with val. destruct (dint_ok 0 ltac:(lia)) as (_ & ->). destruct (dint_ok 7021009 ltac:(lia)) as (_ & ->).
    assert (H : Rabs (IZR 3 * bpow radix2 (-1)) <= bpow radix2 1023) by (change (bpow radix2 (-1)) with (/ 2); apply big_below_max; rewrite Rabs_pos_eq; lra).
    destruct (dnum_ok 3 (-1) H) as (_ & V3). rewrite rnd_scaled in V3 by lia. rewrite V3. reflexivity. }
  assert (R1 : real_of (do_radius some_dorbit) = 7021009) by apply (dint_ok 7021009 ltac:(lia)).
  rewrite O, R1 in *. assert (T0 : real_of (dint 0) = 0) by apply (dint_ok 0 ltac:(lia)). assert (T1 : real_of (dint 86400) = 86400) by apply (dint_ok 86400 ltac:(lia)).
  rewrite T0 in Rv. rewrite T1 in Rw. split; [exists v; split; [exact Ev|]|exists w; split; [exact Ew|exact Rw]].
  replace (Vec 7021009 0 0) with (circular_motion (Orbit (3 / 2) 0 7021009 0) (mean_motion 7021009) 0); [exact Rv|].
  unfold circular_motion, vadd, scale, node_dir, ahead_dir. cbn [vx vy vz inclination ascending_node orbit_radius orbit_phase]. rewrite Rmult_0_r, Rplus_0_r, cos_0, sin_0. f_equal; ring.
Qed.
