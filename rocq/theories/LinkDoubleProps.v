(** C136: links between satellites, from their orbits, in double precision. *)
From Coq Require Import ZArith Reals Bool Lra Lia Psatz.
From Flocq Require Import Core BinarySingleNaN.
From Verif Require Import Base OrbitModel OrbitSpec OrbitProofs TrackingProofs GeodeticProofs DoubleModel DoubleSpec DoubleProofs DoubleProps ElevationDoubleModel ElevationDoubleSpec ElevationDoubleProofs OrbitDoubleModel OrbitDoubleSpec OrbitDoubleProofs OrbitDoubleProps FixedDoubleModel FixedDoubleSpec FixedDoubleProofs FixedDoubleProps SightDoubleSpec SightDoubleProofs SightDoubleProps LinkDoubleSpec.
Open Scope R_scope.

Lemma dist_sym : forall a b, distance a b = distance b a.
Proof. intros. unfold distance, norm. f_equal. unfold dot, vsub. cbn [vx vy vz]. ring. Qed.
Lemma chord_is : forall rs o p t, 6371009 <= real_of (do_radius o) -> 6300000 <= rs -> same_plane o p ->
  distance (earth_motion rs (orbit_of o) t) (earth_motion rs (orbit_of p) t) = chord rs o p.
Proof.
  intros rs o p t R S (I & N & Q). unfold earth_motion, chord, orbit_of. cbn [orbit_radius]. rewrite <- I, <- N, <- Q. set (r := real_of (do_radius o)) in *.
  unfold earth_radius. assert (K : 0 <= (rs + (r - 6371009)) / r) by (apply Rmult_le_pos; [lra|apply Rlt_le, Rinv_0_lt_compat; lra]).
  rewrite distance_scale, rotate_distance by exact K. set (k := (rs + (r - 6371009)) / r) in *.
  assert (D : distance (circular_motion (Orbit (real_of (do_inclination o)) (real_of (do_node o)) r (real_of (do_phase o))) (mean_motion r) t) (circular_motion (Orbit (real_of (do_inclination o)) (real_of (do_node o)) r (real_of (do_phase p))) (mean_motion r) t) = 2 * r * Rabs (sin ((real_of (do_phase o) - real_of (do_phase p)) / 2))).
  { apply Rsqr_inj; [apply norm_nonneg|apply Rmult_le_pos; [lra|apply Rabs_pos]|]. unfold distance. set (x := circular_motion (Orbit _ _ _ (real_of (do_phase o))) _ _). set (y := circular_motion (Orbit _ _ _ (real_of (do_phase p))) _ _). unfold Rsqr at 1. rewrite norm_sq. rewrite Rsqr_mult, <- Rsqr_abs. unfold Rsqr.
    assert (X : dot x x = r * r) by apply dot_circular. assert (Y : dot y y = r * r) by apply dot_circular.
    assert (XY : dot x y = r * r * cos (real_of (do_phase o) - real_of (do_phase p))).
    { replace (real_of (do_phase o) - real_of (do_phase p)) with ((mean_motion r * t + real_of (do_phase o)) - (mean_motion r * t + real_of (do_phase p))) by ring. rewrite cos_minus.
      unfold x, y, circular_motion. cbn [orbit_phase orbit_radius]. set (u := mean_motion r * t + real_of (do_phase o)). set (v := mean_motion r * t + real_of (do_phase p)).
      unfold dot, scale, vadd, node_dir, ahead_dir. cbn [vx vy vz inclination ascending_node]. set (i := real_of (do_inclination o)). set (n := real_of (do_node o)).
      pose proof (sin2_cos2 i) as Hi. pose proof (sin2_cos2 n) as Hn. unfold Rsqr in *.
      transitivity (r * r * (cos u * cos v * (sin n * sin n + cos n * cos n) + sin u * sin v * (cos i * cos i * (sin n * sin n + cos n * cos n) + sin i * sin i))); [ring|].
      rewrite Hn. replace (cos i * cos i * 1 + sin i * sin i) with 1 by lra. ring. }
    replace (dot (vsub y x) (vsub y x)) with (dot x x + dot y y - 2 * dot x y) by (unfold dot, vsub; cbn [vx vy vz]; ring). rewrite X, Y, XY.
    set (h := (real_of (do_phase o) - real_of (do_phase p)) / 2). replace (real_of (do_phase o) - real_of (do_phase p)) with (2 * h) by (unfold h; field). rewrite cos_2a_sin. ring. }
  fold r in D. rewrite D. unfold k. field. lra.
Qed.

Section Library.
Variables (dasin dsin dcos dhalf : double -> double) (datan2 : double -> double -> double) (twopi dpi deg rad dsphere : double).
Hypothesis orbits : orbit_library dsin dcos dhalf datan2 twopi dpi.
Hypothesis fixed : fixed_library dasin datan2 deg rad dsphere.
Let fly := d_position dasin dsin dcos dhalf datan2 twopi dpi deg rad dsphere.

(** Whether two satellites are within reach of each other is decided right, up to two parts in ten million of their radii. *)
Theorem link_from_orbits : forall o p t limit, good_orbit o -> good_orbit p -> within_week t -> is_finite limit = true -> 0 <= real_of limit ->
  exists a b, fly o t = Ok a /\ fly p t = Ok b /\
    let far := distance (earth_motion (real_of dsphere) (orbit_of o) (real_of t)) (earth_motion (real_of dsphere) (orbit_of p) (real_of t)) in
    (within_double limit a b = true -> far <= real_of limit + slack o p) /\ (far <= real_of limit - slack o p -> within_double limit a b = true).
Proof.
  intros o p t limit Go Gp T Fl Pl. destruct (flown _ _ _ _ _ _ _ _ _ _ orbits fixed o t Go T) as (a & Ea & _ & Na & _ & Ia & Ba). destruct (flown _ _ _ _ _ _ _ _ _ _ orbits fixed p t Gp T) as (b & Eb & _ & Nb & _ & Ib & Bb).
  exists a, b. split; [exact Ea|]. split; [exact Eb|]. cbn zeta. set (x := earth_motion _ (orbit_of o) _) in *. set (y := earth_motion _ (orbit_of p) _) in *.
  assert (Sk : forall v, inside (10 ^ 8) v -> inside sky v) by (intros v ((F1 & B1) & (F2 & B2) & (F3 & B3)); unfold inside, sky; repeat split; try assumption; lra).
  destruct (within_double_near limit a b Fl Pl (Sk _ Ia) (Sk _ Ib)) as (H1 & H2).
  assert (Ap : apart (place a) (place b) = distance (vec_of a) (vec_of b)).
  { unfold apart, distance, norm, square_of_distance, place, vec_of, dot, vsub. cbn [px py pz vx vy vz]. f_equal. ring. }
  rewrite Ap in *. unfold slack. change (norm (vsub (vec_of a) x)) with (distance x (vec_of a)) in Na. change (norm (vsub (vec_of b) y)) with (distance y (vec_of b)) in Nb.
  pose proof (distance_triangle x (vec_of a) y) as T1. pose proof (distance_triangle (vec_of a) (vec_of b) y) as T2. pose proof (distance_triangle (vec_of a) x (vec_of b)) as T3. pose proof (distance_triangle x y (vec_of b)) as T4.
  rewrite (dist_sym (vec_of b) y) in T2. rewrite (dist_sym (vec_of a) x) in T3. split; intros H.
  - specialize (H1 H). lra.
  - apply H2. lra.
Qed.

(** Links along an orbit do not flicker: they are up all week, or down all week. *)
Theorem plane_link_steady : forall o p limit, good_orbit o -> good_orbit p -> same_plane o p -> is_finite limit = true -> 0 <= real_of limit ->
  let always v := forall t, within_week t -> exists a b, fly o t = Ok a /\ fly p t = Ok b /\ within_double limit a b = v in
  (chord (real_of dsphere) o p <= real_of limit - slack o p -> always true) /\ (real_of limit + slack o p < chord (real_of dsphere) o p -> always false).
Proof.
  intros o p limit Go Gp P Fl Pl. cbn zeta. destruct (fl_sphere _ _ _ _ _ fixed) as (_ & Bs). assert (R : 6371009 <= real_of (do_radius o)) by (destruct Go as (_ & _ & _ & _ & B); unfold earth_radius in B; lra).
  split; intros H t T; destruct (link_from_orbits o p t limit Go Gp T Fl Pl) as (a & b & Ea & Eb & L); exists a, b; (split; [exact Ea|]; split; [exact Eb|]); cbn zeta in L; rewrite chord_is in L by (try assumption; lra).
  - apply L. exact H.
  - destruct (within_double limit a b); [|reflexivity]. pose proof (proj1 L eq_refl). lra.
Qed.
End Library.
Print Assumptions link_from_orbits.
Print Assumptions plane_link_steady.

(** Two satellites 650 km up with links of 5542 km: half a radian apart they are linked all week, three radians apart never. *)
Definition behind (x : double) : dorbit := mkDorbit (dnum 3 (-1)) (dint 0) (dint 7021009) x.
Example plane_link_case : forall dasin dsin dcos dhalf datan2 twopi dpi deg rad,
  orbit_library dsin dcos dhalf datan2 twopi dpi -> fixed_library dasin datan2 deg rad (dint 6371000) -> forall t, within_week t ->
  let fly := d_position dasin dsin dcos dhalf datan2 twopi dpi deg rad (dint 6371000) in
  exists a b c, fly some_dorbit t = Ok a /\ fly (behind (dnum 1 (-1))) t = Ok b /\ fly (behind (dint 3)) t = Ok c /\
    within_double (dint 5542000) a b = true /\ within_double (dint 5542000) a c = false.
Proof.
  intros dasin dsin dcos dhalf datan2 twopi dpi deg rad L K t T. cbn zeta. destruct some_good as (G & _ & _). destruct start_orbits as (_ & _ & G3). destruct (half_ok 1 ltac:(auto)) as (Fh & Vh). change (real_of (dnum 1 (-1)) = / 2) in Vh.
  assert (G2 : good_orbit (behind (dnum 1 (-1)))).
  { destruct G as (Gi & Gn & Gp & Gr). unfold good_orbit, behind. cbn [do_inclination do_node do_radius do_phase]. split; [exact Gi|]. split; [exact Gn|]. split; [|exact Gr]. split; [exact Fh|]. rewrite Vh, Rabs_pos_eq; lra. }
  assert (R1 : real_of (dint 7021009) = 7021009) by apply (dint_ok 7021009 ltac:(lia)). assert (R2 : real_of (dint 6371000) = 6371000) by apply (dint_ok 6371000 ltac:(lia)). assert (R3 : real_of (dint 3) = 3) by apply (dint_ok 3 ltac:(lia)). assert (R0 : real_of (dint 0) = 0) by apply (dint_ok 0 ltac:(lia)).
  destruct (dint_ok 5542000 ltac:(lia)) as (Fl & Vl). change val with real_of in Vl.
  pose proof (plane_link_steady _ _ _ _ _ _ _ _ _ _ L K some_dorbit (behind (dnum 1 (-1))) (dint 5542000) G G2 ltac:(repeat split) Fl ltac:(lra)) as P2. pose proof (plane_link_steady _ _ _ _ _ _ _ _ _ _ L K some_dorbit (behind (dint 3)) (dint 5542000) G G3 ltac:(repeat split) Fl ltac:(lra)) as P3.
  cbv beta zeta in P2, P3. unfold chord, slack, earth_radius, some_dorbit, behind in P2, P3. cbn [do_radius do_phase] in P2, P3. fold some_dorbit (behind (dnum 1 (-1))) (behind (dint 3)) in P2, P3. rewrite ?R0, ?R1, ?R2, ?R3, ?Vh, ?Vl in P2, P3.
  destruct P2 as (P2 & _). destruct P3 as (_ & P3).
  destruct (P2) with (t := t) as (a & b & Ea & Eb & Lk); [|exact T|].
  { rewrite Vh. replace ((0 - / 2) / 2) with (- (1 / 4)) by lra. rewrite sin_neg, Rabs_Ropp. assert (Rabs (sin (1 / 4)) <= 1 / 4); [|lra]. pose proof (sin_lt_x (1 / 4) ltac:(lra)). pose proof pi_bounds. pose proof (sin_ge_0 (1 / 4) ltac:(lra) ltac:(lra)). rewrite Rabs_pos_eq; lra. }
  destruct (P3) with (t := t) as (a' & c & Ea' & Ec & Lk'); [|exact T|].
  { rewrite R3. replace ((0 - 3) / 2) with (- (3 / 2)) by lra. rewrite sin_neg, Rabs_Ropp. assert (1 / 2 <= Rabs (sin (3 / 2))); [|lra]. pose proof pi_bounds. rewrite Rabs_pos_eq by (apply sin_ge_0; lra). rewrite <- sin_PI6. apply Rlt_le, sin_increasing_1; lra. }
  exists a, b, c. rewrite Ea in Ea'. injection Ea' as <-. repeat split; assumption.
Qed.
