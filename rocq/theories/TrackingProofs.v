From Coq Require Import Reals Lra Psatz ZArith Lia List.
From Verif Require Import Base ConstellationProofs OrbitModel OrbitSpec OrbitProofs TrackingModel TrackingSpec.
Import ListNotations.
Open Scope R_scope.

(** * Chords *)

Lemma sin_below : forall x, 0 <= x -> sin x <= x.
Proof.
  intros x [H|<-]; [|rewrite sin_0; lra].
  destruct (MVT_cor2 sin cos 0 x H (fun c _ => derivable_pt_lim_sin c)) as (c & E & _).
  rewrite sin_0 in E. pose proof (COS_bound c). nra.
Qed.

Lemma sin_sq_below : forall x, sin x * sin x <= x * x.
Proof.
  assert (P : forall x, 0 <= x -> sin x * sin x <= x * x).
  { intros x H. pose proof (sin_below x H) as A. destruct (Rle_dec 0 (sin x)) as [B|B]; [nra|].
    destruct (Rle_dec x 1) as [C|C].
    - exfalso. apply B, sin_ge_0; [lra|]. pose proof PI2_3_2. lra.
    - pose proof (SIN_bound x). nra. }
  intros x. destruct (Rle_dec 0 x) as [H|H]; [apply P; exact H|].
  specialize (P (- x) ltac:(lra)). rewrite sin_neg in P. lra.
Qed.

Lemma one_minus_cos : forall x, 2 - 2 * cos x <= x * x.
Proof.
  intros x. pose proof (sin_sq_below (x / 2)) as S. pose proof (cos_2a_sin (x / 2)) as C.
  replace (2 * (x / 2)) with x in C by field. lra.
Qed.

(** * Distances *)

Lemma distance_sq : forall a b, distance a b * distance a b = sq_distance a b.
Proof. intros [a b c] [d e g]. unfold distance. rewrite norm_sq. unfold sq_distance, dot, vsub; cbn [vx vy vz]. ring. Qed.

Lemma distance_nonneg : forall a b, 0 <= distance a b.
Proof. intros. apply norm_nonneg. Qed.

Lemma norm_plus : forall u v, norm (vadd u v) <= norm u + norm v.
Proof.
  intros u v. pose proof (norm_nonneg u) as Hu. pose proof (norm_nonneg v) as Hv. pose proof (norm_nonneg (vadd u v)) as Hs.
  pose proof (norm_sq u) as Eu. pose proof (norm_sq v) as Ev. pose proof (norm_sq (vadd u v)) as Es.
  assert (Ex : dot (vadd u v) (vadd u v) = dot u u + dot v v + 2 * dot u v).
  { destruct u as [u1 u2 u3], v as [v1 v2 v3]. unfold dot, vadd; cbn [vx vy vz]. ring. }
  pose proof (cauchy_schwarz u v) as C. rewrite <- Eu, <- Ev in C.
  assert (D : dot u v <= norm u * norm v).
  { apply Rnot_lt_le. intros L. assert (0 <= norm u * norm v) by nra. nra. }
  apply Rnot_lt_le. intros L. nra.
Qed.

Lemma distance_triangle : forall a b c, distance a c <= distance a b + distance b c.
Proof.
  intros a b c. unfold distance. replace (vsub c a) with (vadd (vsub b a) (vsub c b)); [apply norm_plus|].
  destruct a as [a1 a2 a3], b as [b1 b2 b3], c as [c1 c2 c3]. unfold vadd, vsub; cbn [vx vy vz]. f_equal; ring.
Qed.

Lemma distance_scale : forall k a b, 0 <= k -> distance (scale k a) (scale k b) = k * distance a b.
Proof.
  intros k a b H. unfold distance. replace (vsub (scale k b) (scale k a)) with (scale k (vsub b a)); [apply scale_norm; exact H|].
  destruct a as [a1 a2 a3], b as [b1 b2 b3]. unfold scale, vsub; cbn [vx vy vz]. f_equal; ring.
Qed.

Lemma le_by_sq : forall x y, 0 <= y -> x * x <= y * y -> x <= y.
Proof. intros x y H L. apply Rnot_lt_le. intros X. nra. Qed.

(** * Motion *)

Lemma chord_circular : forall o w t u, 0 <= orbit_radius o ->
  distance (circular_motion o w t) (circular_motion o w u) <= orbit_radius o * Rabs (w * (t - u)).
Proof.
  intros o w t u H. apply le_by_sq; [apply Rmult_le_pos; [exact H|apply Rabs_pos]|]. rewrite distance_sq.
  set (r := orbit_radius o). apply Rle_trans with (r * r * (2 - 2 * cos (w * (t - u)))).
  - right. unfold sq_distance, circular_motion, scale, vadd, node_dir, ahead_dir; cbn [vx vy vz]. fold r.
    replace (w * (t - u)) with ((w * t + orbit_phase o) - (w * u + orbit_phase o)) by ring. rewrite cos_minus.
    set (a := w * t + orbit_phase o). set (b := w * u + orbit_phase o).
    pose proof (trig1 (ascending_node o)) as N. pose proof (trig1 (inclination o)) as I.
    pose proof (trig1 a) as A. pose proof (trig1 b) as B.
    set (cn := cos (ascending_node o)) in *. set (sn := sin (ascending_node o)) in *.
    set (ci := cos (inclination o)) in *. set (si := sin (inclination o)) in *.
    transitivity (r * r * ((cos b - cos a) * (cos b - cos a) * (sn * sn + cn * cn) +
      (sin b - sin a) * (sin b - sin a) * (ci * ci * (sn * sn + cn * cn) + si * si))); [ring|].
    rewrite N. replace (ci * ci * 1 + si * si) with (si * si + ci * ci) by ring. rewrite I.
    transitivity (r * r * ((sin a * sin a + cos a * cos a) + (sin b * sin b + cos b * cos b) - 2 * (cos a * cos b + sin a * sin b))); [ring|].
    rewrite A, B. ring.
  - apply Rle_trans with (r * r * ((w * (t - u)) * (w * (t - u)))).
    + apply Rmult_le_compat_l; [apply Rmult_le_pos; exact H|]. apply one_minus_cos.
    + right. replace (r * Rabs (w * (t - u)) * (r * Rabs (w * (t - u)))) with (r * r * (Rabs (w * (t - u)) * Rabs (w * (t - u)))) by ring.
      rewrite <- Rabs_mult, Rabs_right by (apply Rle_ge, Rle_0_sqr). reflexivity.
Qed.

Lemma chord_rotate : forall a b v, distance (rotate a v) (rotate b v) <= norm v * Rabs (a - b).
Proof.
  intros a b v. apply le_by_sq; [apply Rmult_le_pos; [apply norm_nonneg|apply Rabs_pos]|]. rewrite distance_sq.
  assert (Q : vx v * vx v + vy v * vy v <= norm v * norm v).
  { rewrite norm_sq. destruct v as [x y z]. unfold dot; cbn [vx vy vz]. nra. }
  apply Rle_trans with ((vx v * vx v + vy v * vy v) * (2 - 2 * cos (a - b))).
  - right. unfold sq_distance, rotate; cbn [vx vy vz]. rewrite cos_minus. pose proof (trig1 a) as A. pose proof (trig1 b) as B.
    transitivity ((vx v * vx v + vy v * vy v) * ((sin a * sin a + cos a * cos a) + (sin b * sin b + cos b * cos b) - 2 * (cos a * cos b + sin a * sin b))); [ring|].
    rewrite A, B. ring.
  - apply Rle_trans with (norm v * norm v * ((a - b) * (a - b))).
    + apply Rmult_le_compat; [apply Rplus_le_le_0_compat; apply Rle_0_sqr| |exact Q|apply one_minus_cos]. pose proof (COS_bound (a - b)). lra.
    + right. replace (norm v * Rabs (a - b) * (norm v * Rabs (a - b))) with (norm v * norm v * (Rabs (a - b) * Rabs (a - b))) by ring.
      rewrite <- Rabs_mult, Rabs_right by (apply Rle_ge, Rle_0_sqr). reflexivity.
Qed.

Lemma position_moves : forall rs o t u, flies rs o -> exists p q, position rs o t = Ok p /\ position rs o u = Ok q /\
  distance p q <= top_speed rs o * Rabs (t - u).
Proof.
  intros rs o t u [H Hr]. destruct (position_rotated rs o t H) as (v & V & P). destruct (position_rotated rs o u H) as (v' & V' & P').
  rewrite inertial_motion in V, V'. injection V as <-. injection V' as <-. eexists. eexists. split; [exact P|]. split; [exact P'|].
  set (w := mean_motion (orbit_radius o)). assert (W : 0 < w) by (apply mean_motion_pos, H).
  assert (E : 0 < earth_rotation) by (unfold earth_rotation; lra).
  set (k := (rs + (orbit_radius o - earth_radius)) / orbit_radius o).
  assert (K : 0 <= k) by (apply Rmult_le_pos; [exact Hr|left; apply Rinv_0_lt_compat, H]).
  assert (Kr : k * orbit_radius o = rs + (orbit_radius o - earth_radius)) by (unfold k; field; lra).
  rewrite distance_scale by exact K.
  eapply Rle_trans; [apply Rmult_le_compat_l; [exact K|]; apply (distance_triangle _ (rotate (- (earth_rotation * t)) (circular_motion o w u)))|].
  rewrite rotate_distance. pose proof (chord_circular o w t u ltac:(lra)) as C1.
  pose proof (chord_rotate (- (earth_rotation * t)) (- (earth_rotation * u)) (circular_motion o w u)) as C2.
  rewrite norm_circular in C2 by lra.
  replace (- (earth_rotation * t) - - (earth_rotation * u)) with (- (earth_rotation * (t - u))) in C2 by ring.
  rewrite Rabs_Ropp, Rabs_mult, (Rabs_right earth_rotation) in C2 by lra. rewrite Rabs_mult, (Rabs_right w) in C1 by lra.
  unfold top_speed. change (kepler_rate (orbit_radius o)) with w. rewrite <- Kr.
  apply Rle_trans with (k * (orbit_radius o * (w * Rabs (t - u)) + orbit_radius o * (earth_rotation * Rabs (t - u)))).
  - apply Rmult_le_compat_l; [exact K|]. apply Rplus_le_compat; assumption.
  - right. ring.
Qed.

Lemma top_speed_nonneg : forall rs o, flies rs o -> 0 <= top_speed rs o.
Proof.
  intros rs o [H Hr]. unfold top_speed. change (kepler_rate (orbit_radius o)) with (mean_motion (orbit_radius o)). apply Rmult_le_pos; [exact Hr|]. pose proof (mean_motion_pos _ H). unfold earth_rotation. lra.
Qed.

(** The distance to a fixed point changes no faster. *)
Lemma range_moves : forall rs orbits here d t u, flies rs (orbits d) ->
  distance (sat_at rs orbits t d) here <= distance (sat_at rs orbits u d) here + top_speed rs (orbits d) * Rabs (seconds t - seconds u).
Proof.
  intros rs orbits here d t u F. destruct (position_moves rs (orbits d) (seconds t) (seconds u) F) as (p & q & P & Q & L).
  unfold sat_at. rewrite P, Q. pose proof (distance_triangle p q here). lra.
Qed.

Lemma rleb_total : total_order rleb.
Proof.
  unfold rleb. split.
  - intros a b. destruct (Rle_dec a b); [discriminate|]. destruct (Rle_dec b a); [reflexivity|lra].
  - intros a b c. destruct (Rle_dec a b); [|discriminate]. destruct (Rle_dec b c); [|discriminate]. destruct (Rle_dec a c); [reflexivity|lra].
Qed.

Lemma sq_away_le : forall rs orbits here t d x, rleb (sq_away rs orbits here t d) (sq_away rs orbits here t x) = true ->
  distance (sat_at rs orbits t d) here <= distance (sat_at rs orbits t x) here.
Proof.
  intros rs orbits here t d x H. unfold rleb, sq_away in H. destruct (Rle_dec _ _) as [L|]; [|discriminate].
  apply le_by_sq; [apply distance_nonneg|]. rewrite !distance_sq. exact L.
Qed.

Lemma seconds_minus : forall t u, seconds (t - u) = seconds t - seconds u.
Proof. intros. unfold seconds. rewrite minus_IZR. lra. Qed.

Lemma seconds_le : forall t u, (t <= u)%Z -> seconds t <= seconds u.
Proof. intros t u H. unfold seconds. apply IZR_le in H. lra. Qed.
