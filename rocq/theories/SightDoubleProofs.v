(** Elevations and distances of positions that are nearly right. *)
From Coq Require Import ZArith Reals Bool Lra Lia Psatz List.
From Flocq Require Import Core BinarySingleNaN.
From Verif Require Import Base OrbitModel OrbitSpec OrbitProofs TrackingProofs GeodeticProofs DoubleModel DoubleSpec DoubleProofs ElevationDoubleModel ElevationDoubleSpec ElevationDoubleProofs OrbitDoubleModel OrbitDoubleSpec OrbitDoubleProofs FixedDoubleModel FixedDoubleSpec FixedDoubleProofs SightDoubleSpec.
Open Scope R_scope.

(** The Gram determinant. *)
Lemma gram : forall g v w, 0 <= dot g g * (dot v v * dot w w) + 2 * (dot g v * (dot v w * dot g w)) - dot g g * (dot v w * dot v w) - dot v v * (dot g w * dot g w) - dot w w * (dot g v * dot g v).
Proof.
  intros [a b c] [d e f] [p q r]. unfold dot. cbn [vx vy vz].
  match goal with |- 0 <= ?t => replace t with ((a * (e * r - f * q) - b * (d * r - f * p) + c * (d * q - e * p)) * (a * (e * r - f * q) - b * (d * r - f * p) + c * (d * q - e * p))) by ring end. apply Rle_0_sqr.
Qed.
Lemma cosines : forall g v w, 0 < norm g -> 0 < norm v -> 0 < norm w ->
  let a := dot g v / (norm g * norm v) in let b := dot g w / (norm g * norm w) in let c := dot v w / (norm v * norm w) in
  (c - a * b) * (c - a * b) <= (1 - a * a) * (1 - b * b).
Proof.
  intros g v w G V W. cbn zeta. pose proof (gram g v w) as H. rewrite <- !norm_sq in H.
  apply Rminus_le. apply Ropp_le_cancel. rewrite Ropp_0.
  match goal with |- 0 <= ?t => replace t with ((norm g * norm g * (norm v * norm v * (norm w * norm w)) + 2 * (dot g v * (dot v w * dot g w)) - norm g * norm g * (dot v w * dot v w) - norm v * norm v * (dot g w * dot g w) - norm w * norm w * (dot g v * dot g v)) / (norm g * norm g * (norm v * norm v * (norm w * norm w)))) by (field; lra) end.
  apply Rmult_le_pos; [exact H|]. apply Rlt_le, Rinv_0_lt_compat. repeat apply Rmult_lt_0_compat; assumption.
Qed.
(** A direction changes by no more than the way moved. *)
Lemma elevation_moves : forall g v w, 0 < norm g -> 0 < norm v -> norm (vsub w v) <= norm v / 2 ->
  0 < norm w /\ Rabs (asin (dot g v / (norm g * norm v)) - asin (dot g w / (norm g * norm w))) <= 2 * (norm (vsub w v) / norm v).
Proof.
  intros g v w G V B. set (e := norm (vsub w v)) in *. assert (E0 : 0 <= e) by apply norm_nonneg.
  assert (E2 : e * e = dot v v + dot w w - 2 * dot v w) by (unfold e; rewrite norm_sq; unfold dot, vsub; cbn [vx vy vz]; ring).
  assert (W : 0 < norm w).
  { pose proof (norm_plus w (vsub v w)) as T. replace (vadd w (vsub v w)) with v in T by (destruct v, w; unfold vadd, vsub; cbn; f_equal; ring).
    replace (norm (vsub v w)) with e in T; [lra|]. unfold e, norm. f_equal. unfold dot, vsub. cbn [vx vy vz]. ring. }
  split; [exact W|]. pose proof (cosines g v w G V W) as C. cbn zeta in C. pose proof (cos_zenith_bound g v G V) as Ba. pose proof (cos_zenith_bound g w G W) as Bb.
  set (a := dot g v / (norm g * norm v)) in *. set (b := dot g w / (norm g * norm w)) in *. set (c := dot v w / (norm v * norm w)) in *.
  assert (Vw : 0 < dot v w). { rewrite <- !norm_sq in E2. assert (e * e <= norm v / 2 * (norm v / 2)) by (apply Rmult_le_compat; lra). assert (0 < norm v * norm v) by (apply Rmult_lt_0_compat; lra). assert (0 < norm w * norm w) by (apply Rmult_lt_0_compat; lra). lra. }
  assert (Cp : 0 < c) by (apply Rdiv_lt_0_compat; [exact Vw|apply Rmult_lt_0_compat; assumption]).
  assert (Sq : 1 - c * c <= (e / norm v) * (e / norm v)).
  { unfold c. rewrite <- !norm_sq in E2. assert (Dw : dot v w = (norm v * norm v + norm w * norm w - e * e) / 2) by lra.
    assert (I : (e / norm v) * (e / norm v) - (1 - dot v w / (norm v * norm w) * (dot v w / (norm v * norm w))) = ((norm w * norm w - dot v w) * (norm w * norm w - dot v w)) / (norm v * norm v * (norm w * norm w))).
    { replace ((e / norm v) * (e / norm v)) with (e * e / (norm v * norm v)) by (field; lra). replace (e * e) with (norm v * norm v + norm w * norm w - 2 * dot v w) by lra. field. lra. }
    assert (0 <= ((norm w * norm w - dot v w) * (norm w * norm w - dot v w)) / (norm v * norm v * (norm w * norm w))); [|lra].
    apply Rmult_le_pos; [apply Rle_0_sqr|]. apply Rlt_le, Rinv_0_lt_compat. repeat apply Rmult_lt_0_compat; assumption. }
  clearbody a b c. set (D := asin a - asin b).
  assert (CD : c <= cos D).
  { unfold D. rewrite cos_minus, !cos_asin, !sin_asin by lra. unfold Rsqr. rewrite <- sqrt_mult by nra.
    assert (c - a * b <= sqrt ((1 - a * a) * (1 - b * b))); [|lra]. apply Rle_trans with (Rabs (c - a * b)); [apply Rle_abs|]. rewrite <- sqrt_Rsqr_abs. apply sqrt_le_1_alt. exact C. }
  pose proof (asin_bound a) as Aa. pose proof (asin_bound b) as Ab.
  assert (DB : - PI < D <= PI).
  { unfold D in *. split; [|lra]. destruct (Req_dec (asin a - asin b) (- PI)) as [X|]; [|lra]. rewrite X, cos_neg, cos_PI in CD. lra. }
  pose proof (small_angle D DB ltac:(lra)) as S. apply Rle_trans with (2 * Rabs (sin D)); [exact S|]. apply Rmult_le_compat_l; [lra|].
  apply Rsqr_incr_0_var; [|apply Rmult_le_pos; [exact E0|apply Rlt_le, Rinv_0_lt_compat; exact V]]. rewrite <- Rsqr_abs. pose proof (sin2_cos2 D) as Q. unfold Rsqr in *. nra.
Qed.
(** Coordinates that are right to [e] give a point within [1.8 e]. *)
Lemma right_distance : forall e v w, 0 <= e -> right_to e v w -> norm (vsub (vec_of v) w) <= 18 / 10 * e.
Proof.
  intros e v w E ((_ & X) & (_ & Y) & (_ & Z)). apply Rsqr_incr_0_var; [|lra]. change (norm (vsub (vec_of v) w) * norm (vsub (vec_of v) w) <= (18 / 10 * e) * (18 / 10 * e)). rewrite norm_sq. unfold dot, vsub, vec_of. cbn [vx vy vz].
  assert (S : forall x, Rabs x <= e -> x * x <= e * e). { intros x H. apply (Rsqr_incr_1 (Rabs x) e) in H; [|apply Rabs_pos|exact E]. rewrite <- Rsqr_abs in H. exact H. }
  pose proof (S _ X). pose proof (S _ Y). pose proof (S _ Z). assert (0 <= e * e) by apply Rle_0_sqr. lra.
Qed.
Lemma earth_motion_norm : forall rs o t, 6371009 <= orbit_radius o -> 6300000 <= rs -> norm (earth_motion rs o t) = rs + (orbit_radius o - 6371009).
Proof.
  intros rs o t R S. unfold earth_motion, earth_radius. rewrite scale_norm, rotate_norm, norm_circular by (try apply Rmult_le_pos; try (apply Rlt_le, Rinv_0_lt_compat); lra). field. lra.
Qed.
