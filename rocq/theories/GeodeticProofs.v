From Coq Require Import Reals Lra Psatz.
From Verif Require Import Base OrbitModel OrbitSpec OrbitProofs OrbitProps TrackingProofs GeodeticSpec.
Open Scope R_scope.

Lemma e2_more : 66943 / 10000000 < e2 < 66944 / 10000000.
Proof. unfold e2, wgs84_ecc. lra. Qed.

Lemma sin_abs_le : forall x, Rabs (sin x) <= Rabs x.
Proof.
  assert (P : forall x, 0 < x -> Rabs (sin x) <= x).
  { intros x Hx. pose proof (SIN_bound x). destruct (Rle_dec 1 x); [apply Rabs_le; lra|].
    pose proof (sin_lt_x x Hx). pose proof PI_RGT_0. pose proof PI2_1. assert (0 < sin x) by (apply sin_gt_0; lra). apply Rabs_le. lra. }
  intros x. destruct (Rtotal_order x 0) as [H|[->|H]].
  - rewrite <- (Rabs_Ropp x), <- (Rabs_Ropp (sin x)), <- sin_neg. rewrite (Rabs_pos_eq (- x)) by lra. apply P. lra.
  - rewrite sin_0. lra.
  - rewrite (Rabs_pos_eq x) by lra. apply P, H.
Qed.

Lemma cos_close : forall a b, Rabs (cos a - cos b) <= Rabs (a - b).
Proof.
  intros a b. rewrite form2. rewrite !Rabs_mult. pose proof (sin_abs_le ((a - b) / 2)) as H.
  assert (Rabs (sin ((a + b) / 2)) <= 1) by (pose proof (SIN_bound ((a + b) / 2)); apply Rabs_le; lra).
  assert (E : Rabs ((a - b) / 2) = Rabs (a - b) / 2) by (unfold Rdiv; rewrite Rabs_mult, (Rabs_pos_eq (/ 2)) by lra; reflexivity).
  rewrite E in H. replace (Rabs (-2)) with 2 by (rewrite Rabs_left; lra).
  pose proof (Rabs_pos (sin ((a + b) / 2))). pose proof (Rabs_pos (sin ((a - b) / 2))). nra.
Qed.

(** A small angle and its sine. *)
Lemma sin_back : forall x, Rabs x <= PI / 2 -> Rabs x <= 7 / 4 * Rabs (sin x).
Proof.
  assert (P : forall x, 0 <= x <= PI / 2 -> x <= 7 / 4 * sin x).
  { intros x Hx. pose proof PI_4. destruct (pre_sin_bound x 0 ltac:(lra) ltac:(lra)) as [B _].
    unfold sin_approx, sin_term in B. cbn in B. assert (X : x <= 8 / 5).
    { apply Rle_trans with (PI / 2); [lra|]. apply Rnot_lt_le. intros Q. assert (C : 0 < cos (8 / 5)) by (apply cos_gt_0; lra).
      destruct (pre_cos_bound (8 / 5) 0 ltac:(lra) ltac:(lra)) as [_ B']. unfold cos_approx, cos_term in B'. cbn in B'. lra. }
    assert (x * x <= 64 / 25) by nra. nra. }
  intros x Hx. destruct (Rle_dec 0 x) as [H|H].
  - rewrite (Rabs_pos_eq x) in * by lra. assert (0 <= sin x) by (apply sin_ge_0; pose proof PI_RGT_0; lra). rewrite Rabs_pos_eq by assumption. apply P. lra.
  - rewrite (Rabs_left x) in * by lra. assert (0 <= sin (- x)) by (apply sin_ge_0; pose proof PI_RGT_0; lra).
    rewrite <- (Rabs_Ropp (sin x)), <- sin_neg, Rabs_pos_eq by assumption. apply P. lra.
Qed.

Definition semi : R := sqrt (1 - e2).
Lemma semi_sq : semi * semi = 1 - e2.
Proof. unfold semi. apply sqrt_sqrt. pose proof e2_bounds. lra. Qed.
Lemma semi_bounds : 9966 / 10000 < semi < 1.
Proof.
  pose proof e2_more. pose proof semi_sq. assert (0 <= semi) by apply sqrt_pos. split; nra.
Qed.

Definition root (x : R) : R := sqrt (1 - e2 * sin x * sin x).
Lemma sin_part : forall x, e2 * sin x * sin x = e2 - e2 * (cos x * cos x).
Proof. intros x. pose proof (trig1 x) as T. replace (e2 * sin x * sin x) with (e2 * (sin x * sin x)) by ring. replace (sin x * sin x) with (1 - cos x * cos x) by lra. ring. Qed.
Lemma root_sq : forall x, root x * root x = semi * semi + e2 * (cos x * cos x).
Proof.
  intros x. unfold root. rewrite sin_part. pose proof e2_bounds. pose proof (Rle_0_sqr (cos x)) as Q. unfold Rsqr in Q. rewrite sqrt_sqrt by nra. rewrite semi_sq. ring.
Qed.
Lemma root_low : forall x, semi <= root x.
Proof. intros x. unfold semi, root. apply sqrt_le_1_alt. rewrite sin_part. pose proof (Rle_0_sqr (cos x)) as Q. unfold Rsqr in Q. pose proof e2_bounds. nra. Qed.
Lemma root_up : forall x, root x <= 1.
Proof. intros x. unfold root. rewrite <- sqrt_1 at 2. apply sqrt_le_1_alt. pose proof (Rle_0_sqr (sin x)) as Q. unfold Rsqr in Q. pose proof e2_bounds. nra. Qed.

Lemma axis_pos : 0 < wgs84_axis.
Proof. unfold wgs84_axis. lra. Qed.

Lemma pv_low : forall x, wgs84_axis <= prime_vertical x.
Proof.
  intros x. unfold prime_vertical. fold (root x). pose proof (root_up x). pose proof (root_low x). pose proof semi_bounds. pose proof axis_pos.
  apply Rmult_le_reg_r with (root x); [lra|]. unfold Rdiv. rewrite Rmult_assoc, Rinv_l by lra. nra.
Qed.
Lemma pv_up : forall x, prime_vertical x <= wgs84_axis / semi.
Proof.
  intros x. unfold prime_vertical. fold (root x). apply Rmult_le_compat_l; [apply Rlt_le, axis_pos|]. pose proof (root_low x). pose proof semi_bounds.
  apply Rinv_le_contravar; lra.
Qed.

Lemma pv_cos_close : forall x y, 0 < cos x -> 0 < cos y -> Rabs (prime_vertical x * cos x - prime_vertical y * cos y) <= wgs84_axis / semi * Rabs (cos x - cos y).
Proof.
  intros x y Cx Cy. pose proof semi_bounds as Sb. pose proof axis_pos as Ap. unfold prime_vertical. fold (root x) (root y).
  pose proof (root_low x) as Lx. pose proof (root_low y) as Ly. pose proof (root_sq x) as Qx. pose proof (root_sq y) as Qy.
  set (u := cos x) in *. set (w := cos y) in *. set (sx := root x) in *. set (sy := root y) in *. clearbody u w sx sy. set (q := semi) in *. clearbody q.
  assert (E : (u * sy - w * sx) * (u * sy + w * sx) = q * q * ((u - w) * (u + w))).
  { transitivity (u * u * (sy * sy) - w * w * (sx * sx)); [ring|]. rewrite Qx, Qy. ring. }
  assert (A : Rabs (u * sy - w * sx) <= q * Rabs (u - w)).
  { apply Rmult_le_reg_r with (q * (u + w)); [nra|]. apply Rle_trans with (Rabs (u * sy - w * sx) * (u * sy + w * sx)).
    - apply Rmult_le_compat_l; [apply Rabs_pos|nra].
    - rewrite <- (Rabs_pos_eq (u * sy + w * sx)) by nra. rewrite <- Rabs_mult, E, !Rabs_mult.
      rewrite (Rabs_pos_eq q), (Rabs_pos_eq (u + w)) by lra. apply Req_le. ring. }
  replace (wgs84_axis / sx * u - wgs84_axis / sy * w) with (wgs84_axis / (sx * sy) * (u * sy - w * sx)) by (field; lra).
  rewrite Rabs_mult. assert (B : 0 < wgs84_axis / (sx * sy) <= wgs84_axis / (q * q)).
  { split; [apply Rdiv_lt_0_compat; nra|]. apply Rmult_le_compat_l; [lra|]. apply Rinv_le_contravar; nra. }
  rewrite (Rabs_pos_eq (wgs84_axis / (sx * sy))) by lra.
  apply Rle_trans with (wgs84_axis / (q * q) * (q * Rabs (u - w))).
  - apply Rmult_le_compat; [lra|apply Rabs_pos|lra|exact A].
  - apply Req_le. field. lra.
Qed.

Section Height.
Variables phi h : R.
Hypothesis Hphi : - (PI / 2) < phi < PI / 2.
Hypothesis Hh : - 3000000 <= h.

Definition rho : R := prime_vertical phi * (1 - e2) + h.
Definition pp : R := (prime_vertical phi + h) * cos phi.
Definition zz : R := rho * sin phi.
Definition rr : R := sqrt (pp * pp + zz * zz).

Lemma c_pos : 0 < cos phi.
Proof. apply cos_gt_0; lra. Qed.
Lemma rho_low : 33 / 10 * 10 ^ 6 <= rho.
Proof. unfold rho. pose proof (pv_low phi) as N. pose proof e2_bounds. unfold wgs84_axis in N. nra. Qed.
Lemma pp_rho : rho * cos phi <= pp.
Proof. unfold pp, rho. pose proof (pv_low phi). pose proof axis_pos. pose proof e2_bounds. pose proof c_pos. apply Rmult_le_compat_r; [lra|]. nra. Qed.
Lemma pp_pos : 0 < pp.
Proof. pose proof pp_rho. pose proof rho_low. pose proof c_pos. nra. Qed.
Lemma rr_rho : rho <= rr.
Proof.
  unfold rr. pose proof rho_low as L. pose proof pp_rho as P. pose proof c_pos. rewrite <- (sqrt_sq_nonneg rho) at 1 by lra. apply sqrt_le_1_alt.
  unfold zz. pose proof (trig1 phi) as T. assert (rho * cos phi * (rho * cos phi) <= pp * pp) by (apply Rmult_le_compat; nra).
  replace (rho * rho) with (rho * sin phi * (rho * sin phi) + rho * cos phi * (rho * cos phi)); [lra|].
  transitivity (rho * rho * (sin phi * sin phi + cos phi * cos phi)); [ring|rewrite T; ring].
Qed.

Definition good (lat : R) : Prop := - (PI / 2) < lat < PI / 2 /\ cos lat * rr <= pp.
Definition dd (lat : R) : R := pp - e2 * (prime_vertical lat * cos lat).

Lemma flat : e2 * (wgs84_axis / semi) < 43000.
Proof.
  pose proof e2_more. pose proof semi_bounds. assert (wgs84_axis / semi <= 6400000).
  { apply Rmult_le_reg_r with semi; [lra|]. unfold Rdiv. rewrite Rmult_assoc, Rinv_l by lra. unfold wgs84_axis. lra. }
  assert (0 <= wgs84_axis / semi) by (apply Rlt_le, Rdiv_lt_0_compat; [apply axis_pos|lra]). nra.
Qed.

Lemma dd_bounds : forall lat, good lat -> 0 < dd lat <= pp.
Proof.
  intros lat [L G]. assert (C : 0 < cos lat) by (apply cos_gt_0; lra). pose proof (pv_low lat). pose proof (pv_up lat) as U. pose proof axis_pos. pose proof e2_bounds. unfold dd.
  assert (0 <= e2 * (prime_vertical lat * cos lat)) by (apply Rmult_le_pos; [lra|apply Rmult_le_pos; lra]). split; [|lra].
  pose proof flat as F. pose proof rr_rho. pose proof rho_low.
  assert (B : e2 * (prime_vertical lat * cos lat) <= 43000 * cos lat).
  { replace (e2 * (prime_vertical lat * cos lat)) with (e2 * prime_vertical lat * cos lat) by ring. apply Rmult_le_compat_r; [lra|].
    apply Rle_trans with (e2 * (wgs84_axis / semi)); [apply Rmult_le_compat_l; lra|lra]. }
  assert (43000 * cos lat < cos lat * rr) by nra. lra.
Qed.

Lemma atan2_right : forall y x, 0 < x -> atan2 y x = atan (y / x).
Proof. intros y x H. unfold atan2. destruct (Rlt_dec 0 x); [reflexivity|lra]. Qed.

Lemma good_atan : forall d, 0 < d <= pp -> good (atan (zz / d)).
Proof.
  intros d Hd. split; [pose proof (atan_bound (zz / d)); lra|].
  destruct (atan_polar d zz (proj1 Hd)) as [X Y]. set (c := cos (atan (zz / d))) in *. set (m := sqrt (d * d + zz * zz)) in *.
  assert (M : 0 < m) by (apply sqrt_lt_R0; nra). assert (R0 : 0 <= rr) by apply sqrt_pos.
  assert (Q : d * rr <= pp * m).
  { apply Rsqr_incr_0_var; [|apply Rmult_le_pos; [apply Rlt_le, pp_pos|lra]]. unfold Rsqr.
    replace (d * rr * (d * rr)) with (d * d * (rr * rr)) by ring. replace (pp * m * (pp * m)) with (pp * pp * (m * m)) by ring.
    unfold rr, m. rewrite !sqrt_sqrt by nra. assert (d * d <= pp * pp) by (apply Rmult_le_compat; lra). pose proof (Rle_0_sqr zz) as Z. unfold Rsqr in Z. nra. }
  apply Rmult_le_reg_r with m; [exact M|]. replace (c * rr * m) with (m * c * rr) by ring. rewrite <- X. lra.
Qed.

Lemma start_good : good (latitude_start pp zz).
Proof.
  unfold latitude_start. fold e2. pose proof pp_pos. pose proof e2_bounds. rewrite atan2_right by nra. apply good_atan. nra.
Qed.

Lemma round_atan : forall lat, good lat -> latitude_round pp zz lat = atan (zz / dd lat).
Proof.
  intros lat G. unfold latitude_round. fold e2. change (wgs84_axis / sqrt (1 - e2 * sin lat * sin lat)) with (prime_vertical lat).
  pose proof (dd_bounds lat G) as B. destruct G as [L _]. assert (C : 0 < cos lat) by (apply cos_gt_0; lra). pose proof pp_pos.
  replace (pp * (1 - e2 * prime_vertical lat / (pp / cos lat))) with (dd lat) by (unfold dd; field; lra). apply atan2_right. lra.
Qed.

Lemma round_good : forall lat, good lat -> good (latitude_round pp zz lat).
Proof. intros lat G. rewrite round_atan by exact G. apply good_atan, dd_bounds, G. Qed.

Lemma dd_phi : dd phi = rho * cos phi.
Proof. unfold dd, pp, rho. ring. Qed.

Lemma same_side : forall d, 0 < d -> Rabs (atan (zz / d) - phi) <= PI / 2.
Proof.
  intros d Hd. pose proof (atan_bound (zz / d)) as B. pose proof rho_low. unfold zz in *.
  destruct (Rle_dec 0 phi) as [P|P].
  - assert (0 <= sin phi) by (apply sin_ge_0; lra). assert (0 <= atan (rho * sin phi / d)).
    { rewrite <- atan_0. destruct (Rle_lt_or_eq_dec 0 (sin phi)) as [S|S]; [assumption| |].
      - left. apply atan_increasing. apply Rdiv_lt_0_compat; nra.
      - rewrite <- S. replace (rho * 0 / d) with 0 by (field; lra). lra. }
    apply Rabs_le. lra.
  - assert (sin phi < 0) by (apply sin_lt_0_var; lra). assert (atan (rho * sin phi / d) < 0).
    { rewrite <- atan_0. apply atan_increasing. unfold Rdiv. assert (0 < / d) by (apply Rinv_0_lt_compat; lra). assert (rho * sin phi < 0) by nra. nra. }
    apply Rabs_le. lra.
Qed.

(** A round brings the latitude nearer. *)
Lemma round_nearer : forall lat, good lat -> Rabs (latitude_round pp zz lat - phi) <= / 40 * Rabs (lat - phi).
Proof.
  intros lat G. rewrite round_atan by exact G. pose proof (dd_bounds lat G) as [B _]. set (d := dd lat) in *.
  destruct (atan_polar d zz B) as [X Y]. set (th := atan (zz / d)) in *. set (m := sqrt (d * d + zz * zz)) in *.
  assert (M : 0 < m) by (apply sqrt_lt_R0; nra). pose proof rho_low as Rl.
  pose proof (sin_back (th - phi) (same_side d B)) as Sb.
  assert (E : sin (th - phi) * (rho * m) = zz * (rho * cos phi - d)).
  { rewrite sin_minus. transitivity ((m * sin th) * (rho * cos phi) - (m * cos th) * (rho * sin phi)); [ring|]. rewrite <- X, <- Y. unfold zz. ring. }
  assert (Zm : Rabs zz <= m).
  { unfold m. rewrite <- (sqrt_sq_nonneg (Rabs zz)) by apply Rabs_pos. apply sqrt_le_1_alt. rewrite <- Rabs_mult, Rabs_pos_eq by nra. nra. }
  assert (F : Rabs (sin (th - phi)) * rho <= Rabs (rho * cos phi - d)).
  { apply Rmult_le_reg_r with m; [exact M|]. rewrite Rmult_assoc. rewrite <- (Rabs_pos_eq (rho * m)) by nra. rewrite <- Rabs_mult, E, Rabs_mult.
    rewrite Rmult_comm. apply Rmult_le_compat_l; [apply Rabs_pos|exact Zm]. }
  assert (C : 0 < cos lat) by (apply cos_gt_0; apply G).
  assert (D : Rabs (rho * cos phi - d) <= 43000 * Rabs (lat - phi)).
  { rewrite <- dd_phi. unfold d, dd.
    replace (pp - e2 * (prime_vertical phi * cos phi) - (pp - e2 * (prime_vertical lat * cos lat))) with (e2 * (prime_vertical lat * cos lat - prime_vertical phi * cos phi)) by ring.
    pose proof e2_bounds. rewrite Rabs_mult, (Rabs_pos_eq e2) by lra. pose proof (pv_cos_close lat phi C c_pos) as Pc. pose proof (cos_close lat phi) as Cc. pose proof flat.
    assert (0 <= wgs84_axis / semi) by (apply Rlt_le, Rdiv_lt_0_compat; [apply axis_pos|pose proof semi_bounds; lra]).
    apply Rle_trans with (e2 * (wgs84_axis / semi * Rabs (lat - phi))).
    - apply Rmult_le_compat_l; [lra|]. eapply Rle_trans; [exact Pc|]. apply Rmult_le_compat_l; assumption.
    - rewrite <- Rmult_assoc. apply Rmult_le_compat_r; [apply Rabs_pos|lra]. }
  pose proof (Rabs_pos (sin (th - phi))). pose proof (Rabs_pos (lat - phi)).
  assert (Rabs (sin (th - phi)) * (33 / 10 * 10 ^ 6) <= 43000 * Rabs (lat - phi)).
  { eapply Rle_trans; [|eapply Rle_trans; [exact F|exact D]]. apply Rmult_le_compat_l; assumption. }
  lra.
Qed.

Lemma tolerance_pos : 0 < latitude_tolerance.
Proof. unfold latitude_tolerance, radians. pose proof PI_RGT_0. lra. Qed.

Lemma stop_near : forall lat, good lat -> Rabs (latitude_round pp zz lat - lat) <= latitude_tolerance -> Rabs (latitude_round pp zz lat - phi) <= latitude_tolerance / 39.
Proof.
  intros lat G S. pose proof (round_nearer lat G) as N. pose proof (Rabs_triang (lat - latitude_round pp zz lat) (latitude_round pp zz lat - phi)) as T.
  replace (lat - latitude_round pp zz lat + (latitude_round pp zz lat - phi)) with (lat - phi) in T by ring. rewrite (Rabs_minus_sym lat (latitude_round pp zz lat)) in T. lra.
Qed.

Lemma loop_near : forall lat r, good lat -> latitude_loop pp zz lat r -> good r /\ Rabs (r - phi) <= latitude_tolerance / 39.
Proof.
  intros lat r G L. induction L as [lat S|lat r _ L IH].
  - split; [apply round_good, G|apply stop_near; assumption].
  - apply IH, round_good, G.
Qed.

Lemma loop_ends : forall n lat, good lat -> Rabs (lat - phi) <= 40 ^ n * (latitude_tolerance / 2) -> exists r, latitude_loop pp zz lat r.
Proof.
  induction n as [|n IH]; intros lat G B; pose proof (round_nearer lat G) as N; pose proof tolerance_pos as T.
  - exists (latitude_round pp zz lat). apply loop_stop. cbn in B. pose proof (Rabs_triang (latitude_round pp zz lat - phi) (phi - lat)) as Tr.
    replace (latitude_round pp zz lat - phi + (phi - lat)) with (latitude_round pp zz lat - lat) in Tr by ring. rewrite (Rabs_minus_sym phi lat) in Tr. lra.
  - destruct (Rle_dec (Rabs (latitude_round pp zz lat - lat)) latitude_tolerance) as [S|S]; [eexists; apply loop_stop, S|].
    destruct (IH (latitude_round pp zz lat) (round_good lat G)) as (r & L).
    + cbn [pow] in B. lra.
    + exists r. apply loop_again; [lra|exact L].
Qed.

Lemma loop_from_start : exists r, latitude_loop pp zz (latitude_start pp zz) r.
Proof.
  apply (loop_ends 5); [apply start_good|]. pose proof start_good as [S _]. pose proof PI_4. pose proof PI2_1. pose proof PI_RGT_0.
  apply Rle_trans with PI; [apply Rabs_le; lra|]. unfold latitude_tolerance, radians. lra.
Qed.
End Height.

Lemma loop_fun : forall p z lat r, latitude_loop p z lat r -> forall r', latitude_loop p z lat r' -> r = r'.
Proof.
  intros p z lat r L. induction L as [lat S|lat r S L IH]; intros r' L'; inversion L'; subst; auto; lra.
Qed.
