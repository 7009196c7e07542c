(** C132: elevations in double precision. *)
From Coq Require Import ZArith Reals Bool Lra Lia Psatz.
From Flocq Require Import Core BinarySingleNaN.
From Verif Require Import Base OrbitModel OrbitSpec OrbitProofs OrbitProps DoubleModel DoubleSpec DoubleProofs GeoDoubleProofs ElevationDoubleModel ElevationDoubleSpec ElevationDoubleProofs.
Open Scope R_scope.

Section Elevation.
Context (dasin : double -> double) (Lib : asin_library dasin) (sat ground : dvec) (Ap : apart_enough sat ground).
Let e : R := sat_elevation (vec_of sat) (vec_of ground).
Let c : R := dot (vec_of ground) (vsub (vec_of sat) (vec_of ground)) / (norm (vec_of ground) * norm (vsub (vec_of sat) (vec_of ground))).

Lemma c_bound : -1 <= c <= 1.
Proof. destruct Ap as (_ & _ & A & B). apply cos_zenith_bound; lra. Qed.
Lemma e_is : e = asin c.
Proof. reflexivity. Qed.

Lemma inside_near : Rabs (real_of (d_cos_zenith sat ground)) <= 1 -> is_finite (d_elevation dasin sat ground) = true /\ Rabs (real_of (d_elevation dasin sat ground) - e) <= 5 / 10 ^ 7.
Proof.
  intros I. destruct (zenith_near sat ground Ap) as (F & E). fold c in E. destruct (asin_inside _ Lib _ F I) as (F' & E'). split; [exact F'|].
  change (val (d_cos_zenith sat ground)) with (real_of (d_cos_zenith sat ground)) in E.
  pose proof (asin_near (real_of (d_cos_zenith sat ground)) c ltac:(apply Rabs_le_inv in I; exact I) c_bound E) as N. rewrite e_is.
  unfold d_elevation. replace (real_of (dasin (d_cos_zenith sat ground)) - asin c) with ((real_of (dasin (d_cos_zenith sat ground)) - asin (real_of (d_cos_zenith sat ground))) + (asin (real_of (d_cos_zenith sat ground)) - asin c)) by ring.
  eapply Rle_trans; [apply Rabs_triang|]. lra.
Qed.
Lemma outside_nan : 1 < Rabs (real_of (d_cos_zenith sat ground)) -> is_nan (d_elevation dasin sat ground) = true.
Proof. intros O. destruct (zenith_near sat ground Ap) as (F & _). apply (asin_outside _ Lib _ F O). Qed.

Lemma away_inside : Rabs e <= PI / 2 - micro -> Rabs (real_of (d_cos_zenith sat ground)) <= 1.
Proof.
  intros H. destruct (zenith_near sat ground Ap) as (F & E). fold c in E. change (val (d_cos_zenith sat ground)) with (real_of (d_cos_zenith sat ground)) in E.
  assert (M : 1 / 10 ^ 13 <= 1 - cos micro).
  { pose proof PI2_3_2. pose proof (sin_half (micro / 2) ltac:(unfold micro; lra)) as S. pose proof (cos_2a_sin (micro / 2)) as C. replace (2 * (micro / 2)) with micro in C by field. rewrite C.
    replace (1 - (1 - 2 * sin (micro / 2) * sin (micro / 2))) with (2 * (sin (micro / 2) * sin (micro / 2))) by ring. unfold micro in *. nra. }
  assert (S : Rabs c <= cos micro).
  { rewrite <- (sin_asin c c_bound), <- e_is. apply Rabs_le_inv in H. pose proof PI2_3_2. rewrite <- (sin_shift micro). apply Rabs_le. split.
    - rewrite <- sin_neg. apply sin_incr_1; unfold micro in *; lra.
    - apply sin_incr_1; unfold micro in *; lra. }
  pose proof (Rabs_triang (real_of (d_cos_zenith sat ground) - c) c) as T. replace (real_of (d_cos_zenith sat ground) - c + c) with (real_of (d_cos_zenith sat ground)) in T by ring. lra.
Qed.
End Elevation.

(** Except within a micro-radian of overhead (or of straight below), the elevation is right to a micro-radian. *)
Theorem elevation_double_near : forall dasin sat ground, asin_library dasin -> apart_enough sat ground ->
  Rabs (sat_elevation (vec_of sat) (vec_of ground)) <= PI / 2 - micro ->
  is_finite (d_elevation dasin sat ground) = true /\ Rabs (real_of (d_elevation dasin sat ground) - sat_elevation (vec_of sat) (vec_of ground)) <= micro.
Proof.
  intros dasin sat ground L A H. destruct (inside_near dasin L sat ground A (away_inside sat ground A H)) as (F & E). split; [exact F|]. unfold micro. lra.
Qed.

Lemma nan_heard : forall (m x : double), is_nan x = true -> dle m x = false /\ dlt m x = false.
Proof. intros m x N. destruct x; try discriminate N. destruct m as [[]|[]| |[]]; split; reflexivity. Qed.

(** Both decisions are right where the elevation is a micro-radian away from the angle asked for; a satellite within a micro-radian of
    overhead may be missed, none is heard too low. *)
Theorem elevation_decided_partial : forall dasin sat ground m, asin_library dasin -> apart_enough sat ground -> is_finite m = true ->
  let e := sat_elevation (vec_of sat) (vec_of ground) in
  (e + micro <= real_of m -> d_heard dasin m sat ground = false /\ d_considered dasin m sat ground = false) /\
  (real_of m + micro <= e -> - (PI / 2) + micro <= e <= PI / 2 - micro -> d_heard dasin m sat ground = true /\ d_considered dasin m sat ground = true).
Proof.
  intros dasin sat ground m L A Fm e. split.
  - intros H. unfold d_heard, d_considered. destruct (Rle_or_lt (Rabs (real_of (d_cos_zenith sat ground))) 1) as [I|O]; [|apply nan_heard, (outside_nan dasin L sat ground A O)].
    destruct (inside_near dasin L sat ground A I) as (F & E). fold e in E. apply Rabs_le_inv in E. unfold micro in H.
    rewrite dle_val, dlt_val by assumption. change val with real_of. rewrite Rle_bool_false, Rlt_bool_false by lra. split; reflexivity.
  - intros H B. destruct (inside_near dasin L sat ground A) as (F & E); [apply away_inside; [exact A|]; apply Rabs_le; fold e; lra|]. fold e in E. apply Rabs_le_inv in E. unfold micro in H.
    unfold d_heard, d_considered. rewrite dle_val, dlt_val by assumption. change val with real_of. rewrite Rle_bool_true, Rlt_bool_true by lra. split; reflexivity.
Qed.
Print Assumptions elevation_double_near.
Print Assumptions elevation_decided_partial.

(** A satellite right overhead: the cosine of its zenith angle comes out above 1, its elevation is not a number, and it is not heard
    whatever the angle asked for. *)
Definition some_ground : dvec := mkDvec (dint 2400000) (dint 5900000) (dint 300000).
Definition some_sat : dvec := mkDvec (dint 2700000) (dint 6637500) (dint 337500).
Lemma int_real : forall n, (Z.abs n <= 2 ^ 53)%Z -> is_finite (dint n) = true /\ real_of (dint n) = IZR n.
Proof. intros n H. exact (dint_ok n H). Qed.
Lemma some_apart : apart_enough some_sat some_ground /\ straight_above (vec_of some_sat) (vec_of some_ground).
Proof.
  unfold apart_enough, inside, some_sat, some_ground, vec_of. cbn [dvx dvy dvz].
  destruct (int_real 2400000 ltac:(lia)) as (F1 & ->). destruct (int_real 5900000 ltac:(lia)) as (F2 & ->). destruct (int_real 300000 ltac:(lia)) as (F3 & ->).
  destruct (int_real 2700000 ltac:(lia)) as (F4 & ->). destruct (int_real 6637500 ltac:(lia)) as (F5 & ->). destruct (int_real 337500 ltac:(lia)) as (F6 & ->).
  split.
  - repeat split; try assumption; try (rewrite Rabs_pos_eq; lra).
    + pose proof (proj1 (part_norm (Vec 2400000 5900000 300000))) as P. cbn [vx] in P. rewrite Rabs_pos_eq in P; lra.
    + pose proof (proj1 (part_norm (vsub (Vec 2700000 6637500 337500) (Vec 2400000 5900000 300000)))) as P. cbn [vx vsub] in P. rewrite Rabs_pos_eq in P; lra.
  - exists (1 / 8). split; [lra|]. unfold vsub, scale. cbn [vx vy vz]. f_equal; lra.
Qed.
Theorem elevation_decided_refuted : forall dasin, asin_library dasin -> exists sat ground, apart_enough sat ground /\
  straight_above (vec_of sat) (vec_of ground) /\ sat_elevation (vec_of sat) (vec_of ground) = PI / 2 /\
  forall m, d_heard dasin m sat ground = false /\ d_considered dasin m sat ground = false.
Proof.
  intros dasin L. destruct some_apart as (A & S). exists some_sat, some_ground. split; [exact A|]. split; [exact S|]. split.
  - destruct A as (_ & _ & A & B). apply elevation_defined; [|intros Q; rewrite Q in B|exact S].
    + rewrite <- norm_sq. nra.
    + assert (Z : norm (vsub (vec_of some_ground) (vec_of some_ground)) = 0); [|lra]. unfold norm, dot, vsub. cbn [vx vy vz]. rewrite !Rminus_diag_eq by reflexivity. replace (0 * 0 + 0 * 0 + 0 * 0) with 0 by ring. apply sqrt_0.
  - intros m. apply nan_heard, (outside_nan dasin L some_sat some_ground A).
    destruct (zenith_near some_sat some_ground A) as (F & _). destruct (int_real 1 ltac:(lia)) as (F1 & V1).
    assert (D : dlt (dint 1) (d_cos_zenith some_sat some_ground) = true) by (vm_compute; reflexivity).
    rewrite dlt_val in D by assumption. change val with real_of in D. rewrite V1 in D. destruct (Rlt_bool_spec 1 (real_of (d_cos_zenith some_sat some_ground))); [|discriminate D].
    rewrite Rabs_pos_eq; lra.
Qed.
Print Assumptions elevation_decided_refuted.

(** There are such libraries. *)
Definition some_asin (x : double) : double :=
  if is_finite x && Rle_bool (Rabs (real_of x)) 1 then dnum (ZnearestE (asin (real_of x) * bpow radix2 50)) (-50) else B754_nan.
Lemma some_library : asin_library some_asin.
Proof.
  constructor; intros x F H; unfold some_asin; rewrite F; cbn [andb].
  - rewrite Rle_bool_true by exact H. pose proof (asin_bound (real_of x)) as B. pose proof PI_4. set (y := asin (real_of x) * bpow radix2 50). set (n := ZnearestE y).
    pose proof (Znearest_half (fun t => negb (Z.even t)) y) as N. change (Rabs (y - IZR n) <= / 2) in N. assert (Y : Rabs y <= 2 * 1125899906842624) by (apply Rabs_le; unfold y; change (bpow radix2 50) with 1125899906842624; nra).
    assert (Nb : (Z.abs n <= 2 ^ 53)%Z).
    { apply le_IZR. rewrite abs_IZR. pose proof (Rabs_triang (IZR n - y) y) as T. replace (IZR n - y + y) with (IZR n) in T by ring. rewrite (Rabs_minus_sym (IZR n)) in T. change (IZR (2 ^ 53)) with 9007199254740992. lra. }
    pose proof (rnd_scaled n (-50) Nb ltac:(lia)) as R. destruct (dnum_ok n (-50)) as (F' & V').
    { rewrite Rabs_mult, <- abs_IZR, (Rabs_pos_eq (bpow radix2 (-50))) by apply bpow_ge_0. apply Rle_trans with (IZR (2 ^ 53) * 1); [apply Rmult_le_compat; [apply IZR_le; lia|apply bpow_ge_0|apply IZR_le; exact Nb|change (bpow radix2 (-50)) with (/ 1125899906842624); lra]|].
      rewrite Rmult_1_r. apply Rle_trans with (bpow radix2 53); [right; reflexivity|apply bpow_le; lia]. }
    split; [exact F'|]. change real_of with val at 1. rewrite V', R. change (bpow radix2 (-50)) with (/ 1125899906842624).
    unfold y in N. change (bpow radix2 50) with 1125899906842624 in N. change val with real_of. apply Rabs_le_inv in N. apply Rabs_le. lra.
  - rewrite Rle_bool_false by exact H. reflexivity.
Qed.
(** A satellite at 45 degrees over a station on the x-axis. *)
Example elevation_double_case : apart_enough (mkDvec (dint 6900000) (dint 522000) (dint 0)) (mkDvec (dint 6378000) (dint 0) (dint 0)) /\
  sat_elevation (vec_of (mkDvec (dint 6900000) (dint 522000) (dint 0))) (vec_of (mkDvec (dint 6378000) (dint 0) (dint 0))) = PI / 4 /\
  forall dasin, asin_library dasin -> d_heard dasin (dnum 1 (-1)) (mkDvec (dint 6900000) (dint 522000) (dint 0)) (mkDvec (dint 6378000) (dint 0) (dint 0)) = true.
Proof.
  assert (A : apart_enough (mkDvec (dint 6900000) (dint 522000) (dint 0)) (mkDvec (dint 6378000) (dint 0) (dint 0)) /\
    sat_elevation (vec_of (mkDvec (dint 6900000) (dint 522000) (dint 0))) (vec_of (mkDvec (dint 6378000) (dint 0) (dint 0))) = PI / 4).
  { unfold apart_enough, inside, vec_of. cbn [dvx dvy dvz].
    destruct (int_real 6900000 ltac:(lia)) as (F1 & ->). destruct (int_real 522000 ltac:(lia)) as (F2 & ->). destruct (int_real 0 ltac:(lia)) as (F3 & ->). destruct (int_real 6378000 ltac:(lia)) as (F4 & ->).
    split.
    - repeat split; try assumption; try (rewrite Rabs_pos_eq; lra).
      + pose proof (proj1 (part_norm (Vec 6378000 0 0))) as P. cbn [vx] in P. rewrite Rabs_pos_eq in P; lra.
      + pose proof (proj1 (part_norm (vsub (Vec 6900000 522000 0) (Vec 6378000 0 0)))) as P. cbn [vx vsub] in P. rewrite Rabs_pos_eq in P; lra.
    - unfold sat_elevation, norm, dot, vsub. cbn [vx vy vz].
      replace (6378000 * 6378000 + 0 * 0 + 0 * 0) with (6378000 * 6378000) by ring. rewrite sqrt_square by lra.
      replace ((6900000 - 6378000) * (6900000 - 6378000) + (522000 - 0) * (522000 - 0) + (0 - 0) * (0 - 0)) with (522000 * 522000 * 2) by ring.
      rewrite sqrt_mult by lra. rewrite sqrt_square by lra. pose proof (sqrt_lt_R0 2 ltac:(lra)) as S. pose proof PI_RGT_0.
      rewrite <- (asin_sin (PI / 4)) by lra. f_equal. rewrite sin_PI4. field. lra. }
  destruct A as (A & E). split; [exact A|]. split; [exact E|]. intros dasin L. apply (elevation_decided_partial dasin _ _ (dnum 1 (-1)) L A); [vm_compute; reflexivity| |]; rewrite E; pose proof PI2_3_2; unfold micro; [|lra].
  destruct (dnum_ok 1 (-1)) as (F & V); [rewrite Rabs_pos_eq; change (bpow radix2 (-1)) with (/ 2); [apply Rle_trans with 1; [lra|apply (bpow_le radix2 0 1023); lia]|lra]|].
  change real_of with val. rewrite V, rnd_scaled by lia. change (bpow radix2 (-1)) with (/ 2).
  lra.
Qed.
