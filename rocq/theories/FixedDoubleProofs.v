From Coq Require Import ZArith Reals Bool Lra Lia Psatz.
From Flocq Require Import Core BinarySingleNaN.
From Verif Require Import Base OrbitModel OrbitSpec OrbitProofs GeodeticProofs DoubleModel DoubleSpec DoubleProofs DoubleDistanceProofs ElevationDoubleModel ElevationDoubleSpec ElevationDoubleProofs GeoDoubleProofs OrbitDoubleModel OrbitDoubleSpec OrbitDoubleProofs FixedDoubleModel FixedDoubleSpec.
Open Scope R_scope.

(** * The root of a square is not too small *)
Local Instance exp_valid : Valid_exp (FLT_exp (-1074) 53) := @FLT_exp_valid (-1074) 53 dprec.
Lemma root_square : forall v, generic_format radix2 (FLT_exp (-1074) 53) v -> 1 <= v <= 10 ^ 9 -> v <= rnd (sqrt (rnd (v * v))).
Proof.
  intros v Fv B. pose proof (bpow_mag_le radix2 v ltac:(lra)) as Hl. pose proof (bpow_mag_gt radix2 v) as Hu. rewrite Rabs_pos_eq in Hl, Hu by lra. set (e := (mag radix2 v : Z)) in *. assert (He : bpow radix2 (e - 1) <= v < bpow radix2 e) by lra. assert (Mv : (mag radix2 v : Z) = e) by reflexivity. clearbody e.
  assert (E0 : (1 <= e)%Z). { assert (0 < e)%Z; [|lia]. apply (lt_bpow radix2 0 e). change (bpow radix2 0) with 1. lra. }
  assert (Fx : FLT_exp (-1074) 53 e = (e - 53)%Z) by (unfold FLT_exp; lia).
  assert (V : forall x, 1 <= x -> exists d, Rabs d <= u /\ rnd x = x * (1 + d)).
  { intros x X. apply rnd_rel, not_tiny. lra. }
  destruct (Req_dec v (bpow radix2 (e - 1))) as [Eq|Ne].
  - assert (rnd (v * v) = v * v) as -> by (rewrite Eq, <- bpow_plus; apply rnd_pow; lia). rewrite sqrt_square by lra. rewrite Eq, rnd_pow by lia. lra.
  - apply round_N_ge_midp; [exact exp_valid|exact Fv|]. rewrite pred_eq_pos by lra. unfold pred_pos. rewrite Mv, Req_bool_false by exact Ne.
    rewrite ulp_neq_0 by lra. unfold cexp. rewrite Mv, Fx.
    assert (Up : v <= bpow radix2 e - bpow radix2 (e - 53)).
    { rewrite <- Fx at 1. rewrite <- pred_bpow. apply pred_ge_gt; [exact exp_valid|exact Fv| |lra]. apply generic_format_bpow. unfold FLT_exp. lia. }
    assert (H2 : bpow radix2 (e - 53) = bpow radix2 e * u) by (unfold u; rewrite <- bpow_plus; reflexivity).
    assert (H1 : bpow radix2 e = 2 * bpow radix2 (e - 1)) by (replace e with (1 + (e - 1))%Z at 1 by lia; rewrite bpow_plus; reflexivity).
    destruct (V (v * v)) as (d & D & ->); [nra|]. apply Rabs_le_inv in D. rewrite H2 in *. set (p := bpow radix2 e) in *. pose proof u_small as U.
    replace ((v + (v - p * u)) / 2) with (v - p * u / 2) by field. assert (P0 : 0 < p) by lra.
    rewrite <- (sqrt_square (v - p * u / 2)) by nra. apply sqrt_lt_1_alt. split; [nra|].
    assert (K : v * v * (1 - u) <= v * v * (1 + d)) by (apply Rmult_le_compat_l; nra). apply Rlt_le_trans with (v * v * (1 - u)); [|exact K].
    assert (K2 : p * u * (p * u) / 4 < v * u * (p - v)).
    { apply Rlt_le_trans with (p / 2 * u * (p * u)); [|apply Rmult_le_compat; nra]. assert (0 < p * u * (p * u)) by (apply Rmult_lt_0_compat; nra). lra. }
    lra.
Qed.
Lemma val_format : forall x : double, generic_format radix2 (FLT_exp (-1074) 53) (val x).
Proof. intros x. exact (generic_format_B2R 53 1024 x). Qed.

(** * The length of a vector *)
Lemma sq_of : forall x : double, is_finite x = true -> Rabs (val x) <= 6 * 10 ^ 7 -> is_double (dmul x x) (rnd (val x * val x)) /\ 0 <= val x * val x <= 36 * 10 ^ 14 /\ Rabs (rnd (val x * val x) - val x * val x) <= 2 * u * (val x * val x + 1).
Proof.
  intros x F B. assert (Q : 0 <= val x * val x <= 36 * 10 ^ 14) by (apply Rabs_le_inv in B; split; nra). split; [|split; [exact Q|]].
  - apply dmul_ok; [exact F|exact F|]. apply ElevationDoubleProofs.below_max. rewrite Rabs_pos_eq; lra.
  - apply rnd_err; [rewrite Rabs_pos_eq|]; lra.
Qed.
Lemma length_near : forall v, plain v -> let n := norm (vec_of v) in
  is_finite (d_length v) = true /\ Rabs (val (d_length v) - n) <= 9 / 2 * u * n /\ 3 * 10 ^ 6 <= n <= 11 * 10 ^ 7 /\
  (Rabs (val (dvz v)) <= val (d_length v)).
Proof.
  intros v (((Fx & Bx) & (Fy & By) & (Fz & Bz)) & S0) n. change real_of with val in *.
  destruct (sq_of _ Fx Bx) as (Dx & Qx & Ex). destruct (sq_of _ Fy By) as (Dy & Qy & Ey). destruct (sq_of _ Fz Bz) as (Dz & Qz & Ez).
  unfold dot, vec_of in S0. cbn [vx vy vz] in S0. change real_of with val in S0. pose proof u_small as U.
  set (x2 := val (dvx v) * val (dvx v)) in *. set (y2 := val (dvy v) * val (dvy v)) in *. set (z2 := val (dvz v) * val (dvz v)) in *.
  assert (Sm : forall q, 0 <= q <= 36 * 10 ^ 14 -> 2 * u * (q + 1) <= 10) by (intros q Hq; nra).
  pose proof (Sm _ Qx) as Lx. pose proof (Sm _ Qy) as Ly. pose proof (Sm _ Qz) as Lz. apply Rabs_le_inv in Ex, Ey, Ez.
  assert (Rz : 0 <= rnd z2) by (rewrite <- (rnd_int 0) by lia; apply rnd_le; lra).
  assert (Rx : 0 <= rnd x2) by (rewrite <- (rnd_int 0) by lia; apply rnd_le; lra).
  assert (Ry : 0 <= rnd y2) by (rewrite <- (rnd_int 0) by lia; apply rnd_le; lra).
  assert (D1 : is_double (dadd (dmul (dvx v) (dvx v)) (dmul (dvy v) (dvy v))) (rnd (rnd x2 + rnd y2))).
  { destruct Dx as (F1 & V1), Dy as (F2 & V2). rewrite <- V1, <- V2. apply dadd_ok; [exact F1|exact F2|]. rewrite V1, V2. apply ElevationDoubleProofs.below_max. rewrite Rabs_pos_eq; lra. }
  assert (E1 : Rabs (rnd (rnd x2 + rnd y2) - (rnd x2 + rnd y2)) <= 2 * u * (x2 + y2 + 20)) by (apply rnd_err; [rewrite Rabs_pos_eq|]; lra).
  assert (R1 : 0 <= rnd (rnd x2 + rnd y2)) by (rewrite <- (rnd_int 0) by lia; apply rnd_le; lra).
  assert (L1 : 2 * u * (x2 + y2 + 20) <= 20) by nra. apply Rabs_le_inv in E1.
  set (s1 := rnd (rnd x2 + rnd y2)) in *.
  assert (D2 : is_double (d_dot v v) (rnd (s1 + rnd z2))).
  { unfold d_dot. destruct D1 as (F1 & V1), Dz as (F2 & V2). rewrite <- V1, <- V2. apply dadd_ok; [exact F1|exact F2|]. rewrite V1, V2. apply ElevationDoubleProofs.below_max. rewrite Rabs_pos_eq; lra. }
  assert (E2 : Rabs (rnd (s1 + rnd z2) - (s1 + rnd z2)) <= 2 * u * (x2 + y2 + z2 + 50)) by (apply rnd_err; [rewrite Rabs_pos_eq|]; lra).
  apply Rabs_le_inv in E2. set (S := x2 + y2 + z2) in *.
  assert (n2 : n * n = S) by (unfold n; rewrite norm_sq; reflexivity). assert (n0 : 0 <= n) by apply norm_nonneg.
  assert (nb : 3 * 10 ^ 6 <= n <= 11 * 10 ^ 7) by (split; apply Rsqr_incr_0; unfold Rsqr; try lra; rewrite n2; unfold S in *; lra).
  set (s := rnd (s1 + rnd z2)) in *. assert (Es : Rabs (s - S) <= 61 / 10 * u * S).
  { assert (200 * u <= u * (1 / 10 * S)) by (rewrite (Rmult_comm 200); apply Rmult_le_compat_l; lra). assert (0 <= u * z2) by (apply Rmult_le_pos; lra). apply Rabs_le. unfold S in *. lra. }
  assert (Sp : 0 < S) by lra. pose proof (Rabs_le_inv _ _ Es) as Es'. assert (61 / 10 * u * S <= 1 / 100 * S) by (apply Rmult_le_compat_r; lra).
  destruct D2 as (Fs & Vs). destruct (dsqrt_ok (d_dot v v) Fs ltac:(rewrite Vs; lra)) as (Fr & _ & _).
  destruct (@Bsqrt_correct 53 1024 dprec dmax mode_NE (d_dot v v)) as (Vr & _ & _). change (val (d_length v) = rnd (sqrt (val (d_dot v v)))) in Vr. rewrite Vs in Vr.
  split; [exact Fr|]. rewrite Vr.
  assert (Q : Rabs (sqrt s - n) <= 33 / 10 * u * n).
  { assert (G : 9 / 10 * n <= sqrt s).
    { rewrite <- (sqrt_square (9 / 10 * n)) by lra. apply sqrt_le_1_alt.
      replace (9 / 10 * n * (9 / 10 * n)) with (81 / 100 * (n * n)) by (clear; lra).
      rewrite n2. lra. }
    assert (I : Rabs (sqrt s - n) * (sqrt s + n) = Rabs (s - S)).
    { rewrite <- (Rabs_pos_eq (sqrt s + n)) by lra. rewrite <- Rabs_mult. f_equal. rewrite <- n2. replace ((sqrt s - n) * (sqrt s + n)) with (sqrt s * sqrt s - n * n) by ring. rewrite sqrt_sqrt by lra. reflexivity. }
    apply (Rmult_le_reg_r (sqrt s + n)); [lra|]. rewrite I. eapply Rle_trans; [exact Es|]. rewrite <- n2. replace (61 / 10 * u * (n * n)) with (u * n * (61 / 10 * n)) by ring. replace (33 / 10 * u * n * (sqrt s + n)) with (u * n * (33 / 10 * (sqrt s + n))) by ring.
    apply Rmult_le_compat_l; [apply Rmult_le_pos; lra|lra]. }
  pose proof (Rabs_le_inv _ _ Q) as Q'. assert (33 / 10 * u * n <= 1 / 100 * n) by (apply Rmult_le_compat_r; lra).
  split; [|split; [exact nb|]].
  - destruct (rnd_rel (sqrt s)) as (d & D & ->); [apply not_tiny; lra|]. replace (sqrt s * (1 + d) - n) with ((sqrt s - n) + sqrt s * d) by ring. eapply Rle_trans; [apply Rabs_triang|].
    rewrite Rabs_mult, (Rabs_pos_eq (sqrt s)) by lra. assert (sqrt s * Rabs d <= (n + n / 100) * u) by (apply Rmult_le_compat; try apply Rabs_pos; lra). assert (0 <= u * n) by (apply Rmult_le_pos; lra). clear - Q H1 H2 n0 U. lra.
  - destruct (Rle_or_lt (Rabs (val (dvz v))) 1) as [Sml|Big].
    + assert (1 <= rnd (sqrt s)); [|lra]. rewrite <- (rnd_int 1) by lia. apply rnd_le. lra.
    + assert (Zz : z2 = Rabs (val (dvz v)) * Rabs (val (dvz v))) by (unfold z2; rewrite <- Rabs_mult, Rabs_pos_eq; [reflexivity|exact (proj1 Qz)]).
      apply Rle_trans with (rnd (sqrt (rnd z2))).
      * rewrite Zz. apply root_square; [apply generic_format_abs, val_format|lra].
      * apply rnd_le, sqrt_le_1_alt. destruct Dz as (F2 & V2). rewrite <- V2. rewrite <- (double_self (dmul (dvz v) (dvz v))). rewrite V2. unfold s. apply rnd_le. lra.
Qed.

(** * From the stars to the Earth *)
Lemma slope_near : forall v, plain v -> let c := ddiv (dvz v) (d_length v) in
  is_finite c = true /\ Rabs (val c) <= 1 /\ Rabs (val c - val (dvz v) / norm (vec_of v)) <= 8 / 10 ^ 16.
Proof.
  intros v P c. destruct (length_near v P) as (Fl & El & Nb & Zl). destruct P as ((_ & _ & (Fz & _)) & _). set (n := norm (vec_of v)) in *. set (l := val (d_length v)) in *. set (z := val (dvz v)) in *.
  pose proof u_small as U. pose proof (Rabs_le_inv _ _ El) as El'. assert (Un : 9 / 2 * u * n <= 1 / 100 * n) by (apply Rmult_le_compat_r; lra). assert (Lp : 0 < l) by lra.
  assert (Q : Rabs (z / l) <= 1).
  { unfold Rdiv. rewrite Rabs_mult, (Rabs_pos_eq (/ l)) by (apply Rlt_le, Rinv_0_lt_compat; lra). apply (Rmult_le_reg_r l); [lra|]. rewrite Rmult_assoc, Rinv_l by lra. lra. }
  destruct (ddiv_ok (dvz v) (d_length v) Fz) as (Fc & Vc); [fold l; lra|fold z l; apply small_below_max; lra|]. fold c in Fc, Vc. fold z l in Vc.
  split; [exact Fc|]. rewrite Vc. split; [apply (rnd_bound _ 0); [lia|exact Q]|].
  pose proof (rnd_err (z / l) 1 Q ltac:(lra)) as Er. assert (D : Rabs (z / l - z / n) <= 9 / 2 * u).
  { replace (z / l - z / n) with (z / l * ((n - l) * / n)) by (field; lra). rewrite Rabs_mult. replace (9 / 2 * u) with (1 * (9 / 2 * u)) by ring. apply Rmult_le_compat; try apply Rabs_pos; [exact Q|].
    rewrite Rabs_mult, (Rabs_pos_eq (/ n)) by (apply Rlt_le, Rinv_0_lt_compat; lra). apply (Rmult_le_reg_r n); [lra|]. rewrite Rmult_assoc, Rinv_l, Rmult_1_r by lra. rewrite Rabs_minus_sym. exact El. }
  pose proof (Rabs_triang (rnd (z / l) - z / l) (z / l - z / n)) as T. replace (rnd (z / l) - z / l + (z / l - z / n)) with (rnd (z / l) - z / n) in T by ring. rewrite u_val in Er, D. lra.
Qed.
Lemma asin_close : forall a b, -1 <= a <= 1 -> -1 <= b <= 1 -> Rabs (a - b) <= 8 / 10 ^ 16 -> Rabs (asin a - asin b) <= 81 / 10 ^ 9.
Proof.
  intros a b Ha Hb E. apply Rabs_le_inv in E. apply Rabs_le. destruct (Rle_or_lt a b) as [L|L].
  - pose proof (asin_apart a b Ha Hb L) as S. split; nra.
  - pose proof (asin_apart b a Hb Ha ltac:(lra)) as S. split; nra.
Qed.
Lemma near_earth : near d_earth_radius earth_radius (1 / 10 ^ 8).
Proof.
  unfold d_earth_radius, earth_radius. replace 6371009 with (6371009 / 1000 * 1000) by lra.
  assert (A : near (ddiv (dint 6371009) (dint 1000)) (6371009 / 1000) (2 / 10 ^ 12)) by (apply (near_div _ _ _ _ 0 0 7000 1000 (near_int 6371009 ltac:(lia)) (near_int 1000 ltac:(lia))); try lra; [rewrite Rabs_pos_eq; lra|small]).
  apply (near_mul _ _ _ _ (2 / 10 ^ 12) 0 7000 1000 A (near_int 1000 ltac:(lia))); [rewrite Rabs_pos_eq; lra|rewrite Rabs_pos_eq; lra|lra|small].
Qed.
Lemma near_rotation : near d_earth_rotation earth_rotation (1 / 10 ^ 19).
Proof.
  unfold d_earth_rotation, earth_rotation.
  assert (E : IZR (10 ^ 14) = 100000000000000) by reflexivity. replace (10 ^ 14)%R with (IZR (10 ^ 14)) by (rewrite E; lra).
  apply (near_div _ _ _ _ 0 0 (1 / 10000) (IZR (10 ^ 14)) (near_int 7292115922 ltac:(lia)) (near_int (10 ^ 14) ltac:(lia))); rewrite ?E; try lra; [rewrite Rabs_pos_eq; lra|small].
Qed.
Lemma pi_bounds : 3 < PI < 32 / 10.
Proof. split; [pose proof PI2_3_2; lra|]. pose proof (proj2 (PI_ineq 10)) as H. unfold PI_tg, tg_alt in H. cbn in H. lra. Qed.

Section Library.
Context (dasin dsin dcos dhalf : double -> double) (datan2 : double -> double -> double) (twopi dpi deg rad dsphere : double)
  (L : orbit_library dsin dcos dhalf datan2 twopi dpi) (K : fixed_library dasin datan2 deg rad dsphere).

(** To degrees and back. *)
Lemma there_and_back : forall x a e, near x a e -> 0 <= e <= 1 / 10 ^ 10 -> forall A, Rabs a <= A -> 1 <= A <= 100 -> near (dmul rad (dmul x deg)) a (2 * e + A * (2 / 10 ^ 15)).
Proof.
  intros x a e X E A Ba BA. pose proof pi_bounds as P. pose proof (fl_deg _ _ _ _ _ K) as Dg. pose proof (fl_rad _ _ _ _ _ K) as Rd. change real_of with val in Dg, Rd.
  assert (Gb : 56 <= 180 / PI <= 60).
  { split; apply (Rmult_le_reg_r PI); try lra; unfold Rdiv; rewrite Rmult_assoc, Rinv_l by lra; lra. }
  assert (N1 : near (dmul x deg) (a * (180 / PI)) (60 * e + A * (27 / 10 ^ 15))).
  { assert (Ae : A * e <= 100 * e) by (apply Rmult_le_compat_r; lra). apply (near_mul _ _ _ _ e (1 / 10 ^ 14) A 60 X Dg Ba); [rewrite Rabs_pos_eq; lra| |].
    - split; lra.
    - rewrite u_val. lra. }
  assert (B1 : Rabs (a * (180 / PI)) <= A * 60) by (rewrite Rabs_mult, (Rabs_pos_eq (180 / PI)) by lra; apply Rmult_le_compat; try apply Rabs_pos; lra).
  replace a with (PI / 180 * (a * (180 / PI))) by (field; lra).
  apply (near_mul _ _ _ _ (1 / 10 ^ 17) (60 * e + A * (27 / 10 ^ 15)) (18 / 1000) (A * 60) Rd N1); [rewrite Rabs_pos_eq; lra|exact B1|split; lra|rewrite u_val; lra].
Qed.

Lemma fixed_near : forall v t, plain v -> within_week t -> let n := norm (vec_of v) in let rho := val dsphere + n - earth_radius in
  right_to (9 / 10 ^ 8 * rho) (d_fixed dasin dsin dcos datan2 deg rad dsphere v t) (scale (rho / n) (rotate (- (earth_rotation * val t)) (vec_of v))).
Proof.
  intros v t P (Ft & Bt) n rho. change real_of with val in Bt. pose proof pi_bounds as Pi.
  destruct (slope_near v P) as (Fc & Bc & Ec). destruct (length_near v P) as (Fl & El & Nb & _). fold n in Ec, El, Nb. destruct P as (((Fx & Bx) & (Fy & By) & (Fz & Bz)) & S0).
  destruct (fl_asin _ _ _ _ _ K _ Fc Bc) as (Fa & Ea). destruct (fl_atan2 _ _ _ _ _ K (dvy v) (dvx v) Fy Fx) as (a & k & Aa & K0 & Xk & Yk & Ft2 & Et2). change real_of with val in *.
  destruct (fl_sphere _ _ _ _ _ K) as (Fsp & Bsp). change real_of with val in Bsp. unfold tight in *.
  set (c := ddiv (dvz v) (d_length v)) in *. assert (D0 : dot (vec_of v) (vec_of v) <> 0) by lra.
  destruct (spherical_parts (vec_of v) D0) as (Cp & Sp). cbn zeta in Cp. fold n in Cp, Sp. cbn [vx vy vz vec_of] in Cp, Sp. change real_of with val in Cp, Sp.
  assert (Cb : -1 <= val (dvz v) / n <= 1).
  { assert (Z2 : val (dvz v) * val (dvz v) <= n * n) by (unfold n; rewrite norm_sq; unfold dot; cbn [vx vy vz vec_of]; change real_of with val; nra).
    split; apply (Rmult_le_reg_r n); try lra; unfold Rdiv; rewrite Rmult_assoc, Rinv_l by lra; nra. }
  set (phi := asin (val (dvz v) / n)) in *.
  assert (Np : near (dasin c) (asin (val c)) (1 / 10 ^ 15)) by (split; assumption).
  assert (Bas : Rabs (asin (val c)) <= 2) by (pose proof (asin_bound (val c)); apply Rabs_le; lra).
  pose proof (there_and_back _ _ _ Np ltac:(lra) 2 Bas ltac:(lra)) as Nlat.
  apply Rabs_le_inv in Bc. pose proof (asin_close (val c) (val (dvz v) / n) Bc Cb Ec) as Cl. fold phi in Cl.
  pose proof (near_shift _ _ phi _ Nlat (82 / 10 ^ 9) ltac:(lra)) as Nphi. clear Nlat Np.
  (* longitude *)
  set (w := earth_rotation * val t). assert (Bw : 0 <= w <= 45) by (unfold w, earth_rotation; split; [apply Rmult_le_pos; lra|apply Rle_trans with (7292115922 / 10 ^ 14 * 604800); [apply Rmult_le_compat_l; lra|lra]]).
  assert (Nw : near (dadd (dint 0) (dmul t d_earth_rotation)) (0 + w) (3 / 10 ^ 13)).
  { assert (Nm : near (dmul t d_earth_rotation) w (2 / 10 ^ 13)).
    { unfold w. rewrite Rmult_comm. apply (near_mul _ _ _ _ 0 (1 / 10 ^ 19) 604800 (1 / 10000) (near_self t Ft) near_rotation); [rewrite Rabs_pos_eq; lra|unfold earth_rotation; rewrite Rabs_pos_eq; lra|lra|small]. }
    apply (near_add _ _ _ _ 0 (2 / 10 ^ 13) 0 45 (near_int 0 ltac:(lia)) Nm); [rewrite Rabs_R0; lra|rewrite Rabs_pos_eq; lra|lra|small]. }
  rewrite Rplus_0_l in Nw. set (lam := a - w). apply Rabs_le_inv in Aa.
  assert (Nl : near (dsub (datan2 (dvy v) (dvx v)) (dadd (dint 0) (dmul t d_earth_rotation))) lam (4 / 10 ^ 13)).
  { assert (Na : near (datan2 (dvy v) (dvx v)) a (1 / 10 ^ 15)) by (split; assumption). apply (near_sub _ _ _ _ _ _ 4 45 Na Nw); [apply Rabs_le; lra|rewrite Rabs_pos_eq; lra|lra|small]. }
  pose proof (there_and_back _ _ _ Nl ltac:(lra) 50 ltac:(unfold lam; apply Rabs_le; lra) ltac:(lra)) as Nlon.
  assert (Bphi : Rabs phi <= 2) by (unfold phi; pose proof (asin_bound (val (dvz v) / n)); apply Rabs_le; lra).
  assert (Blam : Rabs lam <= 50) by (unfold lam; apply Rabs_le; lra).
  pose proof (near_cos _ _ _ _ _ _ L _ _ _ Nphi ltac:(lra)) as Ncl. pose proof (near_sin _ _ _ _ _ _ L _ _ _ Nphi ltac:(lra)) as Nsl.
  pose proof (near_cos _ _ _ _ _ _ L _ _ _ Nlon ltac:(lra)) as Nco. pose proof (near_sin _ _ _ _ _ _ L _ _ _ Nlon ltac:(lra)) as Nso.
  (* the radius *)
  pose proof u_small as U. assert (Nr : near (dadd dsphere (dsub (d_length v) d_earth_radius)) rho (1 / 10 ^ 6)).
  { assert (Nn : near (d_length v) n (1 / 10 ^ 7)) by (split; [exact Fl|eapply Rle_trans; [exact El|]]; rewrite u_val; lra).
    assert (Na : near (dsub (d_length v) d_earth_radius) (n - earth_radius) (3 / 10 ^ 7)) by (apply (near_sub _ _ _ _ _ _ (11 * 10 ^ 7) 7000000 Nn near_earth); [rewrite Rabs_pos_eq; lra|unfold earth_radius; rewrite Rabs_pos_eq; lra|lra|small]).
    replace rho with (val dsphere + (n - earth_radius)) by (unfold rho; ring).
    apply (near_add _ _ _ _ 0 (3 / 10 ^ 7) 7000000 (12 * 10 ^ 7) (near_self _ Fsp) Na); [rewrite Rabs_pos_eq; lra|unfold earth_radius; apply Rabs_le; lra|lra|small]. }
  assert (Rb : 2900000 <= rho <= 12 * 10 ^ 7) by (unfold rho, earth_radius; lra).
  set (rr := dadd dsphere (dsub (d_length v) d_earth_radius)) in *.
  set (lat := dmul rad (dmul (dasin c) deg)) in *. set (lon := dmul rad (dmul (dsub (datan2 (dvy v) (dvx v)) (dadd (dint 0) (dmul t d_earth_rotation))) deg)) in *.
  assert (Ar : Rabs rho <= rho) by (rewrite Rabs_pos_eq; lra).
  assert (Nrc : near (dmul rr (dcos lat)) (rho * cos phi) (84 / 10 ^ 9 * rho)).
  { apply (near_mul _ _ _ _ _ _ rho 1 Nr Ncl Ar (cos_abs phi)); [split; lra|rewrite u_val; lra]. }
  assert (Nz : near (dmul rr (dsin lat)) (rho * sin phi) (9 / 10 ^ 8 * rho)).
  { apply (near_mul _ _ _ _ _ _ rho 1 Nr Nsl Ar (sin_abs phi)); [split; lra|rewrite u_val; lra]. }
  pose proof (part_abs rho (cos phi) rho Ar (cos_abs phi)) as Brc.
  assert (Nx : near (dmul (dmul rr (dcos lat)) (dcos lon)) (rho * cos phi * cos lam) (9 / 10 ^ 8 * rho)).
  { apply (near_mul _ _ _ _ _ _ rho 1 Nrc Nco Brc (cos_abs lam)); [split; lra|rewrite u_val; lra]. }
  assert (Ny : near (dmul (dmul rr (dcos lat)) (dsin lon)) (rho * cos phi * sin lam) (9 / 10 ^ 8 * rho)).
  { apply (near_mul _ _ _ _ _ _ rho 1 Nrc Nso Brc (sin_abs lam)); [split; lra|rewrite u_val; lra]. }
  assert (Kq : sqrt (val (dvx v) * val (dvx v) + val (dvy v) * val (dvy v)) = k).
  { rewrite Xk, Yk. replace (k * cos a * (k * cos a) + k * sin a * (k * sin a)) with (k * k * (sin a * sin a + cos a * cos a)) by ring. rewrite trig1, Rmult_1_r. apply sqrt_square. exact K0. }
  rewrite Kq in Cp. assert (Cc : cos phi = k / n) by (rewrite <- Cp; field; lra). assert (Ss : sin phi = val (dvz v) / n) by (rewrite <- Sp; field; lra).
  unfold right_to, d_fixed, d_to_cartesian. cbn [dvx dvy dvz]. fold c lat lon rr. change real_of with val. unfold scale, rotate, vec_of. cbn [vx vy vz]. change real_of with val.
  rewrite cos_neg, sin_neg. fold w. split; [|split].
  - replace (rho / n * (val (dvx v) * cos w - val (dvy v) * - sin w)) with (rho * cos phi * cos lam); [exact Nx|]. rewrite Cc, Xk, Yk. unfold lam. rewrite cos_minus. field. lra.
  - replace (rho / n * (val (dvx v) * - sin w + val (dvy v) * cos w)) with (rho * cos phi * sin lam); [exact Ny|]. rewrite Cc, Xk, Yk. unfold lam. rewrite sin_minus. field. lra.
  - replace (rho / n * val (dvz v)) with (rho * sin phi); [exact Nz|]. rewrite Ss. field. lra.
Qed.
End Library.
