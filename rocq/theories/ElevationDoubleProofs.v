From Coq Require Import ZArith Reals Bool Lra Lia Psatz.
From Flocq Require Import Core BinarySingleNaN.
From Verif Require Import Base OrbitModel OrbitSpec OrbitProofs GeodeticProofs DoubleModel DoubleSpec DoubleProofs DoubleDistanceProofs GeoDoubleProofs ElevationDoubleModel ElevationDoubleSpec.
Open Scope R_scope.

(** * Errors in units of a scale *)
Definition scaled_near (x : double) (r m k : R) : Prop := is_finite x = true /\ Rabs (val x - r) <= k * u * m.

Lemma u_small : 0 < u <= 1 / 10 ^ 15.
Proof. split; [apply u_pos|]. unfold u. change (bpow radix2 (-53)) with (/ 9007199254740992). lra. Qed.
Lemma below_max : forall t, Rabs t <= 10 ^ 18 -> Rabs t <= bpow radix2 1023.
Proof. intros t H. apply Rle_trans with (bpow radix2 62); [|apply bpow_le; lia]. change (bpow radix2 62) with 4611686018427387904. lra. Qed.

Lemma scaled_rnd : forall x r t m k, is_double x (rnd t) -> Rabs r <= m -> Rabs (t - r) <= k * u * m -> 0 <= k <= 1000 -> 1 <= m ->
  scaled_near x r m (k + 3).
Proof.
  intros x r t m k D Hr Ht Hk Hm. pose proof u_small as U. destruct D as (F & V). split; [exact F|]. rewrite V.
  assert (K : k * u * m <= m / 10).
  { replace (k * u * m) with ((k * u) * m) by ring. replace (m / 10) with (/ 10 * m) by field. apply Rmult_le_compat_r; [lra|]. nra. }
  assert (T : Rabs t <= m + m / 10) by (pose proof (Rabs_triang (t - r) r) as Tr; replace (t - r + r) with t in Tr by ring; lra).
  pose proof (rnd_err t (m + m / 10) T ltac:(lra)) as E. pose proof (Rabs_triang (rnd t - t) (t - r)) as Tr. replace (rnd t - t + (t - r)) with (rnd t - r) in Tr by ring.
  assert (0 <= u * m) by nra. nra.
Qed.

Lemma scaled_val : forall x r m k, scaled_near x r m k -> Rabs r <= m -> 0 <= k <= 1000 -> 0 <= m -> Rabs (val x) <= m + m / 10.
Proof.
  intros x r m k (_ & N) B K M. pose proof u_small as U. pose proof (Rabs_triang (val x - r) r) as T. replace (val x - r + r) with (val x) in T by ring.
  assert (k * u * m <= m / 10); [|lra]. replace (m / 10) with (/ 10 * m) by field. apply Rmult_le_compat_r; [lra|]. nra.
Qed.

Lemma scaled_mul : forall x y a b A B ka kb, scaled_near x a A ka -> scaled_near y b B kb -> Rabs a <= A -> Rabs b <= B -> 1 <= A -> 1 <= B -> A * B <= 2 * 10 ^ 17 ->
  0 <= ka <= 100 -> 0 <= kb <= 100 -> scaled_near (dmul x y) (a * b) (A * B) (ka + kb + 4).
Proof.
  intros x y a b A B ka kb X Y Ha Hb A1 B1 M Ka Kb. pose proof u_small as U.
  pose proof (scaled_val _ _ _ _ X Ha ltac:(lra) ltac:(lra)) as Vx. pose proof (scaled_val _ _ _ _ Y Hb ltac:(lra) ltac:(lra)) as Vy.
  destruct X as (Fx & Ex), Y as (Fy & Ey).
  assert (P : Rabs (val x * val y) <= 10 ^ 18).
  { rewrite Rabs_mult. apply Rle_trans with ((A + A / 10) * (B + B / 10)); [apply Rmult_le_compat; try apply Rabs_pos; assumption|]. nra. }
  replace (ka + kb + 4) with (ka + kb + 1 + 3) by ring. apply (scaled_rnd _ _ (val x * val y)); [apply dmul_ok; [exact Fx|exact Fy|apply below_max, P]| | |lra|nra].
  - rewrite Rabs_mult. apply Rmult_le_compat; try apply Rabs_pos; assumption.
  - replace (val x * val y - a * b) with ((val x - a) * (val y - b) + ((val x - a) * b + a * (val y - b))) by ring.
    eapply Rle_trans; [apply Rabs_triang|]. eapply Rle_trans; [apply Rplus_le_compat_l, Rabs_triang|]. rewrite !Rabs_mult.
    assert (E1 : Rabs (val x - a) * Rabs (val y - b) <= (ka * u * A) * (kb * u * B)) by (apply Rmult_le_compat; try apply Rabs_pos; assumption).
    assert (E2 : Rabs (val x - a) * Rabs b <= (ka * u * A) * B) by (apply Rmult_le_compat; try apply Rabs_pos; assumption).
    assert (E3 : Rabs a * Rabs (val y - b) <= A * (kb * u * B)) by (apply Rmult_le_compat; try apply Rabs_pos; assumption).
    assert (E4 : (ka * u * A) * (kb * u * B) <= u * (A * B)).
    { replace ((ka * u * A) * (kb * u * B)) with ((ka * kb * u) * (u * (A * B))) by ring. assert (ka * kb <= 10000) by nra. assert (ka * kb * u <= 1) by nra. assert (0 <= u * (A * B)) by (apply Rmult_le_pos; nra). nra. }
    lra.
Qed.

Lemma scaled_add : forall x y a b m ka kb, scaled_near x a m ka -> scaled_near y b m kb -> Rabs (a + b) <= m -> 1 <= m <= 2 * 10 ^ 17 ->
  0 <= ka <= 100 -> 0 <= kb <= 100 -> scaled_near (dadd x y) (a + b) m (ka + kb + 3).
Proof.
  intros x y a b m ka kb (Fx & Ex) (Fy & Ey) Hm M Ka Kb. pose proof u_small as U.
  assert (E : Rabs (val x + val y - (a + b)) <= (ka + kb) * u * m).
  { replace (val x + val y - (a + b)) with ((val x - a) + (val y - b)) by ring. eapply Rle_trans; [apply Rabs_triang|]. lra. }
  apply (scaled_rnd _ _ (val x + val y)); [apply dadd_ok; [exact Fx|exact Fy|apply below_max]|exact Hm|exact E|lra|lra].
  pose proof (Rabs_triang (val x + val y - (a + b)) (a + b)) as T. replace (val x + val y - (a + b) + (a + b)) with (val x + val y) in T by ring.
  assert ((ka + kb) * u * m <= 1 * m); [|lra]. apply Rmult_le_compat_r; [lra|]. nra.
Qed.

Lemma scaled_sub : forall x y m, is_finite x = true -> is_finite y = true -> Rabs (val x - val y) <= m -> 1 <= m <= 2 * 10 ^ 17 -> scaled_near (dsub x y) (val x - val y) m 3.
Proof.
  intros x y m Fx Fy Hm M. pose proof u_small as U. replace 3 with (0 + 3) by ring. apply (scaled_rnd _ _ (val x - val y)); [apply dsub_ok; [exact Fx|exact Fy|apply below_max; lra]|exact Hm| |lra|lra].
  rewrite Rminus_diag_eq, Rabs_R0 by reflexivity. nra.
Qed.

Lemma scaled_sqrt : forall x m k, scaled_near x (m * m) (m * m) k -> 0 <= k <= 100 -> 1 <= m <= 10 ^ 9 -> scaled_near (dsqrt x) m m (k + 3).
Proof.
  intros x m k (F & E) K M. pose proof u_small as U.
  assert (KU : k * u * (m * m) <= m * m / 2) by (replace (m * m / 2) with (/ 2 * (m * m)) by field; apply Rmult_le_compat_r; nra).
  pose proof (Rabs_le_inv _ _ E) as E'. assert (P : 0 <= val x) by nra. destruct (dsqrt_ok x F P) as (Fs & _ & _).
  destruct (@Bsqrt_correct 53 1024 dprec dmax mode_NE x) as (V & _ & _). change (val (dsqrt x) = rnd (sqrt (val x))) in V.
  apply (scaled_rnd _ _ (sqrt (val x))); [split; [exact Fs|exact V]|rewrite Rabs_pos_eq; lra| |lra|lra].
  pose proof (sqrt_pos (val x)) as S0. assert (D : Rabs (sqrt (val x) - m) * (sqrt (val x) + m) = Rabs (val x - m * m)).
  { rewrite <- (Rabs_pos_eq (sqrt (val x) + m)) at 1 by lra. rewrite <- Rabs_mult. f_equal. transitivity (sqrt (val x) * sqrt (val x) - m * m); [ring|]. rewrite sqrt_sqrt by lra. reflexivity. }
  pose proof (Rabs_pos (sqrt (val x) - m)) as A0. assert (L : Rabs (sqrt (val x) - m) * m <= k * u * m * m) by nra.
  apply Rmult_le_reg_r with m; lra.
Qed.

Lemma scaled_div : forall x y a m ka kb, scaled_near x a m ka -> scaled_near y m m kb -> Rabs a <= m -> 1 <= m -> 0 <= ka <= 100 -> 0 <= kb <= 100 ->
  scaled_near (ddiv x y) (a / m) 1 (ka + kb + 4).
Proof.
  intros x y a m ka kb (Fx & Ex) (Fy & Ey) Ha M Ka Kb. pose proof u_small as U.
  assert (KB : kb * u * m <= / 1000 * m) by (apply Rmult_le_compat_r; [lra|nra]). pose proof (Rabs_le_inv _ _ Ey) as Ey'.
  assert (Y0 : 999 / 1000 * m <= val y) by lra. assert (Yp : 0 < val y) by lra.
  assert (Q : Rabs (a / m) <= 1).
  { unfold Rdiv. rewrite Rabs_mult, (Rabs_pos_eq (/ m)) by (apply Rlt_le, Rinv_0_lt_compat; lra). apply Rmult_le_reg_r with m; [lra|]. rewrite Rmult_assoc, Rinv_l by lra. lra. }
  assert (E : Rabs (val x / val y - a / m) <= (ka + kb + 1) * u).
  { replace (val x / val y - a / m) with (((val x - a) + (a / m) * (m - val y)) / val y) by (field; lra). unfold Rdiv. rewrite Rabs_mult, (Rabs_pos_eq (/ val y)) by (apply Rlt_le, Rinv_0_lt_compat; lra).
    apply Rmult_le_reg_r with (val y); [lra|]. rewrite Rmult_assoc, Rinv_l by lra. rewrite Rmult_1_r. eapply Rle_trans; [apply Rabs_triang|]. rewrite Rabs_mult, (Rabs_minus_sym m).
    assert (Rabs (a / m) * Rabs (val y - m) <= 1 * (kb * u * m)) by (apply Rmult_le_compat; try apply Rabs_pos; assumption).
    fold (a / m). assert ((ka + kb + 1) * u * (999 / 1000 * m) <= (ka + kb + 1) * u * val y) by (apply Rmult_le_compat_l; [nra|exact Y0]).
    assert (0 <= u * m) by nra. nra. }
  replace (ka + kb + 4) with ((ka + kb + 1) + 3) by ring. apply (scaled_rnd _ _ (val x / val y)); [apply ddiv_ok; [exact Fx|lra|apply below_max]|exact Q|lra|lra|lra].
  pose proof (Rabs_triang (val x / val y - a / m) (a / m)) as T. replace (val x / val y - a / m + a / m) with (val x / val y) in T by ring. nra.
Qed.

(** * The cosine of the zenith angle *)
Lemma part_norm : forall v, Rabs (vx v) <= norm v /\ Rabs (vy v) <= norm v /\ Rabs (vz v) <= norm v /\ norm v * norm v = vx v * vx v + vy v * vy v + vz v * vz v.
Proof.
  intros v. assert (N : norm v * norm v = vx v * vx v + vy v * vy v + vz v * vz v) by (rewrite norm_sq; destruct v; reflexivity).
  assert (P : 0 <= norm v) by (unfold norm; apply sqrt_pos).
  assert (G : forall a, a * a <= norm v * norm v -> Rabs a <= norm v). { intros a H. apply Rabs_le. split; nra. }
  repeat split; [apply G; nra|apply G; nra|apply G; nra|exact N].
Qed.

Lemma dot_near : forall (a b : dvec) (va vb : vec) ka kb,
  scaled_near (dvx a) (vx va) (norm va) ka -> scaled_near (dvy a) (vy va) (norm va) ka -> scaled_near (dvz a) (vz va) (norm va) ka ->
  scaled_near (dvx b) (vx vb) (norm vb) kb -> scaled_near (dvy b) (vy vb) (norm vb) kb -> scaled_near (dvz b) (vz vb) (norm vb) kb ->
  1 <= norm va -> 1 <= norm vb -> norm va * norm vb <= 2 * 10 ^ 17 -> 0 <= ka <= 5 -> 0 <= kb <= 5 ->
  scaled_near (d_dot a b) (dot va vb) (norm va * norm vb) (3 * (ka + kb + 4) + 6).
Proof.
  intros a b va vb ka kb Ax Ay Az Bx By Bz A1 B1 M Ka Kb.
  destruct (part_norm va) as (Px & Py & Pz & Na). destruct (part_norm vb) as (Qx & Qy & Qz & Nb).
  pose proof (scaled_mul _ _ _ _ _ _ _ _ Ax Bx Px Qx A1 B1 M ltac:(lra) ltac:(lra)) as X. pose proof (scaled_mul _ _ _ _ _ _ _ _ Ay By Py Qy A1 B1 M ltac:(lra) ltac:(lra)) as Y.
  pose proof (scaled_mul _ _ _ _ _ _ _ _ Az Bz Pz Qz A1 B1 M ltac:(lra) ltac:(lra)) as Z.
  assert (P1 : 1 <= norm va * norm vb) by nra.
  assert (C : forall t, t * t <= (norm va * norm va) * (norm vb * norm vb) -> Rabs t <= norm va * norm vb). { intros t H. apply Rabs_le. split; nra. }
  assert (S1 : Rabs (vx va * vx vb + vy va * vy vb) <= norm va * norm vb).
  { apply C. rewrite Na, Nb. pose proof (cauchy_schwarz (Vec (vx va) (vy va) 0) (Vec (vx vb) (vy vb) 0)) as CS. unfold dot in CS; cbn [vx vy vz] in CS.
    set (x := vx va) in *; set (y := vy va) in *; set (z := vz va) in *; set (x' := vx vb) in *; set (y' := vy vb) in *; set (z' := vz vb) in *.
    assert (0 <= z * z) by nra. assert (0 <= z' * z') by nra. assert (0 <= x * x + y * y) by nra. assert (0 <= x' * x' + y' * y') by nra.
    assert ((x * x + y * y) * (x' * x' + y' * y') <= (x * x + y * y + z * z) * (x' * x' + y' * y' + z' * z')) by (apply Rmult_le_compat; lra). lra. }
  assert (S2 : Rabs (vx va * vx vb + vy va * vy vb + vz va * vz vb) <= norm va * norm vb).
  { apply C. rewrite !norm_sq. exact (cauchy_schwarz va vb). }
  pose proof (scaled_add _ _ _ _ _ _ _ X Y S1 ltac:(lra) ltac:(lra) ltac:(lra)) as XY. pose proof (scaled_add _ _ _ _ _ _ _ XY Z S2 ltac:(lra) ltac:(lra) ltac:(lra)) as XYZ.
  unfold d_dot. replace (3 * (ka + kb + 4) + 6) with (ka + kb + 4 + (ka + kb + 4) + 3 + (ka + kb + 4) + 3) by ring. exact XYZ.
Qed.

Lemma inside_scaled : forall v, inside (10 ^ 8) v -> let w := vec_of v in
  scaled_near (dvx v) (vx w) (norm w) 0 /\ scaled_near (dvy v) (vy w) (norm w) 0 /\ scaled_near (dvz v) (vz w) (norm w) 0 /\ norm w <= 2 * 10 ^ 8.
Proof.
  intros v ((Fx & Bx) & (Fy & By) & (Fz & Bz)) w. assert (E : forall x : double, Rabs (val x - real_of x) = 0) by (intros x; unfold real_of; rewrite Rminus_diag_eq, Rabs_R0 by reflexivity; reflexivity).
  repeat split; try assumption; try (cbn [w vec_of vx vy vz]; rewrite E; lra).
  destruct (part_norm w) as (_ & _ & _ & N). cbn [w vec_of vx vy vz] in N. apply Rabs_le_inv in Bx. apply Rabs_le_inv in By. apply Rabs_le_inv in Bz.
  assert (0 <= norm w) by (unfold norm; apply sqrt_pos). fold w in N. nra.
Qed.

Lemma zenith_near : forall sat ground, apart_enough sat ground ->
  let g := vec_of ground in let d := vsub (vec_of sat) g in
  near (d_cos_zenith sat ground) (dot g d / (norm g * norm d)) (2 / 10 ^ 14).
Proof.
  intros sat ground (Is & Ig & Ng & Nd) g d. fold g in Ng. fold g in Nd. fold d in Nd.
  destruct (inside_scaled _ Is) as (_ & _ & _ & Ls). destruct (inside_scaled _ Ig) as (Gx & Gy & Gz & Lg). fold g in Gx, Gy, Gz, Lg.
  assert (Ld : norm d <= 4 * 10 ^ 8).
  { destruct (part_norm d) as (_ & _ & _ & N). destruct Is as ((_ & X) & (_ & Y) & (_ & Z)). destruct Ig as ((_ & X') & (_ & Y') & (_ & Z')).
    apply Rabs_le_inv in X. apply Rabs_le_inv in Y. apply Rabs_le_inv in Z. apply Rabs_le_inv in X'. apply Rabs_le_inv in Y'. apply Rabs_le_inv in Z'. cbn [d vsub g vec_of vx vy vz] in N. assert (0 <= norm d) by lra. fold g in N. fold d in N. nra. }
  destruct (part_norm d) as (Dx & Dy & Dz & _).
  assert (S : forall x y : double, is_finite x = true -> is_finite y = true -> Rabs (real_of x - real_of y) <= norm d -> scaled_near (dsub x y) (real_of x - real_of y) (norm d) 3).
  { intros x y Fx Fy H. apply scaled_sub; try assumption. lra. }
  assert (Fs := Is). destruct Fs as ((F1 & _) & (F2 & _) & (F3 & _)). assert (Fg := Ig). destruct Fg as ((H1 & _) & (H2 & _) & (H3 & _)).
  pose proof (S _ _ F1 H1 Dx) as Sx. pose proof (S _ _ F2 H2 Dy) as Sy. pose proof (S _ _ F3 H3 Dz) as Sz. clear S.
  pose proof (dot_near ground (d_minus sat ground) g d 0 3 Gx Gy Gz Sx Sy Sz ltac:(lra) ltac:(lra) ltac:(nra) ltac:(lra) ltac:(lra)) as Dt.
  pose proof (dot_near ground ground g g 0 0 Gx Gy Gz Gx Gy Gz ltac:(lra) ltac:(lra) ltac:(nra) ltac:(lra) ltac:(lra)) as GG.
  pose proof (dot_near (d_minus sat ground) (d_minus sat ground) d d 3 3 Sx Sy Sz Sx Sy Sz ltac:(lra) ltac:(lra) ltac:(nra) ltac:(lra) ltac:(lra)) as DD.
  rewrite <- norm_sq in GG. rewrite <- norm_sq in DD.
  pose proof (scaled_sqrt _ _ _ GG ltac:(lra) ltac:(lra)) as LG. pose proof (scaled_sqrt _ _ _ DD ltac:(lra) ltac:(lra)) as LD.
  assert (A : Rabs (norm g) <= norm g) by (rewrite Rabs_pos_eq; lra). assert (A' : Rabs (norm d) <= norm d) by (rewrite Rabs_pos_eq; lra).
  pose proof (scaled_mul _ _ _ _ _ _ _ _ LG LD A A' ltac:(lra) ltac:(lra) ltac:(nra) ltac:(lra) ltac:(lra)) as P.
  assert (B : Rabs (dot g d) <= norm g * norm d).
  { pose proof (cauchy_schwarz g d) as C. rewrite <- !norm_sq in C. assert (0 <= norm g * norm d) by (apply Rmult_le_pos; lra). clear - C H. set (n := norm g * norm d) in *. replace (norm g * norm g * (norm d * norm d)) with (n * n) in C by (unfold n; ring).
    apply Rabs_le. split; nra. }
  destruct (scaled_div _ _ _ _ _ _ Dt P B ltac:(clear - Ng Nd; nra) ltac:(lra) ltac:(lra)) as (F & E). split; [exact F|]. eapply Rle_trans; [exact E|].
  unfold u. change (bpow radix2 (-53)) with (/ 9007199254740992). lra.
Qed.

(** * The arc sine *)
Lemma sin_half : forall x, 0 <= x <= PI / 2 -> x / 2 <= sin x.
Proof.
  intros x [L H]. pose proof PI_RGT_0 as P. pose proof (sin_back x ltac:(rewrite Rabs_pos_eq; lra)) as B. rewrite Rabs_pos_eq in B by exact L.
  rewrite Rabs_pos_eq in B by (apply sin_ge_0; lra). lra.
Qed.
Lemma asin_apart : forall a b, -1 <= a <= 1 -> -1 <= b <= 1 -> a <= b -> (asin b - asin a) ^ 2 <= 8 * (b - a).
Proof.
  intros a b Ha Hb L. pose proof (asin_bound a) as Ba. pose proof (asin_bound b) as Bb. pose proof (sin_asin a Ha) as Sa. pose proof (sin_asin b Hb) as Sb.
  set (x := asin a) in *. set (y := asin b) in *. pose proof PI_RGT_0.
  assert (O : x <= y). { destruct (Rle_or_lt x y) as [?|C]; [assumption|]. pose proof (sin_increasing_1 y x ltac:(lra) ltac:(lra) ltac:(lra) ltac:(lra) C). lra. }
  set (h := (y - x) / 2). assert (Hh : 0 <= h <= PI / 2) by (unfold h; lra). pose proof (sin_half h Hh) as S1.
  assert (F : b - a = 2 * cos ((y + x) / 2) * sin h). { rewrite <- Sa, <- Sb. unfold h. rewrite form4. ring. }
  assert (C : sin h <= cos ((y + x) / 2)).
  { rewrite <- (cos_shift h). destruct (Rle_or_lt 0 ((y + x) / 2)) as [P|P].
    - apply cos_decr_1; unfold h; lra.
    - rewrite <- (cos_neg ((y + x) / 2)). apply cos_decr_1; unfold h; lra. }
  assert (sin h * sin h <= (b - a) / 2) by (rewrite F; assert (0 <= sin h) by lra; nra). assert (h * h <= 4 * (sin h * sin h)) by nra. unfold h in *. nra.
Qed.
Lemma asin_near : forall a b, -1 <= a <= 1 -> -1 <= b <= 1 -> Rabs (a - b) <= 2 / 10 ^ 14 -> Rabs (asin a - asin b) <= 4 / 10 ^ 7.
Proof.
  intros a b Ha Hb E. apply Rabs_le_inv in E. apply Rabs_le. destruct (Rle_or_lt a b) as [L|L].
  - pose proof (asin_apart a b Ha Hb L) as S. split; nra.
  - pose proof (asin_apart b a Hb Ha ltac:(lra)) as S. split; nra.
Qed.
