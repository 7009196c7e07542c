From Coq Require Import ZArith Reals Bool Lra Lia Psatz.
From Flocq Require Import Core BinarySingleNaN.
From Verif Require Import Base OrbitModel OrbitSpec OrbitProofs OrbitProps GeodeticSpec GeodeticProofs DoubleModel DoubleSpec DoubleProofs DoubleDistanceProofs GeoDoubleModel GeoDoubleSpec.
Open Scope R_scope.

(** * Errors of single operations *)
Definition near (x : double) (r e : R) : Prop := is_finite x = true /\ Rabs (val x - r) <= e.

Lemma rnd_err : forall t M, Rabs t <= M -> 1 / 10 ^ 20 <= M -> Rabs (rnd t - t) <= 2 * u * M.
Proof.
  intros t M T L. destruct (rnd_rel_abs t) as (e & d & E & D & ->).
  assert (N : eta <= u * (1 / 10 ^ 20)).
  { unfold eta, u. apply Rle_trans with (bpow radix2 (-53) * bpow radix2 (-100)); [rewrite <- bpow_plus; apply bpow_le; lia|].
    apply Rmult_le_compat_l; [apply bpow_ge_0|]. change (bpow radix2 (-100)) with (/ 1267650600228229401496703205376). lra. }
  pose proof u_pos as U. replace (t * (1 + e) + d - t) with (t * e + d) by ring. eapply Rle_trans; [apply Rabs_triang|]. rewrite Rabs_mult.
  assert (Rabs t * Rabs e <= M * u) by (apply Rmult_le_compat; try apply Rabs_pos; assumption).
  assert (u * (1 / 10 ^ 20) <= u * M) by (apply Rmult_le_compat_l; lra). lra.
Qed.

Lemma near_val : forall x r e M, near x r e -> Rabs r <= M -> Rabs (val x) <= M + e.
Proof. intros x r e M (_ & N) B. pose proof (Rabs_triang (val x - r) r) as T. replace (val x - r + r) with (val x) in T by ring. lra. Qed.

Lemma near_rnd : forall x r t e M, is_double x (rnd t) -> Rabs (t - r) <= e -> Rabs t <= M -> 1 / 10 ^ 20 <= M -> forall f, e + 2 * u * M <= f -> near x r f.
Proof.
  intros x r t e M (F & V) T B L f H. split; [exact F|]. rewrite V. pose proof (rnd_err t M B L) as E.
  pose proof (Rabs_triang (rnd t - t) (t - r)) as Tr. replace (rnd t - t + (t - r)) with (rnd t - r) in Tr by ring. lra.
Qed.

Lemma near_mul : forall x y a b ea eb A B, near x a ea -> near y b eb -> Rabs a <= A -> Rabs b <= B -> 1 / 10 ^ 20 <= (A + ea) * (B + eb) <= 10 ^ 15 ->
  forall f, A * eb + (B + eb) * ea + 2 * u * ((A + ea) * (B + eb)) <= f -> near (dmul x y) (a * b) f.
Proof.
  intros x y a b ea eb A B X Y Ha Hb M f H. pose proof (near_val _ _ _ _ X Ha) as Vx. pose proof (near_val _ _ _ _ Y Hb) as Vy.
  destruct X as (Fx & Ex), Y as (Fy & Ey).
  assert (P : Rabs (val x * val y) <= (A + ea) * (B + eb)) by (rewrite Rabs_mult; apply Rmult_le_compat; try apply Rabs_pos; assumption).
  eapply near_rnd; [apply dmul_ok; [exact Fx|exact Fy|]| |exact P|lra|exact H].
  - apply small_below_max. lra.
  - replace (val x * val y - a * b) with ((val x - a) * val y + a * (val y - b)) by ring. eapply Rle_trans; [apply Rabs_triang|]. rewrite !Rabs_mult.
    assert (Rabs (val x - a) * Rabs (val y) <= ea * (B + eb)) by (apply Rmult_le_compat; try apply Rabs_pos; assumption).
    assert (Rabs a * Rabs (val y - b) <= A * eb) by (apply Rmult_le_compat; try apply Rabs_pos; assumption). lra.
Qed.

Lemma near_sub : forall x y a b ea eb A B, near x a ea -> near y b eb -> Rabs a <= A -> Rabs b <= B -> 1 / 10 ^ 20 <= A + ea + B + eb <= 10 ^ 15 ->
  forall f, ea + eb + 2 * u * (A + ea + B + eb) <= f -> near (dsub x y) (a - b) f.
Proof.
  intros x y a b ea eb A B X Y Ha Hb M f H. pose proof (near_val _ _ _ _ X Ha) as Vx. pose proof (near_val _ _ _ _ Y Hb) as Vy.
  destruct X as (Fx & Ex), Y as (Fy & Ey).
  assert (P : Rabs (val x - val y) <= A + ea + B + eb).
  { pose proof (Rabs_triang (val x) (- val y)) as T. rewrite Rabs_Ropp in T. unfold Rminus. lra. }
  eapply near_rnd; [apply dsub_ok; [exact Fx|exact Fy|]| |exact P|lra|exact H].
  - apply small_below_max. lra.
  - replace (val x - val y - (a - b)) with ((val x - a) + - (val y - b)) by ring. eapply Rle_trans; [apply Rabs_triang|]. rewrite Rabs_Ropp. lra.
Qed.

(** The quotient [q] and a lower bound of the divisor. *)
Lemma near_div : forall x y a b ea eb Q l, near x a ea -> near y b eb -> 0 < l -> l + eb <= b -> Rabs (a / b) <= Q ->
  1 / 10 ^ 20 <= Q + (ea + Q * eb) / l <= 10 ^ 15 -> forall f, (ea + Q * eb) / l + 2 * u * (Q + (ea + Q * eb) / l) <= f -> near (ddiv x y) (a / b) f.
Proof.
  intros x y a b ea eb Q l (Fx & Ex) (Fy & Ey) L Lb Hq M f H. pose proof (Rabs_le_inv _ _ Ey) as Ey'. assert (E0 : 0 <= eb) by (pose proof (Rabs_pos (val y - b)); lra).
  assert (Y0 : l <= val y) by lra.
  assert (E : Rabs (val x / val y - a / b) <= (ea + Q * eb) / l).
  { replace (val x / val y - a / b) with (((val x - a) + (a / b) * (b - val y)) * / val y) by (field; lra). change ((ea + Q * eb) / l) with ((ea + Q * eb) * / l). rewrite Rabs_mult.
    apply Rmult_le_compat; try apply Rabs_pos.
    - eapply Rle_trans; [apply Rabs_triang|]. rewrite Rabs_mult. rewrite (Rabs_minus_sym b (val y)).
      assert (Rabs (a / b) * Rabs (val y - b) <= Q * eb) by (apply Rmult_le_compat; try apply Rabs_pos; assumption). lra.
    - rewrite Rabs_pos_eq by (apply Rlt_le, Rinv_0_lt_compat; lra). apply Rinv_le_contravar; lra. }
  assert (P : Rabs (val x / val y) <= Q + (ea + Q * eb) / l).
  { pose proof (Rabs_triang (val x / val y - a / b) (a / b)) as T. replace (val x / val y - a / b + a / b) with (val x / val y) in T by ring. lra. }
  eapply near_rnd; [apply ddiv_ok; [exact Fx|lra|]|exact E|exact P|lra|exact H]. apply small_below_max. lra.
Qed.

Lemma near_sqrt : forall x a ea, near x a ea -> 1 / 2 <= a <= 2 -> ea <= 1 / 4 -> forall f, ea + 8 * u <= f -> near (dsqrt x) (sqrt a) f.
Proof.
  intros x a ea (F & E) A Ea f H. pose proof (Rabs_le_inv _ _ E) as E'. destruct (dsqrt_ok x F ltac:(lra)) as (Fs & _ & _).
  destruct (@Bsqrt_correct 53 1024 dprec dmax mode_NE x) as (V & _ & _). change (val (dsqrt x) = rnd (sqrt (val x))) in V.
  assert (S1 : 1 / 2 <= sqrt (val x)) by (rewrite <- (sqrt_sq_nonneg (1 / 2)) by lra; apply sqrt_le_1_alt; lra).
  assert (S2 : 1 / 2 <= sqrt a) by (rewrite <- (sqrt_sq_nonneg (1 / 2)) by lra; apply sqrt_le_1_alt; lra).
  assert (S3 : sqrt (val x) <= 2) by (rewrite <- (sqrt_sq_nonneg 2) by lra; apply sqrt_le_1_alt; lra).
  pose proof u_pos. apply (near_rnd _ (sqrt a) (sqrt (val x)) ea 2); [split; [exact Fs|exact V]| |rewrite Rabs_pos_eq; lra|lra|lra].
  assert (D : (sqrt (val x) - sqrt a) * (sqrt (val x) + sqrt a) = val x - a).
  { transitivity (sqrt (val x) * sqrt (val x) - sqrt a * sqrt a); [ring|]. rewrite !sqrt_sqrt by lra. reflexivity. }
  assert (M : Rabs (sqrt (val x) - sqrt a) * (sqrt (val x) + sqrt a) = Rabs (val x - a)).
  { rewrite <- D, Rabs_mult, (Rabs_pos_eq (sqrt (val x) + sqrt a)) by lra. reflexivity. }
  pose proof (Rabs_pos (sqrt (val x) - sqrt a)). nra.
Qed.

Lemma near_int : forall n, (Z.abs n <= 2 ^ 53)%Z -> near (dint n) (IZR n) 0.
Proof. intros n H. destruct (dint_ok n H) as (F & V). split; [exact F|]. rewrite V, Rminus_diag_eq, Rabs_R0 by reflexivity. lra. Qed.
Lemma near_more : forall x r e f, near x r e -> e <= f -> near x r f.
Proof. intros x r e f (F & E) L. split; [exact F|lra]. Qed.

Ltac small := rewrite ?u_val; cbn [pow]; lra.

(** * The constants *)
Lemma near_ten16 : near (dint (10 ^ 16)) (10 ^ 16) 0.
Proof.
  assert (E : IZR (10 ^ 16) * bpow radix2 0 = IZR (5 ^ 16) * bpow radix2 16).
  { change (10 ^ 16)%Z with 10000000000000000%Z. change (5 ^ 16)%Z with 152587890625%Z. change (bpow radix2 0) with 1. change (bpow radix2 16) with 65536. lra. }
  destruct (dnum_ok (10 ^ 16) 0) as (F & V).
  - rewrite E. apply Rle_trans with (bpow radix2 53 * bpow radix2 16); [|rewrite <- bpow_plus; apply bpow_le; lia].
    change (5 ^ 16)%Z with 152587890625%Z. change (bpow radix2 53) with 9007199254740992. change (bpow radix2 16) with 65536. rewrite Rabs_pos_eq; lra.
  - split; [exact F|]. change (dint (10 ^ 16)) with (dnum (10 ^ 16) 0). rewrite V, E, rnd_scaled by lia.
    change (5 ^ 16)%Z with 152587890625%Z. change (bpow radix2 16) with 65536. rewrite Rminus_diag_eq, Rabs_R0; lra.
Qed.
Lemma near_ecc : near d_ecc wgs84_ecc (1 / 10 ^ 16).
Proof.
  unfold d_ecc, wgs84_ecc. eapply (near_div _ _ _ _ 0 0 (1 / 10) 1); [apply near_int; lia|exact near_ten16|..].
  all: try (cbn [pow]; lra).
  - rewrite Rabs_pos_eq; cbn [pow]; lra.
  - small.
Qed.
Lemma near_e2 : near d_e2 e2 (1 / 10 ^ 16).
Proof.
  unfold d_e2, e2. eapply (near_mul _ _ _ _ _ _ (1 / 10) (1 / 10)); [apply near_ecc|apply near_ecc|..].
  - unfold wgs84_ecc. rewrite Rabs_pos_eq; cbn [pow]; lra.
  - unfold wgs84_ecc. rewrite Rabs_pos_eq; cbn [pow]; lra.
  - cbn [pow]; lra.
  - small.
Qed.

(** * One turn, in the meridian plane *)
Section Point.
Variables phi h : R.
Hypothesis Hphi : - (PI / 2) < phi < PI / 2.
Hypothesis Hc : 1 / 10 ^ 4 <= cos phi.
Hypothesis Hh : - 3000000 <= h <= 10 ^ 8.

Lemma turn_near : forall d, 0 < d -> Rabs (atan (zz phi h / d) - phi) * rho phi h <= 7 / 4 * Rabs (rho phi h * cos phi - d).
Proof.
  intros d B. destruct (atan_polar d (zz phi h) B) as [X Y]. set (th := atan (zz phi h / d)) in *. set (m := sqrt (d * d + zz phi h * zz phi h)) in *.
  assert (M : 0 < m) by (apply sqrt_lt_R0; nra). pose proof (rho_low phi h (proj1 Hh)) as Rl.
  pose proof (sin_back (th - phi) (same_side phi h Hphi (proj1 Hh) d B)) as Sb.
  assert (E : sin (th - phi) * (rho phi h * m) = zz phi h * (rho phi h * cos phi - d)).
  { rewrite sin_minus. transitivity ((m * sin th) * (rho phi h * cos phi) - (m * cos th) * (rho phi h * sin phi)); [ring|]. rewrite <- X, <- Y. unfold zz. ring. }
  assert (Zm : Rabs (zz phi h) <= m).
  { unfold m. rewrite <- (sqrt_sq_nonneg (Rabs (zz phi h))) by apply Rabs_pos. apply sqrt_le_1_alt. rewrite <- Rabs_mult, Rabs_pos_eq by nra. nra. }
  assert (F : Rabs (sin (th - phi)) * rho phi h <= Rabs (rho phi h * cos phi - d)).
  { apply Rmult_le_reg_r with m; [exact M|]. rewrite Rmult_assoc. rewrite <- (Rabs_pos_eq (rho phi h * m)) by nra. rewrite <- Rabs_mult, E, Rabs_mult.
    rewrite Rmult_comm. apply Rmult_le_compat_l; [apply Rabs_pos|exact Zm]. }
  apply Rle_trans with (7 / 4 * Rabs (sin (th - phi)) * rho phi h); [apply Rmult_le_compat_r; lra|lra].
Qed.

(** Latitudes close enough not to come near the pole. *)
Definition close (l : R) : Prop := Rabs (l - phi) <= cos phi / 50.
Lemma close_cos : forall l, close l -> 98 / 100 * cos phi <= cos l <= 102 / 100 * cos phi.
Proof. intros l C. pose proof (cos_close l phi) as K. unfold close in C. assert (B : Rabs (cos l - cos phi) <= cos phi / 50) by lra. apply Rabs_le_inv in B. lra. Qed.
Lemma phi_inside : Rabs phi <= PI / 2 - cos phi.
Proof.
  assert (P : 0 < PI / 2 - Rabs phi) by (apply Rlt_Rminus, Rabs_def1; lra).
  assert (E : cos phi = sin (PI / 2 - Rabs phi)).
  { rewrite sin_shift. unfold Rabs. destruct (Rcase_abs phi); [rewrite cos_neg|]; reflexivity. }
  pose proof (sin_lt_x _ P) as S. lra.
Qed.
Lemma close_inside : forall l, close l -> Rabs l <= PI / 2 - 98 / 100 * cos phi.
Proof.
  intros l C. unfold close in C. pose proof phi_inside. pose proof (Rabs_triang (l - phi) phi) as T. replace (l - phi + phi) with l in T by ring. lra.
Qed.
Lemma close_small : forall l, close l -> Rabs l <= 4.
Proof. intros l C. pose proof (close_inside l C). pose proof PI_4. lra. Qed.

Lemma round_close : forall l d, close l -> Rabs (d - dd phi h l) <= 1 / 10 ^ 6 ->
  0 < d /\ Rabs (atan (zz phi h / d) - phi) <= / 40 * Rabs (l - phi) + 1 / 10 ^ 12.
Proof.
  intros l d C D. pose proof (close_cos l C) as Cl. pose proof (rho_low phi h (proj1 Hh)) as Rl. pose proof (Rabs_le_inv _ _ D) as D'.
  assert (Cp := c_pos phi Hphi). assert (Lp : 0 < cos l) by lra.
  assert (K : Rabs (dd phi h phi - dd phi h l) <= 43000 * Rabs (l - phi)).
  { unfold dd.
    replace (pp phi h - e2 * (prime_vertical phi * cos phi) - (pp phi h - e2 * (prime_vertical l * cos l))) with (e2 * (prime_vertical l * cos l - prime_vertical phi * cos phi)) by ring.
    pose proof e2_bounds. rewrite Rabs_mult, (Rabs_pos_eq e2) by lra. pose proof (pv_cos_close l phi Lp Cp) as Pc. pose proof (cos_close l phi) as Cc. pose proof flat.
    assert (0 <= wgs84_axis / semi) by (apply Rlt_le, Rdiv_lt_0_compat; [apply axis_pos|pose proof semi_bounds; lra]).
    apply Rle_trans with (e2 * (wgs84_axis / semi * Rabs (l - phi))).
    - apply Rmult_le_compat_l; [lra|]. eapply Rle_trans; [exact Pc|]. apply Rmult_le_compat_l; assumption.
    - rewrite <- Rmult_assoc. apply Rmult_le_compat_r; [apply Rabs_pos|lra]. }
  rewrite dd_phi in K. unfold close in C. pose proof (Rabs_le_inv _ _ K) as K'.
  assert (Q : 33 / 10 * 10 ^ 6 * cos phi <= rho phi h * cos phi) by (apply Rmult_le_compat_r; lra).
  assert (Dp : 0 < d) by lra. split; [exact Dp|].
  pose proof (turn_near d Dp) as T. pose proof (Rabs_pos (atan (zz phi h / d) - phi)) as A0. pose proof (Rabs_pos (l - phi)).
  assert (G : Rabs (rho phi h * cos phi - d) <= 43000 * Rabs (l - phi) + 1 / 10 ^ 6).
  { pose proof (Rabs_triang (rho phi h * cos phi - dd phi h l) (dd phi h l - d)) as Tr. rewrite (Rabs_minus_sym (dd phi h l) d) in Tr.
    replace (rho phi h * cos phi - dd phi h l + (dd phi h l - d)) with (rho phi h * cos phi - d) in Tr by ring. lra. }
  assert (U : Rabs (atan (zz phi h / d) - phi) * (33 / 10 * 10 ^ 6) <= Rabs (atan (zz phi h / d) - phi) * rho phi h) by (apply Rmult_le_compat_l; lra).
  lra.
Qed.

Lemma start_close : forall d, Rabs (d - pp phi h * (1 - e2)) <= 1 / 10 ^ 6 -> 0 < d /\ Rabs (atan (zz phi h / d) - phi) <= 12 / 1000 * cos phi + 1 / 10 ^ 12.
Proof.
  intros d D. pose proof (Rabs_le_inv _ _ D) as D'. pose proof (rho_low phi h (proj1 Hh)) as Rl. pose proof e2_more as E.
  pose proof (pp_rho phi h Hphi) as Pr. assert (Q : 33 / 10 * 10 ^ 6 * cos phi <= rho phi h * cos phi) by (apply Rmult_le_compat_r; lra).
  assert (P1 : 99 / 100 * pp phi h <= pp phi h * (1 - e2)). { rewrite (Rmult_comm (pp phi h)). apply Rmult_le_compat_r; lra. }
  assert (Dp : 0 < d) by lra. split; [exact Dp|]. pose proof (turn_near d Dp) as T.
  assert (V : rho phi h * cos phi - pp phi h * (1 - e2) = e2 * h * cos phi) by (unfold rho, pp; ring).
  assert (G : Rabs (rho phi h * cos phi - d) <= e2 * (Rabs h * cos phi) + 1 / 10 ^ 6).
  { pose proof (Rabs_triang (rho phi h * cos phi - pp phi h * (1 - e2)) (pp phi h * (1 - e2) - d)) as Tr. rewrite (Rabs_minus_sym (pp phi h * (1 - e2)) d), V in Tr.
    replace (e2 * h * cos phi + (pp phi h * (1 - e2) - d)) with (rho phi h * cos phi - d) in Tr by (rewrite <- V; ring).
    rewrite !Rabs_mult, (Rabs_pos_eq e2), (Rabs_pos_eq (cos phi)) in Tr by lra. lra. }
  assert (Hr : Rabs h <= rho phi h).
  { apply Rabs_le. split; [lra|]. unfold rho. pose proof (pv_low phi). pose proof axis_pos. assert (0 <= prime_vertical phi * (1 - e2)) by (apply Rmult_le_pos; lra). lra. }
  assert (W : e2 * (Rabs h * cos phi) <= 67 / 10000 * (rho phi h * cos phi)).
  { apply Rmult_le_compat; [lra|apply Rmult_le_pos; [apply Rabs_pos|lra]|lra|apply Rmult_le_compat_r; lra]. }
  set (t := Rabs (atan (zz phi h / d) - phi)) in *. apply Rmult_le_reg_r with (rho phi h); [lra|].
  assert (0 <= rho phi h * cos phi) by lra. lra.
Qed.

(** * The doubles of a round *)
Lemma pp_up : pp phi h <= 12 / 10 * 10 ^ 8.
Proof.
  unfold pp. pose proof (pv_up phi) as U. pose proof (pv_low phi) as L. pose proof axis_pos. pose proof semi_bounds as S. pose proof (COS_bound phi) as C.
  assert (wgs84_axis / semi <= 6400000).
  { apply Rmult_le_reg_r with semi; [lra|]. unfold Rdiv. rewrite Rmult_assoc, Rinv_l by lra. unfold wgs84_axis. lra. }
  assert (0 <= prime_vertical phi + h) by (unfold wgs84_axis in *; lra).
  apply Rle_trans with ((prime_vertical phi + h) * 1); [apply Rmult_le_compat_l; lra|]. lra.
Qed.
Lemma pp_dn : 330 <= pp phi h.
Proof.
  pose proof (rho_low phi h (proj1 Hh)) as Rl. pose proof (pp_rho phi h Hphi) as Pr. assert (Q : 33 / 10 * 10 ^ 6 * cos phi <= rho phi h * cos phi) by (apply Rmult_le_compat_r; lra). lra.
Qed.

Section Doubles.
Variables (dsin dcos : double -> double) (datan2 : double -> double -> double) (deg : double).
Hypothesis Lib : library dsin dcos datan2 deg.
Variables (p z : double).
Hypothesis Hp : near p (pp phi h) (2 / 10 ^ 7).
Hypothesis Hz : is_double z (zz phi h).

Lemma near_vertical : forall lat, is_finite lat = true -> close (val lat) ->
  near (dmul d_e2 (ddiv d_axis (dsqrt (dsub (dint 1) (dmul (dmul d_e2 (dsin lat)) (dsin lat)))))) (e2 * prime_vertical (val lat)) (1 / 10 ^ 8).
Proof.
  intros lat F C. destruct (lib_sin _ _ _ _ Lib lat F (close_small _ C)) as (Fs & Es). change (real_of (dsin lat)) with (val (dsin lat)) in Es. change (real_of lat) with (val lat) in Es.
  set (L := val lat) in *. assert (S : near (dsin lat) (sin L) (1 / 10 ^ 12)) by (split; [exact Fs|exact Es]).
  assert (Sb : Rabs (sin L) <= 1) by (pose proof (SIN_bound L); apply Rabs_le; lra). pose proof e2_more as E.
  assert (T1 : near (dmul d_e2 (dsin lat)) (e2 * sin L) (1 / 10 ^ 14)).
  { eapply (near_mul _ _ _ _ _ _ (67 / 10000) 1); [exact near_e2|exact S|rewrite Rabs_pos_eq; lra|exact Sb|cbn [pow]; lra|small]. }
  assert (B1 : Rabs (e2 * sin L) <= 67 / 10000).
  { rewrite Rabs_mult, (Rabs_pos_eq e2) by lra. rewrite <- (Rmult_1_r (67 / 10000)). apply Rmult_le_compat; try apply Rabs_pos; lra. }
  assert (T2 : near (dmul (dmul d_e2 (dsin lat)) (dsin lat)) (e2 * sin L * sin L) (2 / 10 ^ 14)).
  { eapply (near_mul _ _ _ _ _ _ (67 / 10000) 1); [exact T1|exact S|exact B1|exact Sb|cbn [pow]; lra|small]. }
  assert (B2 : 0 <= e2 * sin L * sin L <= 67 / 10000).
  { rewrite Rmult_assoc. pose proof (Rle_0_sqr (sin L)) as Q. unfold Rsqr in Q. pose proof (trig1 L) as T. pose proof (Rle_0_sqr (cos L)) as Q'. unfold Rsqr in Q'. split; [apply Rmult_le_pos; lra|].
    rewrite <- (Rmult_1_r (67 / 10000)). apply Rmult_le_compat; lra. }
  assert (T3 : near (dsub (dint 1) (dmul (dmul d_e2 (dsin lat)) (dsin lat))) (1 - e2 * sin L * sin L) (3 / 10 ^ 14)).
  { eapply (near_sub _ _ _ _ 0 _ 1 (67 / 10000)); [apply near_int; lia|exact T2|rewrite Rabs_pos_eq; lra|rewrite Rabs_pos_eq; lra|cbn [pow]; lra|small]. }
  assert (T4 : near (dsqrt (dsub (dint 1) (dmul (dmul d_e2 (dsin lat)) (dsin lat)))) (root L) (4 / 10 ^ 14)).
  { unfold root. eapply near_sqrt; [exact T3|lra|cbn [pow]; lra|small]. }
  pose proof (root_low L) as Rl. pose proof semi_bounds. pose proof (pv_low L). pose proof (pv_up L) as Pu. pose proof axis_pos.
  assert (Up : wgs84_axis / semi <= 6400000).
  { apply Rmult_le_reg_r with semi; [lra|]. unfold Rdiv. rewrite Rmult_assoc, Rinv_l by lra. unfold wgs84_axis. lra. }
  assert (N : near (ddiv d_axis (dsqrt (dsub (dint 1) (dmul (dmul d_e2 (dsin lat)) (dsin lat))))) (prime_vertical L) (3 / 10 ^ 7)).
  { unfold prime_vertical, d_axis. fold (root L).
    eapply (near_div _ _ _ _ 0 _ 6400000 (99 / 100)); [apply near_int; lia|exact T4|lra|cbn [pow]; lra| |cbn [pow]; lra|small].
    change (IZR 6378137) with wgs84_axis. change (wgs84_axis / root L) with (prime_vertical L). rewrite Rabs_pos_eq; lra. }
  eapply (near_mul _ _ _ _ _ _ (67 / 10000) 6400000); [exact near_e2|exact N|rewrite Rabs_pos_eq; lra|rewrite Rabs_pos_eq; lra|cbn [pow]; lra|small].
Qed.

Lemma scaled : forall x a lo hi, lo <= x <= hi -> 0 <= lo -> Rabs a <= u -> 99 / 100 * lo <= x * (1 + a) <= 101 / 100 * hi.
Proof.
  intros x a lo hi X L A. apply Rabs_le_inv in A. rewrite u_val in A. split.
  - rewrite Rmult_comm. apply Rmult_le_compat; lra.
  - rewrite Rmult_comm. apply Rmult_le_compat; lra.
Qed.
Lemma one_over : forall e, Rabs e <= u -> Rabs (/ (1 + e) - 1) <= 2 * u.
Proof.
  intros e E. pose proof (Rabs_le_inv _ _ E) as E'. rewrite u_val in *. replace (/ (1 + e) - 1) with (- e * / (1 + e)) by (field; lra). rewrite Rabs_mult, Rabs_Ropp.
  assert (I : 0 < / (1 + e) <= 2). { split; [apply Rinv_0_lt_compat; lra|]. replace 2 with (/ (/ 2)) by lra. apply Rinv_le_contravar; lra. }
  rewrite (Rabs_pos_eq (/ (1 + e))) by lra. pose proof (Rabs_pos e). nra.
Qed.

(** The divisor of the arc tangent: dividing by [v] is multiplying by the cosine, which is the exact formula. *)
Lemma near_divisor : forall lat, is_finite lat = true -> close (val lat) ->
  near (dmul p (dsub (dint 1) (ddiv (dmul d_e2 (ddiv d_axis (dsqrt (dsub (dint 1) (dmul (dmul d_e2 (dsin lat)) (dsin lat)))))) (ddiv p (dcos lat)))))
    (dd phi h (val lat)) (1 / 10 ^ 6).
Proof.
  intros lat F C. pose proof (near_vertical lat F C) as Ng. set (g := dmul d_e2 _) in *.
  destruct (lib_cos _ _ _ _ Lib lat F (close_small _ C)) as (Fc & Ec). change (real_of (dcos lat)) with (val (dcos lat)) in Ec. change (real_of lat) with (val lat) in Ec.
  set (L := val lat) in *. set (c := dcos lat) in *. pose proof (close_cos L C) as Cl. pose proof (COS_bound L) as Cb.
  destruct Ng as (Fg & Eg). destruct Hp as (Fp & Ep). pose proof pp_up as Pu. pose proof pp_dn as Pd.
  pose proof (Rabs_le_inv _ _ Ec) as Ec'. pose proof (Rabs_le_inv _ _ Eg) as Eg'. pose proof (Rabs_le_inv _ _ Ep) as Ep'. unfold slack in *.
  pose proof (pv_low L) as Pl. pose proof (pv_up L) as Pv. pose proof e2_more as E2. pose proof flat as Fl. pose proof axis_pos as Ax.
  assert (G1 : e2 * prime_vertical L <= 43000) by (apply Rle_trans with (e2 * (wgs84_axis / semi)); [apply Rmult_le_compat_l; lra|lra]).
  assert (G2 : 42000 <= e2 * prime_vertical L) by (apply Rle_trans with (e2 * wgs84_axis); [unfold wgs84_axis; lra|apply Rmult_le_compat_l; lra]).
  set (P := val p) in *. set (G := val g) in *. set (K := val c) in *.
  assert (P1 : 329 <= P <= 2 * 10 ^ 8) by lra. assert (K1 : 9 / 10 ^ 5 <= K <= 2) by lra. assert (Gb : 41000 <= G <= 44000) by lra.
  (* v *)
  assert (V0 : 100 <= P / K <= 10 ^ 13).
  { split; apply Rmult_le_reg_r with K; try lra; unfold Rdiv; rewrite Rmult_assoc, Rinv_l by lra; lra. }
  destruct (ddiv_ok p c Fp ltac:(fold K; lra) ltac:(fold P K; apply small_below_max; rewrite Rabs_pos_eq; lra)) as (Fv & Vv).
  change (val p / val c) with (P / K) in Vv. destruct (rnd_rel (P / K) (not_tiny (P / K) ltac:(lra))) as (a & Ha & Ra). rewrite Ra in Vv.
  pose proof (Rabs_le_inv _ _ Ha) as Ha'. pose proof u_pos as U0.
  assert (Us : u <= 1 / 10 ^ 15) by (rewrite u_val; lra).
  assert (V1 : 99 <= val (ddiv p c) <= 2 * 10 ^ 13). { rewrite Vv. pose proof (scaled (P / K) a 100 (10 ^ 13) V0 ltac:(lra) Ha). lra. }
  (* w *)
  assert (W0 : 1 / 10 ^ 10 <= G / val (ddiv p c) <= 500).
  { split; apply Rmult_le_reg_r with (val (ddiv p c)); try lra; replace (G / val (ddiv p c) * val (ddiv p c)) with G by (field; lra); lra. }
  destruct (ddiv_ok g (ddiv p c) Fg ltac:(lra) ltac:(fold G; apply small_below_max; rewrite Rabs_pos_eq; lra)) as (Fw & Vw).
  fold G in Vw. destruct (rnd_rel (G / val (ddiv p c)) (not_tiny (G / val (ddiv p c)) ltac:(lra))) as (b & Hb & Rb). rewrite Rb in Vw. pose proof (Rabs_le_inv _ _ Hb) as Hb'.
  set (w := ddiv g (ddiv p c)) in *.
  assert (W1 : P * val w = G * K * (/ (1 + a) * (1 + b))). { rewrite Vw, Vv. field. split; lra. }
  assert (W2 : 0 <= val w <= 1000) by (rewrite Vw; pose proof (scaled (G / val (ddiv p c)) b (1 / 10 ^ 10) 500 W0 ltac:(lra) Hb); lra).
  (* 1 - w *)
  destruct (dint_ok 1 ltac:(lia)) as (F1 & V1').
  destruct (dsub_ok (dint 1) w F1 Fw) as (Fq & Vq).
  { rewrite V1'. apply small_below_max, Rabs_le. lra. }
  destruct (minus_error (dint 1) w) as (e & He & Re). rewrite Re, V1' in Vq. set (q := dsub (dint 1) w) in *. pose proof (Rabs_le_inv _ _ He) as He'.
  (* the product is not tiny *)
  pose proof (one_over a Ha) as Oa. pose proof (Rabs_le_inv _ _ Oa) as Oa'.
  assert (M1 : Rabs (/ (1 + a) * (1 + b) - 1) <= 4 * u).
  { replace (/ (1 + a) * (1 + b) - 1) with ((/ (1 + a) - 1) * (1 + b) + b) by ring. eapply Rle_trans; [apply Rabs_triang|]. rewrite Rabs_mult.
    assert (Rabs (1 + b) <= 3 / 2) by (apply Rabs_le; lra). pose proof (Rabs_pos (/ (1 + a) - 1)).
    assert (Rabs (/ (1 + a) - 1) * Rabs (1 + b) <= 2 * u * (3 / 2)) by (apply Rmult_le_compat; try apply Rabs_pos; assumption). lra. }
  set (k := / (1 + a) * (1 + b)) in *. pose proof (Rabs_le_inv _ _ M1) as M1'.
  assert (GK : 0 <= G * K <= 44000 * (103 / 100 * cos phi)).
  { split; [apply Rmult_le_pos; lra|]. apply Rmult_le_compat; lra. }
  assert (Pc : 32 / 10 * 10 ^ 6 * cos phi <= P).
  { pose proof (rho_low phi h (proj1 Hh)) as Rl. pose proof (pp_rho phi h Hphi) as Pr. assert (Q : 33 / 10 * 10 ^ 6 * cos phi <= rho phi h * cos phi) by (apply Rmult_le_compat_r; lra). lra. }
  assert (GKk : 0 <= G * K * k <= 44000 * (104 / 100 * cos phi)).
  { split; [apply Rmult_le_pos; lra|]. apply Rle_trans with (44000 * (103 / 100 * cos phi) * (1001 / 1000)); [apply Rmult_le_compat; lra|lra]. }
  assert (Pq : P * (1 - val w) = P - G * K * k) by (rewrite <- W1; ring).
  assert (Pb : 300 <= P * (1 - val w) <= 2 * 10 ^ 8) by (rewrite Pq; lra).
  assert (Pv2 : P * val q = (P - G * K * k) * (1 + e)) by (rewrite Vq, <- Pq; ring).
  assert (Pb2 : 290 <= P * val q <= 3 * 10 ^ 8) by (rewrite Pv2, <- Pq; pose proof (scaled (P * (1 - val w)) e 300 (2 * 10 ^ 8) Pb ltac:(lra) He); lra).
  destruct (dmul_ok p q Fp Fq ltac:(fold P; apply small_below_max; rewrite Rabs_pos_eq; lra)) as (Fx & Vx). fold P in Vx.
  split; [exact Fx|]. rewrite Vx. pose proof (rnd_err (P * val q) (3 * 10 ^ 8) ltac:(rewrite Rabs_pos_eq; lra) ltac:(lra)) as X1.
  pose proof (Rabs_le_inv _ _ X1) as X1'. rewrite Pv2 in *. unfold dd.
  assert (X2 : Rabs ((P - G * K * k) * e) <= 2 * 10 ^ 8 * u) by (rewrite Rabs_mult; apply Rmult_le_compat; try apply Rabs_pos; [rewrite <- Pq, Rabs_pos_eq; lra|assumption]).
  pose proof (Rabs_le_inv _ _ X2) as X2'.
  assert (X3 : Rabs (G * K * (k - 1)) <= 90000 * (4 * u)) by (rewrite Rabs_mult; apply Rmult_le_compat; try apply Rabs_pos; [rewrite Rabs_pos_eq by lra; pose proof (COS_bound phi); lra|assumption]).
  pose proof (Rabs_le_inv _ _ X3) as X3'.
  assert (X4 : Rabs (G * K - e2 * (prime_vertical L * cos L)) <= 6 / 10 ^ 8).
  { replace (G * K - e2 * (prime_vertical L * cos L)) with ((G - e2 * prime_vertical L) * K + e2 * prime_vertical L * (K - cos L)) by ring.
    eapply Rle_trans; [apply Rabs_triang|]. rewrite !Rabs_mult, (Rabs_pos_eq K), (Rabs_pos_eq e2), (Rabs_pos_eq (prime_vertical L)) by lra.
    assert (Kb : K <= 101 / 100) by lra.
    assert (Rabs (G - e2 * prime_vertical L) * K <= 1 / 10 ^ 8 * (101 / 100)) by (apply Rmult_le_compat; try apply Rabs_pos; lra).
    assert (e2 * prime_vertical L * Rabs (K - cos L) <= 43000 * (1 / 10 ^ 12)) by (apply Rmult_le_compat; try apply Rabs_pos; lra). lra. }
  pose proof (Rabs_le_inv _ _ X4) as X4'. rewrite u_val in *.
  replace ((P - G * K * k) * (1 + e)) with (P - G * K - G * K * (k - 1) + (P - G * K * k) * e) in * by ring. apply Rabs_le. lra.
Qed.

Lemma arc_near : forall x r, near x r (1 / 10 ^ 6) -> 0 < val x -> is_finite (datan2 z x) = true /\ Rabs (val (datan2 z x) - atan (zz phi h / val x)) <= slack.
Proof.
  intros x r (F & _) P. destruct Hz as (Fz & Vz). destruct (lib_atan2 _ _ _ _ Lib z x Fz F (or_introl P)) as (Fa & Ea). split; [exact Fa|].
  change (real_of (datan2 z x)) with (val (datan2 z x)) in Ea. change (real_of z) with (val z) in Ea. change (real_of x) with (val x) in Ea.
  rewrite atan2_right in Ea by exact P. rewrite Vz in Ea. exact Ea.
Qed.

Lemma d_round_near : forall lat, is_finite lat = true -> close (val lat) ->
  is_finite (d_latitude_round dsin dcos datan2 p z lat) = true /\
  Rabs (val (d_latitude_round dsin dcos datan2 p z lat) - phi) <= / 40 * Rabs (val lat - phi) + 2 / 10 ^ 12.
Proof.
  intros lat F C. pose proof (near_divisor lat F C) as N. unfold d_latitude_round. set (x := dmul p _) in *.
  destruct (round_close (val lat) (val x) C (proj2 N)) as (P & A). destruct (arc_near x _ N P) as (Fa & Ea). split; [exact Fa|].
  pose proof (Rabs_triang (val (datan2 z x) - atan (zz phi h / val x)) (atan (zz phi h / val x) - phi)) as T.
  replace (val (datan2 z x) - atan (zz phi h / val x) + (atan (zz phi h / val x) - phi)) with (val (datan2 z x) - phi) in T by ring. unfold slack in *. lra.
Qed.
Lemma d_round_close : forall lat, is_finite lat = true -> close (val lat) -> close (val (d_latitude_round dsin dcos datan2 p z lat)).
Proof. intros lat F C. destruct (d_round_near lat F C) as (_ & B). unfold close in *. lra. Qed.

Lemma d_start_close : is_finite (d_latitude_start datan2 p z) = true /\ close (val (d_latitude_start datan2 p z)).
Proof.
  unfold d_latitude_start. pose proof e2_more as E. pose proof pp_up as Pu. pose proof pp_dn as Pd.
  assert (Q : near (dsub (dint 1) d_e2) (1 - e2) (4 / 10 ^ 16)).
  { eapply (near_sub _ _ _ _ 0 _ 1 (67 / 10000)); [apply near_int; lia|exact near_e2|rewrite Rabs_pos_eq; lra|rewrite Rabs_pos_eq; lra|cbn [pow]; lra|small]. }
  assert (N : near (dmul p (dsub (dint 1) d_e2)) (pp phi h * (1 - e2)) (1 / 10 ^ 6)).
  { eapply (near_mul _ _ _ _ _ _ (12 / 10 * 10 ^ 8) 1); [exact Hp|exact Q|rewrite Rabs_pos_eq; lra|rewrite Rabs_pos_eq; lra|cbn [pow]; lra|small]. }
  set (x := dmul p _) in *. destruct (start_close (val x) (proj2 N)) as (P & A). destruct (arc_near x _ N P) as (Fa & Ea). split; [exact Fa|].
  pose proof (Rabs_triang (val (datan2 z x) - atan (zz phi h / val x)) (atan (zz phi h / val x) - phi)) as T.
  replace (val (datan2 z x) - atan (zz phi h / val x) + (atan (zz phi h / val x) - phi)) with (val (datan2 z x) - phi) in T by ring. unfold slack, close in *. lra.
Qed.

(** ** The loop *)
Lemma deg_bounds : 45 <= 180 / PI <= 60.
Proof.
  pose proof PI_4. pose proof PI2_3_2. pose proof PI_RGT_0. split; apply Rmult_le_reg_r with PI; try lra; replace (180 / PI * PI) with 180 by (field; lra); lra.
Qed.
Lemma tolerance_eq : 926 / 10 ^ 8 / (180 / PI) = latitude_tolerance.
Proof. unfold latitude_tolerance, radians. pose proof PI_RGT_0. field. lra. Qed.
Lemma tolerance_bounds : 1 / 10 ^ 7 <= latitude_tolerance <= 3 / 10 ^ 7.
Proof. unfold latitude_tolerance, radians. pose proof PI_4. pose proof PI2_3_2. lra. Qed.
Lemma near_tolerance : near (ddiv (ddiv (dint 926) (dint (10 ^ 8))) deg) latitude_tolerance (1 / 10 ^ 16).
Proof.
  pose proof deg_bounds as D. pose proof tolerance_bounds as B. destruct (lib_deg _ _ _ _ Lib) as (Fd & Ed).
  assert (N : near (ddiv (dint 926) (dint (10 ^ 8))) (926 / 10 ^ 8) (1 / 10 ^ 20)).
  { replace (10 ^ 8)%R with (IZR (10 ^ 8)) by (change (10 ^ 8)%Z with 100000000%Z; lra).
    eapply (near_div _ _ _ _ 0 0 (1 / 10 ^ 5) 1); [apply near_int; lia|apply near_int; lia|lra| | | |].
    - change (10 ^ 8)%Z with 100000000%Z. lra.
    - change (10 ^ 8)%Z with 100000000%Z. rewrite Rabs_pos_eq; lra.
    - cbn [pow]. lra.
    - small. }
  rewrite <- tolerance_eq in *. eapply (near_div _ _ _ _ _ (1 / 10 ^ 9) (3 / 10 ^ 7) 44); [exact N|split; [exact Fd|exact Ed]|lra|lra|rewrite Rabs_pos_eq; lra|cbn [pow]; lra|small].
Qed.

Lemma dlt_val : forall x y : double, is_finite x = true -> is_finite y = true -> dlt x y = Rlt_bool (val x) (val y).
Proof. intros x y X Y. apply Bltb_correct; assumption. Qed.
Lemma dle_val : forall x y : double, is_finite x = true -> is_finite y = true -> dle x y = Rle_bool (val x) (val y).
Proof. intros x y X Y. apply Bleb_correct; assumption. Qed.

Lemma again_val : forall new old, is_finite new = true -> is_finite old = true -> Rabs (val new) <= 4 -> Rabs (val old) <= 4 ->
  (d_again deg new old = true -> latitude_tolerance - 1 / 10 ^ 14 <= Rabs (val new - val old)) /\
  (d_again deg new old = false -> Rabs (val new - val old) <= latitude_tolerance + 1 / 10 ^ 14).
Proof.
  intros new old Fn Fo Bn Bo. destruct near_tolerance as (Ft & Et). pose proof (Rabs_le_inv _ _ Et) as Et'.
  assert (N : near (dsub new old) (val new - val old) (5 / 10 ^ 15)).
  { eapply (near_sub _ _ _ _ 0 0 4 4); [split; [exact Fn|rewrite Rminus_diag_eq, Rabs_R0; lra]|split; [exact Fo|rewrite Rminus_diag_eq, Rabs_R0; lra]|exact Bn|exact Bo|cbn [pow]; lra|small]. }
  destruct N as (Fd & Ed). unfold d_again. rewrite dlt_val by (try rewrite is_finite_Babs; assumption). rewrite B2R_Babs.
  pose proof (Rabs_triang_inv2 (val (dsub new old)) (val new - val old)) as T. pose proof (Rabs_le_inv _ _ (Rle_trans _ _ _ T Ed)) as T'.
  destruct (Rlt_bool_spec (val (ddiv (ddiv (dint 926) (dint (10 ^ 8))) deg)) (Rabs (val (dsub new old)))) as [H|H]; split; intros Q; try discriminate; lra.
Qed.

Definition latitude_error : R := latitude_tolerance / 39 + 3 / 10 ^ 12.
Lemma d_loop_near : forall lat r, d_latitude_loop dsin dcos datan2 deg p z lat r -> is_finite lat = true -> close (val lat) ->
  is_finite r = true /\ close (val r) /\ Rabs (val r - phi) <= latitude_error.
Proof.
  intros lat r L. induction L as [lat S|lat r S L IH]; intros F C; destruct (d_round_near lat F C) as (Fr & Nr); pose proof (d_round_close lat F C) as Cr.
  - split; [exact Fr|]. split; [exact Cr|]. destruct (again_val _ lat Fr F (close_small _ Cr) (close_small _ C)) as (_ & A). specialize (A S).
    set (new := d_latitude_round dsin dcos datan2 p z lat) in *. pose proof (Rabs_triang (val lat - val new) (val new - phi)) as T.
    replace (val lat - val new + (val new - phi)) with (val lat - phi) in T by ring. rewrite (Rabs_minus_sym (val lat) (val new)) in T. unfold latitude_error. lra.
  - apply IH; assumption.
Qed.
Lemma d_loop_ends : forall n lat, is_finite lat = true -> close (val lat) -> Rabs (val lat - phi) <= 30 ^ n * (latitude_tolerance / 2) ->
  exists r, d_latitude_loop dsin dcos datan2 deg p z lat r.
Proof.
  pose proof tolerance_bounds as T. induction n as [|n IH]; intros lat F C B; destruct (d_round_near lat F C) as (Fr & Nr); pose proof (d_round_close lat F C) as Cr;
    destruct (again_val _ lat Fr F (close_small _ Cr) (close_small _ C)) as (A & _); set (new := d_latitude_round dsin dcos datan2 p z lat) in *.
  - exists new. apply d_loop_stop. fold new. destruct (d_again deg new lat); [|reflexivity]. exfalso. specialize (A eq_refl).
    pose proof (Rabs_triang (val new - phi) (phi - val lat)) as Tr. replace (val new - phi + (phi - val lat)) with (val new - val lat) in Tr by ring.
    rewrite (Rabs_minus_sym phi (val lat)) in Tr. cbn [pow] in B. lra.
  - destruct (d_again deg new lat) eqn:S; [|exists new; apply d_loop_stop; exact S].
    destruct (IH new Fr Cr) as (r & L).
    + cbn [pow] in B. assert (1 <= 30 ^ n) by (apply pow_R1_Rle; lra). assert (latitude_tolerance / 2 <= 30 ^ n * (latitude_tolerance / 2)) by (rewrite <- Rmult_1_l at 1; apply Rmult_le_compat_r; lra). lra.
    + exists r. apply d_loop_more; [exact S|exact L].
Qed.
Lemma d_loop_start : exists r, d_latitude_loop dsin dcos datan2 deg p z (d_latitude_start datan2 p z) r.
Proof.
  destruct d_start_close as (F & C). apply (d_loop_ends 4 _ F C). unfold close in C. pose proof tolerance_bounds. pose proof (COS_bound phi). lra.
Qed.

(** ** Back to degrees and again *)
Lemma d_canonical_ok : forall lat lon, is_finite lat = true -> is_finite lon = true -> Rabs (val lat) <= PI / 2 - 9 / 10 ^ 5 -> Rabs (val lon) <= PI - 9 / 10 ^ 10 ->
  exists lat' lon', d_canonical deg lat lon = Ok (lat', lon') /\ near lat' (val lat) (1 / 10 ^ 14) /\ near lon' (val lon) (1 / 10 ^ 14).
Proof.
  intros lat lon Fa Fo Ba Bo. pose proof deg_bounds as D. destruct (lib_deg _ _ _ _ Lib) as (Fd & Ed). change (real_of deg) with (val deg) in Ed. pose proof (Rabs_le_inv _ _ Ed) as Ed'.
  pose proof PI_4 as P4. pose proof PI2_3_2 as P3. pose proof PI_RGT_0 as P0.
  assert (Nd : near deg (val deg) 0) by (split; [exact Fd|rewrite Rminus_diag_eq, Rabs_R0; lra]).
  assert (Na : near lat (val lat) 0) by (split; [exact Fa|rewrite Rminus_diag_eq, Rabs_R0; lra]).
  assert (No : near lon (val lon) 0) by (split; [exact Fo|rewrite Rminus_diag_eq, Rabs_R0; lra]).
  assert (Xa : near (dmul lat deg) (val lat * val deg) (5 / 10 ^ 14)).
  { eapply (near_mul _ _ _ _ _ _ 2 61); [exact Na|exact Nd|lra|rewrite (Rabs_pos_eq (val deg)); lra|lra|small]. }
  assert (Xo : near (dmul lon deg) (val lon * val deg) (1 / 10 ^ 13)).
  { eapply (near_mul _ _ _ _ _ _ 4 61); [exact No|exact Nd|lra|rewrite (Rabs_pos_eq (val deg)); lra|lra|small]. }
  assert (Q : forall t w, 0 <= t -> Rabs w <= t -> Rabs (w * val deg) <= t * (180 / PI) + t * (1 / 10 ^ 9)).
  { intros t w T W. rewrite Rabs_mult, (Rabs_pos_eq (val deg)) by lra. apply Rle_trans with (t * val deg); [apply Rmult_le_compat_r; lra|].
    rewrite <- Rmult_plus_distr_l. apply Rmult_le_compat_l; lra. }
  assert (Ya : Rabs (val lat * val deg) <= 90 - 1 / 10 ^ 3).
  { eapply Rle_trans; [apply (Q (PI / 2 - 9 / 10 ^ 5)); lra|]. replace ((PI / 2 - 9 / 10 ^ 5) * (180 / PI)) with (90 - 9 / 10 ^ 5 * (180 / PI)) by (field; lra). lra. }
  assert (Yo : Rabs (val lon * val deg) <= 180 - 1 / 10 ^ 8).
  { eapply Rle_trans; [apply (Q (PI - 9 / 10 ^ 10)); lra|]. replace ((PI - 9 / 10 ^ 10) * (180 / PI)) with (180 - 9 / 10 ^ 10 * (180 / PI)) by (field; lra). lra. }
  pose proof (near_val _ _ _ _ Xa Ya) as Va. pose proof (near_val _ _ _ _ Xo Yo) as Vo. apply Rabs_le_inv in Va. apply Rabs_le_inv in Vo.
  destruct (dint_ok 90 ltac:(lia)) as (F90 & V90). destruct (dint_ok (- 90) ltac:(lia)) as (F90' & V90'). destruct (dint_ok 180 ltac:(lia)) as (F180 & V180). destruct (dint_ok (- 180) ltac:(lia)) as (F180' & V180').
  pose proof (proj1 Xa) as Fxa. pose proof (proj1 Xo) as Fxo.
  exists (ddiv (dmul lat deg) deg), (ddiv (dmul lon deg) deg). split; [|split].
  - unfold d_canonical. rewrite (dlt_val (dint 90)), V90, Rlt_bool_false by (assumption || lra). rewrite (dlt_val _ (dint (- 90))), V90', Rlt_bool_false by (assumption || lra).
    assert (Eq : Beqb (dmul lon deg) (dint 180) = false) by (rewrite Beqb_correct by assumption; rewrite V180; apply Req_bool_false; lra). rewrite Eq.
    rewrite (dle_val (dint (- 180))), V180', Rle_bool_true by (assumption || lra). rewrite (dlt_val _ (dint 180)), V180, Rlt_bool_true by (assumption || lra).
    rewrite (dle_val (dint (- 90))), V90', Rle_bool_true by (assumption || lra). rewrite (dle_val _ (dint 90)), V90, Rle_bool_true by (assumption || lra). reflexivity.
  - assert (E : val lat * val deg / val deg = val lat) by (field; lra). cut (near (ddiv (dmul lat deg) deg) (val lat * val deg / val deg) (1 / 10 ^ 14)); [rewrite E; trivial|].
    eapply (near_div _ _ _ _ _ 0 4 44); [exact Xa|exact Nd|lra|lra|replace (val lat * val deg / val deg) with (val lat) by (field; lra); lra|cbn [pow]; lra|small].
  - assert (E : val lon * val deg / val deg = val lon) by (field; lra). cut (near (ddiv (dmul lon deg) deg) (val lon * val deg / val deg) (1 / 10 ^ 14)); [rewrite E; trivial|].
    eapply (near_div _ _ _ _ _ 0 4 44); [exact Xo|exact Nd|lra|lra|replace (val lon * val deg / val deg) with (val lon) by (field; lra); lra|cbn [pow]; lra|small].
Qed.
End Doubles.
End Point.

(** * The distance from the axis *)
Lemma axis_near : forall pos phi lambda h, - (PI / 2) < phi < PI / 2 -> 1 / 10 ^ 4 <= cos phi -> - 3000000 <= h <= 10 ^ 8 -> stands_at pos phi lambda h ->
  near (d_axis_distance pos) (pp phi h) (2 / 10 ^ 7).
Proof.
  intros pos phi lambda h Hp Hc Hh ((Fx & X) & (Fy & Y) & (Fz & Z)). unfold at_height in X, Y, Z; cbn [vx vy vz] in X, Y, Z. fold (pp phi h) in X, Y. fold (rho phi h) in Z.
  pose proof (pp_up phi h Hh) as Pu. pose proof (pp_dn phi h Hp Hc Hh) as Pd.
  assert (Far : 10 ^ 9 <= far).
  { unfold far. apply Rle_trans with (bpow radix2 53); [change (bpow radix2 53) with 9007199254740992; lra|apply bpow_le; lia]. }
  assert (Bd : forall a b, Rabs a <= 10 ^ 9 -> Rabs b <= 1 -> Rabs (a * b) <= far).
  { intros a b A B. rewrite Rabs_mult. apply Rle_trans with (10 ^ 9 * 1); [apply Rmult_le_compat; try apply Rabs_pos; assumption|lra]. }
  assert (Sb : forall t, Rabs (sin t) <= 1) by (intros t; pose proof (SIN_bound t); apply Rabs_le; lra).
  assert (Cb : forall t, Rabs (cos t) <= 1) by (intros t; pose proof (COS_bound t); apply Rabs_le; lra).
  assert (Rh : Rabs (rho phi h) <= 10 ^ 9).
  { pose proof (rho_low phi h (proj1 Hh)). rewrite Rabs_pos_eq by lra. unfold rho. pose proof (pv_up phi) as U. pose proof e2_more. pose proof semi_bounds. pose proof (pv_low phi). pose proof axis_pos.
    assert (wgs84_axis / semi <= 6400000).
    { apply Rmult_le_reg_r with semi; [lra|]. unfold Rdiv. rewrite Rmult_assoc, Rinv_l by lra. unfold wgs84_axis. lra. }
    assert (prime_vertical phi * (1 - e2) <= 6400000 * 1) by (apply Rmult_le_compat; lra). lra. }
  assert (I1 : inside far pos).
  { repeat split; try assumption; [rewrite X|rewrite Y|rewrite Z]; apply Bd; auto; rewrite Rabs_pos_eq; lra. }
  assert (I2 : inside far (mkDvec (dint 0) (dint 0) (dvz pos))).
  { destruct (dint_ok 0 ltac:(lia)) as (F0 & V0). repeat split; cbn [dvx dvy dvz]; try assumption; try apply I1; unfold real_of; rewrite V0, Rabs_R0; lra. }
  destruct (distance_close pos (mkDvec (dint 0) (dint 0) (dvz pos)) I1 I2) as (Fd & P0 & _ & B).
  assert (S : square_of_distance (place pos) (place (mkDvec (dint 0) (dint 0) (dvz pos))) = pp phi h * pp phi h).
  { unfold square_of_distance, place; cbn [px py pz dvx dvy dvz]. destruct (dint_ok 0 ltac:(lia)) as (_ & V0). change (real_of (dint 0)) with (val (dint 0)). rewrite X, Y, V0.
    transitivity (pp phi h * pp phi h * (sin lambda * sin lambda + cos lambda * cos lambda)); [ring|]. rewrite trig1. ring. }
  rewrite S in B. split; [exact Fd|]. unfold d_axis_distance. set (d := val (ddistance pos _)) in *.
  assert (Eta : eta <= 1 / 10 ^ 20).
  { unfold eta. apply Rle_trans with (bpow radix2 (-100)); [apply bpow_le; lia|]. change (bpow radix2 (-100)) with (/ 1267650600228229401496703205376). lra. }
  assert (D : Rabs (d - pp phi h) * (d + pp phi h) <= pp phi h * pp phi h * (9 * u) + 5 * eta).
  { rewrite <- (Rabs_pos_eq (d + pp phi h)) by lra. rewrite <- Rabs_mult. replace ((d - pp phi h) * (d + pp phi h)) with (d ^ 2 - pp phi h * pp phi h) by ring. apply Rabs_le. lra. }
  assert (Q : pp phi h * pp phi h * (9 * u) <= pp phi h * (12 / 10 * 10 ^ 8 * (9 * u))).
  { rewrite Rmult_assoc. apply Rmult_le_compat_l; [lra|]. apply Rmult_le_compat_r; [pose proof u_pos; lra|exact Pu]. }
  pose proof (Rabs_pos (d - pp phi h)) as A0. rewrite u_val in *.
  assert (W : Rabs (d - pp phi h) * pp phi h <= Rabs (d - pp phi h) * (d + pp phi h)) by (apply Rmult_le_compat_l; lra).
  apply Rmult_le_reg_r with (pp phi h); [lra|]. lra.
Qed.

Lemma d_loop_fun : forall dsin dcos datan2 deg p z lat r, d_latitude_loop dsin dcos datan2 deg p z lat r -> forall r', d_latitude_loop dsin dcos datan2 deg p z lat r' -> r = r'.
Proof. intros dsin dcos datan2 deg p z lat r L. induction L as [lat S|lat r S L IH]; intros r' L'; inversion L'; subst; auto; congruence. Qed.
