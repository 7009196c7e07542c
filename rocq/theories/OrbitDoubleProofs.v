From Coq Require Import ZArith Reals Bool Lra Lia Psatz.
From Flocq Require Import Core BinarySingleNaN.
From Verif Require Import Base OrbitModel OrbitSpec OrbitProofs GeodeticProofs DoubleModel DoubleSpec DoubleProofs GeoDoubleProofs OrbitDoubleModel OrbitDoubleSpec.
Open Scope R_scope.

(** * Errors in proportion *)
Definition rel (x : double) (r d : R) : Prop := is_finite x = true /\ 0 < r /\ Rabs (val x - r) <= d * r.

Lemma big_below_max : forall x, Rabs x <= 10 ^ 30 -> Rabs x <= bpow radix2 1023.
Proof.
  intros x H. eapply Rle_trans; [exact H|]. apply Rle_trans with (bpow radix2 100); [|apply bpow_le; lia].
  change (bpow radix2 100) with 1267650600228229401496703205376. lra.
Qed.
Lemma rel_rnd : forall x t r d, is_double x (rnd t) -> 1 / 10 ^ 30 <= r -> d <= 1 / 100 -> Rabs (t - r) <= d * r -> forall f, d + 2 * u <= f -> rel x r f.
Proof.
  intros x t r d (F & V) R D T f H. split; [exact F|]. split; [lra|]. rewrite V.
  pose proof (Rabs_le_inv _ _ T) as T'. assert (Dr : d * r <= 1 / 100 * r) by (apply Rmult_le_compat_r; lra).
  destruct (rnd_rel t) as (e & E & ->).
  { rewrite Rabs_pos_eq by lra. apply Rle_trans with (bpow radix2 (-200)); [apply bpow_le; lia|]. change (bpow radix2 (-200)) with (/ 1606938044258990275541962092341162602522202993782792835301376). lra. }
  replace (t * (1 + e) - r) with ((t - r) + t * e) by ring. eapply Rle_trans; [apply Rabs_triang|]. rewrite Rabs_mult, (Rabs_pos_eq t) by lra.
  pose proof u_pos. assert (t * Rabs e <= 2 * r * u) by (apply Rmult_le_compat; try apply Rabs_pos; lra).
  assert (d * r + 2 * r * u <= f * r) by nra. lra.
Qed.
Lemma rel_mul : forall x y a b d e, rel x a d -> rel y b e -> 0 <= d <= 1 / 1000 -> 0 <= e <= 1 / 1000 -> 1 / 10 ^ 30 <= a * b <= 10 ^ 29 ->
  forall f, d + e + d * e + 2 * u <= f -> rel (dmul x y) (a * b) f.
Proof.
  intros x y a b d e (Fx & A & Ex) (Fy & B & Ey) D E M f H.
  assert (T : Rabs (val x * val y - a * b) <= (d + e + d * e) * (a * b)).
  { replace (val x * val y - a * b) with ((val x - a) * b + (val y - b) * a + (val x - a) * (val y - b)) by ring.
    eapply Rle_trans; [apply Rabs_triang|]. pose proof (Rabs_triang ((val x - a) * b) ((val y - b) * a)) as T. rewrite !Rabs_mult, (Rabs_pos_eq a), (Rabs_pos_eq b) in * by lra.
    assert (Rabs (val x - a) * b <= d * a * b) by (apply Rmult_le_compat_r; lra). assert (Rabs (val y - b) * a <= e * b * a) by (apply Rmult_le_compat_r; lra).
    assert (Rabs (val x - a) * Rabs (val y - b) <= (d * a) * (e * b)) by (apply Rmult_le_compat; try apply Rabs_pos; assumption). lra. }
  apply (rel_rnd _ (val x * val y) _ (d + e + d * e)); [|lra|nra|exact T|exact H].
  apply dmul_ok; [exact Fx|exact Fy|]. apply big_below_max. pose proof (Rabs_triang (val x * val y - a * b) (a * b)) as Tr. replace (val x * val y - a * b + a * b) with (val x * val y) in Tr by ring.
  rewrite (Rabs_pos_eq (a * b)) in Tr by lra. assert ((d + e + d * e) * (a * b) <= 1 * (a * b)) by (apply Rmult_le_compat_r; [lra|nra]). lra.
Qed.
Lemma rel_div : forall x y a b d e, rel x a d -> rel y b e -> 0 <= d <= 1 / 1000 -> 0 <= e <= 1 / 1000 -> 1 / 10 ^ 30 <= a / b <= 10 ^ 29 ->
  forall f, 2 * (d + e) + 2 * u <= f -> rel (ddiv x y) (a / b) f.
Proof.
  intros x y a b d e (Fx & A & Ex) (Fy & B & Ey) D E M f H.
  apply Rabs_le_inv in Ex. apply Rabs_le_inv in Ey. assert (Eb : e * b <= 1 / 1000 * b) by (apply Rmult_le_compat_r; lra). assert (Yp : b / 2 <= val y) by lra.
  assert (T : Rabs (val x / val y - a / b) <= 2 * (d + e) * (a / b)).
  { replace (val x / val y - a / b) with (((val x - a) * b - a * (val y - b)) * / b * / val y) by (field; lra).
    replace (2 * (d + e) * (a / b)) with ((d + e) * a * b * / b * / (b / 2)) by (field; lra).
    rewrite !Rabs_mult, (Rabs_pos_eq (/ b)), (Rabs_pos_eq (/ val y)) by (apply Rlt_le, Rinv_0_lt_compat; lra).
    apply Rmult_le_compat; [apply Rmult_le_pos; [apply Rabs_pos|]; apply Rlt_le, Rinv_0_lt_compat; lra|apply Rlt_le, Rinv_0_lt_compat; lra| |apply Rinv_le_contravar; lra].
    apply Rmult_le_compat_r; [apply Rlt_le, Rinv_0_lt_compat; lra|]. apply Rabs_le.
    assert (- (d * a * b) <= (val x - a) * b <= d * a * b) by (split; [replace (- (d * a * b)) with (- (d * a) * b) by ring|]; apply Rmult_le_compat_r; lra).
    assert (- (a * (e * b)) <= a * (val y - b) <= a * (e * b)) by (split; [replace (- (a * (e * b))) with (a * - (e * b)) by ring|]; apply Rmult_le_compat_l; lra). lra. }
  apply (rel_rnd _ (val x / val y) _ (2 * (d + e))); [|lra|lra|exact T|exact H].
  apply ddiv_ok; [exact Fx|lra|]. apply big_below_max. pose proof (Rabs_triang (val x / val y - a / b) (a / b)) as Tr. replace (val x / val y - a / b + a / b) with (val x / val y) in Tr by ring.
  rewrite (Rabs_pos_eq (a / b)) in Tr by lra. assert (2 * (d + e) * (a / b) <= 1 * (a / b)) by (apply Rmult_le_compat_r; lra). lra.
Qed.
Lemma rel_self : forall x, is_finite x = true -> 0 < val x -> rel x (val x) 0.
Proof. intros x F P. split; [exact F|]. split; [exact P|]. rewrite Rminus_diag_eq, Rabs_R0 by reflexivity. lra. Qed.

(** * The mean motion *)
Lemma rel_g : rel d_big_g big_g (2 * u).
Proof.
  destruct near_ten16 as (F & E). assert (V : val (dint (10 ^ 16)) = 10 ^ 16) by (apply Rabs_le_inv in E; lra). destruct (dint_ok 667430 ltac:(lia)) as (F' & V').
  pose proof u_pos. replace big_g with (667430 / 10 ^ 16) by reflexivity. apply (rel_rnd _ (667430 / 10 ^ 16) _ 0); try lra.
  - rewrite <- V', <- V. apply ddiv_ok; [exact F'|rewrite V; lra|]. apply big_below_max. rewrite V, V', Rabs_pos_eq; lra.
  - rewrite Rminus_diag_eq, Rabs_R0 by reflexivity. lra.
Qed.
Lemma rel_mass : rel d_earth_mass earth_mass (2 * u).
Proof.
  pose proof u_pos. assert (E : IZR (597 * 10 ^ 22) * bpow radix2 0 = earth_mass).
  { change (bpow radix2 0) with 1. unfold earth_mass. change (597 * 10 ^ 22)%Z with 5970000000000000000000000%Z. lra. }
  apply (rel_rnd _ earth_mass _ 0); try lra.
  - rewrite <- E. apply dnum_ok. rewrite E. apply big_below_max. unfold earth_mass. rewrite Rabs_pos_eq; lra.
  - unfold earth_mass. lra.
  - rewrite Rminus_diag_eq, Rabs_R0 by reflexivity. lra.
Qed.
Lemma sqrt_rel : forall x a d, 0 < a -> 0 <= d <= 1 / 100 -> Rabs (x - a) <= d * a -> Rabs (sqrt x - sqrt a) <= d * sqrt a.
Proof.
  intros x a d A D E. apply Rabs_le_inv in E. assert (d * a <= 1 / 100 * a) by (apply Rmult_le_compat_r; lra).
  pose proof (sqrt_lt_R0 a A) as S. assert (X : 0 < x) by lra. pose proof (sqrt_lt_R0 x X) as Sx. pose proof (sqrt_sqrt a ltac:(lra)) as Qa. pose proof (sqrt_sqrt x ltac:(lra)) as Qx.
  set (s := sqrt a) in *. set (q := sqrt x) in *. apply Rabs_le. split.
  - destruct (Rle_or_lt (- (d * s)) (q - s)) as [L|L]; [exact L|exfalso]. assert (q < (1 - d) * s) by lra. assert (q * q < (1 - d) * s * ((1 - d) * s)) by (apply Rmult_le_0_lt_compat; lra).
    assert (d * d * (s * s) <= d * (s * s)) by (apply Rmult_le_compat_r; nra). nra.
  - destruct (Rle_or_lt (q - s) (d * s)) as [L|L]; [exact L|exfalso]. assert ((1 + d) * s < q) by lra. assert ((1 + d) * s * ((1 + d) * s) < q * q) by (apply Rmult_le_0_lt_compat; nra).
    assert (0 <= d * d * (s * s)) by nra. nra.
Qed.

Section Library.
Context (dsin dcos dhalf : double -> double) (datan2 : double -> double -> double) (twopi dpi : double) (L : orbit_library dsin dcos dhalf datan2 twopi dpi).

Lemma cube_near : forall r, is_finite r = true -> earth_radius <= val r <= 5 * 10 ^ 7 ->
  1 / 10 ^ 12 <= big_g * earth_mass / val r ^ 3 <= 1 / 600000 /\ 25 * 10 ^ 19 <= val r ^ 3 <= 125 * 10 ^ 21.
Proof.
  intros r F R. unfold earth_radius in R. set (v := val r) in *.
  assert (C : 25 * 10 ^ 19 <= v ^ 3 <= 125 * 10 ^ 21).
  { assert (6371009 * 6371009 <= v * v <= 5 * 10 ^ 7 * (5 * 10 ^ 7)) by (split; apply Rmult_le_compat; lra).
    replace (v ^ 3) with (v * v * v) by ring. split.
    - apply Rle_trans with (6371009 * 6371009 * 6371009); [lra|]. apply Rmult_le_compat; lra.
    - apply Rle_trans with (5 * 10 ^ 7 * (5 * 10 ^ 7) * (5 * 10 ^ 7)); [|lra]. apply Rmult_le_compat; nra. }
  split; [|exact C]. unfold big_g, earth_mass. split.
  - apply (Rmult_le_reg_r (v ^ 3)); [lra|]. unfold Rdiv at 2. rewrite Rmult_assoc, Rinv_l by lra. lra.
  - apply (Rmult_le_reg_r (v ^ 3)); [lra|]. unfold Rdiv at 1. rewrite Rmult_assoc, Rinv_l by lra. lra.
Qed.
Lemma motion_near : forall r, is_finite r = true -> earth_radius <= val r <= 5 * 10 ^ 7 ->
  is_finite (d_motion dhalf r) = true /\ Rabs (val (d_motion dhalf r) - mean_motion (val r)) <= 4 / 10 ^ 15 * mean_motion (val r) /\ 0 < mean_motion (val r) <= 1 / 770.
Proof.
  intros r F R. destruct (cube_near r F R) as (Q & C). assert (R0 : 0 < val r) by (unfold earth_radius in R; lra). pose proof u_val as U. pose proof u_pos as U0. pose proof (rel_self r F R0) as Sr.
  unfold earth_radius in R.
  assert (C1 : rel (dmul r r) (val r * val r) (2 * u)) by (apply (rel_mul _ _ _ _ 0 0 Sr Sr); try lra; split; nra).
  assert (C2 : rel (dmul r (dmul r r)) (val r * (val r * val r)) (5 * u)) by (apply (rel_mul _ _ _ _ 0 (2 * u) Sr C1); try lra; replace (val r * (val r * val r)) with (val r ^ 3) by ring; lra).
  assert (C3 : rel (dmul d_big_g d_earth_mass) (big_g * earth_mass) (7 * u)) by (apply (rel_mul _ _ _ _ (2 * u) (2 * u) rel_g rel_mass); try (unfold big_g, earth_mass; lra); rewrite U; lra).
  replace (val r * (val r * val r)) with (val r ^ 3) in C2 by ring.
  assert (C4 : rel (ddiv (dmul d_big_g d_earth_mass) (dmul r (dmul r r))) (big_g * earth_mass / val r ^ 3) (26 * u)).
  { apply (rel_div _ _ _ _ (7 * u) (5 * u) C3 C2); lra. }
  destruct C4 as (F4 & P4 & E4). unfold mean_motion. set (a := big_g * earth_mass / val r ^ 3) in *. set (x := ddiv (dmul d_big_g d_earth_mass) (dmul r (dmul r r))) in *.
  pose proof (Rabs_le_inv _ _ E4) as E4'. assert (26 * u * a <= 1 / 100 * a) by (apply Rmult_le_compat_r; lra).
  destruct (ol_half _ _ _ _ _ _ L x F4) as (Fh & Eh).
  { change (real_of x) with (val x). split; [|lra]. assert (Bt : 1 / 10 ^ 9 <= a).
    { unfold a, big_g, earth_mass. apply (Rmult_le_reg_r (val r ^ 3)); [lra|]. unfold Rdiv at 2. rewrite Rmult_assoc, Rinv_l by lra. lra. } lra. }
  change real_of with val in Eh. fold x. change (dhalf x) with (d_motion dhalf r) in *. split; [exact Fh|].
  pose proof (sqrt_rel (val x) a (26 * u) P4 ltac:(lra) E4) as Sq. pose proof (sqrt_lt_R0 a P4) as Sp. apply Rabs_le_inv in Sq. apply Rabs_le_inv in Eh. unfold tight in Eh.
  assert (Sx : sqrt (val x) <= 2 * sqrt a) by (assert (26 * u * sqrt a <= 1 * sqrt a) by (apply Rmult_le_compat_r; lra); lra).
  split.
  - apply Rabs_le. rewrite U in Sq. lra.
  - split; [exact Sp|]. apply Rsqr_incr_0; [|lra|lra]. unfold Rsqr. rewrite sqrt_sqrt by lra. lra.
Qed.

(** * The true anomaly *)
Lemma sin_close : forall a b, Rabs (sin a - sin b) <= Rabs (a - b).
Proof.
  intros a b. pose proof (cos_close (PI / 2 - a) (PI / 2 - b)) as C. rewrite !cos_shift in C.
  replace (PI / 2 - a - (PI / 2 - b)) with (- (a - b)) in C by ring. rewrite Rabs_Ropp in C. exact C.
Qed.
Lemma small_angle : forall b, - PI < b <= PI -> 0 < cos b -> Rabs b <= 2 * Rabs (sin b).
Proof.
  intros b B C. pose proof PI_RGT_0 as P. assert (H : Rabs b <= PI / 2).
  { apply Rabs_le. split.
    - destruct (Rle_or_lt (- (PI / 2)) b) as [K|K]; [exact K|exfalso]. pose proof (cos_le_0 (- b) ltac:(lra) ltac:(lra)) as N. rewrite cos_neg in N. lra.
    - destruct (Rle_or_lt b (PI / 2)) as [K|K]; [exact K|exfalso]. pose proof (cos_le_0 b ltac:(lra) ltac:(lra)). lra. }
  pose proof (sin_back b H). pose proof (Rabs_pos (sin b)). lra.
Qed.
Lemma turn_of : forall d, exists (k : Z) b, d = b + 2 * IZR k * PI /\ - PI < b <= PI /\ cos b = cos d /\ sin b = sin d.
Proof.
  intros d. destruct (atan2_polar (sin d) (cos d)) as (C & S). pose proof (atan2_bound (sin d) (cos d)) as B. set (b := atan2 (sin d) (cos d)) in *.
  replace (cos d * cos d + sin d * sin d) with 1 in C, S by (pose proof (sin2_cos2 d) as T; unfold Rsqr in T; lra). rewrite sqrt_1, Rmult_1_l in C, S.
  destruct (same_angle d b C S) as (k & K). exists k, b. split; [exact K|]. split; [exact B|]. split; symmetry; assumption.
Qed.
Lemma near_add : forall x y a b ea eb A B, near x a ea -> near y b eb -> Rabs a <= A -> Rabs b <= B -> 1 / 10 ^ 20 <= A + ea + B + eb <= 10 ^ 15 ->
  forall f, ea + eb + 2 * u * (A + ea + B + eb) <= f -> near (dadd x y) (a + b) f.
Proof.
  intros x y a b ea eb A B X Y Ha Hb M f H. pose proof (near_val _ _ _ _ X Ha) as Vx. pose proof (near_val _ _ _ _ Y Hb) as Vy.
  destruct X as (Fx & Ex), Y as (Fy & Ey).
  assert (P : Rabs (val x + val y) <= A + ea + B + eb) by (pose proof (Rabs_triang (val x) (val y)) as T; lra).
  eapply near_rnd; [apply dadd_ok; [exact Fx|exact Fy|]| |exact P|lra|exact H].
  - apply small_below_max. lra.
  - replace (val x + val y - (a + b)) with ((val x - a) + (val y - b)) by ring. eapply Rle_trans; [apply Rabs_triang|]. lra.
Qed.
Lemma near_self : forall x, is_finite x = true -> near x (val x) 0.
Proof. intros x F. split; [exact F|]. rewrite Rminus_diag_eq, Rabs_R0 by reflexivity. lra. Qed.
Lemma near_shift : forall x r s e, near x r e -> forall f, e + Rabs (r - s) <= f -> near x s f.
Proof.
  intros x r s e (F & E) f H. split; [exact F|]. pose proof (Rabs_triang (val x - r) (r - s)) as T. replace (val x - r + (r - s)) with (val x - s) in T by ring. lra.
Qed.

Lemma arc_of_half : forall h, is_finite h = true -> Rabs (val h) <= 1000 ->
  exists k : Z, near (datan2 (dsin h) (dcos h)) (val h + 2 * IZR k * PI) (1 / 10 ^ 14) /\ Rabs (val (datan2 (dsin h) (dcos h))) <= PI + tight.
Proof.
  intros h F B. destruct (ol_sin _ _ _ _ _ _ L h F B) as (Fs & Es). destruct (ol_cos _ _ _ _ _ _ L h F B) as (Fc & Ec). change real_of with val in Es, Ec.
  set (s := val (dsin h)) in *. set (c := val (dcos h)) in *. set (v := val h) in *. unfold tight in *.
  pose proof (sin2_cos2 v) as T. unfold Rsqr in T. pose proof (SIN_bound v) as Sb. pose proof (COS_bound v) as Cb. apply Rabs_le_inv in Es. apply Rabs_le_inv in Ec.
  assert (N : 1 - 1 / 10 ^ 13 <= c * c + s * s <= 1 + 1 / 10 ^ 13).
  { replace (c * c + s * s) with (sin v * sin v + cos v * cos v + 2 * (s - sin v) * sin v + (s - sin v) * (s - sin v) + 2 * (c - cos v) * cos v + (c - cos v) * (c - cos v)) by ring.
    set (p := s - sin v) in *. set (q := c - cos v) in *. rewrite T. nra. }
  destruct (ol_atan2 _ _ _ _ _ _ L (dsin h) (dcos h) Fs Fc) as (a & k & A & K & X & Y & Fa & Ea); [change real_of with val; fold s c; lra|].
  change real_of with val in X, Y, Ea. fold s in Y. fold c in X. unfold tight in Ea.
  destruct (turn_of (a - v)) as (n & b & D & Bb & Cd & Sd). exists n.
  assert (K2 : k * k = c * c + s * s) by (rewrite X, Y; pose proof (sin2_cos2 a) as Ta; unfold Rsqr in Ta; replace (k * cos a * (k * cos a) + k * sin a * (k * sin a)) with (k * k * (sin a * sin a + cos a * cos a)) by ring; rewrite Ta; ring).
  assert (K1 : 9 / 10 <= k <= 2) by (split; nra).
  assert (Sk : k * sin b = (s - sin v) * cos v - (c - cos v) * sin v) by (rewrite Sd, sin_minus, X, Y; ring).
  assert (Ck : k * cos b = 1 + (c - cos v) * cos v + (s - sin v) * sin v).
  { rewrite Cd, cos_minus. rewrite <- T. replace (sin v * sin v + cos v * cos v + (c - cos v) * cos v + (s - sin v) * sin v) with (c * cos v + s * sin v) by ring. rewrite X, Y. ring. }
  assert (C0 : 0 < cos b) by nra.
  assert (S0 : Rabs (sin b) <= 3 / 10 ^ 15).
  { set (p := s - sin v) in *. set (q := c - cos v) in *. assert (H : Rabs (k * sin b) <= 2 / 10 ^ 15) by (rewrite Sk; apply Rabs_le; split; nra). rewrite Rabs_mult, (Rabs_pos_eq k) in H by lra.
    pose proof (Rabs_pos (sin b)). nra. }
  pose proof (small_angle b Bb C0) as Sm. split.
  - split; [exact Fa|]. apply Rabs_le_inv in Ea. assert (Sm' : Rabs b <= 6 / 10 ^ 15) by lra. apply Rabs_le_inv in Sm'. apply Rabs_le. lra.
  - apply Rabs_le_inv in Ea. apply Rabs_le_inv in A. apply Rabs_le. lra.
Qed.

Lemma near_turn : near twopi (2 * PI) (1 / 10 ^ 15).
Proof. exact (ol_turn _ _ _ _ _ _ L). Qed.
Lemma turns_rounded : forall a b (m : Z), is_finite a = true -> is_finite b = true -> Rabs (val a) <= 950 -> Rabs (val b) <= 950 -> Rabs (IZR m) <= 160 ->
  Rabs (val a - val b - IZR m * (2 * PI)) <= 4 / 10 ^ 13 -> near (dmul (dround (ddiv (dsub a b) twopi)) twopi) (IZR m * (2 * PI)) (45 / 10 ^ 14).
Proof.
  intros a b m Fa Fb Ba Bb M H. pose proof PI2_3_2 as P3. pose proof PI_4 as P4.
  assert (D : near (dsub a b) (IZR m * (2 * PI)) (1 / 10 ^ 12)).
  { apply (near_shift _ (val a - val b) _ (5 / 10 ^ 13)); [|lra]. apply (near_sub _ _ _ _ 0 0 950 950 (near_self a Fa) (near_self b Fb) Ba Bb); small. }
  assert (Q : near (ddiv (dsub a b) twopi) (IZR m * (2 * PI) / (2 * PI)) (1 / 10 ^ 3)).
  { apply (near_div _ _ _ _ (1 / 10 ^ 12) (1 / 10 ^ 15) 160 5 D near_turn); [lra|lra| |small|small]. replace (IZR m * (2 * PI) / (2 * PI)) with (IZR m) by (field; lra). exact M. }
  replace (IZR m * (2 * PI) / (2 * PI)) with (IZR m) in Q by (field; lra). destruct Q as (Fq & Eq). destruct (dround_ok _ Fq) as (Fr & Vr).
  rewrite (Znearest_imp _ _ m) in Vr by lra.
  apply (near_mul _ _ _ _ 0 (1 / 10 ^ 15) 160 8); [split; [exact Fr|rewrite Vr, Rminus_diag_eq, Rabs_R0 by reflexivity; lra]|exact near_turn|exact M|rewrite Rabs_pos_eq; lra|lra|small].
Qed.
Lemma anomaly_near : forall E, is_finite E = true -> Rabs (val E) <= 938 -> near (d_true_anomaly dsin dcos datan2 twopi E) (val E) (1 / 10 ^ 12).
Proof.
  intros E F B. unfold d_true_anomaly. pose proof PI2_3_2 as P3. pose proof PI_4 as P4.
  assert (Hh : near (ddiv E (dint 2)) (val E / 2) (105 / 10 ^ 15)).
  { apply (near_div _ _ _ _ 0 0 470 2 (near_self E F) (near_int 2 ltac:(lia))); [lra|lra| |lra|small]. apply Rabs_le_inv in B. apply Rabs_le. lra. }
  set (h := ddiv E (dint 2)) in *. destruct Hh as (Fh & Eh). pose proof (Rabs_le_inv _ _ Eh) as Eh'. pose proof (Rabs_le_inv _ _ B) as B'.
  destruct (arc_of_half h Fh) as (k & (Fa & Ea) & Ba); [apply Rabs_le; lra|]. set (arc := datan2 (dsin h) (dcos h)) in *. unfold tight in Ba. apply Rabs_le_inv in Ea.
  assert (Th : near (dmul (dint 2) arc) (2 * val arc) (1 / 10 ^ 14)).
  { apply (near_mul _ _ _ _ 0 0 2 5 (near_int 2 ltac:(lia)) (near_self arc Fa)); [rewrite Rabs_pos_eq; lra|lra|lra|small]. }
  set (theta := dmul (dint 2) arc) in *. destruct Th as (Ft & Et). apply Rabs_le_inv in Et. apply Rabs_le_inv in Ba.
  assert (T : Rabs (val theta) <= 11) by (apply Rabs_le; lra).
  assert (D : Rabs (val theta - val E - IZR (2 * k) * (2 * PI)) <= 25 / 10 ^ 14) by (rewrite mult_IZR; apply Rabs_le; lra).
  pose proof (Rabs_le_inv _ _ T) as T'. pose proof (Rabs_le_inv _ _ D) as D'.
  assert (M : Rabs (IZR (2 * k)) <= 160).
  { set (m := IZR (2 * k)) in *. apply Rabs_le. split; [destruct (Rle_or_lt (-160) m); [assumption|exfalso; assert (m * (2 * PI) <= -160 * 6) by nra; lra]|destruct (Rle_or_lt m 160); [assumption|exfalso; assert (160 * 6 <= m * (2 * PI)) by nra; lra]]. }
  assert (Mt : Rabs (IZR (2 * k) * (2 * PI)) <= 160 * 8) by (rewrite Rabs_mult, (Rabs_pos_eq (2 * PI)) by lra; apply Rmult_le_compat; try apply Rabs_pos; lra).
  destruct (dlt theta E).
  - pose proof (turns_rounded E theta (- (2 * k)) F Ft ltac:(lra) ltac:(lra)) as R. rewrite opp_IZR, Rabs_Ropp in R. specialize (R M ltac:(apply Rabs_le; lra)).
    apply (near_shift _ (val theta + - IZR (2 * k) * (2 * PI)) _ (74 / 10 ^ 14)).
    + apply (near_add _ _ _ _ 0 (45 / 10 ^ 14) 11 (160 * 8) (near_self theta Ft) R T); [replace (- IZR (2 * k) * (2 * PI)) with (- (IZR (2 * k) * (2 * PI))) by ring; rewrite Rabs_Ropp; exact Mt|lra|small].
    + replace (val theta + - IZR (2 * k) * (2 * PI) - val E) with (val theta - val E - IZR (2 * k) * (2 * PI)) by ring. lra.
  - pose proof (turns_rounded theta E (2 * k) Ft F ltac:(lra) ltac:(lra) M ltac:(lra)) as R.
    apply (near_shift _ (val theta - IZR (2 * k) * (2 * PI)) _ (74 / 10 ^ 14)).
    + apply (near_sub _ _ _ _ 0 (45 / 10 ^ 14) 11 (160 * 8) (near_self theta Ft) R T Mt); [lra|small].
    + replace (val theta - IZR (2 * k) * (2 * PI) - val E) with (val theta - val E - IZR (2 * k) * (2 * PI)) by ring. lra.
Qed.

Lemma near_sin : forall x r e, near x r e -> Rabs r + e <= 1000 -> near (dsin x) (sin r) (e + 1 / 10 ^ 15).
Proof.
  intros x r e N B. pose proof (near_val x r e (Rabs r) N ltac:(lra)) as V. destruct N as (F & E). destruct (ol_sin _ _ _ _ _ _ L x F ltac:(change (real_of x) with (val x); lra)) as (F' & E'). split; [exact F'|].
  change real_of with val in E'. unfold tight in E'. pose proof (sin_close (val x) r) as S. pose proof (Rabs_triang (val (dsin x) - sin (val x)) (sin (val x) - sin r)) as T.
  replace (val (dsin x) - sin (val x) + (sin (val x) - sin r)) with (val (dsin x) - sin r) in T by ring. lra.
Qed.
Lemma near_cos : forall x r e, near x r e -> Rabs r + e <= 1000 -> near (dcos x) (cos r) (e + 1 / 10 ^ 15).
Proof.
  intros x r e N B. pose proof (near_val x r e (Rabs r) N ltac:(lra)) as V. destruct N as (F & E). destruct (ol_cos _ _ _ _ _ _ L x F ltac:(change (real_of x) with (val x); lra)) as (F' & E'). split; [exact F'|].
  change real_of with val in E'. unfold tight in E'. pose proof (cos_close (val x) r) as S. pose proof (Rabs_triang (val (dcos x) - cos (val x)) (cos (val x) - cos r)) as T.
  replace (val (dcos x) - cos (val x) + (cos (val x) - cos r)) with (val (dcos x) - cos r) in T by ring. lra.
Qed.
Lemma sin_abs : forall a, Rabs (sin a) <= 1.
Proof. intros a. apply Rabs_le. apply SIN_bound. Qed.
Lemma cos_abs : forall a, Rabs (cos a) <= 1.
Proof. intros a. apply Rabs_le. apply COS_bound. Qed.
Lemma part_abs : forall r c M, Rabs r <= M -> Rabs c <= 1 -> Rabs (r * c) <= M.
Proof. intros r c M R C. rewrite Rabs_mult. replace M with (M * 1) by ring. apply Rmult_le_compat; try apply Rabs_pos; assumption. Qed.

(** A length times a sine or cosine. *)
Lemma near_part : forall x y a c e, near x a e -> near y c (1 / 10 ^ 15) -> Rabs a <= 5 * 10 ^ 7 -> Rabs c <= 1 -> 0 <= e <= 1 / 1000 -> near (dmul x y) (a * c) (e + 1 / 10 ^ 6).
Proof. intros x y a c e X Y A C E. apply (near_mul _ _ _ _ e (1 / 10 ^ 15) (5 * 10 ^ 7) 1 X Y A C); [split; lra|]. rewrite u_val. lra. Qed.

Theorem inertial_double : forall o t, good_orbit o -> within_week t ->
  exists v, d_inertial dsin dcos dhalf datan2 twopi dpi o t = Ok v /\ right_to_mm v (circular_motion (orbit_of o) (mean_motion (real_of (do_radius o))) (real_of t)).
Proof.
  intros o t ((Fi & Bi) & (Fn & Bn) & (Fp & Bp) & Fr & Br) (Ft & Bt). change real_of with val in *.
  destruct (motion_near _ Fr Br) as (Fw & Ew & Bw). set (w := mean_motion (val (do_radius o))) in *. unfold d_inertial.
  assert (Nw : near (d_motion dhalf (do_radius o)) w (6 / 10 ^ 18)) by (split; [exact Fw|lra]).
  assert (Nt : near (dmul (d_motion dhalf (do_radius o)) t) (w * val t) (4 / 10 ^ 12)).
  { apply (near_mul _ _ _ _ (6 / 10 ^ 18) 0 (1 / 770) 604800 Nw (near_self t Ft)); [rewrite Rabs_pos_eq; lra|rewrite Rabs_pos_eq; lra|lra|small]. }
  assert (Bwt : 0 <= w * val t <= 786) by (split; [apply Rmult_le_pos; lra|apply Rle_trans with (1 / 770 * 604800); [apply Rmult_le_compat; lra|lra]]).
  set (a := w * val t + val (do_phase o)).
  assert (NE : near (dadd (dmul (d_motion dhalf (do_radius o)) t) (do_phase o)) a (43 / 10 ^ 13)).
  { apply (near_add _ _ _ _ (4 / 10 ^ 12) 0 786 150 Nt (near_self _ Fp)); [rewrite Rabs_pos_eq; lra|exact Bp|lra|small]. }
  set (E := dadd (dmul (d_motion dhalf (do_radius o)) t) (do_phase o)) in *. pose proof (Rabs_le_inv _ _ Bp) as Bp'.
  assert (Ba : Rabs a <= 937) by (unfold a; apply Rabs_le; lra). pose proof (near_val _ _ _ _ NE Ba) as BE. destruct NE as (FE & EE).
  pose proof (anomaly_near E FE ltac:(lra)) as NT. set (theta := d_true_anomaly dsin dcos datan2 twopi E) in *.
  assert (As : dlt (Babs (dsub E theta)) dpi = true).
  { destruct NT as (FT & ET). assert (Nd : near (dsub E theta) (val E - val theta) (1 / 10 ^ 3)).
    { apply (near_sub _ _ _ _ 0 0 950 950 (near_self E FE) (near_self theta FT)); [lra| |lra|small]. pose proof (Rabs_triang (val theta - val E) (val E)) as T. replace (val theta - val E + val E) with (val theta) in T by ring. lra. }
    destruct Nd as (Fd & Ed). rewrite dlt_val; [|rewrite is_finite_Babs; exact Fd|apply (ol_pi _ _ _ _ _ _ L)]. rewrite B2R_Babs. apply Rlt_bool_true.
    destruct (ol_pi _ _ _ _ _ _ L) as (_ & Ep). change real_of with val in Ep. unfold tight in Ep. apply Rabs_le_inv in Ep. pose proof PI2_3_2. apply Rle_lt_trans with 1; [|lra].
    apply Rabs_le_inv in Ed. apply Rabs_le_inv in ET. apply Rabs_le. lra. }
  rewrite As. cbn [assert_]. eexists. split; [reflexivity|].
  assert (NE : near E a (43 / 10 ^ 13)) by (split; assumption).
  assert (NT' : near theta a (54 / 10 ^ 13)) by (apply (near_shift _ (val E) _ (1 / 10 ^ 12) NT); lra).
  pose proof (near_sin _ _ _ NT' ltac:(lra)) as NS. pose proof (near_cos _ _ _ NE ltac:(lra)) as NC.
  assert (NC' : near (ddiv (dsub (dcos E) (dint 0)) (dsub (dint 1) (dmul (dint 0) (dcos E)))) (cos a) (44 / 10 ^ 13)).
  { assert (N1 : near (dsub (dcos E) (dint 0)) (cos a - 0) (432 / 10 ^ 14)) by (apply (near_sub _ _ _ _ (43 / 10 ^ 13 + 1 / 10 ^ 15) 0 1 0 NC (near_int 0 ltac:(lia)) (cos_abs a)); [rewrite Rabs_R0; lra|lra|small]).
    assert (N2 : near (dmul (dint 0) (dcos E)) (0 * cos a) (1 / 10 ^ 17)).
    { destruct NC as (FC & EC). apply (near_shift _ (0 * val (dcos E)) _ (1 / 10 ^ 17)); [|rewrite !Rmult_0_l, Rminus_diag_eq, Rabs_R0 by reflexivity; lra].
      apply (near_mul _ _ _ _ 0 0 (1 / 10 ^ 2) 2 (near_int 0 ltac:(lia)) (near_self _ FC)); [rewrite Rabs_R0; lra| |lra|small].
      pose proof (cos_abs a). apply Rabs_le_inv in EC. pose proof (COS_bound a). apply Rabs_le. lra. }
    assert (N3 : near (dsub (dint 1) (dmul (dint 0) (dcos E))) (1 - 0 * cos a) (1 / 10 ^ 15)) by (apply (near_sub _ _ _ _ 0 (1 / 10 ^ 17) 1 0 (near_int 1 ltac:(lia)) N2); [rewrite Rabs_R1; lra|rewrite Rmult_0_l, Rabs_R0; lra|lra|small]).
    replace (cos a) with ((cos a - 0) / (1 - 0 * cos a)) at 1 by field. pose proof (cos_abs a).
    apply (near_div _ _ _ _ (432 / 10 ^ 14) (1 / 10 ^ 15) 1 (999 / 1000) N1 N3); [lra|lra|replace ((cos a - 0) / (1 - 0 * cos a)) with (cos a) by field; assumption|small|small]. }
  pose proof (Rabs_pos a). assert (R0 : Rabs (val (do_radius o)) <= 5 * 10 ^ 7) by (unfold earth_radius in Br; rewrite Rabs_pos_eq; lra).
  set (R := val (do_radius o)) in *. set (ct := ddiv (dsub (dcos E) (dint 0)) (dsub (dint 1) (dmul (dint 0) (dcos E)))) in *.
  assert (NX : near (dmul (do_radius o) ct) (R * cos a) (26 / 10 ^ 5)) by (apply (near_mul _ _ _ _ 0 (44 / 10 ^ 13) (5 * 10 ^ 7) 1 (near_self _ Fr) NC' R0 (cos_abs a)); [lra|small]).
  assert (NY : near (dmul (do_radius o) (dsin theta)) (R * sin a) (28 / 10 ^ 5)) by (apply (near_mul _ _ _ _ 0 (54 / 10 ^ 13 + 1 / 10 ^ 15) (5 * 10 ^ 7) 1 (near_self _ Fr) NS R0 (sin_abs a)); [lra|small]).
  set (i := do_inclination o) in *. set (n := do_node o) in *.
  assert (tr : forall y, is_finite y = true -> Rabs (val y) <= 8 -> near (dsin y) (sin (val y)) (1 / 10 ^ 15) /\ near (dcos y) (cos (val y)) (1 / 10 ^ 15)).
  { intros y Fy By. pose proof (near_sin y (val y) 0 (near_self y Fy) ltac:(lra)) as A. pose proof (near_cos y (val y) 0 (near_self y Fy) ltac:(lra)) as B. rewrite Rplus_0_l in A, B. split; assumption. }
  destruct (tr i Fi Bi) as (Si & Ci). destruct (tr n Fn Bn) as (Sn & Cn). pose proof (part_abs R (cos a) _ R0 (cos_abs a)) as BX. pose proof (part_abs R (sin a) _ R0 (sin_abs a)) as BY.
  assert (Z0 : forall y c, near y c (1 / 10 ^ 15) -> Rabs c <= 1 -> near (dmul (dint 0) y) (0 * c) (1 / 10 ^ 14)).
  { intros y c Ny Bc. apply (near_mul _ _ _ _ 0 (1 / 10 ^ 15) 1 1 (near_int 0 ltac:(lia)) Ny); [rewrite Rabs_R0; lra|exact Bc|lra|small]. }
  pose proof (near_part _ _ _ _ _ NY Ci BY (cos_abs _) ltac:(lra)) as Y1. pose proof (near_part _ _ _ _ _ NY Si BY (sin_abs _) ltac:(lra)) as Z1.
  pose proof (Z0 _ _ Si (sin_abs _)) as Y2. pose proof (Z0 _ _ Ci (cos_abs _)) as Z2.
  assert (Zz : forall c, Rabs (0 * c) <= 0) by (intros c; rewrite Rmult_0_l, Rabs_R0; lra).
  assert (Y3 : near (dsub (dmul (dmul (do_radius o) (dsin theta)) (dcos i)) (dmul (dint 0) (dsin i))) (R * sin a * cos (val i) - 0 * sin (val i)) (30 / 10 ^ 5)).
  { apply (near_sub _ _ _ _ _ _ (5 * 10 ^ 7) 0 Y1 Y2 (part_abs _ _ _ BY (cos_abs _)) (Zz _)); [lra|small]. }
  assert (Z3 : near (dadd (dmul (dmul (do_radius o) (dsin theta)) (dsin i)) (dmul (dint 0) (dcos i))) (R * sin a * sin (val i) + 0 * cos (val i)) (30 / 10 ^ 5)).
  { apply (near_add _ _ _ _ _ _ (5 * 10 ^ 7) 0 Z1 Z2 (part_abs _ _ _ BY (sin_abs _)) (Zz _)); [lra|small]. }
  assert (BY3 : Rabs (R * sin a * cos (val i) - 0 * sin (val i)) <= 5 * 10 ^ 7) by (rewrite Rmult_0_l, Rminus_0_r; apply part_abs; [exact BY|apply cos_abs]).
  pose proof (near_part _ _ _ _ _ NX Cn BX (cos_abs _) ltac:(lra)) as X1. pose proof (near_part _ _ _ _ _ NX Sn BX (sin_abs _) ltac:(lra)) as X2.
  pose proof (near_part _ _ _ _ _ Y3 Sn BY3 (sin_abs _) ltac:(lra)) as Y4. pose proof (near_part _ _ _ _ _ Y3 Cn BY3 (cos_abs _) ltac:(lra)) as Y5.
  pose proof (near_sub _ _ _ _ _ _ (5 * 10 ^ 7) (5 * 10 ^ 7) X1 Y4 (part_abs _ _ _ BX (cos_abs _)) (part_abs _ _ _ BY3 (sin_abs _)) ltac:(lra) (1 / 1000) ltac:(small)) as Fx.
  pose proof (near_add _ _ _ _ _ _ (5 * 10 ^ 7) (5 * 10 ^ 7) X2 Y5 (part_abs _ _ _ BX (sin_abs _)) (part_abs _ _ _ BY3 (cos_abs _)) ltac:(lra) (1 / 1000) ltac:(small)) as Fy.
  pose proof (near_more _ _ _ (1 / 1000) Z3 ltac:(lra)) as Fz.
  unfold right_to_mm. cbn [dvx dvy dvz]. unfold circular_motion, orbit_of, vadd, scale, node_dir, ahead_dir. cbn [vx vy vz inclination ascending_node orbit_radius orbit_phase]. change real_of with val. fold i n R. fold a.
  split; [|split].
  - replace (R * (cos a * cos (val n) + sin a * - (cos (val i) * sin (val n)))) with (R * cos a * cos (val n) - (R * sin a * cos (val i) - 0 * sin (val i)) * sin (val n)) by ring. exact Fx.
  - replace (R * (cos a * sin (val n) + sin a * (cos (val i) * cos (val n)))) with (R * cos a * sin (val n) + (R * sin a * cos (val i) - 0 * sin (val i)) * cos (val n)) by ring. exact Fy.
  - replace (R * (cos a * 0 + sin a * sin (val i))) with (R * sin a * sin (val i) + 0 * cos (val i)) by ring. exact Fz.
Qed.
End Library.
