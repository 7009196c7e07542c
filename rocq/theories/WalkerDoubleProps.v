(** C138: the positions of launched constellations in double precision. *)
From Coq Require Import ZArith List Lia Bool Arith Reals Lra Psatz.
From Flocq Require Import Core BinarySingleNaN.
From Verif Require Import Base SatAddrModel ConstellationModel LaunchModel OrbitModel OrbitSpec OrbitProofs TrackingProofs GeodeticProofs DoubleModel DoubleSpec DoubleProofs ElevationDoubleModel ElevationDoubleSpec ElevationDoubleProofs OrbitDoubleModel OrbitDoubleSpec OrbitDoubleProofs OrbitDoubleProps FixedDoubleModel FixedDoubleSpec FixedDoubleProofs FixedDoubleProps LaunchDoubleModel LaunchDoubleSpec LaunchDoubleProofs LaunchDoubleProps SightDoubleSpec SightDoubleProofs SightDoubleProps WalkerDoubleModel WalkerDoubleSpec.
Import ListNotations.
Open Scope R_scope.

Lemma phase_moves : forall rs i n r p1 p2 t, 6371009 <= r -> 6300000 <= rs ->
  distance (earth_motion rs (Orbit i n r p1) t) (earth_motion rs (Orbit i n r p2) t) <= (rs + (r - 6371009)) * Rabs (p1 - p2).
Proof.
  intros rs i n r p1 p2 t R S. unfold earth_motion, earth_radius. cbn [orbit_radius]. assert (K : 0 <= (rs + (r - 6371009)) / r) by (apply Rmult_le_pos; [lra|apply Rlt_le, Rinv_0_lt_compat; lra]).
  rewrite distance_scale, rotate_distance by exact K. replace ((rs + (r - 6371009)) * Rabs (p1 - p2)) with ((rs + (r - 6371009)) / r * (r * Rabs (p1 - p2))) by (field; lra). apply Rmult_le_compat_l; [exact K|].
  set (x := circular_motion (Orbit i n r p1) _ _). set (y := circular_motion (Orbit i n r p2) _ _).
  apply Rsqr_incr_0_var; [|apply Rmult_le_pos; [lra|apply Rabs_pos]]. rewrite Rsqr_mult, <- Rsqr_abs. unfold distance, Rsqr. rewrite norm_sq.
  assert (X : dot x x = r * r) by apply dot_circular. assert (Y : dot y y = r * r) by apply dot_circular.
  assert (XY : dot x y = r * r * cos (p1 - p2)).
  { replace (p1 - p2) with ((mean_motion r * t + p1) - (mean_motion r * t + p2)) by ring. rewrite cos_minus. unfold x, y, circular_motion. cbn [orbit_phase orbit_radius]. set (u := mean_motion r * t + p1). set (v := mean_motion r * t + p2).
    unfold dot, scale, vadd, node_dir, ahead_dir. cbn [vx vy vz inclination ascending_node]. pose proof (sin2_cos2 i) as Hi. pose proof (sin2_cos2 n) as Hn. unfold Rsqr in *.
    transitivity (r * r * (cos u * cos v * (sin n * sin n + cos n * cos n) + sin u * sin v * (cos i * cos i * (sin n * sin n + cos n * cos n) + sin i * sin i))); [ring|].
    rewrite Hn. replace (cos i * cos i * 1 + sin i * sin i) with 1 by lra. ring. }
  replace (dot (vsub y x) (vsub y x)) with (dot x x + dot y y - 2 * dot x y) by (unfold dot, vsub; cbn [vx vy vz]; ring). rewrite X, Y, XY.
  set (h := (p1 - p2) / 2). replace (p1 - p2) with (2 * h) by (unfold h; field). rewrite cos_2a_sin.
  assert (Sh : sin h * sin h <= h * h).
  { destruct (Rle_or_lt 0 h) as [H|H].
    - destruct (Req_dec h 0) as [->|N]; [rewrite sin_0; lra|]. pose proof (sin_lt_x h ltac:(lra)). destruct (Rle_or_lt 0 (sin h)); [apply Rmult_le_compat; lra|].
      assert (- sin h < h). { rewrite <- sin_neg. destruct (Rle_or_lt h 1) as [|Q]; [|pose proof (SIN_bound (- h)); lra]. pose proof (sin_ge_0 h H ltac:(pose proof PI2_3_2; lra)). lra. } replace (sin h * sin h) with (- sin h * - sin h) by ring. apply Rmult_le_compat; lra.
    - pose proof (sin_lt_x (- h) ltac:(lra)) as L. rewrite sin_neg in L. destruct (Rle_or_lt 0 (- sin h)) as [|Q].
      + replace (sin h * sin h) with (- sin h * - sin h) by ring. replace (h * h) with (- h * - h) by ring. apply Rmult_le_compat; lra.
      + assert (sin h < - h). { destruct (Rle_or_lt (-1) h) as [|Q']; [|pose proof (SIN_bound h); lra]. pose proof (sin_ge_0 (- h) ltac:(lra) ltac:(pose proof PI2_3_2; lra)) as Z. rewrite sin_neg in Z. lra. } replace (h * h) with (- h * - h) by ring. apply Rmult_le_compat; lra. }
  assert (0 <= r * r) by apply Rle_0_sqr. nra.
Qed.
Lemma node_moves : forall rs i n1 n2 r p t, 6371009 <= r -> 6300000 <= rs ->
  distance (earth_motion rs (Orbit i n1 r p) t) (earth_motion rs (Orbit i n2 r p) t) <= (rs + (r - 6371009)) * Rabs (n1 - n2).
Proof.
  intros rs i n1 n2 r p t R S.
  assert (E : forall n, earth_motion rs (Orbit i n r p) t = rotate n (earth_motion rs (Orbit i 0 r p) t)).
  { intros n. unfold earth_motion, circular_motion, rotate, scale, vadd, node_dir, ahead_dir. cbn [vx vy vz inclination ascending_node orbit_radius orbit_phase]. rewrite cos_0, sin_0. f_equal; ring. }
  rewrite (E n1), (E n2). eapply Rle_trans; [apply chord_rotate|]. rewrite earth_motion_norm by (cbn; assumption). cbn [orbit_radius]. lra.
Qed.
Lemma elements_move : forall rs i n1 n2 r p1 p2 t, 6371009 <= r -> 6300000 <= rs ->
  distance (earth_motion rs (Orbit i n1 r p1) t) (earth_motion rs (Orbit i n2 r p2) t) <= (rs + (r - 6371009)) * (Rabs (n1 - n2) + Rabs (p1 - p2)).
Proof.
  intros. pose proof (distance_triangle (earth_motion rs (Orbit i n1 r p1) t) (earth_motion rs (Orbit i n2 r p1) t) (earth_motion rs (Orbit i n2 r p2) t)). pose proof (node_moves rs i n1 n2 r p1 t H H0). pose proof (phase_moves rs i n2 r p1 p2 t H H0). lra.
Qed.
Lemma right_moves : forall e d v a b, right_to e v a -> distance a b <= d -> right_to (e + d) v b.
Proof.
  intros e d v a b ((Fx & X) & (Fy & Y) & (Fz & Z)) D. unfold distance in D. destruct (part_norm (vsub b a)) as (Px & Py & Pz & _). unfold vsub at 1 in Px. unfold vsub at 1 in Py. unfold vsub at 1 in Pz. cbn [vx vy vz] in *. apply Rabs_le_inv in X, Y, Z, Px, Py, Pz.
  unfold right_to. repeat split; try assumption; apply Rabs_le; lra.
Qed.

Lemma to_radians : forall rad x r e, is_finite rad = true -> Rabs (real_of rad - PI / 180) <= 1 / 10 ^ 17 -> about x r e -> 0 <= r <= 8500 -> 0 <= e <= 1 / 10 ^ 6 ->
  about (dmul x rad) (r * (PI / 180)) (e / 50 + 2 / 10 ^ 13).
Proof.
  intros rad x r e Fr Hr (Fx & X) B E. change real_of with val in *. pose proof pi_bounds as P. apply Rabs_le_inv in Hr. assert (Rr : 0 <= val rad <= 18 / 1000) by lra.
  assert (D : Rabs (val x * val rad - r * (PI / 180)) <= e / 50 + 1 / 10 ^ 13).
  { replace (val x * val rad - r * (PI / 180)) with ((val x - r) * val rad + r * (val rad - PI / 180)) by ring. eapply Rle_trans; [apply Rabs_triang|]. rewrite !Rabs_mult.
    assert (Rabs (val x - r) * Rabs (val rad) <= e * (1 / 50)) by (apply Rmult_le_compat; try apply Rabs_pos; [exact X|rewrite Rabs_pos_eq; lra]).
    assert (Rabs r * Rabs (val rad - PI / 180) <= 8500 * (1 / 10 ^ 17)) by (apply Rmult_le_compat; try apply Rabs_pos; [rewrite Rabs_pos_eq; lra|apply Rabs_le; lra]). lra. }
  assert (M : Rabs (val x * val rad) <= 160). { assert (0 <= r * (PI / 180) <= 8500 * (18 / 1000)) by (split; [apply Rmult_le_pos; lra|apply Rmult_le_compat; lra]). apply Rabs_le_inv in D. apply Rabs_le. lra. }
  destruct (dmul_ok x rad Fx Fr) as (F & V); [apply big_below_max; lra|]. split; [exact F|]. change real_of with val. rewrite V. pose proof (rnd_about _ 160 M ltac:(lra)) as Rn.
  apply Rabs_le_inv in Rn, D. apply Rabs_le. lra.
Qed.

Section Library.
Variables (dasin dsin dcos dhalf : double -> double) (datan2 : double -> double -> double) (twopi dpi deg rad dsphere : double).
Hypothesis orbits : orbit_library dsin dcos dhalf datan2 twopi dpi.
Hypothesis fixed : fixed_library dasin datan2 deg rad dsphere.

(** From the parameters of the helper to where each satellite is at each time of a week: right to twelve parts in a hundred million of the
    radius. *)
Theorem walker_double : forall debug ho id P S F alt inc ds, sizes P S F -> (length ds <= P * S)%nat -> launchable inc alt ->
  exists s outs radius, launch_all doubles debug ho (helper_new doubles id alt inc P S F) ds = Ok (s, outs) /\ length outs = length ds /\
    Rabs (radius - (6371009 + real_of alt)) <= 1 / 10 ^ 6 /\
    forall k a o, nth_error outs k = Some (a, o) -> phase_degrees P S F k <= 8400 -> forall t, within_week t ->
      exists v, d_position dasin dsin dcos dhalf datan2 twopi dpi deg rad dsphere (d_launch_sat rad o) t = Ok v /\
        right_to (12 / 10 ^ 8 * radius) v (earth_motion (real_of dsphere) (walker_orbit P S F k (real_of inc) radius) (real_of t)).
Proof.
  intros debug ho id P S F alt inc ds Z L (Fi & Bi & Fa & Ba). destruct (launch_double debug ho id P S F alt inc ds (QArith_base.Qmake 0 1) (QArith_base.Qmake 0 1) Z L) as (s & outs & E & Lo & _ & H).
  exists s, outs, (real_of (dadd alt d_earth_radius)). split; [exact E|]. split; [exact Lo|].
  destruct near_earth as (Fe & Ve). unfold earth_radius in Ve. change val with real_of in Ve.
  assert (Rd : about (dadd alt d_earth_radius) (real_of alt + 6371009) (1 / 10 ^ 6)).
  { eapply about_weaken; [apply (about_add alt d_earth_radius (real_of alt) 6371009 0 (1 / 10 ^ 8) (5 * 10 ^ 7))|lra].
    - split; [exact Fa|]. rewrite Rminus_eq_0, Rabs_R0. lra.
    - split; assumption.
    - rewrite Rabs_pos_eq; lra.
    - lra. }
  destruct Rd as (Fr & Vr). split; [rewrite Rplus_comm in Vr; exact Vr|]. intros k a o Hk Ph t T. destruct (H k a o Hk) as (_ & Hi & Ha & Hn & Hp).
  assert (Kk : (k < length ds)%nat) by (rewrite <- Lo; apply nth_error_Some; rewrite Hk; discriminate). pose proof (step_bound P S F Z) as St. destruct Z as (HP & HS & HF).
  destruct (ConstellationProofs.flat_slot P S k ltac:(lia)) as (Kp & Ks). pose proof (frac_bound (k / S) P HP Kp) as Bn. fold (node_degrees P S k) in Bn. pose proof (frac_bound (k mod S) S HS Ks) as Bs. pose proof (pos_INR (k / S)) as P0.
  assert (Pp : 0 <= phase_degrees P S F k) by (unfold phase_degrees; apply Rplus_le_le_0_compat; [apply Bs|apply Rmult_le_pos; [exact P0|apply St]]).
  destruct (fl_rad _ _ _ _ _ fixed) as (Frad & Vrad). destruct (fl_sphere _ _ _ _ _ fixed) as (_ & Bsp). pose proof pi_bounds as Pi.
  assert (Cn : about (dmul (o_ascending_node o) rad) (node_degrees P S k * (PI / 180)) (1 / 10 ^ 9 / 50 + 2 / 10 ^ 13)) by (apply to_radians; try assumption; lra).
  assert (Cp : about (dmul (o_phase o) rad) (phase_degrees P S F k * (PI / 180)) (2 / 10 ^ 7 / 50 + 2 / 10 ^ 13)) by (apply to_radians; try assumption; lra).
  destruct Cn as (Fn & Vn). destruct Cp as (Fp & Vp). pose proof Vn as Vn'. pose proof Vp as Vp'. pose proof Vr as Vr'. apply Rabs_le_inv in Vn', Vp', Vr'.
  assert (Tn : 0 <= node_degrees P S k * (PI / 180) <= 360 * (32 / 10 / 180)) by (split; [apply Rmult_le_pos; lra|apply Rmult_le_compat; lra]).
  assert (Tp : 0 <= phase_degrees P S F k * (PI / 180) <= 8400 * (PI / 180)) by (split; [apply Rmult_le_pos; lra|apply Rmult_le_compat_r; lra]).
  assert (G : good_orbit (d_launch_sat rad o)).
  { unfold good_orbit, d_launch_sat, earth_radius. cbn [do_inclination do_node do_radius do_phase]. rewrite Hi, Ha. repeat split; try assumption; try (apply Rabs_le; lra); lra. }
  destruct (position_double _ _ _ _ _ _ _ _ _ _ _ t orbits fixed G T) as (v & Ev & Rv). exists v. split; [exact Ev|]. unfold d_launch_sat, orbit_of in Rv. cbn [do_inclination do_node do_radius do_phase] in Rv. rewrite Hi, Ha in Rv.
  set (r := real_of (dadd alt d_earth_radius)) in *. assert (Br : 6371009 <= r) by lra. unfold walker_orbit.
  pose proof (elements_move (real_of dsphere) (real_of inc) (real_of (dmul (o_ascending_node o) rad)) (node_degrees P S k * (PI / 180)) r (real_of (dmul (o_phase o) rad)) (phase_degrees P S F k * (PI / 180)) (real_of t) Br ltac:(lra)) as Mv.
  assert (Dv : (real_of dsphere + (r - 6371009)) * (Rabs (real_of (dmul (o_ascending_node o) rad) - node_degrees P S k * (PI / 180)) + Rabs (real_of (dmul (o_phase o) rad) - phase_degrees P S F k * (PI / 180))) <= (2 * r) * (5 / 10 ^ 9)).
  { apply Rmult_le_compat; [lra|apply Rplus_le_le_0_compat; apply Rabs_pos|lra|lra]. }
  pose proof (right_moves _ _ _ _ _ Rv (Rle_trans _ _ _ Mv Dv)) as W. destruct W as ((F1 & W1) & (F2 & W2) & (F3 & W3)). unfold right_to. repeat split; try assumption; lra.
Qed.
End Library.
Print Assumptions walker_double.

(** Six planes of eleven at 780 km, inclined by 1.5 radians, phasing one: the last satellite at any time of a week is right to a metre. *)
Example walker_double_case : forall dasin dsin dcos dhalf datan2 twopi dpi deg rad, orbit_library dsin dcos dhalf datan2 twopi dpi -> fixed_library dasin datan2 deg rad (dint 6371000) ->
  exists s outs a o radius, launch_all doubles true LittleEndian (helper_new doubles 1 (dint 780000) (dnum 3 (-1)) 6 11 1) (seq 0 66) = Ok (s, outs) /\ nth_error outs 65 = Some (a, o) /\
    Rabs (radius - 7151009) <= 1 / 10 ^ 6 /\ forall t, within_week t ->
      exists v, d_position dasin dsin dcos dhalf datan2 twopi dpi deg rad (dint 6371000) (d_launch_sat rad o) t = Ok v /\
        right_to 1 v (earth_motion 6371000 (Orbit (3 / 2) (300 * (PI / 180)) radius ((3600 / 11 + 300 / 11) * (PI / 180))) (real_of t)).
Proof.
  intros dasin dsin dcos dhalf datan2 twopi dpi deg rad L K. assert (H : Rabs (IZR 3 * bpow radix2 (-1)) <= bpow radix2 1023) by (change (bpow radix2 (-1)) with (/ 2); apply big_below_max; rewrite Rabs_pos_eq; lra).
  destruct (dnum_ok 3 (-1) H) as (F3 & V3). rewrite rnd_scaled in V3 by lia. change (bpow radix2 (-1)) with (/ 2) in V3. destruct (dint_ok 780000 ltac:(lia)) as (Fa & Va). assert (R2 : real_of (dint 6371000) = 6371000) by apply (dint_ok 6371000 ltac:(lia)). change val with real_of in *.
  destruct (walker_double _ _ _ _ _ _ _ _ _ _ L K true LittleEndian 1%Z 6 11 1 (dint 780000) (dnum 3 (-1)) (seq 0 66)) as (s & outs & radius & E & Lo & Rr & W); [unfold sizes; lia|cbn; lia|split; [exact F3|]; rewrite V3, Va; repeat split; try exact Fa; try (rewrite Rabs_pos_eq; lra); lra|].
  destruct (nth_error outs 65) as [[a o]|] eqn:N; [|apply nth_error_None in N; rewrite Lo in N; cbn in N; lia]. exists s, outs, a, o, radius. split; [exact E|]. split; [exact N|]. rewrite Va in Rr. split; [replace 7151009 with (6371009 + 780000) by lra; exact Rr|].
  assert (V : node_degrees 6 11 65 = 300 /\ phase_degrees 6 11 1 65 = 3600 / 11 + 300 / 11).
  { unfold node_degrees, phase_degrees. change (65 / 11)%nat with 5%nat. change (65 mod 11)%nat with 10%nat. cbn [INR]. split; field. }
  destruct V as (V1 & V2). intros t T. destruct (W 65%nat a o N ltac:(rewrite V2; lra) t T) as (v & Ev & Rv). exists v. split; [exact Ev|]. unfold walker_orbit in Rv. rewrite V1, V2, V3, R2 in Rv. change (3 * / 2) with (3 / 2) in Rv. apply Rabs_le_inv in Rr.
  destruct Rv as ((A1 & A2) & (B1 & B2) & (C1 & C2)). unfold right_to. repeat split; try assumption; lra.
Qed.

(** Seventy-two planes of twenty-two at 550 km with a phasing of 39: the last satellite has a phase of more than two and a half turns, and is right to a metre. *)
Example walker_shell_case : forall dasin dsin dcos dhalf datan2 twopi dpi deg rad, orbit_library dsin dcos dhalf datan2 twopi dpi -> fixed_library dasin datan2 deg rad (dint 6371000) ->
  exists s outs a o radius, launch_all doubles true LittleEndian (helper_new doubles 1 (dint 550000) (dint 1) 72 22 39) (seq 0 1584) = Ok (s, outs) /\ nth_error outs 1583 = Some (a, o) /\
    Rabs (radius - 6921009) <= 1 / 10 ^ 6 /\ 970 <= phase_degrees 72 22 39 1583 <= 975 /\ forall t, within_week t ->
      exists v, d_position dasin dsin dcos dhalf datan2 twopi dpi deg rad (dint 6371000) (d_launch_sat rad o) t = Ok v /\
        right_to 1 v (earth_motion 6371000 (Orbit 1 (355 * (PI / 180)) radius (phase_degrees 72 22 39 1583 * (PI / 180))) (real_of t)).
Proof.
  intros dasin dsin dcos dhalf datan2 twopi dpi deg rad L K. destruct (dint_ok 1 ltac:(lia)) as (F3 & V3). destruct (dint_ok 550000 ltac:(lia)) as (Fa & Va). assert (R2 : real_of (dint 6371000) = 6371000) by apply (dint_ok 6371000 ltac:(lia)). change val with real_of in *.
  assert (Ls : length (seq 0 1584) = 1584%nat) by apply seq_length.
  destruct (walker_double _ _ _ _ _ _ _ _ _ _ L K true LittleEndian 1%Z 72 22 39 (dint 550000) (dint 1) (seq 0 1584)) as (s & outs & radius & E & Lo & Rr & W); [unfold sizes; lia|rewrite Ls; apply Nat.leb_le; reflexivity|split; [exact F3|]; rewrite V3, Va; repeat split; try exact Fa; try (rewrite Rabs_pos_eq; lra); lra|].
  rewrite Ls in Lo. destruct (nth_error outs 1583) as [[a o]|] eqn:N; [|apply nth_error_None in N; rewrite Lo in N; apply Nat.leb_le in N; discriminate N]. exists s, outs, a, o, radius. split; [exact E|]. split; [exact N|]. rewrite Va in Rr. split; [replace 6921009 with (6371009 + 550000) by lra; exact Rr|].
  assert (D1 : (1583 / 22)%nat = 71%nat) by reflexivity. assert (D2 : (1583 mod 22)%nat = 21%nat) by reflexivity.
  assert (V1 : node_degrees 72 22 1583 = 355) by (unfold node_degrees; rewrite D1; rewrite !INR_IZR_INZ; cbn [Z.of_nat Pos.of_succ_nat Pos.succ]; lra).
  assert (V2 : 970 <= phase_degrees 72 22 39 1583 <= 975) by (unfold phase_degrees; rewrite D1, D2; rewrite ?mult_INR, !INR_IZR_INZ; cbn [Z.of_nat Pos.of_succ_nat Pos.succ]; lra).
  split; [exact V2|]. intros t T. destruct (W 1583%nat a o N ltac:(lra) t T) as (v & Ev & Rv). exists v. split; [exact Ev|]. unfold walker_orbit in Rv. rewrite V1, V3, R2 in Rv. apply Rabs_le_inv in Rr.
  destruct Rv as ((A1 & A2) & (B1 & B2) & (C1 & C2)). unfold right_to. repeat split; try assumption; lra.
Qed.
