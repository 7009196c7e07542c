(** C139: links between the satellites of launched constellations in double precision. *)
From Coq Require Import ZArith List Lia Bool Arith Reals Lra Psatz.
From Flocq Require Import Core BinarySingleNaN.
From Verif Require Import Base SatAddrModel ConstellationModel LaunchModel OrbitModel OrbitSpec OrbitProofs TrackingProofs GeodeticProofs DoubleModel DoubleSpec DoubleProofs DoubleProps ElevationDoubleModel ElevationDoubleSpec ElevationDoubleProofs OrbitDoubleModel OrbitDoubleSpec OrbitDoubleProofs OrbitDoubleProps FixedDoubleModel FixedDoubleSpec FixedDoubleProofs FixedDoubleProps LaunchDoubleModel LaunchDoubleSpec LaunchDoubleProofs LaunchDoubleProps SightDoubleSpec SightDoubleProofs SightDoubleProps LinkDoubleSpec LinkDoubleProps WalkerDoubleModel WalkerDoubleSpec WalkerDoubleProps RingDoubleSpec.
Import ListNotations.
Open Scope R_scope.

Lemma phase_chord : forall rs i n r p1 p2 t, 6371009 <= r -> 6300000 <= rs ->
  distance (earth_motion rs (Orbit i n r p1) t) (earth_motion rs (Orbit i n r p2) t) = 2 * (rs + (r - earth_radius)) * Rabs (sin ((p1 - p2) / 2)).
Proof.
  intros rs i n r p1 p2 t R S. unfold earth_motion, earth_radius. cbn [orbit_radius]. assert (K : 0 <= (rs + (r - 6371009)) / r) by (apply Rmult_le_pos; [lra|apply Rlt_le, Rinv_0_lt_compat; lra]).
  rewrite distance_scale, rotate_distance by exact K. set (k := (rs + (r - 6371009)) / r) in *.
  assert (D : distance (circular_motion (Orbit i n r p1) (mean_motion r) t) (circular_motion (Orbit i n r p2) (mean_motion r) t) = 2 * r * Rabs (sin ((p1 - p2) / 2))).
  { apply Rsqr_inj; [apply norm_nonneg|apply Rmult_le_pos; [lra|apply Rabs_pos]|]. unfold distance. set (x := circular_motion (Orbit i n r p1) _ _). set (y := circular_motion (Orbit i n r p2) _ _). unfold Rsqr at 1. rewrite norm_sq. rewrite Rsqr_mult, <- Rsqr_abs. unfold Rsqr.
    assert (X : dot x x = r * r) by apply dot_circular. assert (Y : dot y y = r * r) by apply dot_circular.
    assert (XY : dot x y = r * r * cos (p1 - p2)).
    { replace (p1 - p2) with ((mean_motion r * t + p1) - (mean_motion r * t + p2)) by ring. rewrite cos_minus. unfold x, y, circular_motion. cbn [orbit_phase orbit_radius]. set (u := mean_motion r * t + p1). set (v := mean_motion r * t + p2).
      unfold dot, scale, vadd, node_dir, ahead_dir. cbn [vx vy vz inclination ascending_node]. pose proof (sin2_cos2 i) as Hi. pose proof (sin2_cos2 n) as Hn. unfold Rsqr in *.
      transitivity (r * r * (cos u * cos v * (sin n * sin n + cos n * cos n) + sin u * sin v * (cos i * cos i * (sin n * sin n + cos n * cos n) + sin i * sin i))); [ring|].
      rewrite Hn. replace (cos i * cos i * 1 + sin i * sin i) with 1 by lra. ring. }
    replace (dot (vsub y x) (vsub y x)) with (dot x x + dot y y - 2 * dot x y) by (unfold dot, vsub; cbn [vx vy vz]; ring). rewrite X, Y, XY.
    set (h := (p1 - p2) / 2). replace (p1 - p2) with (2 * h) by (unfold h; field). rewrite cos_2a_sin. ring. }
  rewrite D. unfold k. field. lra.
Qed.
Lemma slots_chord : forall rs P S F i r k j t, (0 < S)%nat -> 6371009 <= r -> 6300000 <= rs -> (k / S = j / S)%nat ->
  distance (earth_motion rs (walker_orbit P S F k i r) t) (earth_motion rs (walker_orbit P S F j i r) t) = ring_chord rs r S (k mod S) (j mod S).
Proof.
  intros rs P S F i r k j t HS R Hs E. unfold walker_orbit, node_degrees. rewrite E, phase_chord by assumption. unfold ring_chord. do 3 f_equal. unfold phase_degrees. rewrite E.
  assert (INR S <> 0) by (apply not_0_INR; lia). set (o := INR (j / S) * _). field. assumption.
Qed.

Section Library.
Variables (dasin dsin dcos dhalf : double -> double) (datan2 : double -> double -> double) (twopi dpi deg rad dsphere : double).
Hypothesis orbits : orbit_library dsin dcos dhalf datan2 twopi dpi.
Hypothesis fixed : fixed_library dasin datan2 deg rad dsphere.
Let fly o := d_position dasin dsin dcos dhalf datan2 twopi dpi deg rad dsphere (d_launch_sat rad o).

(** Whether two satellites of a launched constellation reach each other is what it is in the exact Walker constellation, up to half a
    millionth of the radius; within a plane it is so all week or never, by the chord between the slots. *)
Theorem ring_links : forall debug ho id P S F alt inc ds limit, sizes P S F -> (length ds <= P * S)%nat -> launchable inc alt -> is_finite limit = true -> 0 <= real_of limit ->
  exists s outs radius, launch_all doubles debug ho (helper_new doubles id alt inc P S F) ds = Ok (s, outs) /\ length outs = length ds /\
    Rabs (radius - (6371009 + real_of alt)) <= 1 / 10 ^ 6 /\
    forall k a o j b p, nth_error outs k = Some (a, o) -> nth_error outs j = Some (b, p) -> phase_degrees P S F k <= 8400 -> phase_degrees P S F j <= 8400 ->
      (forall t, within_week t -> exists v w, fly o t = Ok v /\ fly p t = Ok w /\
        let far := distance (earth_motion (real_of dsphere) (walker_orbit P S F k (real_of inc) radius) (real_of t)) (earth_motion (real_of dsphere) (walker_orbit P S F j (real_of inc) radius) (real_of t)) in
        (within_double limit v w = true -> far <= real_of limit + ring_slack radius) /\ (far <= real_of limit - ring_slack radius -> within_double limit v w = true)) /\
      ((k / S = j / S)%nat ->
        let always x := forall t, within_week t -> exists v w, fly o t = Ok v /\ fly p t = Ok w /\ within_double limit v w = x in
        let chord := ring_chord (real_of dsphere) radius S (k mod S) (j mod S) in
        (chord <= real_of limit - ring_slack radius -> always true) /\ (real_of limit + ring_slack radius < chord -> always false)).
Proof.
  intros debug ho id P S F alt inc ds limit Z L La Fl Pl. destruct (walker_double _ _ _ _ _ _ _ _ _ _ orbits fixed debug ho id P S F alt inc ds Z L La) as (s & outs & radius & E & Lo & Rr & W).
  exists s, outs, radius. split; [exact E|]. split; [exact Lo|]. split; [exact Rr|]. destruct La as (_ & _ & _ & Ba). destruct (fl_sphere _ _ _ _ _ fixed) as (_ & Bs).
  assert (Br : 6371009 <= radius <= 4938 * 10 ^ 4) by (apply Rabs_le_inv in Rr; lra).
  intros k a o j b p Hk Hj Pk Pj.
  assert (A : forall t, within_week t -> exists v w, fly o t = Ok v /\ fly p t = Ok w /\
        let far := distance (earth_motion (real_of dsphere) (walker_orbit P S F k (real_of inc) radius) (real_of t)) (earth_motion (real_of dsphere) (walker_orbit P S F j (real_of inc) radius) (real_of t)) in
        (within_double limit v w = true -> far <= real_of limit + ring_slack radius) /\ (far <= real_of limit - ring_slack radius -> within_double limit v w = true)).
  { intros t T. destruct (W k a o Hk Pk t T) as (v & Ev & Rv). destruct (W j b p Hj Pj t T) as (w & Ew & Rw). exists v, w. split; [exact Ev|]. split; [exact Ew|]. cbn zeta.
    assert (Nx : forall m, norm (earth_motion (real_of dsphere) (walker_orbit P S F m (real_of inc) radius) (real_of t)) = real_of dsphere + (radius - 6371009)) by (intros m; apply (earth_motion_norm (real_of dsphere) (walker_orbit P S F m (real_of inc) radius) (real_of t)); cbn; lra).
    pose proof (Nx k) as N1. pose proof (Nx j) as N2. clear Nx. set (x := earth_motion _ (walker_orbit P S F k _ _) _) in *. set (y := earth_motion _ (walker_orbit P S F j _ _) _) in *.
    pose proof (right_distance (12 / 10 ^ 8 * radius) _ _ ltac:(lra) Rv) as Nv. pose proof (right_distance (12 / 10 ^ 8 * radius) _ _ ltac:(lra) Rw) as Nw.
    assert (Sk : forall u z, right_to (12 / 10 ^ 8 * radius) u z -> norm z = real_of dsphere + (radius - 6371009) -> inside sky u).
    { intros u z ((Fx & X) & (Fy & Y) & (Fz & Zz)) N. destruct (part_norm z) as (Px & Py & Pz & _). rewrite N in Px, Py, Pz. apply Rabs_le_inv in X, Y, Zz, Px, Py, Pz. unfold inside, sky. repeat split; try assumption; apply Rabs_le; lra. }
    destruct (within_double_near limit v w Fl Pl (Sk _ _ Rv N1) (Sk _ _ Rw N2)) as (H1 & H2).
    assert (Ap : apart (place v) (place w) = distance (vec_of v) (vec_of w)).
    { unfold apart, distance, norm, square_of_distance, place, vec_of, dot, vsub. cbn [px py pz vx vy vz]. f_equal. ring. }
    rewrite Ap in *. unfold ring_slack. change (norm (vsub (vec_of v) x)) with (distance x (vec_of v)) in Nv. change (norm (vsub (vec_of w) y)) with (distance y (vec_of w)) in Nw.
    pose proof (distance_triangle x (vec_of v) y) as T1. pose proof (distance_triangle (vec_of v) (vec_of w) y) as T2. pose proof (distance_triangle (vec_of v) x (vec_of w)) as T3. pose proof (distance_triangle x y (vec_of w)) as T4.
    rewrite (dist_sym (vec_of w) y) in T2. rewrite (dist_sym (vec_of v) x) in T3. split; intros H.
    - specialize (H1 H). lra.
    - apply H2. lra. }
  split; [exact A|]. intros Q. cbn zeta. destruct Z as (_ & HS & _). split; intros H t T; destruct (A t T) as (v & w & Ev & Ew & D); exists v, w; (split; [exact Ev|]; split; [exact Ew|]); cbn zeta in D; rewrite slots_chord in D by (try assumption; try lia; lra).
  - apply D. exact H.
  - destruct (within_double limit v w); [|reflexivity]. pose proof (proj1 D eq_refl). lra.
Qed.
End Library.
Print Assumptions ring_links.

(** Six planes of eleven at 780 km with links of 5542 km: each satellite reaches the next of its plane all week, and never the one after it. *)
Example ring_links_case : forall dasin dsin dcos dhalf datan2 twopi dpi deg rad, orbit_library dsin dcos dhalf datan2 twopi dpi -> fixed_library dasin datan2 deg rad (dint 6371000) ->
  exists s outs a o b p c q, launch_all doubles true LittleEndian (helper_new doubles 1 (dint 780000) (dnum 3 (-1)) 6 11 1) (seq 0 66) = Ok (s, outs) /\
    nth_error outs 33 = Some (a, o) /\ nth_error outs 34 = Some (b, p) /\ nth_error outs 35 = Some (c, q) /\ forall t, within_week t ->
      let fly x := d_position dasin dsin dcos dhalf datan2 twopi dpi deg rad (dint 6371000) (d_launch_sat rad x) t in
      (exists u v, fly o = Ok u /\ fly p = Ok v /\ within_double (dint 5542000) u v = true) /\ (exists u w, fly o = Ok u /\ fly q = Ok w /\ within_double (dint 5542000) u w = false).
Proof.
  intros dasin dsin dcos dhalf datan2 twopi dpi deg rad L K. assert (H : Rabs (IZR 3 * bpow radix2 (-1)) <= bpow radix2 1023) by (change (bpow radix2 (-1)) with (/ 2); apply big_below_max; rewrite Rabs_pos_eq; lra).
  destruct (dnum_ok 3 (-1) H) as (F3 & V3). rewrite rnd_scaled in V3 by lia. change (bpow radix2 (-1)) with (/ 2) in V3. destruct (dint_ok 780000 ltac:(lia)) as (Fa & Va). assert (R2 : real_of (dint 6371000) = 6371000) by apply (dint_ok 6371000 ltac:(lia)). destruct (dint_ok 5542000 ltac:(lia)) as (Fl & Vl). change val with real_of in *.
  destruct (ring_links _ _ _ _ _ _ _ _ _ _ L K true LittleEndian 1%Z 6 11 1 (dint 780000) (dnum 3 (-1)) (seq 0 66) (dint 5542000)) as (s & outs & radius & E & Lo & Rr & W); [unfold sizes; lia|cbn; lia|split; [exact F3|]; rewrite V3, Va; repeat split; try exact Fa; try (rewrite Rabs_pos_eq; lra); lra|exact Fl|rewrite Vl; lra|].
  rewrite Va in Rr. rewrite Vl, R2 in W. apply Rabs_le_inv in Rr. cbn [length seq] in Lo.
  destruct (nth_error outs 33) as [[a o]|] eqn:N3; [|apply nth_error_None in N3; lia]. destruct (nth_error outs 34) as [[b p]|] eqn:N4; [|apply nth_error_None in N4; lia]. destruct (nth_error outs 35) as [[c q]|] eqn:N5; [|apply nth_error_None in N5; lia].
  exists s, outs, a, o, b, p, c, q. split; [exact E|]. do 3 (split; [assumption || reflexivity|]). intros t T. cbn zeta.
  assert (Q : (33 / 11 = 3 /\ 34 / 11 = 3 /\ 35 / 11 = 3 /\ 33 mod 11 = 0 /\ 34 mod 11 = 1 /\ 35 mod 11 = 2)%nat) by (repeat split; reflexivity). destruct Q as (Q1 & Q2 & Q3 & Q4 & Q5 & Q6).
  assert (Ph : phase_degrees 6 11 1 33 <= 8400 /\ phase_degrees 6 11 1 34 <= 8400 /\ phase_degrees 6 11 1 35 <= 8400) by (unfold phase_degrees; rewrite Q1, Q2, Q3, Q4, Q5, Q6; cbn [INR]; lra). destruct Ph as (P3 & P4 & P5).
  pose proof pi_bounds as Pi. assert (I11 : INR 11 = 11) by (rewrite INR_IZR_INZ; reflexivity).
  split.
  - destruct (W _ _ _ _ _ _ N3 N4 P3 P4) as (_ & D). destruct (D ltac:(rewrite Q1, Q2; reflexivity)) as (D1 & _). apply D1; [|exact T]. rewrite Q4, Q5. unfold ring_chord, ring_slack, earth_radius. rewrite I11. cbn [INR].
    replace (PI * (0 - 1) / 11) with (- (PI / 11)) by field. rewrite sin_neg, Rabs_Ropp. pose proof (sin_lt_x (PI / 11) ltac:(lra)). pose proof (sin_ge_0 (PI / 11) ltac:(lra) ltac:(lra)). rewrite Rabs_pos_eq by assumption.
    apply Rle_trans with (2 * (6371000 + (radius - 6371009)) * (3 / 10)); [apply Rmult_le_compat_l; lra|lra].
  - destruct (W _ _ _ _ _ _ N3 N5 P3 P5) as (_ & D). destruct (D ltac:(rewrite Q1, Q3; reflexivity)) as (_ & D1). apply D1; [|exact T]. rewrite Q4, Q6. unfold ring_chord, ring_slack, earth_radius. rewrite I11. cbn [INR].
    replace (PI * (0 - (1 + 1)) / 11) with (- (2 * PI / 11)) by field. rewrite sin_neg, Rabs_Ropp. pose proof (sin_increasing_1 (PI / 6) (2 * PI / 11) ltac:(lra) ltac:(lra) ltac:(lra) ltac:(lra) ltac:(lra)) as I. rewrite sin_PI6 in I. rewrite Rabs_pos_eq by lra.
    apply Rlt_le_trans with (2 * (6371000 + (radius - 6371009)) * (1 / 2)); [lra|apply Rmult_le_compat_l; lra].
Qed.
