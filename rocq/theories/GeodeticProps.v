(** Stations at any height, and how far off the pass predictor puts them. *)
From Coq Require Import Reals Lra Psatz.
From Interval Require Import Tactic.
From Verif Require Import Base OrbitModel OrbitSpec OrbitProofs OrbitProps PassModel PassProps TrackingProofs GeodeticModel GeodeticSpec GeodeticProofs.
Open Scope R_scope.

Lemma height_axis : forall phi lambda h, - (PI / 2) < phi < PI / 2 -> - 3000000 <= h -> axis_distance (at_height phi lambda h) = pp phi h.
Proof.
  intros phi lambda h Hp Hh. unfold axis_distance, at_height; cbn [vx vy]. fold (pp phi h).
  replace ((pp phi h * cos lambda) ^ 2 + (pp phi h * sin lambda) ^ 2) with (pp phi h * pp phi h * (sin lambda * sin lambda + cos lambda * cos lambda)) by ring.
  rewrite trig1, Rmult_1_r. apply sqrt_sq_nonneg. apply Rlt_le, pp_pos; assumption.
Qed.

(** * C119 *)
(** From three thousand kilometres below the ellipsoid up to any height, off the polar axis and the date line: the loop ends, no assertion
    fails, the longitude is right and the latitude is off by a thirty-ninth of the loop's tolerance at most, three centimetres on the ground. *)
Theorem geodetic_height : forall phi lambda h, - (PI / 2) < phi < PI / 2 -> - PI < lambda < PI -> - 3000000 <= h ->
  exists lat, to_geographic (at_height phi lambda h) (Ok (lat, lambda)) /\ Rabs (lat - phi) <= latitude_tolerance / 39 /\ - (PI / 2) < lat < PI / 2 /\
    forall r, to_geographic (at_height phi lambda h) r -> r = Ok (lat, lambda).
Proof.
  intros phi lambda h Hp Hl Hh. destruct (loop_from_start phi h Hp Hh) as (lat & L).
  destruct (loop_near phi h Hp Hh _ lat (start_good phi h Hp Hh) L) as ((G & _) & N). exists lat.
  assert (Lo : atan2 (vy (at_height phi lambda h)) (vx (at_height phi lambda h)) = lambda).
  { unfold at_height; cbn [vx vy]. fold (pp phi h). apply atan2_of_polar; [apply pp_pos; assumption|lra]. }
  assert (Ax := height_axis phi lambda h Hp Hh). assert (Z : vz (at_height phi lambda h) = zz phi h) by reflexivity.
  split; [|split; [exact N|split; [exact G|]]].
  - exists lat. rewrite Ax, Z, Lo. split; [exact L|]. rewrite canonical_id by lra. reflexivity.
  - intros r (lat' & L' & ->). rewrite Ax, Z in L'. rewrite Lo. rewrite <- (loop_fun _ _ _ _ L _ L'). apply canonical_id; lra.
Qed.
Print Assumptions geodetic_height.

(** ** Where the predictor puts the station *)
Lemma meridian_distance : forall lambda p z p' z',
  distance (Vec (p * cos lambda) (p * sin lambda) z) (Vec (p' * cos lambda) (p' * sin lambda) z') = sqrt ((p - p') * (p - p') + (z - z') * (z - z')).
Proof.
  intros lambda p z p' z'. unfold distance, norm, vsub, dot; cbn [vx vy vz]. f_equal.
  replace ((p' * cos lambda - p * cos lambda) * (p' * cos lambda - p * cos lambda) + (p' * sin lambda - p * sin lambda) * (p' * sin lambda - p * sin lambda) + (z' - z) * (z' - z))
    with ((p - p') * (p - p') * (sin lambda * sin lambda + cos lambda * cos lambda) + (z - z') * (z - z')) by ring.
  rewrite trig1. ring.
Qed.

Lemma height_norm : forall phi lambda h, norm (at_height phi lambda h) = rr phi h.
Proof.
  intros phi lambda h. unfold norm, rr. f_equal. unfold dot, at_height; cbn [vx vy vz]. fold (pp phi h). fold (rho phi h). fold (zz phi h).
  replace (pp phi h * cos lambda * (pp phi h * cos lambda) + pp phi h * sin lambda * (pp phi h * sin lambda) + zz phi h * zz phi h)
    with (pp phi h * pp phi h * (sin lambda * sin lambda + cos lambda * cos lambda) + zz phi h * zz phi h) by ring.
  rewrite trig1. ring.
Qed.

(** The square of the distance between the point and the one at the same distance from the centre with its geodetic latitude for the
    geocentric one. *)
Section Offset.
Variables phi h : R.
Hypothesis Hphi : - (PI / 2) < phi < PI / 2.
Hypothesis Hh : - 3000000 <= h.
Notation p := (pp phi h).
Notation z := (zz phi h).
Notation r := (rr phi h).
Definition along : R := p * cos phi + z * sin phi.
Definition across : R := e2 * prime_vertical phi * (sin phi * cos phi).

Lemma across_eq : p * sin phi - z * cos phi = across.
Proof. unfold across, pp, zz, rho. ring. Qed.
Lemma r_sq : r * r = p * p + z * z.
Proof. unfold rr. apply sqrt_sqrt. nra. Qed.
Lemma split_sq : along * along + across * across = r * r.
Proof.
  rewrite r_sq, <- across_eq. unfold along. pose proof (trig1 phi) as T.
  transitivity ((p * p + z * z) * (sin phi * sin phi + cos phi * cos phi)); [ring|rewrite T; ring].
Qed.
Lemma along_low : rho phi h <= along.
Proof.
  unfold along. pose proof (pp_rho phi h Hphi) as P. pose proof (c_pos phi Hphi) as C. pose proof (trig1 phi) as T.
  assert (rho phi h * cos phi * cos phi <= p * cos phi) by (apply Rmult_le_compat_r; lra). unfold zz.
  assert (E : rho phi h * cos phi * cos phi + rho phi h * sin phi * sin phi = rho phi h).
  { transitivity (rho phi h * (sin phi * sin phi + cos phi * cos phi)); [ring|rewrite T; ring]. }
  lra.
Qed.
Lemma across_up : Rabs across <= 21500.
Proof.
  unfold across. pose proof (pv_up phi) as U. pose proof (pv_low phi) as L. pose proof axis_pos. pose proof e2_bounds as E. pose proof flat as F.
  assert (S : Rabs (sin phi * cos phi) <= / 2).
  { pose proof (trig1 phi) as T. pose proof (Rle_0_sqr (sin phi - cos phi)) as A. pose proof (Rle_0_sqr (sin phi + cos phi)) as B. unfold Rsqr in A, B. apply Rabs_le. lra. }
  rewrite Rabs_mult. rewrite (Rabs_pos_eq (e2 * prime_vertical phi)) by (apply Rmult_le_pos; lra).
  assert (Q : e2 * prime_vertical phi <= 43000).
  { apply Rle_trans with (e2 * (wgs84_axis / semi)); [apply Rmult_le_compat_l; lra|lra]. }
  apply Rle_trans with (43000 * / 2); [|lra]. apply Rmult_le_compat; [apply Rmult_le_pos; lra|apply Rabs_pos|exact Q|exact S].
Qed.
Lemma offset_sq : ((p - r * cos phi) * (p - r * cos phi) + (z - r * sin phi) * (z - r * sin phi)) * (r + along) = 2 * r * (across * across).
Proof.
  assert (E : (p - r * cos phi) * (p - r * cos phi) + (z - r * sin phi) * (z - r * sin phi) = 2 * r * (r - along)).
  { pose proof (trig1 phi) as T. pose proof r_sq as Q. unfold along.
    transitivity ((p * p + z * z) + r * r * (sin phi * sin phi + cos phi * cos phi) - 2 * r * (p * cos phi + z * sin phi)); [ring|]. rewrite T, <- Q. ring. }
  rewrite E. pose proof split_sq as S. transitivity (2 * r * (r * r - along * along)); [ring|]. rewrite <- S. ring.
Qed.
Lemma offset_near : sqrt ((p - r * cos phi) * (p - r * cos phi) + (z - r * sin phi) * (z - r * sin phi)) <= 21600.
Proof.
  pose proof offset_sq as O. set (q := (p - r * cos phi) * (p - r * cos phi) + (z - r * sin phi) * (z - r * sin phi)) in *.
  assert (Q : 0 <= q) by (unfold q; apply Rplus_le_le_0_compat; apply Rle_0_sqr). pose proof along_low as A. pose proof (rho_low phi h Hh) as Rl. pose proof (rr_rho phi h Hphi Hh) as Rr. pose proof across_up as B. pose proof split_sq as S.
  assert (X : across * across <= 21500 * 21500). { apply Rabs_le_inv in B. nra. }
  assert (Al : 999 / 1000 * r <= along).
  { apply Rsqr_incr_0_var; [|lra]. unfold Rsqr. nra. }
  rewrite <- (sqrt_sq_nonneg 21600) by lra. apply sqrt_le_1_alt.
  assert (Y : q * (1999 / 1000 * r) <= 2 * r * (21500 * 21500)) by (eapply Rle_trans; [|eapply Rle_trans; [apply Req_le, O|apply Rmult_le_compat_l; lra]]; apply Rmult_le_compat_l; lra).
  apply Rmult_le_reg_r with (1999 / 1000 * r); [lra|]. nra.
Qed.
Lemma offset_far : Rabs across <= sqrt ((p - r * cos phi) * (p - r * cos phi) + (z - r * sin phi) * (z - r * sin phi)).
Proof.
  pose proof offset_sq as O. set (q := (p - r * cos phi) * (p - r * cos phi) + (z - r * sin phi) * (z - r * sin phi)) in *.
  pose proof along_low as A. pose proof (rho_low phi h Hh) as Rl. pose proof (rr_rho phi h Hphi Hh) as Rr. pose proof split_sq as S.
  rewrite <- (sqrt_sq_nonneg (Rabs across)) by apply Rabs_pos. apply sqrt_le_1_alt. rewrite <- Rabs_mult, Rabs_pos_eq by nra.
  assert (Al : along <= r) by (apply Rsqr_incr_0_var; [unfold Rsqr; nra|lra]).
  apply Rmult_le_reg_r with (r + along); [lra|]. rewrite O. assert (0 <= across * across) by nra. nra.
Qed.
End Offset.

(** The same radius and longitude at nearly the same latitude. *)
Lemma spherical_near : forall r phi lat lambda, 0 <= r -> Rabs (lat - phi) <= latitude_tolerance / 39 ->
  distance (spherical phi lambda r) (spherical lat lambda r) <= r / 10 ^ 8.
Proof.
  intros r phi lat lambda R0 N.
  unfold spherical. rewrite meridian_distance.
    replace ((r * cos phi - r * cos lat) * (r * cos phi - r * cos lat) + (r * sin phi - r * sin lat) * (r * sin phi - r * sin lat))
      with (r * r * (2 * (1 - cos (lat - phi)))).
    2: { rewrite cos_minus. pose proof (trig1 phi) as T. pose proof (trig1 lat) as T'.
         transitivity (r * r * ((sin phi * sin phi + cos phi * cos phi) + (sin lat * sin lat + cos lat * cos lat) - 2 * (cos lat * cos phi + sin lat * sin phi))); [rewrite T, T'; ring|ring]. }
    assert (C : 1 - cos (lat - phi) = 2 * (sin ((lat - phi) / 2) * sin ((lat - phi) / 2))).
    { pose proof (trig1 ((lat - phi) / 2)) as T. replace (lat - phi) with (2 * ((lat - phi) / 2)) at 1 by field. rewrite cos_2a. lra. }
    rewrite C. replace (r * r * (2 * (2 * (sin ((lat - phi) / 2) * sin ((lat - phi) / 2))))) with ((2 * r * Rabs (sin ((lat - phi) / 2))) * (2 * r * Rabs (sin ((lat - phi) / 2)))).
    2: { replace (2 * r * Rabs (sin ((lat - phi) / 2)) * (2 * r * Rabs (sin ((lat - phi) / 2)))) with (4 * r * r * (Rabs (sin ((lat - phi) / 2)) * Rabs (sin ((lat - phi) / 2)))) by ring.
         rewrite <- Rabs_mult, Rabs_pos_eq by nra. ring. }
    pose proof (Rabs_pos (sin ((lat - phi) / 2))) as Sp. rewrite sqrt_sq_nonneg by nra.
    pose proof (sin_abs_le ((lat - phi) / 2)) as Sl. assert (E : Rabs ((lat - phi) / 2) = Rabs (lat - phi) / 2) by (unfold Rdiv; rewrite Rabs_mult, (Rabs_pos_eq (/ 2)) by lra; reflexivity).
    rewrite E in Sl. assert (T : latitude_tolerance / 39 <= / 10 ^ 8) by (unfold latitude_tolerance, radians; pose proof PI_4; lra).
    assert (2 * Rabs (sin ((lat - phi) / 2)) <= / 10 ^ 8) by lra. unfold Rdiv. nra.
Qed.

(** The station of the predictor is within 22 kilometres of the station. *)
Theorem station_near : forall phi lambda h lat lon, - (PI / 2) < phi < PI / 2 -> - PI < lambda < PI -> - 3000000 <= h ->
  to_geographic (at_height phi lambda h) (Ok (lat, lon)) ->
  distance (at_height phi lambda h) (spherical lat lon (norm (at_height phi lambda h))) <= 21600 + norm (at_height phi lambda h) / 10 ^ 8.
Proof.
  intros phi lambda h lat lon Hp Hl Hh G. destruct (geodetic_height phi lambda h Hp Hl Hh) as (lat' & _ & N & _ & U).
  apply U in G. injection G as -> ->. rewrite height_norm. set (r := rr phi h). assert (R0 : 0 <= r) by apply sqrt_pos.
  eapply Rle_trans; [apply (distance_triangle _ (spherical phi lambda r))|]. apply Rplus_le_compat.
  - unfold at_height, spherical. fold (pp phi h). fold (rho phi h). fold (zz phi h). rewrite meridian_distance. apply offset_near; assumption.
  - apply spherical_near; assumption.
Qed.
Print Assumptions station_near.

(** So the distances the predictor works with are those of the channel up to 22 kilometres, for every satellite and at all times; the
    position of the satellite differs by the difference of the two radii. *)
Theorem predictor_off : forall rs o t phi lambda h lat lon raw p,
  - (PI / 2) < phi < PI / 2 -> - PI < lambda < PI -> - 3000000 <= h -> 0 < orbit_radius o ->
  to_geographic (at_height phi lambda h) (Ok (lat, lon)) -> inertial o t = Ok raw -> position rs o t = Ok p ->
  Rabs (distance p (at_height phi lambda h) - distance raw (ground_observer lat lon (norm (at_height phi lambda h)) t)) <=
    21600 + norm (at_height phi lambda h) / 10 ^ 8 + Rabs (rs - earth_radius).
Proof.
  intros rs o t phi lambda h lat lon raw p Hp Hl Hh Ho G I Q. pose proof (station_near phi lambda h lat lon Hp Hl Hh G) as N.
  set (g := at_height phi lambda h) in *. destruct (position_rotated rs o t Ho) as (raw' & I' & Q'). rewrite I in I'. injection I' as <-. rewrite Q in Q'. injection Q' as ->.
  set (s := rotate (- (earth_rotation * t)) raw). set (k := (rs + (orbit_radius o - earth_radius)) / orbit_radius o).
  assert (D : distance raw (ground_observer lat lon (norm g) t) = distance s (spherical lat lon (norm g))).
  { rewrite observer_rotated. unfold s. rewrite <- (rotate_distance (earth_rotation * t) (rotate (- (earth_rotation * t)) raw)), rotate_rotate.
    replace (- (earth_rotation * t) + earth_rotation * t) with 0 by ring. rewrite ?(Rplus_opp_r (earth_rotation * t)), rotate_0. reflexivity. }
  assert (K : distance (scale k s) s = Rabs (rs - earth_radius)).
  { unfold distance. replace (vsub s (scale k s)) with (scale (1 - k) s) by (unfold vsub, scale; cbn; f_equal; ring).
    unfold norm. replace (dot (scale (1 - k) s) (scale (1 - k) s)) with ((1 - k) * (1 - k) * dot s s) by (unfold dot, scale; cbn; ring).
    assert (Dn : dot s s = orbit_radius o * orbit_radius o).
    { unfold s. rewrite rotate_dot. rewrite inertial_motion in I. injection I as <-. apply dot_circular. }
    rewrite Dn. replace ((1 - k) * (1 - k) * (orbit_radius o * orbit_radius o)) with ((rs - earth_radius) * (rs - earth_radius)) by (unfold k; field; lra).
    apply sqrt_Rsqr_abs. }
  rewrite D. set (q := spherical lat lon (norm g)) in *.
  pose proof (distance_triangle (scale k s) s g). pose proof (distance_triangle s q g). pose proof (distance_triangle s g q). pose proof (distance_triangle s (scale k s) g).
  rewrite (distance_sym s (scale k s)) in *. rewrite (distance_sym q g) in *. apply Rabs_le. lra.
Qed.
Print Assumptions predictor_off.

(** What the mobility model answers, in distances of the channel: at the time answered the satellite is nearer than the target, or within a
    second of it at the target, up to the error above. *)
Theorem next_time_off : forall solver, solver_contract solver -> forall rs o target phi lambda h now r,
  - (PI / 2) < phi < PI / 2 -> - PI < lambda < PI -> - 3000000 <= h -> 0 < orbit_radius o -> 0 <= target ->
  next_time_at_distance solver o target (at_height phi lambda h) now r ->
  let e := 21600 + norm (at_height phi lambda h) / 10 ^ 8 + Rabs (rs - earth_radius) in
  now <= r /\
  ((exists p, position rs o r = Ok p /\ distance p (at_height phi lambda h) < target + e) \/
   exists x p, Rabs (x - r) <= 1 /\ position rs o x = Ok p /\ Rabs (distance p (at_height phi lambda h) - target) <= e).
Proof.
  intros solver C rs o target phi lambda h now r Hp Hl Hh Ho Ht (lat & lon & G & N) e.
  destruct (search_answer_partial solver C o target lat lon _ now r Ho Ht N) as (_ & _ & _ & L & D). split; [exact L|].
  assert (A : forall x d, separation o lat lon (norm (at_height phi lambda h)) x d ->
    exists p, position rs o x = Ok p /\ Rabs (distance p (at_height phi lambda h) - d) <= e).
  { intros x d (raw & I & <-). destruct (position_rotated rs o x Ho) as (raw' & _ & P). eexists. split; [exact P|].
    rewrite <- observer_rotated. exact (predictor_off rs o x phi lambda h lat lon raw _ Hp Hl Hh Ho G I P). }
  destruct D as [(d & S & Lt)|(x & X & S)].
  - left. destruct (A _ _ S) as (p & P & B). exists p. split; [exact P|]. apply Rabs_le_inv in B. lra.
  - right. destruct (A _ _ S) as (p & P & B). exists x, p. auto.
Qed.
Print Assumptions next_time_off.

(** Asked for an elevation [e], the predictor computes the distance [D] at which a satellite [h] above a station is seen at [e]; the satellite is
    not exactly [h] above it.  The sine of the elevation at the time answered is right up to this: *)
Definition elevation_error (D g h delta e : R) : R := (delta * (2 * (g + h) + delta) + e * (2 * g + h + D)) / (2 * g * (D - e)).

Lemma slant_law : forall o e g, 0 < g -> earth_radius <= orbit_radius o -> - (PI / 2) <= e <= PI / 2 ->
  let D := ground_distance_at_elevation o e g in let h := sat_altitude o in
  h <= D /\ 2 * g * D * sin e = h * (2 * g + h) - D * D.
Proof.
  intros o e g G O E D h. unfold ground_distance_at_elevation in D. fold h in D. assert (H0 : 0 <= h) by (unfold h, sat_altitude; lra).
  set (s := sin e) in *. assert (Sb : - 1 <= s <= 1) by apply SIN_bound.
  set (q := sqrt ((g * s) ^ 2 + 2 * g * h + h ^ 2)) in *. assert (A0 : 0 <= h * (2 * g + h)) by (apply Rmult_le_pos; lra).
  assert (Q2 : q * q = (g * s) * (g * s) + h * (2 * g + h)).
  { unfold q. rewrite sqrt_sqrt; [ring|]. pose proof (Rle_0_sqr (g * s)) as X. unfold Rsqr in X. replace ((g * s) ^ 2 + 2 * g * h + h ^ 2) with ((g * s) * (g * s) + h * (2 * g + h)) by ring. lra. }
  assert (Q0 : 0 <= q) by apply sqrt_pos.
  assert (Gs : - g <= g * s <= g).
  { pose proof (Rmult_le_compat_l g (-1) s ltac:(lra) (proj1 Sb)). pose proof (Rmult_le_compat_l g s 1 ltac:(lra) (proj2 Sb)). lra. }
  assert (Qs : g * s <= q) by (apply Rnot_lt_le; intros X; assert (q * q < g * s * (g * s)) by (apply Rmult_le_0_lt_compat; lra); lra).
  assert (De : D = q - g * s).
  { unfold D. replace (2 * (g * s) ^ 2 - 2 * g * s * q + 2 * g * h + h ^ 2) with ((q - g * s) * (q - g * s)); [apply sqrt_sq_nonneg; lra|].
    transitivity (q * q - 2 * (g * s) * q + (g * s) * (g * s)); [ring|]. rewrite Q2. ring. }
  assert (Qu : q <= g + h).
  { apply Rnot_lt_le. intros X. assert ((g + h) * (g + h) < q * q) by (apply Rmult_le_0_lt_compat; lra).
    assert (g * s * (g * s) <= g * g). { pose proof (Rmult_le_compat (Rabs (g * s)) g (Rabs (g * s)) g (Rabs_pos _) (Rabs_pos _) ltac:(apply Rabs_le; lra) ltac:(apply Rabs_le; lra)) as Y. rewrite <- Rabs_mult in Y. pose proof (Rle_abs (g * s * (g * s))). lra. }
    rewrite Q2 in H. replace ((g + h) * (g + h)) with (g * g + h * (2 * g + h)) in H by ring. lra. }
  assert (Pr : D * (q + g * s) = h * (2 * g + h)) by (rewrite De; transitivity (q * q - g * s * (g * s)); [ring|rewrite Q2; ring]).
  split.
  - apply Rnot_lt_le. intros X. assert (D0 : 0 <= D) by apply sqrt_pos.
    assert (D * (q + g * s) <= D * (2 * g + h)) by (apply Rmult_le_compat_l; lra).
    assert (D * (2 * g + h) < h * (2 * g + h)) by (apply Rmult_lt_compat_r; lra). lra.
  - rewrite <- Pr, De. ring.
Qed.

Theorem next_elevation_off : forall solver, solver_contract solver -> forall rs o e phi lambda h now r,
  - (PI / 2) < phi < PI / 2 -> - PI < lambda < PI -> - 3000000 <= h -> earth_radius < orbit_radius o -> - (PI / 2) <= e <= PI / 2 ->
  let g := norm (at_height phi lambda h) in let D := ground_distance_at_elevation o e g in
  let err := 21600 + g / 10 ^ 8 + Rabs (rs - earth_radius) in
  0 <= rs -> g < rs + sat_altitude o -> err < D -> next_time_at_elevation solver o e (at_height phi lambda h) now r ->
  let bound := elevation_error D g (sat_altitude o) (Rabs (rs - g)) err in
  now <= r /\
  ((exists p, position rs o r = Ok p /\ sin e - bound <= sin (sat_elevation p (at_height phi lambda h))) \/
   exists x p, Rabs (x - r) <= 1 /\ position rs o x = Ok p /\ Rabs (sin (sat_elevation p (at_height phi lambda h)) - sin e) <= bound).
Proof.
  intros solver C rs o e phi lambda h now r Hp Hl Hh Ho He g D err Rs Hg Hd N bound.
  assert (ER : 0 < earth_radius) by (unfold earth_radius; lra).
  assert (G0 : 0 < g). { unfold g. rewrite height_norm. pose proof (rr_rho phi h Hp Hh). pose proof (rho_low phi h Hh). lra. }
  destruct (slant_law o e g G0 ltac:(lra) He) as (Dh & Dl). fold D in Dh, Dl. set (k := sat_altitude o) in *. assert (K0 : 0 < k) by (unfold k, sat_altitude; lra).
  assert (E0 : 0 < err). { unfold err. pose proof (Rabs_pos (rs - earth_radius)). lra. }
  set (delta := Rabs (rs - g)) in *. assert (D0 : 0 <= delta) by apply Rabs_pos.
  assert (Law : forall x p, position rs o x = Ok p -> 0 < distance p (at_height phi lambda h) /\
    (rs + k) * (rs + k) = g * g + distance p (at_height phi lambda h) * distance p (at_height phi lambda h) + 2 * g * distance p (at_height phi lambda h) * sin (sat_elevation p (at_height phi lambda h))).
  { intros x p P. assert (Np : norm p = rs + k).
    { destruct (position_rotated rs o x ltac:(lra)) as (raw & I & Q). rewrite Q in P. injection P as <-. unfold norm.
      replace (dot (scale ((rs + (orbit_radius o - earth_radius)) / orbit_radius o) (rotate (- (earth_rotation * x)) raw)) (scale ((rs + (orbit_radius o - earth_radius)) / orbit_radius o) (rotate (- (earth_rotation * x)) raw)))
        with (((rs + (orbit_radius o - earth_radius)) / orbit_radius o) * ((rs + (orbit_radius o - earth_radius)) / orbit_radius o) * dot (rotate (- (earth_rotation * x)) raw) (rotate (- (earth_rotation * x)) raw)) by (unfold dot, scale; cbn; ring).
      rewrite rotate_dot. rewrite inertial_motion in I. injection I as <-. rewrite dot_circular.
      replace ((rs + (orbit_radius o - earth_radius)) / orbit_radius o * ((rs + (orbit_radius o - earth_radius)) / orbit_radius o) * (orbit_radius o * orbit_radius o)) with ((rs + k) * (rs + k)) by (unfold k, sat_altitude; field; lra).
      apply sqrt_sq_nonneg. lra. }
    assert (Dp : 0 < distance p (at_height phi lambda h)).
    { pose proof (distance_triangle (Vec 0 0 0) (at_height phi lambda h) p) as T. rewrite (distance_sym (at_height phi lambda h) p) in T.
      assert (Z : forall v, distance (Vec 0 0 0) v = norm v) by (intros [a b c]; unfold distance, vsub; cbn; f_equal; f_equal; ring). rewrite !Z, Np in T. fold g in T. lra. }
    split; [exact Dp|]. rewrite <- Np, norm_sq. apply elevation_law; assumption. }
  assert (Dif : Rabs ((rs + k) * (rs + k) - g * g - k * (2 * g + k)) <= delta * (2 * (g + k) + delta)).
  { replace ((rs + k) * (rs + k) - g * g - k * (2 * g + k)) with ((rs - g) * (2 * (g + k) + (rs - g))) by ring. rewrite Rabs_mult. fold delta. apply Rmult_le_compat_l; [exact D0|].
    eapply Rle_trans; [apply Rabs_triang|]. fold delta. rewrite Rabs_pos_eq by lra. lra. }
  pose proof (Rabs_le_inv _ _ Dif) as Dif'. set (A' := (rs + k) * (rs + k) - g * g) in *. set (A := k * (2 * g + k)) in *.
  assert (A0 : 0 <= A') by (unfold A'; assert (g * g < (rs + k) * (rs + k)) by (apply Rmult_le_0_lt_compat; lra); lra).
  assert (Ad : 0 <= A <= D * (2 * g + k)) by (unfold A; split; [apply Rmult_le_pos; lra|apply Rmult_le_compat_r; lra]).
  set (T := delta * (2 * (g + k) + delta)) in *.
  (* both inequalities, multiplied out *)
  assert (Eb : bound * (2 * g * (D - err)) = T + err * (2 * g + k + D)) by (unfold bound, elevation_error; fold T; field; lra).
  assert (B0 : 0 <= bound).
  { unfold bound, elevation_error. apply Rmult_le_pos; [|apply Rlt_le, Rinv_0_lt_compat; apply Rmult_lt_0_compat; lra]. unfold T in Eb.
    assert (0 <= delta * (2 * (g + k) + delta)) by (apply Rmult_le_pos; lra). assert (0 <= err * (2 * g + k + D)) by (apply Rmult_le_pos; lra). lra. }
  assert (Low : forall d s, 0 < d -> d <= D + err -> 2 * g * d * s = A' - d * d -> sin e - bound <= s).
  { intros d s Pd Ld Ls. apply Rmult_le_reg_r with (2 * g * D * d); [apply Rmult_lt_0_compat; [apply Rmult_lt_0_compat|]; lra|].
    replace (s * (2 * g * D * d)) with (D * (2 * g * d * s)) by ring. rewrite Ls.
    replace ((sin e - bound) * (2 * g * D * d)) with (d * (2 * g * D * sin e) - d * (bound * (2 * g * D))) by ring. rewrite Dl.
    assert (Eb' : T + err * (2 * g + k + D) <= bound * (2 * g * D)).
    { rewrite <- Eb. apply Rmult_le_compat_l; [exact B0|]. apply Rmult_le_compat_l; lra. }
    assert (M1 : d * (T + err * (2 * g + k + D)) <= d * (bound * (2 * g * D))) by (apply Rmult_le_compat_l; lra).
    destruct (Rle_lt_dec d D) as [L|L].
    - assert (d * A' <= D * A') by (apply Rmult_le_compat_r; lra). assert (d * (A - T) <= d * A') by (apply Rmult_le_compat_l; lra).
      assert (0 <= d * D * (D - d)) by (apply Rmult_le_pos; [apply Rmult_le_pos|]; lra).
      assert (0 <= d * (err * (2 * g + k + D))) by (apply Rmult_le_pos; [lra|apply Rmult_le_pos; lra]). lra.
    - assert (D * (A - T) <= D * A') by (apply Rmult_le_compat_l; lra). assert (D * T <= d * T) by (apply Rmult_le_compat_r; [unfold T; apply Rmult_le_pos; lra|lra]).
      assert ((d - D) * A <= err * A) by (apply Rmult_le_compat_r; lra). assert (err * A <= err * (D * (2 * g + k))) by (apply Rmult_le_compat_l; lra).
      assert (err * (D * (2 * g + k)) <= err * (d * (2 * g + k))) by (apply Rmult_le_compat_l; [lra|apply Rmult_le_compat_r; lra]).
      assert (d * D * (d - D) <= d * D * err) by (apply Rmult_le_compat_l; [apply Rmult_le_pos|]; lra). lra. }
  assert (High : forall d s, 0 < d -> D - err <= d -> 2 * g * d * s = A' - d * d -> s <= sin e + bound).
  { intros d s Pd Ld Ls. apply Rmult_le_reg_r with (2 * g * D * d); [apply Rmult_lt_0_compat; [apply Rmult_lt_0_compat|]; lra|].
    replace (s * (2 * g * D * d)) with (D * (2 * g * d * s)) by ring. rewrite Ls.
    replace ((sin e + bound) * (2 * g * D * d)) with (d * (2 * g * D * sin e) + D * (bound * (2 * g * d))) by ring. rewrite Dl.
    assert (Eb' : T + err * (2 * g + k + D) <= bound * (2 * g * d)).
    { rewrite <- Eb. apply Rmult_le_compat_l; [exact B0|]. apply Rmult_le_compat_l; lra. }
    assert (M1 : D * (T + err * (2 * g + k + D)) <= D * (bound * (2 * g * d))) by (apply Rmult_le_compat_l; lra).
    assert (D * A' <= D * (A + T)) by (apply Rmult_le_compat_l; lra).
    destruct (Rle_lt_dec d D) as [L|L].
    - assert ((D - d) * A <= err * A) by (apply Rmult_le_compat_r; lra). assert (err * A <= err * (D * (2 * g + k))) by (apply Rmult_le_compat_l; lra).
      assert (d * D * (D - d) <= d * D * err) by (apply Rmult_le_compat_l; [apply Rmult_le_pos|]; lra).
      assert (d * (D * err) <= D * (D * err)) by (apply Rmult_le_compat_r; [apply Rmult_le_pos|]; lra). lra.
    - assert (0 <= (d - D) * A) by (apply Rmult_le_pos; lra). assert (0 <= d * D * (d - D)) by (apply Rmult_le_pos; [apply Rmult_le_pos|]; lra).
      assert (0 <= D * (err * (2 * g + k + D))) by (apply Rmult_le_pos; [lra|apply Rmult_le_pos; lra]). lra. }
  destruct (next_time_off solver C rs o D phi lambda h now r Hp Hl Hh ltac:(lra) ltac:(lra) N) as (W & [(p & P & Q)|(x & p & X & P & Q)]); (split; [exact W|]).
  - left. exists p. split; [exact P|]. destruct (Law _ _ P) as (Pd & L). apply (Low (distance p (at_height phi lambda h))); [exact Pd| |unfold A'; lra]. unfold err, g. lra.
  - right. exists x, p. split; [exact X|]. split; [exact P|]. destruct (Law _ _ P) as (Pd & L). apply Rabs_le_inv in Q.
    assert (Q' : - err <= distance p (at_height phi lambda h) - D <= err) by (unfold err, g; exact Q).
    apply Rabs_le. split.
    + enough (sin e - bound <= sin (sat_elevation p (at_height phi lambda h))) by lra. apply (Low (distance p (at_height phi lambda h))); [exact Pd|lra|unfold A'; lra].
    + enough (sin (sat_elevation p (at_height phi lambda h)) <= sin e + bound) by lra. apply (High (distance p (at_height phi lambda h))); [exact Pd|lra|unfold A'; lra].
Qed.
Print Assumptions next_elevation_off.

(** One search only: an answer is one that the repeated search gives too, and at most a revolution away. *)
Theorem try_time_next : forall solver, solver_contract solver -> forall o target g now r, 0 < orbit_radius o -> 0 <= target ->
  try_time_at_distance solver o target g now (Some r) -> next_time_at_distance solver o target g now r /\ now <= r <= now + orbital_period o.
Proof.
  intros solver C o target g now r Ho Ht (lat & lon & G & F). symmetry in F.
  split; [exists lat, lon; split; [exact G|apply next_found; exact F]|]. destruct (pass_partial solver C o target lat lon _ now r Ho Ht F) as (W & _). exact W.
Qed.
Print Assumptions try_time_next.

Theorem try_elevation_next : forall solver, solver_contract solver -> forall o e g now r, 0 < orbit_radius o ->
  try_time_at_elevation solver o e g now (Some r) -> next_time_at_elevation solver o e g now r /\ now <= r <= now + orbital_period o.
Proof. intros solver C o e g now r Ho T. apply try_time_next; try assumption. apply sqrt_pos. Qed.
Print Assumptions try_elevation_next.

(** The repeated search answers with the first answer of a single one, half a revolution apart. *)
Theorem next_try : forall solver, solver_contract solver -> forall o target g now r, 0 < orbit_radius o -> 0 <= target ->
  next_time_at_distance solver o target g now r ->
  exists k, try_time_at_distance solver o target g (now + INR k * (orbital_period o / 2)) (Some r) /\
    forall j, (j < k)%nat -> try_time_at_distance solver o target g (now + INR j * (orbital_period o / 2)) None.
Proof.
  intros solver C o target g now r Ho Ht (lat & lon & G & N). destruct (search_answer_partial solver C o target lat lon _ now r Ho Ht N) as (k & A & B & _).
  exists k. split; [|intros j J]; exists lat, lon; (split; [exact G|]); symmetry; [exact A|apply B; exact J].
Qed.
Print Assumptions next_try.

(** The bound is not far from what happens: a station at 45 degrees north on the ellipsoid, a satellite 15 degrees further north at 500 km. *)
Lemma ok_inj : forall (A : Type) (a b : A), Ok a = Ok b -> a = b.
Proof. congruence. Qed.
Definition far_orbit : orbit := launch_sat (PI / 2) 0 500000 (PI / 3).
Theorem predictor_far : exists phi h raw p, inertial far_orbit 0 = Ok raw /\ position earth_radius far_orbit 0 = Ok p /\
  forall lat lon, to_geographic (at_height phi 0 h) (Ok (lat, lon)) ->
    distance p (at_height phi 0 h) - distance raw (ground_observer lat lon (norm (at_height phi 0 h)) 0) > 21000.
Proof.
  assert (P0 := PI_RGT_0). assert (Ho : 0 < orbit_radius far_orbit) by (cbn; unfold earth_radius; lra).
  assert (Hp : - (PI / 2) < PI / 4 < PI / 2) by lra. assert (Hl : - PI < 0 < PI) by lra. assert (Hh : - 3000000 <= 0) by lra.
  destruct (position_rotated earth_radius far_orbit 0 Ho) as (raw & I & P). exists (PI / 4), 0, raw. eexists. split; [exact I|]. split; [exact P|].
  intros lat lon G. destruct (geodetic_height (PI / 4) 0 0 Hp Hl Hh) as (lat' & _ & Nn & _ & U). apply U in G. injection G as -> ->.
  rewrite inertial_motion in I.
  assert (Raw : raw = Vec (6871009 * cos (PI / 3) * cos 0) (6871009 * cos (PI / 3) * sin 0) (6871009 * sin (PI / 3))).
  { apply ok_inj in I. rewrite <- I. unfold circular_motion, node_dir, ahead_dir, far_orbit, launch_sat, scale, vadd; cbn. rewrite Rmult_0_r, Rplus_0_l, sin_PI2, cos_PI2, sin_0, cos_0. unfold earth_radius. f_equal; lra. }
  rewrite Raw. replace ((earth_radius + (orbit_radius far_orbit - earth_radius)) / orbit_radius far_orbit) with 1 by (field; lra).
  rewrite Rmult_0_r, Ropp_0, rotate_0, observer_rotated, Rmult_0_r, rotate_0.
  replace (scale 1 (Vec (6871009 * cos (PI / 3) * cos 0) (6871009 * cos (PI / 3) * sin 0) (6871009 * sin (PI / 3))))
    with (Vec (6871009 * cos (PI / 3) * cos 0) (6871009 * cos (PI / 3) * sin 0) (6871009 * sin (PI / 3))) by (unfold scale; cbn; f_equal; ring).
  rewrite height_norm. set (s := Vec _ _ _).
  assert (A : distance s (at_height (PI / 4) 0 0) >= 1819700).
  { unfold s, at_height. rewrite meridian_distance. unfold prime_vertical, e2, wgs84_axis, wgs84_ecc. apply Rle_ge. interval with (i_prec 90). }
  assert (B : distance s (spherical (PI / 4) 0 (rr (PI / 4) 0)) <= 1798690).
  { unfold s, spherical. rewrite meridian_distance. unfold rr, pp, zz, rho, prime_vertical, e2, wgs84_axis, wgs84_ecc. interval with (i_prec 90). }
  assert (C : rr (PI / 4) 0 / 10 ^ 8 <= 1).
  { unfold rr, pp, zz, rho, prime_vertical, e2, wgs84_axis, wgs84_ecc. interval with (i_prec 60). }
  pose proof (spherical_near (rr (PI / 4) 0) (PI / 4) lat' 0 (sqrt_pos _) Nn). pose proof (distance_triangle s (spherical (PI / 4) 0 (rr (PI / 4) 0)) (spherical lat' 0 (rr (PI / 4) 0))). lra.
Qed.
Print Assumptions predictor_far.

(** A station on the equator is asked when the satellite of [rise_case] rises. *)
Example next_time_case : next_time_at_distance (point_solver rise_time) rise_orbit skip_target (at_height 0 0 (- 7128)) 0 rise_time.
Proof.
  assert (V : at_height 0 0 (- 7128) = Vec 6371009 0 0).
  { unfold at_height, prime_vertical. rewrite sin_0, cos_0, !Rmult_0_r, Rminus_0_r, sqrt_1. unfold wgs84_axis. f_equal; lra. }
  rewrite V. exists 0, 0.
  assert (Z : forall x, 0 < x -> atan2 0 x = 0).
  { intros x X. replace 0 with (x * sin 0) at 1 by (rewrite sin_0; ring). replace x with (x * cos 0) at 2 by (rewrite cos_0; ring). pose proof PI_RGT_0. apply atan2_of_polar; lra. }
  assert (D : axis_distance (Vec 6371009 0 0) = 6371009).
  { unfold axis_distance; cbn [vx vy]. replace (6371009 ^ 2 + 0 ^ 2) with (6371009 * 6371009) by ring. apply sqrt_sq_nonneg. lra. }
  split.
  - exists 0. rewrite D; cbn [vx vy vz]. rewrite Z by lra. assert (S : latitude_start 6371009 0 = 0) by (unfold latitude_start, wgs84_ecc; apply Z; lra). rewrite S. pose proof PI_RGT_0. rewrite canonical_id by lra. split; [|reflexivity].
    assert (Q : latitude_round 6371009 0 0 = 0) by (unfold latitude_round; rewrite sin_0, cos_0, !Rmult_0_r, Rminus_0_r, sqrt_1; apply Z; unfold wgs84_ecc, wgs84_axis; lra).
    assert (W : latitude_loop 6371009 0 0 (latitude_round 6371009 0 0)); [|rewrite Q in W; exact W]. apply loop_stop. rewrite Q, Rminus_0_r, Rabs_R0. unfold latitude_tolerance, radians. lra.
  - apply next_found. replace (norm (Vec 6371009 0 0)) with skip_radius; [apply rise_case|]. unfold norm, dot, skip_radius; cbn [vx vy vz].
    replace (6371009 * 6371009 + 0 * 0 + 0 * 0) with (6371009 * 6371009) by ring. symmetry. apply sqrt_sq_nonneg. lra.
Qed.

(** The same time is the answer for the elevation at which the satellite is that far away, below the horizon. *)
Example next_elevation_case : let e := asin (- (6371009 / skip_target)) in
  next_time_at_elevation (point_solver rise_time) rise_orbit e (at_height 0 0 (- 7128)) 0 rise_time.
Proof.
  assert (V : norm (at_height 0 0 (- 7128)) = 6371009).
  { unfold at_height, prime_vertical. rewrite sin_0, cos_0, !Rmult_0_r, Rminus_0_r, sqrt_1. unfold norm, dot, wgs84_axis; cbn [vx vy vz].
    replace ((6378137 / 1 + -7128) * 1 * 1 * ((6378137 / 1 + -7128) * 1 * 1) + 0 * 0 + 0 * 0) with (6371009 * 6371009) by field. apply sqrt_sq_nonneg. lra. }
  intros e. unfold next_time_at_elevation. rewrite V.
  assert (T : skip_target * skip_target = 7000000 * 7000000 + 6371009 * 6371009) by (unfold skip_target, skip_radius; apply sqrt_sqrt; lra).
  assert (T0 : 6371009 < skip_target). { apply Rnot_le_lt. intros X. assert (skip_target * skip_target <= 6371009 * 6371009) by (apply Rmult_le_compat; try exact X; apply sqrt_pos). lra. }
  assert (S : sin e * skip_target = - 6371009).
  { unfold e. rewrite sin_asin; [field; lra|]. assert (0 < 6371009 / skip_target <= 1); [|lra]. split; [apply Rmult_lt_0_compat; [lra|apply Rinv_0_lt_compat; lra]|].
    apply Rmult_le_reg_r with skip_target; [lra|]. unfold Rdiv. rewrite Rmult_assoc, Rinv_l; lra. }
  assert (O : orbit_radius rise_orbit = 7000000) by reflexivity.
  destruct (slant_law rise_orbit e 6371009 ltac:(lra) ltac:(rewrite O; unfold earth_radius; lra) (asin_bound _)) as (L & W).
  set (D := ground_distance_at_elevation rise_orbit e 6371009) in *. unfold sat_altitude in L, W. rewrite O in L, W. unfold earth_radius in L, W.
  replace D with skip_target; [apply next_time_case|].
  assert (Z : (D - skip_target) * (D * skip_target + (7000000 * 7000000 - 6371009 * 6371009)) = 0).
  { replace ((D - skip_target) * (D * skip_target + (7000000 * 7000000 - 6371009 * 6371009)))
      with (skip_target * (D * D) + (7000000 * 7000000 - 6371009 * 6371009) * D - D * (skip_target * skip_target) - (7000000 * 7000000 - 6371009 * 6371009) * skip_target) by ring.
    assert (Y : 2 * 6371009 * D * (sin e * skip_target) = ((7000000 - 6371009) * (2 * 6371009 + (7000000 - 6371009)) - D * D) * skip_target) by (rewrite <- W; ring).
    rewrite S in Y. rewrite T. lra. }
  apply Rmult_integral in Z. assert (0 < D * skip_target) by (apply Rmult_lt_0_compat; lra). destruct Z; lra.
Qed.
