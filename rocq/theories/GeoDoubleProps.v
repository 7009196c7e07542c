(** The conversion of positions in double precision: right up to a fraction of its tolerance off the poles and the date line; on the polar axis
    it divides zero by zero, and an assertion fails. *)
From Coq Require Import ZArith List Bool Reals Lra Lia.
From Flocq Require Import Core BinarySingleNaN.
From Verif Require Import Base OrbitModel OrbitProofs OrbitProps GeodeticSpec GeodeticProofs DoubleModel DoubleSpec DoubleProofs GeoDoubleModel GeoDoubleSpec GeoDoubleProofs.
Open Scope Z_scope.

(** Of the library only this is needed: what is not a number stays so. *)
Definition keeps_nan (datan2 : double -> double -> double) : Prop := forall z, datan2 z B754_nan = B754_nan.

(** What one would want: any finite position converts. *)
Definition converts_all (dsin dcos : double -> double) (datan2 : double -> double -> double) (deg : double) : Prop :=
  forall pos, is_finite (dvx pos) = true -> is_finite (dvy pos) = true -> is_finite (dvz pos) = true ->
    exists lat lon, d_to_geographic dsin dcos datan2 deg pos (Ok (lat, lon)).

Definition on_axis (pos : dvec) : Prop := (exists s, dvx pos = B754_zero s) /\ (exists s, dvy pos = B754_zero s) /\ is_finite (dvz pos) = true.

Lemma zero_self : forall z : double, is_finite z = true -> dmul (dsub z z) (dsub z z) = B754_zero false.
Proof.
  intros z F. pose proof (Bminus_correct 53 1024 dprec dmax mode_NE z z F F) as C. rewrite Rminus_diag_eq in C by reflexivity.
  rewrite round_0 in C by apply valid_rnd_round_mode. rewrite Rabs_R0, Rlt_bool_true in C by apply bpow_gt_0.
  destruct C as (R0 & Fi & _). unfold dsub. destruct (Bminus mode_NE z z) as [s|s| |s m e H]; try discriminate.
  - destruct s; reflexivity.
  - exfalso. cbn in R0. apply eq_0_F2R in R0. destruct s; discriminate.
Qed.

Lemma axis_zero : forall pos, on_axis pos -> d_axis_distance pos = B754_zero false.
Proof.
  intros [x y z] ((sx & X) & (sy & Y) & F); cbn in X, Y, F. subst x y. unfold d_axis_distance, ddistance, dsq; cbn [dvx dvy dvz].
  rewrite (zero_self z F). destruct sx, sy; reflexivity.
Qed.

Lemma div_zero : forall (a b : double) s, b = B754_zero s \/ b = B754_nan -> (exists s, ddiv a b = B754_infinity s) \/ ddiv a b = B754_nan.
Proof. intros a b s [ -> | -> ]; destruct a; cbn; eauto. Qed.

(** One round gives no number, whatever the latitude. *)
Lemma round_nan : forall dsin dcos datan2 z lat, keeps_nan datan2 -> d_latitude_round dsin dcos datan2 (B754_zero false) z lat = B754_nan.
Proof.
  intros dsin dcos datan2 z lat K. unfold d_latitude_round.
  set (n := ddiv d_axis _). assert (V : (exists s, ddiv (B754_zero false) (dcos lat) = B754_zero s) \/ ddiv (B754_zero false) (dcos lat) = B754_nan).
  { destruct (dcos lat) as [s|s| |s m e H]; [right; reflexivity|left; exists s; destruct s; reflexivity|right; reflexivity|left; exists s; destruct s; reflexivity]. }
  assert (W : (exists s, ddiv (dmul d_e2 n) (ddiv (B754_zero false) (dcos lat)) = B754_infinity s) \/ ddiv (dmul d_e2 n) (ddiv (B754_zero false) (dcos lat)) = B754_nan).
  { destruct V as [[s -> ]| -> ]; [apply (div_zero _ _ s); auto|apply (div_zero _ _ true); auto]. }
  destruct W as [[s -> ]| -> ].
  - replace (dmul (B754_zero false) (dsub (dint 1) (B754_infinity s))) with (@B754_nan 53 1024) by (destruct s; reflexivity). apply K.
  - apply K.
Qed.

(** * C120 *)
(** The result is a failed assertion, and no other; it is what every station on the axis gets. *)
Theorem polar_fails : forall dsin dcos datan2 deg pos, keeps_nan datan2 -> on_axis pos ->
  d_to_geographic dsin dcos datan2 deg pos Assert /\ forall r, d_to_geographic dsin dcos datan2 deg pos r -> r = Assert.
Proof.
  intros dsin dcos datan2 deg pos K A.
  assert (S : forall lat, d_again deg (d_latitude_round dsin dcos datan2 (B754_zero false) (dvz pos) lat) lat = false).
  { intros lat. rewrite round_nan by exact K. unfold d_again, dlt. destruct (ddiv _ deg); reflexivity. }
  assert (C : forall lon, d_canonical deg B754_nan lon = Assert).
  { intros lon. unfold d_canonical. change (dmul B754_nan deg) with (@B754_nan 53 1024).
    replace (dlt (dint 90) B754_nan) with false by reflexivity. replace (dlt B754_nan (dint (- 90))) with false by reflexivity.
    set (l := if Beqb _ _ then _ else _). destruct (dle (dint (- 180)) l); [|reflexivity]. destruct (dlt l (dint 180)); reflexivity. }
  unfold d_to_geographic. rewrite axis_zero by exact A. split.
  - eexists. split; [apply d_loop_stop, S|]. rewrite round_nan by exact K. symmetry. apply C.
  - intros r (lat & L & ->). inversion L as [lat' E|lat' r' E]; subst; [|rewrite S in E; discriminate]. rewrite round_nan by exact K. apply C.
Qed.
Print Assumptions polar_fails.

Theorem polar_refuted : forall dsin dcos datan2 deg, keeps_nan datan2 -> ~ converts_all dsin dcos datan2 deg.
Proof.
  intros dsin dcos datan2 deg K C. destruct (C (mkDvec (dint 0) (dint 0) (dint 6356752)) eq_refl eq_refl eq_refl) as (lat & lon & H).
  apply (polar_fails dsin dcos datan2 deg) in H; [discriminate|exact K|]. split; [exists false; reflexivity|]. split; [exists false; reflexivity|reflexivity].
Qed.
Print Assumptions polar_refuted.

(** More than a few millimetres from the date line and 640 metres from the poles, up to a hundred thousand kilometres of height: the conversion
    ends with the coordinates of the point, the latitude up to a thirty-ninth of the tolerance. *)
Theorem geodetic_double_partial : forall dsin dcos datan2 deg pos phi lambda h, library dsin dcos datan2 deg ->
  (- (PI / 2) < phi < PI / 2)%R -> (1 / 10 ^ 4 <= cos phi)%R -> (Rabs lambda <= PI - 1 / 10 ^ 9)%R -> (- 3000000 <= h <= 10 ^ 8)%R -> stands_at pos phi lambda h ->
  exists lat lon, d_to_geographic dsin dcos datan2 deg pos (Ok (lat, lon)) /\
    is_finite lat = true /\ (Rabs (real_of lat - phi) <= latitude_tolerance / 39 + 4 / 10 ^ 12)%R /\
    is_finite lon = true /\ (Rabs (real_of lon - lambda) <= 2 / 10 ^ 12)%R /\
    forall r, d_to_geographic dsin dcos datan2 deg pos r -> r = Ok (lat, lon).
Proof.
  intros dsin dcos datan2 deg pos phi lambda h Lib Hp Hc Hl Hh St. pose proof (axis_near pos phi lambda h Hp Hc Hh St) as Na.
  destruct St as ((Fx & X) & (Fy & Y) & (Fz & Z)). assert (Dz : is_double (dvz pos) (zz phi h)) by (split; [exact Fz|exact Z]).
  unfold at_height in X, Y; cbn [vx vy] in X, Y. fold (pp phi h) in X, Y. pose proof (pp_dn phi h Hp Hc Hh) as Pd.
  destruct (d_start_close phi h Hp Hc Hh dsin dcos datan2 deg Lib _ _ Na Dz) as (Fs & Cs).
  destruct (d_loop_start phi h Hp Hc Hh dsin dcos datan2 deg Lib _ _ Na Dz) as (lat & L).
  destruct (d_loop_near phi h Hp Hc Hh dsin dcos datan2 deg Lib _ _ Na Dz _ _ L Fs Cs) as (Fl & Cl & El).
  assert (P1 := PI2_3_2).
  assert (A : (atan2 (real_of (dvy pos)) (real_of (dvx pos)) = lambda)%R).
  { rewrite X, Y. apply atan2_of_polar; [lra|]. apply Rabs_le_inv in Hl. lra. }
  assert (S : (0 < real_of (dvx pos) \/ real_of (dvy pos) <> 0)%R).
  { rewrite X, Y. destruct (Req_dec (sin lambda) 0) as [S|S]; [|right; apply Rmult_integral_contrapositive_currified; lra].
    left. apply Rabs_le_inv in Hl. assert (H : lambda = 0%R).
    { destruct (Rtotal_order lambda 0) as [G|[G|G]]; [|exact G|].
      - exfalso. assert (sin lambda < 0)%R by (apply sin_lt_0_var; lra). lra.
      - exfalso. assert (0 < sin lambda)%R by (apply sin_gt_0; lra). lra. }
    assert (Cl0 : cos lambda = 1%R) by (rewrite H; apply cos_0). rewrite Cl0. lra. }
  destruct (lib_atan2 _ _ _ _ Lib _ _ Fy Fx S) as (Fo & Eo). rewrite A in Eo. set (lon := datan2 (dvy pos) (dvx pos)) in *.
  assert (Bl : (Rabs (real_of lat) <= PI / 2 - 9 / 10 ^ 5)%R) by (pose proof (close_inside phi Hp _ Cl); unfold real_of; lra).
  assert (Bo : (Rabs (real_of lon) <= PI - 9 / 10 ^ 10)%R).
  { pose proof (Rabs_triang (real_of lon - lambda) lambda) as T. replace (real_of lon - lambda + lambda)%R with (real_of lon) in T by ring. unfold slack in Eo. lra. }
  destruct (d_canonical_ok phi h Hp dsin dcos datan2 deg Lib lat lon Fl Fo Bl Bo) as (lat' & lon' & C & (F1 & E1) & (F2 & E2)).
  exists lat', lon'. split; [|split; [exact F1|split; [|split; [exact F2|split]]]].
  - exists lat. split; [exact L|]. symmetry. exact C.
  - unfold real_of in *. pose proof (Rabs_triang (val lat' - val lat) (val lat - phi)) as T. replace (val lat' - val lat + (val lat - phi))%R with (val lat' - phi)%R in T by ring.
    unfold latitude_error in El. lra.
  - unfold real_of in *. pose proof (Rabs_triang (val lon' - val lon) (val lon - lambda)) as T. replace (val lon' - val lon + (val lon - lambda))%R with (val lon' - lambda)%R in T by ring.
    unfold slack in Eo. lra.
  - intros r (lat2 & L2 & ->). rewrite <- (d_loop_fun _ _ _ _ _ _ _ _ L _ L2). exact C.
Qed.
Print Assumptions geodetic_double_partial.

(** ** A library like that *)
Definition close_double (r : R) : double := dnum (Zfloor (r * 2 ^ 60)) (-60).
Definition good_atan2 (y x : double) : double := match x with B754_nan => B754_nan | _ => close_double (atan2 (real_of y) (real_of x)) end.
Lemma close_double_near : forall r, (Rabs r <= 60)%R -> near (close_double r) r (1 / 10 ^ 13).
Proof.
  intros r B. apply Rabs_le_inv in B. set (n := Zfloor (r * 2 ^ 60)). pose proof (Zfloor_lb (r * 2 ^ 60)) as L. pose proof (Zfloor_ub (r * 2 ^ 60)) as U. fold n in L, U.
  assert (W : (bpow radix2 (-60) = / 2 ^ 60)%R) by (change (bpow radix2 (-60)) with (/ 1152921504606846976)%R; lra).
  assert (E : (Rabs (IZR n * bpow radix2 (-60) - r) <= 1 / 10 ^ 17)%R) by (rewrite W; apply Rabs_le; lra). pose proof (Rabs_le_inv _ _ E) as E'.
  assert (M : (Rabs (IZR n * bpow radix2 (-60)) <= 61)%R) by (apply Rabs_le; lra).
  apply (near_rnd _ r (IZR n * bpow radix2 (-60)) (1 / 10 ^ 17) 61); [apply dnum_ok, small_below_max; lra|exact E|exact M|lra|rewrite u_val; lra].
Qed.
Lemma atan2_range : forall y x, (Rabs (atan2 y x) <= 4)%R.
Proof. intros y x. pose proof (atan2_bound y x). pose proof PI_4. apply Rabs_le. lra. Qed.
Example library_case : library (fun x => close_double (sin (real_of x))) (fun x => close_double (cos (real_of x))) good_atan2 (close_double (180 / PI)) /\ keeps_nan good_atan2.
Proof.
  assert (S : forall r e, (Rabs r <= 60)%R -> (1 / 10 ^ 13 <= e)%R -> is_finite (close_double r) = true /\ (Rabs (real_of (close_double r) - r) <= e)%R).
  { intros r e B L. destruct (close_double_near r B) as (F & E). split; [exact F|]. unfold real_of. lra. }
  split; [|intros z; reflexivity]. constructor.
  - intros x _ _. apply S; [pose proof (SIN_bound (real_of x)); apply Rabs_le; lra|unfold slack; lra].
  - intros x _ _. apply S; [pose proof (COS_bound (real_of x)); apply Rabs_le; lra|unfold slack; lra].
  - intros y x _ F _. unfold good_atan2. destruct x as [s|s| |s m e H]; try discriminate; apply S; try (pose proof (atan2_range (real_of y) (real_of (B754_zero s))); lra);
      try (unfold slack; lra). pose proof (atan2_range (real_of y) (real_of (B754_finite s m e H))). lra.
  - apply S; [|lra]. pose proof PI2_3_2. assert (D : (0 <= 180 / PI <= 60)%R).
    { split; apply Rmult_le_reg_r with PI; try lra; replace (180 / PI * PI)%R with 180%R by (field; lra); lra. }
    rewrite Rabs_pos_eq; lra.
Qed.

(** A station a kilometre above the equator. *)
Example double_case : stands_at (mkDvec (dint 6379137) (dint 0) (dint 0)) 0 0 1000.
Proof.
  destruct (dint_ok 6379137 ltac:(lia)) as (F1 & V1). destruct (dint_ok 0 ltac:(lia)) as (F0 & V0).
  unfold stands_at, stands_for, at_height, prime_vertical, real_of; cbn [dvx dvy dvz vx vy vz]. rewrite sin_0, cos_0, V1, V0, !Rmult_0_r, Rminus_0_r, sqrt_1.
  unfold wgs84_axis. repeat split; try assumption; lra.
Qed.
