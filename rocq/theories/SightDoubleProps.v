(** C135: what is in sight, from the orbits of the satellites, in double precision. *)
From Coq Require Import ZArith Reals Bool Lra Lia Psatz List.
From Flocq Require Import Core BinarySingleNaN.
From Verif Require Import Base OrbitModel OrbitSpec OrbitProofs TrackingProofs ConstellationModel DoubleModel DoubleSpec DoubleProofs DoubleProps ElevationDoubleModel ElevationDoubleSpec ElevationDoubleProofs ElevationDoubleProps OrbitDoubleModel OrbitDoubleSpec OrbitDoubleProofs OrbitDoubleProps FixedDoubleModel FixedDoubleSpec FixedDoubleProofs FixedDoubleProps SightDoubleSpec SightDoubleProofs.
Import ListNotations.
Open Scope R_scope.

Lemma sub_add : forall a b, vadd (vsub a b) b = a.
Proof. intros [a1 a2 a3] [b1 b2 b3]. unfold vadd, vsub. cbn [vx vy vz]. f_equal; ring. Qed.
Lemma add_sub : forall a b, vadd a (vsub b a) = b.
Proof. intros [a1 a2 a3] [b1 b2 b3]. unfold vadd, vsub. cbn [vx vy vz]. f_equal; ring. Qed.

Section Library.
Variables (dasin dsin dcos dhalf : double -> double) (datan2 : double -> double -> double) (twopi dpi deg rad dsphere : double).
Hypothesis orbits : orbit_library dsin dcos dhalf datan2 twopi dpi.
Hypothesis fixed : fixed_library dasin datan2 deg rad dsphere.
Let fly := d_position dasin dsin dcos dhalf datan2 twopi dpi deg rad dsphere.
Let really (o : dorbit) (t : double) : vec := earth_motion (real_of dsphere) (orbit_of o) (real_of t).

Lemma flown : forall o t, good_orbit o -> within_week t -> exists v, fly o t = Ok v /\ right_to (real_of (do_radius o) / 10 ^ 7) v (really o t) /\
  norm (vsub (vec_of v) (really o t)) <= 18 / 10 ^ 8 * real_of (do_radius o) /\ norm (really o t) = real_of dsphere + (real_of (do_radius o) - 6371009) /\ inside (10 ^ 8) v /\ 6371009 <= real_of (do_radius o) <= 5 * 10 ^ 7.
Proof.
  intros o t G T. destruct (position_double _ _ _ _ _ _ _ _ _ _ o t orbits fixed G T) as (v & E & R). exists v. split; [exact E|]. fold (really o t) in R. split; [exact R|].
  destruct G as (_ & _ & _ & _ & Br). unfold earth_radius in Br. destruct (fl_sphere _ _ _ _ _ fixed) as (_ & Bs).
  split; [eapply Rle_trans; [apply (right_distance (real_of (do_radius o) / 10 ^ 7) _ _ ltac:(lra) R)|lra]|].
  assert (N : norm (really o t) = real_of dsphere + (real_of (do_radius o) - 6371009)) by (apply (earth_motion_norm (real_of dsphere) (orbit_of o) (real_of t)); cbn; lra).
  split; [exact N|]. split; [|exact Br]. destruct R as ((Fx & X) & (Fy & Y) & (Fz & Z)). destruct (part_norm (really o t)) as (Px & Py & Pz & _). apply Rabs_le_inv in X, Y, Z, Px, Py, Pz.
  unfold inside. repeat split; try assumption; apply Rabs_le; lra.
Qed.

(** The elevation of a satellite is right to six seconds of arc, save straight above and below; and so are the decisions by elevation. *)
Theorem elevation_from_orbit : forall o t ground m, asin_library dasin -> good_orbit o -> within_week t -> on_ground ground -> 10 ^ 5 <= distance (vec_of ground) (really o t) -> is_finite m = true ->
  exists sat, fly o t = Ok sat /\ let e := sat_elevation (really o t) (vec_of ground) in
    (Rabs e <= PI / 2 - fine_angle -> is_finite (d_elevation dasin sat ground) = true /\ Rabs (real_of (d_elevation dasin sat ground) - e) <= fine_angle) /\
    (e + fine_angle <= real_of m -> d_heard dasin m sat ground = false /\ d_considered dasin m sat ground = false) /\
    (real_of m + fine_angle <= e -> - (PI / 2) + fine_angle <= e <= PI / 2 - fine_angle -> d_heard dasin m sat ground = true /\ d_considered dasin m sat ground = true).
Proof.
  intros o t ground m A G T (Fx & Fy & Fz & Gn) D Fm. destruct (flown o t G T) as (sat & E & _ & N & Rn & In & Br). exists sat. split; [exact E|]. destruct (fl_sphere _ _ _ _ _ fixed) as (_ & Bs). cbn zeta.
  set (s := really o t) in *. set (g := vec_of ground) in *. unfold distance in D. set (v := vsub s g) in *. set (w := vsub (vec_of sat) g).
  assert (Wv : vsub w v = vsub (vec_of sat) s) by (unfold w, v, vsub; cbn [vx vy vz]; f_equal; ring).
  assert (Far : real_of (do_radius o) <= 66 * norm v).
  { pose proof (norm_plus v g) as Tr. unfold v in Tr at 1. rewrite sub_add, Rn in Tr. lra. }
  assert (W : norm (vsub w v) <= 12 / 10 ^ 6 * norm v) by (rewrite Wv; lra).
  destruct (elevation_moves g v w ltac:(lra) ltac:(lra) ltac:(lra)) as (Wp & M).
  assert (Near : Rabs (sat_elevation (vec_of sat) g - sat_elevation s g) <= 24 / 10 ^ 6).
  { unfold sat_elevation. cbn zeta. fold v w. rewrite Rabs_minus_sym. eapply Rle_trans; [exact M|].
    assert (norm (vsub w v) / norm v <= 12 / 10 ^ 6); [|lra]. apply (Rmult_le_reg_r (norm v)); [lra|]. unfold Rdiv at 1. rewrite Rmult_assoc, Rinv_l, Rmult_1_r by lra. exact W. }
  assert (Ap : apart_enough sat ground).
  { split; [exact In|]. destruct (part_norm g) as (Px & Py & Pz & _). unfold g, vec_of in Px, Py, Pz. cbn [vx vy vz] in Px, Py, Pz. fold (vec_of ground) in Px, Py, Pz. fold g in Px, Py, Pz.
    split; [unfold inside; repeat split; try assumption; lra|]. fold g w. split; [lra|].
    pose proof (norm_plus w (vsub v w)) as Tr. rewrite add_sub in Tr.
    replace (norm (vsub v w)) with (norm (vsub w v)) in Tr by (unfold norm; f_equal; unfold dot, vsub; cbn [vx vy vz]; ring). lra. }
  apply Rabs_le_inv in Near. pose proof (elevation_decided_partial dasin sat ground m A Ap Fm) as Dec. cbn zeta in Dec. destruct Dec as (Lo & Hi). fold g in Lo, Hi. unfold fine_angle, micro in *. repeat split.
  - apply (elevation_double_near dasin sat ground A Ap). fold g. unfold micro. apply Rabs_le_inv in H. apply Rabs_le. lra.
  - destruct (elevation_double_near dasin sat ground A Ap) as (_ & Ne); [fold g; unfold micro; apply Rabs_le_inv in H; apply Rabs_le; lra|]. fold g in Ne. unfold micro in Ne. apply Rabs_le_inv in Ne. apply Rabs_le. lra.
  - apply Lo. lra.
  - apply Lo. lra.
  - apply Hi; lra.
  - apply Hi; lra.
Qed.

(** The satellite found closest is closest up to four parts in ten million of the radius of the largest orbit: three metres at 650 km. *)
Theorem closest_from_orbits : forall orb pos c t ground top, within_week t -> inside sky ground ->
  (forall d, In (Some d) (concat (con_grid c)) -> good_orbit (orb d) /\ fly (orb d) t = Ok (pos d) /\ real_of (do_radius (orb d)) <= top) ->
  match closest_double pos c ground with
  | None => forall d, ~ In (Some d) (concat (con_grid c))
  | Some d => nearest_to (4 / 10 ^ 7 * top) c (fun d => really (orb d) t) (vec_of ground) d
  end.
Proof.
  intros orb pos c t ground top T Gi H.
  assert (F : forall d, In (Some d) (concat (con_grid c)) -> norm (vsub (vec_of (pos d)) (really (orb d) t)) <= 18 / 10 ^ 8 * top /\ inside (10 ^ 8) (pos d) /\ 6371009 <= top).
  { intros d I. destruct (H d I) as (G & E & B). destruct (flown (orb d) t G T) as (v & E' & _ & N & _ & In' & Br). rewrite E in E'. injection E' as <-. repeat split; try apply In'; lra. }
  assert (Ap : forall a b, apart (place a) (place b) = distance (vec_of a) (vec_of b)).
  { intros a b. unfold apart, distance, norm, square_of_distance, place, vec_of, dot, vsub. cbn [px py pz vx vy vz]. f_equal. ring. }
  assert (Sy : forall a b, distance a b = distance b a) by (intros; unfold distance, norm; f_equal; unfold dot, vsub; cbn [vx vy vz]; ring).
  pose proof (closest_double_near pos c ground) as C. destruct (closest_double pos c ground) as [d|].
  - destruct C as (I & C); [|exact Gi|].
    { intros d' I'. destruct (F d' I') as (_ & ((F1 & B1) & (F2 & B2) & (F3 & B3)) & _). unfold inside, sky. repeat split; try assumption; lra. }
    split; [exact I|]. intros d' I'. specialize (C d' I'). rewrite !Ap in C. destruct (F d I) as (N & _ & Tp). destruct (F d' I') as (N' & _ & _).
    pose proof (distance_triangle (really (orb d) t) (vec_of (pos d)) (vec_of ground)) as T1. pose proof (distance_triangle (vec_of (pos d')) (really (orb d') t) (vec_of ground)) as T2.
    rewrite (Sy (vec_of (pos d')) (really (orb d') t)) in T2. cbn beta. unfold distance at 2 in T1. unfold distance at 2 in T2. lra.
  - apply C; [|exact Gi]. intros d' I'. destruct (F d' I') as (_ & ((F1 & B1) & (F2 & B2) & (F3 & B3)) & _). unfold inside, sky. repeat split; try assumption; lra.
Qed.
End Library.
Print Assumptions elevation_from_orbit.
Print Assumptions closest_from_orbits.

(** The satellite of [motion_double_case] and another half an orbit before it, at the start, seen from 6357 km along the equator. *)
Definition other_dorbit : dorbit := mkDorbit (dnum 3 (-1)) (dint 0) (dint 7021009) (dint 3).
Definition some_place : dvec := mkDvec (dint 6000000) (dint 2100000) (dint 0).
Lemma half_ok : forall e, (e = 1 \/ e = 2 \/ e = 4)%Z -> is_finite (dnum 1 (- e)) = true /\ real_of (dnum 1 (- e)) = bpow radix2 (- e).
Proof.
  intros e H. destruct (dnum_ok 1 (- e)) as (F & V); [rewrite Rmult_1_l, Rabs_pos_eq by apply bpow_ge_0; apply bpow_le; lia|]. split; [exact F|]. change real_of with val. rewrite V, rnd_scaled by lia. ring.
Qed.
Lemma start_orbits : orbit_of some_dorbit = Orbit (3 / 2) 0 7021009 0 /\ orbit_of other_dorbit = Orbit (3 / 2) 0 7021009 3 /\ good_orbit other_dorbit.
Proof.
  assert (H : Rabs (IZR 3 * bpow radix2 (-1)) <= bpow radix2 1023) by (change (bpow radix2 (-1)) with (/ 2); apply big_below_max; rewrite Rabs_pos_eq; lra).
  destruct (dnum_ok 3 (-1) H) as (F3 & V3). rewrite rnd_scaled in V3 by lia. unfold orbit_of, good_orbit, some_dorbit, other_dorbit, earth_radius. cbn [do_inclination do_node do_radius do_phase]. change real_of with val. rewrite V3.
  destruct (dint_ok 0 ltac:(lia)) as (F0 & ->). destruct (dint_ok 7021009 ltac:(lia)) as (F1 & ->). destruct (dint_ok 3 ltac:(lia)) as (F2 & ->). change (bpow radix2 (-1)) with (/ 2). rewrite Rabs_R0, !Rabs_pos_eq by lra.
  repeat split; try assumption; lra.
Qed.
Lemma start_places : earth_motion 6371000 (Orbit (3 / 2) 0 7021009 0) 0 = Vec 7021000 0 0 /\ vx (earth_motion 6371000 (Orbit (3 / 2) 0 7021009 3) 0) <= 0.
Proof.
  unfold earth_motion, circular_motion, rotate, vadd, scale, node_dir, ahead_dir, earth_radius. cbn [vx vy vz inclination ascending_node orbit_radius orbit_phase]. rewrite !Rmult_0_r, !Rplus_0_r, !Rplus_0_l, Ropp_0, !cos_0, !sin_0. split; [f_equal; field|].
  pose proof pi_bounds as P. assert (cos 3 <= 0) by (apply cos_le_0; lra). lra.
Qed.
Lemma some_place_is : vec_of some_place = Vec 6000000 2100000 0 /\ on_ground some_place /\ inside sky some_place.
Proof.
  unfold vec_of, on_ground, inside, sky, some_place. cbn [dvx dvy dvz]. change real_of with val. destruct (dint_ok 6000000 ltac:(lia)) as (F1 & V1). destruct (dint_ok 2100000 ltac:(lia)) as (F2 & V2). destruct (dint_ok 0 ltac:(lia)) as (F0 & V0). unfold vec_of. cbn [dvx dvy dvz]. change real_of with val. rewrite V0, V1, V2.
  assert (N : 6350000 <= norm (Vec 6000000 2100000 0) <= 6360000).
  { unfold norm, dot. cbn [vx vy vz]. split; [rewrite <- (sqrt_sq_nonneg 6350000) by lra|rewrite <- (sqrt_sq_nonneg 6360000) by lra]; apply sqrt_le_1_alt; lra. }
  rewrite Rabs_R0, !Rabs_pos_eq by lra. repeat split; try assumption; lra.
Qed.
Example sight_case : forall dasin dsin dcos dhalf datan2 twopi dpi deg rad,
  orbit_library dsin dcos dhalf datan2 twopi dpi -> fixed_library dasin datan2 deg rad (dint 6371000) -> asin_library dasin ->
  exists p q, let fly := d_position dasin dsin dcos dhalf datan2 twopi dpi deg rad (dint 6371000) in
    fly some_dorbit (dint 0) = Ok p /\ fly other_dorbit (dint 0) = Ok q /\
    d_considered dasin (dnum 1 (-4)) p some_place = true /\ d_considered dasin (dnum 1 (-2)) p some_place = false /\
    closest_double (fun d => match d with O => p | _ => q end) pair_grid some_place = Some O.
Proof.
  intros dasin dsin dcos dhalf datan2 twopi dpi deg rad L K A. destruct some_good as (G & _ & Z). destruct start_orbits as (O1 & O2 & G2). destruct start_places as (P1 & P2). destruct some_place_is as (Q & On & Ins).
  assert (R2 : real_of (dint 6371000) = 6371000) by apply (dint_ok 6371000 ltac:(lia)). assert (T0 : real_of (dint 0) = 0) by apply (dint_ok 0 ltac:(lia)).
  destruct (half_ok 4 ltac:(auto)) as (F4 & V4). destruct (half_ok 2 ltac:(auto)) as (F2 & V2). change (- (4))%Z with (-4)%Z in *. change (- (2))%Z with (-2)%Z in *. change (bpow radix2 (-4)) with (/ 16) in V4. change (bpow radix2 (-2)) with (/ 4) in V2.
  assert (Nv : 2330000 <= norm (Vec 1021000 (-2100000) 0) <= 2340000).
  { unfold norm, dot. cbn [vx vy vz]. split; [rewrite <- (sqrt_sq_nonneg 2330000) by lra|rewrite <- (sqrt_sq_nonneg 2340000) by lra]; apply sqrt_le_1_alt; lra. }
  assert (Ng : 6350000 <= norm (Vec 6000000 2100000 0) <= 6360000).
  { unfold norm, dot. cbn [vx vy vz]. split; [rewrite <- (sqrt_sq_nonneg 6350000) by lra|rewrite <- (sqrt_sq_nonneg 6360000) by lra]; apply sqrt_le_1_alt; lra. }
  assert (Vv : vsub (Vec 7021000 0 0) (Vec 6000000 2100000 0) = Vec 1021000 (-2100000) 0) by (unfold vsub; cbn [vx vy vz]; f_equal; ring).
  assert (E : 1 / 10 <= sat_elevation (Vec 7021000 0 0) (Vec 6000000 2100000 0) <= 24 / 100).
  { unfold sat_elevation. cbn zeta. rewrite Vv. set (n := norm (Vec 6000000 2100000 0)) in *. set (m := norm (Vec 1021000 (-2100000) 0)) in *.
    assert (M : 6350000 * 2330000 <= n * m <= 6360000 * 2340000) by (split; apply Rmult_le_compat; lra). unfold dot. cbn [vx vy vz].
    set (x := _ / (n * m)). assert (X : 11 / 100 <= x <= 12 / 100).
    { assert (Xe : x * (n * m) = 1716000000000) by (unfold x; field; lra). split; apply (Rmult_le_reg_r (n * m)); try lra; rewrite Xe; lra. }
    clearbody x. pose proof (asin_bound x) as B. pose proof pi_bounds as Pb. assert (S : sin (asin x) = x) by (apply sin_asin; lra).
    assert (As : 0 < asin x) by (destruct (Rlt_or_le 0 (asin x)) as [|H]; [assumption|]; exfalso; pose proof (sin_ge_0 (- asin x) ltac:(lra) ltac:(lra)) as Sn; rewrite sin_neg in Sn; lra).
    split; [pose proof (sin_lt_x (asin x) As); lra|].
    assert (Cp : 0 < cos (asin x)) by (rewrite cos_asin by lra; apply sqrt_lt_R0; unfold Rsqr; nra). pose proof (small_angle (asin x) ltac:(lra) Cp) as Sm. rewrite S, !Rabs_pos_eq in Sm by lra. lra. }
  pose proof (elevation_from_orbit _ _ _ _ _ _ _ _ _ _ L K some_dorbit (dint 0) some_place) as El. cbv beta zeta in El. rewrite O1, R2, T0, P1, Q in El.
  assert (D : 10 ^ 5 <= distance (Vec 6000000 2100000 0) (Vec 7021000 0 0)) by (unfold distance; rewrite Vv; lra).
  destruct (El (dnum 1 (-4)) A G Z On D F4) as (p & Ep & _ & _ & Hi). destruct (El (dnum 1 (-2)) A G Z On D F2) as (p' & Ep' & _ & Lo & _). rewrite Ep in Ep'. injection Ep' as <-. clear El.
  destruct (position_double _ _ _ _ _ _ _ _ _ _ _ _ L K G2 Z) as (q & Eq & _). exists p, q. cbn zeta. pose proof pi_bounds as Pb. unfold fine_angle in *. rewrite V4 in Hi. rewrite V2 in Lo.
  split; [exact Ep|]. split; [exact Eq|]. split; [apply Hi; lra|]. split; [apply Lo; lra|].
  pose proof (closest_from_orbits _ _ _ _ _ _ _ _ _ _ L K (fun d => match d with O => some_dorbit | _ => other_dorbit end) (fun d => match d with O => p | _ => q end) pair_grid (dint 0) some_place 7021009 Z Ins) as C. cbv beta zeta in C.
  destruct (closest_double _ pair_grid some_place) as [d|].
  - destruct C as (I & C).
    { cbn [pair_grid con_grid concat app In]. intros d' [H|[H|[]]]; injection H as <-; (split; [assumption|]; split; [assumption|]); cbn [some_dorbit other_dorbit do_radius]; right; apply (dint_ok 7021009 ltac:(lia)). }
    cbn [pair_grid con_grid concat app In] in I. destruct I as [H|[H|[]]]; injection H as <-; [reflexivity|]. exfalso. specialize (C O ltac:(left; reflexivity)). cbn beta iota in C. rewrite O1, O2, R2, T0, P1, Q in C.
    set (b := earth_motion 6371000 (Orbit (3 / 2) 0 7021009 3) 0) in *. unfold distance in C. destruct (part_norm (vsub (Vec 6000000 2100000 0) b)) as (X & _). unfold vsub at 1 in X. cbn [vx] in X. apply Rabs_le_inv in X.
    replace (norm (vsub (Vec 6000000 2100000 0) (Vec 7021000 0 0))) with (norm (Vec 1021000 (-2100000) 0)) in C by (unfold norm; f_equal; unfold dot, vsub; cbn [vx vy vz]; ring). lra.
  - exfalso. refine (C _ O _); [|left; reflexivity]. cbn [pair_grid con_grid concat app In]. intros d [H|[H|[]]]; injection H as <-; (split; [assumption|]; split; [assumption|]); cbn [some_dorbit other_dorbit do_radius]; right; apply (dint_ok 7021009 ltac:(lia)).
Qed.

(** There is a library as asked for in all of these. *)
Definition sight_asin (x : double) : double := if Rle_dec (Rabs (real_of x)) 1 then fifty (asin (real_of x)) else B754_nan.
Lemma some_sight_library : orbit_library (fun x => fifty (sin (real_of x))) (fun x => fifty (cos (real_of x))) dsqrt (fun y x => fifty (atan2 (real_of y) (real_of x))) (fifty (2 * PI)) (fifty PI) /\
  fixed_library sight_asin (fun y x => fifty (atan2 (real_of y) (real_of x))) (scaled 47 (180 / PI)) (scaled 58 (PI / 180)) (dint 6371000) /\ asin_library sight_asin.
Proof.
  split; [exact some_orbit_library|]. destruct some_fixed_library as [A B C D E]. split.
  - constructor; try assumption. intros x F H. unfold sight_asin. destruct (Rle_dec (Rabs (real_of x)) 1); [|lra]. apply A; assumption.
  - split; intros x F H; unfold sight_asin; destruct (Rle_dec (Rabs (real_of x)) 1); try lra.
    + destruct (A x F H) as (F' & N). split; [exact F'|]. unfold tight in N. lra.
    + reflexivity.
Qed.
