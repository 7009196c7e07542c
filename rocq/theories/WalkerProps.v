(** * C72: the launched constellation in motion *)
From Coq Require Import Reals QArith Qreals List Lia Lra Arith ZArith.
From Verif Require Import Base SatAddrModel ConstellationModel LaunchModel LaunchSpec LaunchProofs LaunchProps OrbitModel OrbitSpec OrbitProofs
  WalkerModel WalkerSpec.
Import ListNotations.
Open Scope R_scope.

Lemma q2r_q : forall n, Q2R (q n) = INR n.
Proof. intros. unfold q, Q2R, inject_Z; cbn [Qnum Qden]. rewrite INR_IZR_INZ. lra. Qed.

Lemma inr_nz : forall n, (0 < n)%nat -> INR n <> 0.
Proof. intros n H. apply not_0_INR. lia. Qed.

Lemma node_radians : forall P S k (x : Q), (0 < P)%nat -> (x == walker_node P S k)%Q -> radians (Q2R x) = slot_node P (k / S).
Proof.
  intros P S k x HP E. rewrite (Qeq_eqR _ _ E). unfold walker_node, radians, slot_node.
  rewrite Q2R_div by (apply q_nz; exact HP). rewrite Q2R_mult, !q2r_q. pose proof (inr_nz P HP).
  replace (INR 360) with 360 by (rewrite INR_IZR_INZ; reflexivity). field. assumption.
Qed.

Lemma phase_radians : forall P S F k (x : Q), (0 < P)%nat -> (0 < S)%nat -> (x == walker_phase P S F k)%Q ->
  radians (Q2R x) = slot_phase P S F (k / S) (k mod S).
Proof.
  intros P S F k x HP HS E. rewrite (Qeq_eqR _ _ E). unfold walker_phase, radians, slot_phase.
  pose proof (q_nz P HP) as NP. pose proof (q_nz S HS) as NS.
  assert (NSP : ~ (q S * q P == 0)%Q) by (intros Z; apply Qmult_integral in Z; tauto).
  rewrite Q2R_plus, Q2R_div by exact NS. rewrite !Q2R_mult, Q2R_div by exact NSP. rewrite !Q2R_mult, !q2r_q.
  pose proof (inr_nz P HP). pose proof (inr_nz S HS).
  replace (INR 360) with 360 by (rewrite INR_IZR_INZ; reflexivity). field. split; assumption.
Qed.

Lemma circular_slot : forall o w t, circular_motion o w t =
  rotate (ascending_node o) (tilted (inclination o) (orbit_radius o) (w * t + orbit_phase o)).
Proof.
  intros. unfold circular_motion, rotate, tilted, scale, vadd, node_dir, ahead_dir; cbn [vx vy vz]. f_equal; ring.
Qed.

(** The launched satellites, in launch order. *)
Definition fleet (debug : bool) (ho : host) (id : Z) (alt inc : Q) (P S F : nat) (ds : list dev) (orbits : list (LaunchModel.orbit Q)) : Prop :=
  exists s outs, launch_all rational debug ho (helper_new rational id alt inc P S F) ds = Ok (s, outs) /\ orbits = map snd outs.

Lemma scale_tilted : forall k a incl r x, scale k (rotate a (tilted incl r x)) = rotate a (tilted incl (k * r) x).
Proof. intros. unfold scale, rotate, tilted; cbn [vx vy vz]. f_equal; ring. Qed.

Lemma norm_tilted : forall incl r x, 0 <= r -> norm (tilted incl r x) = r.
Proof.
  intros incl r x H. unfold norm, dot, tilted; cbn [vx vy vz]. pose proof (trig1 x) as T1. pose proof (trig1 incl) as T2.
  transitivity (sqrt (r * r)); [f_equal|apply sqrt_sq_nonneg; exact H].
  transitivity (r * r * (sin x * sin x * (sin incl * sin incl + cos incl * cos incl) + cos x * cos x)); [ring|].
  rewrite T2, Rmult_1_r, T1. ring.
Qed.

(** Everything that can be launched moves as a Walker constellation: the satellite in slot [i] of plane [p] is, at every
    time, on the circle of that plane at the altitude asked for, at its phase, and all move at the same Keplerian rate.
    Its Earth-fixed position turns the other way round with the Earth, at that altitude over ns-3's sphere. *)
Theorem walker_motion : forall debug ho id alt inc P S F ds, (0 < P)%nat -> (0 < S)%nat -> (length ds <= P * S)%nat -> 0 < Q2R alt + earth_radius ->
  exists orbits w, fleet debug ho id alt inc P S F ds orbits /\ length orbits = length ds /\
    0 < w /\ w * w * (Q2R alt + earth_radius) ^ 3 = big_g * earth_mass /\
    forall k o t, nth_error orbits k = Some o ->
      (exists v, inertial (launched_orbit o) t = Ok v /\ norm v = Q2R alt + earth_radius /\
         v = slot_point (radians (Q2R inc)) (Q2R alt + earth_radius) w P S F (k / S) (k mod S) t) /\
      forall rs, position rs (launched_orbit o) t =
        Ok (rotate (- (earth_rotation * t)) (slot_point (radians (Q2R inc)) (Q2R alt + rs) w P S F (k / S) (k mod S) t)).
Proof.
  intros debug ho id alt inc P S F ds HP HS L Ha.
  destruct (launch_order_and_elements debug ho id P S F alt inc ds HP HS L) as (s & outs & E & Lo & H & _).
  exists (map snd outs), (mean_motion (Q2R alt + earth_radius)). split; [exists s, outs; auto|]. split; [rewrite map_length; exact Lo|].
  split; [apply mean_motion_pos; exact Ha|]. split.
  { unfold mean_motion. set (r := Q2R alt + earth_radius) in *. assert (r ^ 3 <> 0) by (apply pow_nonzero; lra).
    rewrite sqrt_sqrt; [field; lra|]. apply Rmult_le_pos; [unfold big_g, earth_mass; lra|].
    left. apply Rinv_0_lt_compat. apply pow_lt. exact Ha. }
  intros k o t Hk. rewrite nth_error_map in Hk. destruct (nth_error outs k) as [[a o']|] eqn:Ek; [|discriminate]. injection Hk as ->.
  destruct (H k a o Ek) as (_ & Ei & Ea & En & Ep).
  assert (Or : orbit_radius (launched_orbit o) = Q2R alt + earth_radius) by (unfold launched_orbit, launch_sat; cbn [orbit_radius]; rewrite Ea; reflexivity).
  assert (V : circular_motion (launched_orbit o) (mean_motion (orbit_radius (launched_orbit o))) t =
    slot_point (radians (Q2R inc)) (Q2R alt + earth_radius) (mean_motion (Q2R alt + earth_radius)) P S F (k / S) (k mod S) t).
  { rewrite circular_slot, Or. unfold launched_orbit, launch_sat; cbn [inclination ascending_node orbit_radius orbit_phase].
    rewrite (node_radians P S k _ HP En), (phase_radians P S F k _ HP HS Ep), Ei. reflexivity. }
  split.
  - eexists. split; [rewrite inertial_motion, V; reflexivity|]. split; [|reflexivity]. unfold slot_point. rewrite rotate_norm. apply norm_tilted. lra.
  - intros rs. destruct (position_rotated rs (launched_orbit o) t) as (raw & I & Q); [rewrite Or; exact Ha|].
    rewrite Q. rewrite inertial_motion, V in I. assert (X : raw = slot_point (radians (Q2R inc)) (Q2R alt + earth_radius) (mean_motion (Q2R alt + earth_radius)) P S F (k / S) (k mod S) t) by congruence. rewrite X, Or. f_equal.
    unfold slot_point. rewrite !rotate_rotate, scale_tilted. do 2 f_equal. field. lra.
Qed.
Print Assumptions walker_motion.

Lemma tilted_distance : forall incl r a b, 0 <= r -> distance (tilted incl r a) (tilted incl r b) = 2 * r * Rabs (sin ((a - b) / 2)).
Proof.
  intros incl r a b H. unfold distance, norm, dot, vsub, tilted; cbn [vx vy vz].
  pose proof (trig1 incl) as T. pose proof (trig1 a) as Ta. pose proof (trig1 b) as Tb.
  set (h := sin ((a - b) / 2)).
  assert (C : cos a * cos b + sin a * sin b = 1 - 2 * (h * h)).
  { rewrite <- cos_minus. replace (a - b) with (2 * ((a - b) / 2)) by field. rewrite cos_2a_sin. unfold h. replace (2 * ((a - b) / 2) / 2) with ((a - b) / 2) by field. ring. }
  transitivity (sqrt ((2 * r * Rabs h) * (2 * r * Rabs h))); [f_equal|apply sqrt_sq_nonneg; pose proof (Rabs_pos h); nra].
  replace (2 * r * Rabs h * (2 * r * Rabs h)) with (4 * (r * r) * (Rabs h * Rabs h)) by ring.
  rewrite <- Rabs_mult, (Rabs_right (h * h)) by (apply Rle_ge, Rle_0_sqr).
  transitivity (r * r * ((sin a * sin a + cos a * cos a) + (sin b * sin b + cos b * cos b) - 2 * (cos a * cos b + sin a * sin b)
     + (sin b - sin a) * (sin b - sin a) * (sin incl * sin incl + cos incl * cos incl - 1))); [ring|].
  rewrite C, T, Ta, Tb. ring.
Qed.

(** Satellites of one plane keep their distances for ever, so a link between them is always or never usable. *)
Theorem plane_keeps_shape : forall debug ho id alt inc P S F ds orbits rs k l o1 o2, (0 < P)%nat -> (0 < S)%nat -> (length ds <= P * S)%nat ->
  0 < Q2R alt + earth_radius -> 0 <= Q2R alt + rs -> fleet debug ho id alt inc P S F ds orbits ->
  nth_error orbits k = Some o1 -> nth_error orbits l = Some o2 -> (k / S = l / S)%nat ->
  let d := 2 * (Q2R alt + rs) * Rabs (sin (PI * (INR (k mod S) - INR (l mod S)) / INR S)) in
  (forall t, exists p1 p2, position rs (launched_orbit o1) t = Ok p1 /\ position rs (launched_orbit o2) t = Ok p2 /\ distance p1 p2 = d) /\
  exists b, (forall t, isl_success rs (launched_orbit o1) (launched_orbit o2) t = Ok b) /\
    (b = true <-> earth_radius + 80000 <= Q2R alt + earth_radius /\
       d * d <= 4 * ((Q2R alt + earth_radius) * (Q2R alt + earth_radius) - (earth_radius + 80000) * (earth_radius + 80000))).
Proof.
  intros debug ho id alt inc P S F ds orbits rs k l o1 o2 HP HS L Ha Hr Fl K1 K2 Pl d.
  destruct (walker_motion debug ho id alt inc P S F ds HP HS L Ha) as (orbits' & w & Fl' & _ & _ & _ & M).
  assert (orbits' = orbits) as ->.
  { destruct Fl as (s & outs & E & ->), Fl' as (s' & outs' & E' & ->). rewrite E in E'. injection E' as _ ->. reflexivity. }
  assert (D : forall t, exists p1 p2, position rs (launched_orbit o1) t = Ok p1 /\ position rs (launched_orbit o2) t = Ok p2 /\ distance p1 p2 = d).
  { intros t. destruct (M k o1 t K1) as (_ & P1). destruct (M l o2 t K2) as (_ & P2). eexists _, _.
    split; [apply P1|]. split; [apply P2|]. rewrite rotate_distance. unfold slot_point. rewrite Pl, rotate_distance, tilted_distance by exact Hr.
    unfold d. do 3 f_equal. unfold slot_phase. pose proof (inr_nz S HS). pose proof (inr_nz P HP). field. split; assumption. }
  split; [exact D|].
  assert (R2 : orbit_radius (launched_orbit o2) = Q2R alt + earth_radius).
  { destruct Fl as (s & outs & E & ->). rewrite nth_error_map in K2. destruct (nth_error outs l) as [[a o']|] eqn:El; [|discriminate]. injection K2 as ->.
    destruct (launch_order_and_elements debug ho id P S F alt inc ds HP HS L) as (s' & outs' & E' & _ & H & _). rewrite E in E'. injection E' as _ <-.
    destruct (H l a o2 El) as (_ & _ & Ea & _). unfold launched_orbit, launch_sat; cbn [orbit_radius]. rewrite Ea. reflexivity. }
  exists (within d (calc_max_distance (Q2R alt + earth_radius))). split.
  - intros t. destruct (D t) as (p1 & p2 & P1 & P2 & E). unfold isl_success. rewrite P1, P2. cbn [rbind success_distance mobility_position].
    rewrite E, R2. reflexivity.
  - set (r := Q2R alt + earth_radius) in *. unfold calc_max_distance, min_altitude_for_visibility.
    replace (80000 + earth_radius) with (earth_radius + 80000) by ring. set (c := earth_radius + 80000).
    assert (Hc : 0 < c) by (unfold c, earth_radius; lra).
    assert (Dn : 0 <= d).
    { unfold d. apply Rmult_le_pos; [lra|apply Rabs_pos]. }
    destruct (Rlt_dec (r * r - c * c) 0) as [N|N]; cbn [within].
    + split; [discriminate|]. intros (A & _). nra.
    + assert (c <= r) by nra. assert (Q : sqrt (r * r - c * c) * sqrt (r * r - c * c) = r * r - c * c) by (apply sqrt_sqrt; lra).
      pose proof (sqrt_pos (r * r - c * c)) as Q0. set (x := sqrt (r * r - c * c)) in *.
      unfold rleb. destruct (Rle_dec d (2 * x)) as [X|X]; split; intros Y; try reflexivity; try discriminate.
      * split; [assumption|]. nra.
      * destruct Y as (_ & Y). exfalso. nra.
Qed.
Print Assumptions plane_keeps_shape.

Lemma hexagon : forall alt debug ho id inc, 0 < Q2R alt -> exists orbits o1 o2, fleet debug ho id alt inc 1 6 0 [0; 1; 2; 3; 4; 5]%nat orbits /\
  nth_error orbits 0 = Some o1 /\ nth_error orbits 1 = Some o2 /\
  exists b, (forall t, isl_success earth_radius (launched_orbit o1) (launched_orbit o2) t = Ok b) /\
    (b = true <-> earth_radius + 80000 <= Q2R alt + earth_radius /\ 4 * (earth_radius + 80000) ^ 2 <= 3 * (Q2R alt + earth_radius) ^ 2).
Proof.
  intros alt debug ho id inc Ha. assert (Hr : 0 < Q2R alt + earth_radius) by (unfold earth_radius; lra).
  destruct (walker_motion debug ho id alt inc 1 6 0 [0; 1; 2; 3; 4; 5]%nat ltac:(lia) ltac:(lia) ltac:(cbn; lia) Hr) as (orbits & w & Fl & Lo & _).
  destruct orbits as [|o1 [|o2 rest]]; try discriminate Lo. exists (o1 :: o2 :: rest), o1, o2.
  split; [exact Fl|]. split; [reflexivity|]. split; [reflexivity|].
  destruct (plane_keeps_shape debug ho id alt inc 1 6 0 [0; 1; 2; 3; 4; 5]%nat _ earth_radius 0 1 o1 o2 ltac:(lia) ltac:(lia) ltac:(cbn; lia) Hr ltac:(lra)
    Fl eq_refl eq_refl eq_refl) as (_ & b & B & C).
  exists b. split; [exact B|]. rewrite C. cbn [Nat.modulo Nat.divmod Nat.sub fst snd].
  replace (PI * (INR 0 - INR 1) / INR 6) with (- (PI / 6)) by (cbn [INR]; field). rewrite sin_neg, Rabs_Ropp, sin_PI6, Rabs_right by lra.
  split; intros (U & V); (split; [exact U|nra]).
Qed.

(** Six satellites in a plane: neighbours at 2000 km see each other for ever, neighbours at 550 km never do. *)
Example plane_case : forall debug ho id inc,
  (exists orbits o1 o2, fleet debug ho id 2000000 inc 1 6 0 [0; 1; 2; 3; 4; 5]%nat orbits /\ nth_error orbits 0 = Some o1 /\ nth_error orbits 1 = Some o2 /\
    forall t, isl_success earth_radius (launched_orbit o1) (launched_orbit o2) t = Ok true) /\
  (exists orbits o1 o2, fleet debug ho id 550000 inc 1 6 0 [0; 1; 2; 3; 4; 5]%nat orbits /\ nth_error orbits 0 = Some o1 /\ nth_error orbits 1 = Some o2 /\
    forall t, isl_success earth_radius (launched_orbit o1) (launched_orbit o2) t = Ok false).
Proof.
  intros. split.
  - destruct (hexagon 2000000 debug ho id inc) as (orbits & o1 & o2 & Fl & E1 & E2 & b & B & C); [unfold Q2R; cbn; lra|].
    exists orbits, o1, o2. split; [exact Fl|]. split; [exact E1|]. split; [exact E2|]. intros t. rewrite B. f_equal. apply C. unfold earth_radius, Q2R; cbn [Qnum Qden]. lra.
  - destruct (hexagon 550000 debug ho id inc) as (orbits & o1 & o2 & Fl & E1 & E2 & b & B & C); [unfold Q2R; cbn; lra|].
    exists orbits, o1, o2. split; [exact Fl|]. split; [exact E1|]. split; [exact E2|]. intros t. rewrite B. f_equal. destruct b; [|reflexivity].
    exfalso. destruct C as [C _]. destruct (C eq_refl) as (_ & V). unfold earth_radius, Q2R in V; cbn [Qnum Qden] in V. lra.
Qed.

(** ** Links between planes *)

(** The claim: every link from a satellite to the one in the same slot of the next plane, the last plane being followed by
    the first, has the same length at the same point of the orbit. *)
Definition links_alike (S F P : nat) : Prop := forall rs alt inc debug ho id ds orbits w,
  (3 <= P)%nat -> (0 < S)%nat -> length ds = (P * S)%nat -> 0 < Q2R alt + earth_radius -> 0 < Q2R alt + rs ->
  fleet debug ho id alt inc P S F ds orbits -> 0 < w -> w * w * (Q2R alt + earth_radius) ^ 3 = big_g * earth_mass ->
  exists g : R -> R, forall p i t o1 o2 p1 p2, (p < P)%nat -> (i < S)%nat ->
    nth_error orbits (p * S + i) = Some o1 -> nth_error orbits (((p + 1) mod P) * S + i) = Some o2 ->
    position rs (launched_orbit o1) t = Ok p1 -> position rs (launched_orbit o2) t = Ok p2 ->
    distance p1 p2 = g (w * t + slot_phase P S F p i).

Lemma rate_unique : forall w w' c, 0 < c -> 0 < w -> 0 < w' -> w * w * c = w' * w' * c -> w = w'.
Proof. intros w w' c Hc H H' E. assert ((w - w') * (w + w') * c = 0) by lra. apply Rmult_integral in H0. destruct H0 as [Z|Z]; [|lra]. apply Rmult_integral in Z. destruct Z; lra. Qed.

Lemma fleet_positions : forall debug ho id alt inc P S F ds orbits w, (0 < P)%nat -> (0 < S)%nat -> length ds = (P * S)%nat -> 0 < Q2R alt + earth_radius ->
  fleet debug ho id alt inc P S F ds orbits -> 0 < w -> w * w * (Q2R alt + earth_radius) ^ 3 = big_g * earth_mass ->
  forall p i, (p < P)%nat -> (i < S)%nat -> exists o, nth_error orbits (p * S + i) = Some o /\
    forall rs t, position rs (launched_orbit o) t =
        Ok (rotate (- (earth_rotation * t)) (slot_point (radians (Q2R inc)) (Q2R alt + rs) w P S F p i t)).
Proof.
  intros debug ho id alt inc P S F ds orbits w HP HS L Ha Fl Hw W p i Hp Hi.
  destruct (walker_motion debug ho id alt inc P S F ds HP HS ltac:(lia) Ha) as (orbits' & w' & Fl' & Lo & Hw' & W' & M).
  assert (orbits' = orbits) as ->.
  { destruct Fl as (s & outs & E & ->), Fl' as (s' & outs' & E' & ->). rewrite E in E'. injection E' as _ ->. reflexivity. }
  assert (w' = w) as -> by (apply (rate_unique w' w ((Q2R alt + earth_radius) ^ 3)); [apply pow_lt; exact Ha|assumption|assumption|congruence]).
  destruct (nth_error orbits (p * S + i)) as [o|] eqn:E; [|apply nth_error_None in E; nia].
  exists o. split; [reflexivity|]. intros rs t. destruct (M _ _ t E) as (_ & Q). rewrite Q.
  assert ((p * S + i) / S = p)%nat as ->.
  { rewrite Nat.add_comm, Nat.div_add by lia. rewrite Nat.div_small by exact Hi. reflexivity. }
  assert ((p * S + i) mod S = i)%nat as ->.
  { rewrite Nat.add_comm, Nat.mod_add by lia. apply Nat.mod_small. exact Hi. }
  reflexivity.
Qed.

Lemma slot_gap : forall incl r w P S F p i t, (0 < P)%nat -> (0 < S)%nat ->
  distance (slot_point incl r w P S F p i t) (slot_point incl r w P S F (p + 1) i t) = plane_gap incl r P S F (w * t + slot_phase P S F p i).
Proof.
  intros incl r w P S F p i t HP HS. unfold slot_point, plane_gap. pose proof (inr_nz P HP). pose proof (inr_nz S HS).
  replace (slot_node P (p + 1)) with (slot_node P p + 2 * PI / INR P).
  2:{ unfold slot_node. rewrite plus_INR. cbn [INR]. field. assumption. }
  rewrite <- rotate_rotate, rotate_distance. do 3 f_equal. unfold slot_phase. rewrite plus_INR. cbn [INR]. field. split; assumption.
Qed.

Lemma tilted_turn : forall incl r x k, tilted incl r (x + 2 * INR k * PI) = tilted incl r x.
Proof. intros. unfold tilted. rewrite cos_period, sin_period. reflexivity. Qed.

Lemma rotate_turn : forall v, rotate (2 * PI) v = v.
Proof. intros [a b c]. unfold rotate. rewrite cos_2PI, sin_2PI. cbn [vx vy vz]. f_equal; ring. Qed.

(** A plane "after the last" is the first one, [F] slots on. *)
Lemma seam : forall incl r w P S F i t, (0 < P)%nat -> (0 < S)%nat -> (i < S)%nat ->
  slot_point incl r w P S F P i t = slot_point incl r w P S F 0 ((i + F) mod S) t.
Proof.
  intros incl r w P S F i t HP HS Hi. unfold slot_point. pose proof (inr_nz P HP). pose proof (inr_nz S HS).
  replace (slot_node P P) with (2 * PI) by (unfold slot_node; field; assumption). rewrite rotate_turn.
  replace (slot_node P 0) with 0 by (unfold slot_node; cbn [INR]; field; assumption). rewrite rotate_0.
  rewrite <- (tilted_turn incl r (w * t + slot_phase P S F 0 ((i + F) mod S)) ((i + F) / S)). f_equal.
  assert (E : INR (i + F) = INR S * INR ((i + F) / S) + INR ((i + F) mod S)).
  { rewrite <- mult_INR, <- plus_INR. f_equal. apply Nat.div_mod. lia. }
  rewrite plus_INR in E. unfold slot_phase. cbn [INR].
  replace (INR ((i + F) mod S)) with (INR i + INR F - INR S * INR ((i + F) / S)) by lra. field. split; assumption.
Qed.

(** What is true: every satellite sees the same neighbour across the plane boundary — the one in the same slot of the next
    plane, and across the seam the one [F] slots on. *)
Theorem links_across_planes_partial : forall rs alt inc debug ho id P S F ds orbits w,
  (0 < P)%nat -> (0 < S)%nat -> length ds = (P * S)%nat -> 0 < Q2R alt + earth_radius ->
  fleet debug ho id alt inc P S F ds orbits -> 0 < w -> w * w * (Q2R alt + earth_radius) ^ 3 = big_g * earth_mass ->
  let next p i := if (p + 1 <? P)%nat then ((p + 1) * S + i)%nat else ((i + F) mod S)%nat in
  (forall p i t, (p < P)%nat -> (i < S)%nat -> exists o1 o2 p1 p2, nth_error orbits (p * S + i) = Some o1 /\ nth_error orbits (next p i) = Some o2 /\
    position rs (launched_orbit o1) t = Ok p1 /\ position rs (launched_orbit o2) t = Ok p2 /\
    distance p1 p2 = plane_gap (radians (Q2R inc)) (Q2R alt + rs) P S F (w * t + slot_phase P S F p i)) /\
  ((F mod S = 0)%nat -> forall p i, (p < P)%nat -> (i < S)%nat -> next p i = (((p + 1) mod P) * S + i)%nat).
Proof.
  intros rs alt inc debug ho id P S F ds orbits w HP HS L Ha Fl Hw W next.
  pose proof (fleet_positions _ _ _ _ _ _ _ _ _ _ _ HP HS L Ha Fl Hw W) as N. split.
  - intros p i t Hp Hi. destruct (N p i Hp Hi) as (o1 & E1 & Q1). unfold next. destruct (Nat.ltb_spec (p + 1) P) as [B|B].
    + destruct (N (p + 1)%nat i B Hi) as (o2 & E2 & Q2). eexists o1, o2, _, _. split; [exact E1|]. split; [exact E2|]. split; [apply Q1|]. split; [apply Q2|].
      rewrite rotate_distance. apply slot_gap; assumption.
    + destruct (N 0%nat ((i + F) mod S)%nat HP (Nat.mod_upper_bound (i + F) S ltac:(lia))) as (o2 & E2 & Q2). eexists o1, o2, _, _.
      split; [exact E1|]. split; [exact E2|]. split; [apply Q1|]. split; [apply Q2|].
      rewrite rotate_distance, <- seam by assumption. rewrite <- slot_gap by assumption. replace (p + 1)%nat with P by lia. reflexivity.
  - intros HF p i Hp Hi. unfold next. destruct (Nat.ltb_spec (p + 1) P) as [B|B].
    + rewrite (Nat.mod_small (p + 1)) by exact B. reflexivity.
    + replace (p + 1)%nat with P by lia. rewrite Nat.mod_same by lia. rewrite Nat.add_mod, HF, Nat.add_0_r, Nat.mod_mod by lia. apply Nat.mod_small. exact Hi.
Qed.
Print Assumptions links_across_planes_partial.

Theorem links_alike_partial : forall S F P, (F mod S = 0)%nat -> links_alike S F P.
Proof.
  intros S F P HF rs alt inc debug ho id ds orbits w HP HS L Ha Hr Fl Hw W.
  destruct (links_across_planes_partial rs alt inc debug ho id P S F ds orbits w ltac:(lia) HS L Ha Fl Hw W) as (A & B).
  exists (plane_gap (radians (Q2R inc)) (Q2R alt + rs) P S F). intros p i t o1 o2 p1 p2 Hp Hi E1 E2 Q1 Q2.
  destruct (A p i t Hp Hi) as (o1' & o2' & p1' & p2' & E1' & E2' & Q1' & Q2' & D). rewrite (B HF p i Hp Hi) in E2'.
  assert (o1' = o1) as -> by congruence. assert (o2' = o2) as -> by congruence.
  assert (p1' = p1) as -> by congruence. assert (p2' = p2) as -> by congruence. exact D.
Qed.
Print Assumptions links_alike_partial.

(** Three planes of two satellites, phasing 1, over the poles. *)
Theorem links_alike_refuted : ~ links_alike 2 1 3.
Proof.
  intros C. specialize (C earth_radius 550000%Q 90%Q false LittleEndian 7%Z [0; 1; 2; 3; 4; 5]%nat).
  set (r := Q2R 550000 + earth_radius) in *. assert (Hr : 0 < r) by (unfold r, earth_radius, Q2R; cbn; lra).
  destruct (walker_motion false LittleEndian 7 550000 90 3 2 1 [0; 1; 2; 3; 4; 5]%nat ltac:(lia) ltac:(lia) ltac:(cbn; lia) Hr) as (orbits & w & Fl & _ & Hw & W & _).
  destruct (C orbits w ltac:(lia) ltac:(lia) eq_refl Hr Hr Fl Hw W) as (g & G).
  pose proof (fleet_positions false LittleEndian 7%Z 550000%Q 90%Q 3 2 1 [0; 1; 2; 3; 4; 5]%nat orbits w ltac:(lia) ltac:(lia) eq_refl Hr Fl Hw W) as N.
  destruct (N 0%nat 0%nat ltac:(lia) ltac:(lia)) as (a & Ea & Pa). destruct (N 1%nat 0%nat ltac:(lia) ltac:(lia)) as (b & Eb & Pb).
  destruct (N 2%nat 0%nat ltac:(lia) ltac:(lia)) as (c & Ec & Pc).
  pose proof (G 0%nat 0%nat (2 * PI / w) a b _ _ ltac:(lia) ltac:(lia) Ea Eb (Pa earth_radius _) (Pb earth_radius _)) as D1.
  pose proof (G 2%nat 0%nat (4 * PI / 3 / w) c a _ _ ltac:(lia) ltac:(lia) Ec Ea (Pc earth_radius _) (Pa earth_radius _)) as D2.
  replace (w * (2 * PI / w) + slot_phase 3 2 1 0 0) with (2 * PI) in D1 by (unfold slot_phase; cbn [INR]; field; lra).
  replace (w * (4 * PI / 3 / w) + slot_phase 3 2 1 2 0) with (2 * PI) in D2 by (unfold slot_phase; cbn [INR]; field; lra).
  assert (D : distance (slot_point (radians (Q2R 90)) r w 3 2 1 0 0 (2 * PI / w)) (slot_point (radians (Q2R 90)) r w 3 2 1 1 0 (2 * PI / w)) =
    distance (slot_point (radians (Q2R 90)) r w 3 2 1 2 0 (4 * PI / 3 / w)) (slot_point (radians (Q2R 90)) r w 3 2 1 0 0 (4 * PI / 3 / w))).
  { rewrite rotate_distance in D1, D2. unfold r. congruence. }
  clear - Hr Hw D.
  replace (radians (Q2R 90)) with (PI / 2) in D by (unfold radians, Q2R; cbn [Qnum Qden]; field).
  assert (forall x, tilted (PI / 2) r x = Vec (r * cos x) 0 (r * sin x)) as T.
  { intros x. unfold tilted. rewrite cos_PI2, sin_PI2. f_equal; ring. }
  unfold slot_point in D. rewrite !T in D.
  replace (w * (2 * PI / w) + slot_phase 3 2 1 0 0) with (2 * PI) in D by (unfold slot_phase; cbn [INR]; field; lra).
  replace (w * (4 * PI / 3 / w) + slot_phase 3 2 1 2 0) with (2 * PI) in D by (unfold slot_phase; cbn [INR]; field; lra).
  replace (w * (2 * PI / w) + slot_phase 3 2 1 1 0) with (PI / 3 + 2 * PI) in D by (unfold slot_phase; cbn [INR]; field; lra).
  replace (w * (4 * PI / 3 / w) + slot_phase 3 2 1 0 0) with (PI / 3 + PI) in D by (unfold slot_phase; cbn [INR]; field; lra).
  replace (slot_node 3 0) with 0 in D by (unfold slot_node; cbn [INR]; field). rewrite !rotate_0 in D.
  replace (slot_node 3 1) with (2 * (PI / 3)) in D by (unfold slot_node; cbn [INR]; field).
  replace (slot_node 3 2) with (PI / 3 + PI) in D by (unfold slot_node; cbn [INR]; field).
  unfold distance, norm, dot, vsub, rotate in D; cbn [vx vy vz] in D.
  rewrite !neg_cos, !neg_sin, cos_2PI, sin_2PI, !cos_PI3, cos_2PI3 in D.
  replace (cos (PI / 3 + 2 * PI)) with (1 / 2) in D by (rewrite <- cos_PI3, <- (cos_period (PI / 3) 1); f_equal; cbn [INR]; ring).
  replace (sin (PI / 3 + 2 * PI)) with (sin (2 * (PI / 3))) in D.
  2:{ rewrite sin_2PI3, <- sin_PI3, <- (sin_period (PI / 3) 1). f_equal. cbn [INR]. ring. }
  assert (Q : sin (2 * (PI / 3)) = sin (PI / 3)) by (rewrite sin_2PI3, sin_PI3; reflexivity). rewrite Q in D.
  assert (Z : sin (PI / 3) * sin (PI / 3) = 3 / 4) by (pose proof (trig1 (PI / 3)) as X; rewrite cos_PI3 in X; lra).
  apply (f_equal (fun x => x * x)) in D. rewrite !sqrt_sqrt in D by nra. set (s := sin (PI / 3)) in *. clearbody s.
  assert (0 < r * r) by nra.
  assert (Y : r * r * s * s = r * r * (3 / 4)) by (rewrite <- Z; ring). nra.
Qed.
Print Assumptions links_alike_refuted.
