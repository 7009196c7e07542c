(** Theorems about the prediction of passes. *)
From Coq Require Import Reals Lra Psatz Lia.
From Verif Require Import Base OrbitModel OrbitSpec OrbitProofs OrbitProps PassModel.
Open Scope R_scope.

(** * Specification *)

(** The distance between satellite and station, both in the inertial frame, and the station's point at time [t]. *)
Definition separation (o : orbit) (lat lon radius t d : R) : Prop :=
  exists raw, inertial o t = Ok raw /\ distance raw (rotate (earth_rotation * t) (spherical lat lon radius)) = d.
Definition at_target (o : orbit) (target lat lon radius t : R) : Prop := separation o lat lon radius t target.
Definition nearer (o : orbit) (target lat lon radius t : R) : Prop := exists d, separation o lat lon radius t d /\ d < target.
Definition farther (o : orbit) (target lat lon radius t : R) : Prop := exists d, separation o lat lon radius t d /\ target < d.

(** * The distance function *)

Lemma sq_distance_dot : forall a b, sq_distance a b = dot a a + dot b b - 2 * dot a b.
Proof. intros [a b c] [d e g]. unfold sq_distance, dot; cbn [vx vy vz]. ring. Qed.

Lemma sq_distance_distance : forall a b, sq_distance a b = distance a b * distance a b.
Proof. intros [a b c] [d e g]. unfold distance. rewrite norm_sq. unfold sq_distance, dot, vsub; cbn [vx vy vz]. ring. Qed.

Lemma spherical_dot : forall lat lon r, dot (spherical lat lon r) (spherical lat lon r) = r * r.
Proof.
  intros. unfold dot, spherical; cbn [vx vy vz]. pose proof (trig1 lat) as A. pose proof (trig1 lon) as B.
  transitivity (r * r * (cos lat * cos lat * (sin lon * sin lon + cos lon * cos lon) + sin lat * sin lat)); [ring|].
  rewrite B. transitivity (r * r * (sin lat * sin lat + cos lat * cos lat)); [ring|]. rewrite A. ring.
Qed.

Section Facts.
Variables (o : orbit) (target lat lon radius : R).
Let f := distance_at o target lat lon radius.

Lemma distance_at_eq : forall t, f t =
  orbit_radius o * orbit_radius o + radius * radius
  - 2 * dot (circular_motion o (mean_motion (orbit_radius o)) t) (ground_observer lat lon radius t) - target * target.
Proof.
  intros t. unfold f, distance_at, distance_function. rewrite inertial_motion. unfold rmap; cbn [rbind].
  rewrite sq_distance_dot, dot_circular. rewrite (observer_rotated lat lon radius t), rotate_dot, spherical_dot. ring.
Qed.

Lemma separation_at : forall t, exists d, separation o lat lon radius t d /\ 0 <= d /\ f t = d * d - target * target.
Proof.
  intros t. eexists. split; [exists (circular_motion o (mean_motion (orbit_radius o)) t); split; [apply inertial_motion|reflexivity]|].
  split; [apply norm_nonneg|]. unfold f, distance_at, distance_function. rewrite inertial_motion. unfold rmap; cbn [rbind].
  rewrite sq_distance_distance, observer_rotated. ring.
Qed.

Lemma separation_fun : forall t d d', separation o lat lon radius t d -> separation o lat lon radius t d' -> d = d'.
Proof. intros t d d' (r & A & <-) (r' & B & <-). rewrite A in B. injection B as <-. reflexivity. Qed.

Lemma f_signs : 0 <= target -> forall t,
  (f t = 0 <-> at_target o target lat lon radius t) /\ (f t < 0 <-> nearer o target lat lon radius t) /\ (0 < f t <-> farther o target lat lon radius t).
Proof.
  intros Ht t. destruct (separation_at t) as (d & S & Hd & ->). repeat split; intros H.
  - unfold at_target. replace target with d; [exact S|]. nra.
  - rewrite (separation_fun _ _ _ S H). ring.
  - exists d. split; [exact S|nra].
  - destruct H as (d' & S' & L). rewrite <- (separation_fun _ _ _ S S') in L. nra.
  - exists d. split; [exact S|nra].
  - destruct H as (d' & S' & L). rewrite <- (separation_fun _ _ _ S S') in L. nra.
Qed.

Lemma f_continuous : continuity f.
Proof.
  set (g := fun t => orbit_radius o * orbit_radius o + radius * radius
    - 2 * dot (circular_motion o (mean_motion (orbit_radius o)) t) (ground_observer lat lon radius t) - target * target).
  assert (G : continuity g).
  { unfold g, circular_motion, ground_observer, dot, scale, vadd, node_dir, ahead_dir; cbn [vx vy vz].
    set (w := mean_motion (orbit_radius o)). intros x. reg. }
  intros x. specialize (G x). intros eps E. destruct (G eps E) as (a & A & H). exists a. split; [exact A|].
  intros y Hy. specialize (H y Hy). rewrite !distance_at_eq. exact H.
Qed.

Lemma f_bounds : 0 <= orbit_radius o -> 0 <= radius -> forall t,
  (orbit_radius o - radius) * (orbit_radius o - radius) - target * target <= f t <= (orbit_radius o + radius) * (orbit_radius o + radius) - target * target.
Proof.
  intros Ho Hr t. rewrite distance_at_eq.
  set (u := circular_motion o (mean_motion (orbit_radius o)) t). set (v := ground_observer lat lon radius t).
  pose proof (cauchy_schwarz u v) as C. unfold u at 3 4 in C. rewrite dot_circular in C.
  unfold v at 3 4 in C. rewrite (observer_rotated lat lon radius t), rotate_dot, spherical_dot in C.
  set (x := dot u v) in *. assert (A : Rabs x <= orbit_radius o * radius).
  { apply Rsqr_incr_0_var; [|apply Rmult_le_pos; assumption]. unfold Rsqr. rewrite <- Rabs_mult, Rabs_right; [|nra]. lra. }
  apply Rabs_le_inv in A. lra.
Qed.

(** Between a moment when it is nearer and one when it is not, the satellite is at the target distance. *)
Lemma crossing_between : forall a b, a <= b -> f a * f b <= 0 -> exists x, a <= x <= b /\ f x = 0.
Proof. intros a b L H. destruct (IVT_cor f a b f_continuous L H) as (x & X & Z). exists x. auto. Qed.
End Facts.
Print Assumptions f_signs.

Lemma period_pos : forall o, 0 < orbit_radius o -> 0 < orbital_period o.
Proof. intros o H. unfold orbital_period. apply Rdiv_lt_0_compat; [pose proof PI_RGT_0; lra|apply mean_motion_pos; exact H]. Qed.

Lemma Rmin_neg : forall x y, Rmin x y < 0 -> x < 0 \/ y < 0.
Proof. intros x y. unfold Rmin. destruct (Rle_dec x y); auto. Qed.

Lemma solver_answer : forall solver f a b r, distance_solver solver f a b = Some r ->
  exists l u, solver f a b = Some (l, u, r) /\ (f (r - 1) < 0 \/ f (r + 1) < 0).
Proof.
  intros solver f a b r H. unfold distance_solver in H. destruct (solver f a b) as [[[l u] r']|]; [|discriminate].
  destruct (Rlt_dec _ _) as [N|]; [|discriminate]. injection H as ->. exists l, u. split; [reflexivity|]. apply Rmin_neg. exact N.
Qed.

Lemma find_answer : forall solver o target lat lon radius now r, 0 < orbit_radius o ->
  solver_contract solver -> find_next_cross solver o target lat lon radius now = Some r ->
  exists sol, distance_solver solver (distance_at o target lat lon radius) now (now + orbital_period o) = Some sol /\
    (r = sol \/ now < sol - 1 /\ distance_solver solver (distance_at o target lat lon radius) now (sol - 1) = Some r).
Proof.
  intros solver o target lat lon radius now r Ho C H. unfold find_next_cross in H.
  destruct (distance_solver _ _ now (now + orbital_period o)) as [sol|]; [|discriminate]. exists sol. split; [reflexivity|].
  destruct (Rlt_dec now (sol - 1)) as [L|]; [|injection H as ->; auto].
  destruct (distance_solver _ _ now (sol - 1)) as [p|]; injection H as ->; auto.
Qed.

(** * C63 *)

(** The whole claim, with a tolerance of a second. *)
Definition pass_claim : Prop := forall solver, solver_contract solver -> forall o target lat lon radius now r,
  0 < orbit_radius o -> 0 <= radius -> 0 <= target -> 0 <= now ->
  find_next_cross solver o target lat lon radius now = Some r ->
  now <= r <= now + orbital_period o /\
  (exists x, Rabs (x - r) <= 1 /\ at_target o target lat lon radius x) /\
  (forall x, now < x -> at_target o target lat lon radius x -> r <= x + 1).

(** The answer is within a period of the start and of a moment when the satellite is nearer than the target; so it is within
    a second of a crossing, except when the satellite is nearer than the target at the answer itself. *)
Theorem pass_partial : forall solver, solver_contract solver -> forall o target lat lon radius now r,
  0 < orbit_radius o -> 0 <= target ->
  find_next_cross solver o target lat lon radius now = Some r ->
  now <= r <= now + orbital_period o /\
  (nearer o target lat lon radius (r - 1) \/ nearer o target lat lon radius (r + 1)) /\
  (nearer o target lat lon radius r \/ exists x, Rabs (x - r) <= 1 /\ at_target o target lat lon radius x).
Proof.
  intros solver C o target lat lon radius now r Ho Ht H. pose proof (period_pos o Ho) as T.
  destruct (find_answer _ _ _ _ _ _ _ _ Ho C H) as (sol & S & A).
  set (f := distance_at o target lat lon radius) in *.
  assert (In : forall a b x, a <= b -> distance_solver solver f a b = Some x -> a <= x <= b /\ (f (x - 1) < 0 \/ f (x + 1) < 0)).
  { intros a b x L E. destruct (solver_answer _ _ _ _ _ E) as (l & u & E' & N). destruct (C _ _ _ _ _ _ L E') as (? & ? & _ & Q & _). split; [lra|exact N]. }
  assert (B : now <= r <= now + orbital_period o /\ (f (r - 1) < 0 \/ f (r + 1) < 0)).
  { destruct (In now (now + orbital_period o) sol ltac:(lra) S) as [S1 S2]. destruct A as [->|[L A]]; [auto|]. destruct (In now (sol - 1) r ltac:(lra) A). split; [lra|assumption]. }
  destruct B as [B N]. split; [exact B|].
  pose proof (f_signs o target lat lon radius Ht) as Sg. fold f in Sg.
  split; [destruct N as [N|N]; [left|right]; apply Sg; exact N|].
  destruct (Rlt_dec (f r) 0) as [Neg|Pos]; [left; apply Sg; exact Neg|right].
  destruct N as [N|N].
  - destruct (crossing_between o target lat lon radius (r - 1) r ltac:(lra)) as (x & X & Z); [fold f; nra|].
    exists x. split; [apply Rabs_le; lra|apply Sg; exact Z].
  - destruct (crossing_between o target lat lon radius r (r + 1) ltac:(lra)) as (x & X & Z); [fold f; nra|].
    exists x. split; [apply Rabs_le; lra|apply Sg; exact Z].
Qed.
Print Assumptions pass_partial.

(** A single rise: the satellite is farther than the target from a second before the start up to [x0] and nearer from
    there to the end of the search.  Then every answer is the rise, up to a second and the tolerance of the search. *)
Theorem pass_rise_partial : forall solver, solver_contract solver -> forall o target lat lon radius now r x0,
  0 < orbit_radius o -> 0 <= target -> 0 <= now -> now < x0 < now + orbital_period o ->
  (forall t, now - 1 <= t < x0 -> farther o target lat lon radius t) ->
  (forall t, x0 < t <= now + orbital_period o -> nearer o target lat lon radius t) ->
  find_next_cross solver o target lat lon radius now = Some r ->
  Rabs (r - x0) <= 1 + 1 / 10 ^ 6 * (now + orbital_period o).
Proof.
  intros solver C o target lat lon radius now r x0 Ho Ht Hn Hx Far Near H. pose proof (period_pos o Ho) as T.
  destruct (find_answer _ _ _ _ _ _ _ _ Ho C H) as (sol & S & A).
  set (f := distance_at o target lat lon radius) in *. set (b := now + orbital_period o) in *.
  pose proof (f_signs o target lat lon radius Ht) as Sg. fold f in Sg.
  assert (Fp : forall t, now - 1 <= t < x0 -> 0 < f t) by (intros t Q; apply Sg, Far, Q).
  assert (Fn : forall t, x0 < t <= b -> f t < 0) by (intros t Q; apply Sg, Near, Q).
  destruct (solver_answer _ _ _ _ _ S) as (l & u & E & _). destruct (C f now b l u sol ltac:(unfold b; lra) E) as (L1 & L2 & [_ I] & R & St).
  specialize (St ltac:(pose proof (Fp now ltac:(lra)); pose proof (Fn b ltac:(lra)); nra)).
  assert (Lx : l <= x0).
  { destruct (Rle_dec l x0) as [|G]; [assumption|exfalso]. pose proof (Fn l ltac:(lra)). pose proof (Fn u ltac:(lra)). nra. }
  assert (Ux : x0 <= u).
  { destruct (Rle_dec x0 u) as [|G]; [assumption|exfalso]. pose proof (Fp l ltac:(lra)). pose proof (Fp u ltac:(lra)). nra. }
  assert (Tol : Rabs (u - l) < 1 / 10 ^ 6 * b).
  { eapply Rlt_le_trans; [exact I|]. apply Rmult_le_compat_l; [lra|]. eapply Rle_trans; [apply Rmin_r|]. rewrite Rabs_right; lra. }
  rewrite Rabs_right in Tol by lra.
  destruct A as [->|[L A]].
  - apply Rabs_le. lra.
  - destruct (solver_answer _ _ _ _ _ A) as (l' & u' & E' & N). destruct (C f now (sol - 1) l' u' r ltac:(lra) E') as (M1 & M2 & _ & R' & _).
    assert (Lo : x0 - 1 <= r).
    { destruct (Rle_dec (x0 - 1) r) as [|G]; [assumption|exfalso].
      pose proof (Fp (r - 1) ltac:(lra)). pose proof (Fp (r + 1) ltac:(lra)). lra. }
    apply Rabs_le. lra.
Qed.
Print Assumptions pass_rise_partial.

(** A satellite always nearer than the target: whatever the root finder answers is no crossing. *)
Theorem pass_always_near : forall solver o target lat lon radius now r, 0 <= orbit_radius o -> 0 <= radius ->
  orbit_radius o + radius < target -> find_next_cross solver o target lat lon radius now = Some r ->
  forall x, nearer o target lat lon radius x /\ ~ at_target o target lat lon radius x.
Proof.
  intros solver o target lat lon radius now r Ho Hr Ht _ x. pose proof (f_signs o target lat lon radius ltac:(lra) x) as (Z & N & _).
  destruct (f_bounds o target lat lon radius Ho Hr x) as [_ B]. assert (Neg : distance_at o target lat lon radius x < 0) by nra.
  split; [apply N; exact Neg|]. intros A. apply Z in A. lra.
Qed.
Print Assumptions pass_always_near.

(** Both ends of the search on the same side: the error is ignored and the answer accepted because the satellite is near. *)
Definition lazy_solver : solver_type := fun f a b =>
  if Rlt_dec 0 b then if Rle_dec (f a * f b) 0 then None else Some (b, b, b) else None.
Lemma lazy_contract : solver_contract lazy_solver.
Proof.
  intros f a b l u r L H. unfold lazy_solver in H. destruct (Rlt_dec 0 b) as [P|]; [|discriminate].
  destruct (Rle_dec _ _) as [|N]; [discriminate|]. injection H as <- <- <-. repeat split; try lra.
  rewrite Rminus_diag_eq, Rabs_R0, Rabs_right by lra. rewrite Rmin_left by lra. lra.
Qed.

Theorem pass_crossing_refuted : ~ pass_claim.
Proof.
  intros C. set (o := Orbit 0 0 7000000 0). pose proof (period_pos o ltac:(cbn; lra)) as T.
  assert (B : forall t, distance_at o 20000000 0 0 6371009 t < 0).
  { intros t. destruct (f_bounds o 20000000 0 0 6371009 ltac:(cbn; lra) ltac:(lra) t) as [_ B]. cbn [orbit_radius o] in B. lra. }
  assert (A : forall a b, 0 < b -> distance_solver lazy_solver (distance_at o 20000000 0 0 6371009) a b = Some b).
  { intros a b Hb. unfold distance_solver, lazy_solver. destruct (Rlt_dec 0 b); [|lra].
    destruct (Rle_dec _ 0) as [L|_]; [pose proof (B a); pose proof (B b); nra|].
    destruct (Rlt_dec _ 0) as [|L]; [reflexivity|]. exfalso. apply L. apply Rmin_case; apply B. }
  assert (F : exists r, find_next_cross lazy_solver o 20000000 0 0 6371009 0 = Some r).
  { unfold find_next_cross. rewrite A by lra. destruct (Rlt_dec _ _); [|eauto]. rewrite A by lra. eauto. }
  destruct F as [r F]. destruct (C _ lazy_contract o 20000000 0 0 6371009 0 r ltac:(cbn; lra) ltac:(lra) ltac:(lra) ltac:(lra) F) as (_ & (x & _ & X) & _).
  apply (pass_always_near lazy_solver o 20000000 0 0 6371009 0 r ltac:(cbn; lra) ltac:(lra) ltac:(cbn; lra) F x). exact X.
Qed.
Print Assumptions pass_crossing_refuted.

(** * A pass skipped: a retrograde equatorial satellite over a station on the equator *)

Definition skip_orbit : orbit := Orbit PI 0 7000000 (- (PI / 2) - PI * (earth_rotation / mean_motion 7000000)).
Definition skip_radius : R := 6371009.
Definition skip_target : R := sqrt (7000000 * 7000000 + skip_radius * skip_radius).

Lemma skip_motion : 1 / 1000 < mean_motion 7000000 < 2 / 1000.
Proof.
  assert (A : forall x y, 0 <= x -> x * x < y -> x < sqrt y).
  { intros x y X H. rewrite <- (sqrt_sq_nonneg x X) at 1. apply sqrt_lt_1; nra. }
  assert (B : forall x y, 0 <= x -> 0 <= y -> y < x * x -> sqrt y < x).
  { intros x y X Y H. rewrite <- (sqrt_sq_nonneg x X). apply sqrt_lt_1; nra. }
  unfold mean_motion, big_g, earth_mass. split; [apply A|apply B]; try lra.
Qed.

Lemma skip_f : forall t, distance_at skip_orbit skip_target 0 0 skip_radius t =
  - (2 * 7000000 * skip_radius) * cos ((mean_motion 7000000 + earth_rotation) * t + orbit_phase skip_orbit).
Proof.
  intros t. rewrite distance_at_eq.
  replace (skip_target * skip_target) with (7000000 * 7000000 + skip_radius * skip_radius)
    by (unfold skip_target; rewrite sqrt_sqrt; [reflexivity|unfold skip_radius; lra]).
  unfold circular_motion, ground_observer, dot, scale, vadd, node_dir, ahead_dir; cbn [vx vy vz].
  change (inclination skip_orbit) with PI. change (ascending_node skip_orbit) with 0. change (orbit_radius skip_orbit) with 7000000.
  set (w := mean_motion 7000000). set (ph := orbit_phase skip_orbit).
  rewrite cos_PI, sin_PI, cos_0, sin_0, Rplus_0_l.
  replace ((w + earth_rotation) * t + ph) with ((w * t + ph) + earth_rotation * t) by ring.
  rewrite (cos_plus (w * t + ph)). ring.
Qed.

(** The first rise is skipped: the root finder finds the second one, which is as good for its contract, and the second
    search has both ends on the same side. *)
Definition third_crossing : R := (2 * PI + PI * (earth_rotation / mean_motion 7000000)) / (mean_motion 7000000 + earth_rotation).
Definition point_solver (p : R) : solver_type := fun f a b =>
  if Rle_dec a p then if Rle_dec p b then if Req_EM_T (f p) 0 then Some (p, p, p) else None else None else None.
Definition skip_solver : solver_type := point_solver third_crossing.

Lemma point_contract : forall p, 0 < p -> solver_contract (point_solver p).
Proof.
  intros p P f a b l u r L H. unfold point_solver in H.
  destruct (Rle_dec a p); [|discriminate]. destruct (Rle_dec p b); [|discriminate].
  destruct (Req_EM_T _ _) as [Z|]; [|discriminate]. injection H as <- <- <-. repeat split; try lra.
  - rewrite Rminus_diag_eq, Rabs_R0, Rabs_right by lra. rewrite Rmin_left by lra. lra.
  - intros _. rewrite Z. lra.
Qed.

Lemma third_pos : 1 < third_crossing.
Proof.
  unfold third_crossing. pose proof skip_motion as M. pose proof PI2_3_2 as P. set (w := mean_motion 7000000) in *.
  assert (E : 0 < earth_rotation < 1 / 1000) by (unfold earth_rotation; lra).
  assert (Q : 0 < earth_rotation / w) by (apply Rdiv_lt_0_compat; lra).
  apply Rmult_lt_reg_r with (w + earth_rotation); [lra|]. unfold Rdiv at 1. rewrite Rmult_assoc, Rinv_l by lra. nra.
Qed.

Lemma skip_contract : solver_contract skip_solver.
Proof. apply point_contract. pose proof third_pos. lra. Qed.

Theorem pass_first_refuted : ~ (forall solver, solver_contract solver -> forall o target lat lon radius now r,
  0 < orbit_radius o -> 0 <= radius -> 0 <= target -> 0 <= now ->
  find_next_cross solver o target lat lon radius now = Some r ->
  distance_at o target lat lon radius now * distance_at o target lat lon radius (now + orbital_period o) < 0 ->
  forall x, now < x -> at_target o target lat lon radius x -> r <= x + 1).
Proof.
  intros C. pose proof skip_motion as M. pose proof PI2_3_2 as P. pose proof third_pos as P3.
  set (w := mean_motion 7000000) in *. set (e := PI * (earth_rotation / w)).
  assert (E : 0 < earth_rotation < 1 / 10000) by (unfold earth_rotation; lra).
  assert (Q : 0 < earth_rotation / w < 1 / 10).
  { split; [apply Rdiv_lt_0_compat; lra|]. apply Rmult_lt_reg_r with w; [lra|]. unfold Rdiv at 1. rewrite Rmult_assoc, Rinv_l by lra. lra. }
  assert (E2 : 0 < e < PI / 10) by (unfold e; nra).
  assert (Ph : orbit_phase skip_orbit = - (PI / 2) - e) by reflexivity.
  assert (K : 0 < 2 * 7000000 * skip_radius) by (unfold skip_radius; lra). set (k := 2 * 7000000 * skip_radius) in *.
  set (s := w + earth_rotation). assert (Hs : 0 < s < 1 / 100) by (unfold s; lra).
  set (f := distance_at skip_orbit skip_target 0 0 skip_radius).
  assert (F : forall t, f t = - k * cos (s * t - PI / 2 - e)).
  { intros t. unfold f. rewrite skip_f, Ph. fold w s k. do 2 f_equal. ring. }
  assert (Sin : forall a, cos (a - PI / 2) = sin a) by (intros a; rewrite cos_minus, cos_PI2, sin_PI2; ring).
  assert (F' : forall t, f t = - k * sin (s * t - e)) by (intros t; rewrite F, <- Sin; do 2 f_equal; ring).
  assert (Th : s * third_crossing = 2 * PI + e) by (unfold third_crossing; fold w e s; field; lra).
  assert (Tp : s * orbital_period skip_orbit = 2 * PI + 2 * e).
  { unfold orbital_period, s, e. change (mean_motion (orbit_radius skip_orbit)) with w. field. lra. }
  assert (Lt : third_crossing <= orbital_period skip_orbit) by (apply Rmult_le_reg_l with s; lra).
  assert (Z3 : f third_crossing = 0).
  { rewrite F', Th. replace (2 * PI + e - e) with (2 * PI) by ring. rewrite sin_2PI. ring. }
  assert (A3 : distance_solver skip_solver f 0 (0 + orbital_period skip_orbit) = Some third_crossing).
  { unfold distance_solver, skip_solver, point_solver. destruct (Rle_dec 0 third_crossing); [|lra].
    destruct (Rle_dec third_crossing (0 + orbital_period skip_orbit)); [|lra]. destruct (Req_EM_T _ _); [|contradiction].
    destruct (Rlt_dec _ 0) as [|N]; [reflexivity|]. exfalso. apply N. eapply Rle_lt_trans; [apply Rmin_r|].
    rewrite F'. replace (s * (third_crossing + 1) - e) with (s + 2 * PI) by lra. rewrite sin_plus, sin_2PI, cos_2PI.
    assert (0 < sin s) by (apply sin_gt_0; lra). nra. }
  assert (A2 : distance_solver skip_solver f 0 (third_crossing - 1) = None).
  { unfold distance_solver, skip_solver, point_solver. destruct (Rle_dec 0 third_crossing); [|reflexivity].
    destruct (Rle_dec third_crossing (third_crossing - 1)); [lra|reflexivity]. }
  assert (Fd : find_next_cross skip_solver skip_orbit skip_target 0 0 skip_radius 0 = Some third_crossing).
  { unfold find_next_cross. fold f. rewrite A3. destruct (Rlt_dec _ _); [|reflexivity]. rewrite A2. reflexivity. }
  assert (Tg : 0 <= skip_target) by apply sqrt_pos.
  specialize (C _ skip_contract skip_orbit skip_target 0 0 skip_radius 0 third_crossing ltac:(cbn; lra) ltac:(unfold skip_radius; lra) Tg ltac:(lra) Fd).
  fold f in C. assert (S0 : 0 < sin e) by (apply sin_gt_0; lra).
  assert (St : f 0 * f (0 + orbital_period skip_orbit) < 0).
  { rewrite !F'. rewrite Rmult_0_r, Rplus_0_l, Tp. replace (0 - e) with (- e) by ring. replace (2 * PI + 2 * e - e) with (e + 2 * PI) by ring.
    rewrite sin_neg, sin_plus, sin_2PI, cos_2PI.
    replace (- k * - sin e * (- k * (sin e * 1 + cos e * 0))) with (- (k * sin e * (k * sin e))) by ring.
    assert (0 < k * sin e) by nra. nra. }
  specialize (C St (e / s) ltac:(apply Rdiv_lt_0_compat; lra)).
  assert (X : at_target skip_orbit skip_target 0 0 skip_radius (e / s)).
  { apply (f_signs skip_orbit skip_target 0 0 skip_radius Tg (e / s)). fold f. rewrite F'.
    replace (s * (e / s) - e) with 0 by (field; lra). rewrite sin_0. ring. }
  specialize (C X). assert (s * third_crossing <= s * (e / s + 1)) by (apply Rmult_le_compat_l; lra).
  replace (s * (e / s + 1)) with (e + s) in H by (field; lra). lra.
Qed.
Print Assumptions pass_first_refuted.

(** A case of [pass_rise_partial]: an eastward equatorial satellite that set two seconds before the start; the answer is
    the next rise. *)
Definition rise_speed : R := mean_motion 7000000 - earth_rotation.
Definition rise_orbit : orbit := Orbit 0 0 7000000 (PI / 2 + 2 * rise_speed).
Definition rise_time : R := PI / rise_speed - 2.

Lemma rise_f : forall t, distance_at rise_orbit skip_target 0 0 skip_radius t = 2 * 7000000 * skip_radius * sin (rise_speed * (t + 2)).
Proof.
  intros t. rewrite distance_at_eq.
  replace (skip_target * skip_target) with (7000000 * 7000000 + skip_radius * skip_radius)
    by (unfold skip_target; rewrite sqrt_sqrt; [reflexivity|unfold skip_radius; lra]).
  unfold circular_motion, ground_observer, dot, scale, vadd, node_dir, ahead_dir; cbn [vx vy vz].
  change (inclination rise_orbit) with 0. change (ascending_node rise_orbit) with 0. change (orbit_radius rise_orbit) with 7000000.
  change (orbit_phase rise_orbit) with (PI / 2 + 2 * rise_speed). set (w := mean_motion 7000000).
  rewrite cos_0, sin_0, Rplus_0_l.
  replace (sin (rise_speed * (t + 2))) with (- cos ((w * t + (PI / 2 + 2 * rise_speed)) - earth_rotation * t)).
  - rewrite (cos_minus (w * t + _)). ring.
  - replace (w * t + (PI / 2 + 2 * rise_speed) - earth_rotation * t) with (PI / 2 + rise_speed * (t + 2)) by (unfold rise_speed; fold w; ring).
    rewrite cos_plus, cos_PI2, sin_PI2. ring.
Qed.

Example rise_case :
  find_next_cross (point_solver rise_time) rise_orbit skip_target 0 0 skip_radius 0 = Some rise_time /\
  0 < rise_time < 0 + orbital_period rise_orbit /\
  (forall t, 0 - 1 <= t < rise_time -> farther rise_orbit skip_target 0 0 skip_radius t) /\
  (forall t, rise_time < t <= 0 + orbital_period rise_orbit -> nearer rise_orbit skip_target 0 0 skip_radius t).
Proof.
  pose proof skip_motion as M. pose proof PI2_3_2 as P. pose proof PI_4 as P4. assert (E : 72 / 10 ^ 6 < earth_rotation < 73 / 10 ^ 6) by (unfold earth_rotation; lra).
  assert (Hs : 9 / 10000 < rise_speed < 2 / 1000) by (unfold rise_speed; lra).
  assert (K : 0 < 2 * 7000000 * skip_radius) by (unfold skip_radius; lra).
  assert (Rt : rise_speed * (rise_time + 2) = PI) by (unfold rise_time; field; lra).
  set (k := 2 * 7000000 * skip_radius) in *. set (f := distance_at rise_orbit skip_target 0 0 skip_radius).
  assert (F : forall t, f t = k * sin (rise_speed * (t + 2))) by (intros t; unfold f; rewrite rise_f; reflexivity).
  assert (Tg : 0 <= skip_target) by apply sqrt_pos. pose proof (f_signs rise_orbit skip_target 0 0 skip_radius Tg) as Sg. fold f in Sg.
  assert (Far : forall t, - 1 <= t < rise_time -> 0 < f t).
  { intros t Ht. rewrite F. apply Rmult_lt_0_compat; [exact K|]. apply sin_gt_0; nra. }
  assert (Near : forall t, rise_time < t -> rise_speed * (t + 2) < 2 * PI -> f t < 0).
  { intros t Ht Hu. rewrite F. assert (sin (rise_speed * (t + 2)) < 0) by (apply sin_lt_0; nra). nra. }
  assert (Rp : 1 < rise_time) by nra.
  assert (Tp : mean_motion 7000000 * orbital_period rise_orbit = 2 * PI).
  { unfold orbital_period. change (orbit_radius rise_orbit) with 7000000. field. lra. }
  set (T := orbital_period rise_orbit) in *. assert (Tb : 0 < T) by (apply period_pos; cbn; lra).
  assert (Ws : mean_motion 7000000 = rise_speed + earth_rotation) by (unfold rise_speed; ring).
  assert (Tb2 : 3000 < T) by nra.
  assert (Te : rise_speed * (T + 2) < 2 * PI).
  { rewrite <- Tp, Ws. assert (rise_speed * 2 < earth_rotation * T) by nra. lra. }
  assert (Lt : rise_time < T). { apply Rmult_lt_reg_l with rise_speed; [lra|]. assert (rise_speed * T > PI) by nra. nra. }
  assert (Z : f rise_time = 0) by (rewrite F, Rt, sin_PI; ring).
  split; [|split; [lra|split]].
  - unfold find_next_cross. fold f T. unfold distance_solver, point_solver.
    destruct (Rle_dec 0 rise_time); [|lra]. destruct (Rle_dec rise_time (0 + T)); [|lra]. destruct (Req_EM_T _ _); [|contradiction].
    destruct (Rlt_dec (Rmin _ _) 0) as [|N].
    + destruct (Rlt_dec 0 (rise_time - 1)); [|reflexivity]. destruct (Rle_dec rise_time (rise_time - 1)); [lra|reflexivity].
    + exfalso. apply N. eapply Rle_lt_trans; [apply Rmin_r|]. apply Near; [lra|]. nra.
  - intros t Ht. apply Sg. apply Far. lra.
  - intros t Ht. apply Sg. apply Near; [lra|]. nra.
Qed.

(** Every answer of the repeated search is an answer of one of the searches, which start half a period apart, after all
    earlier ones found nothing. *)
Theorem search_answer_partial : forall solver, solver_contract solver -> forall o target lat lon radius now r,
  0 < orbit_radius o -> 0 <= target -> next_time solver o target lat lon radius now r ->
  exists k, find_next_cross solver o target lat lon radius (now + INR k * (orbital_period o / 2)) = Some r /\
    (forall j, (j < k)%nat -> find_next_cross solver o target lat lon radius (now + INR j * (orbital_period o / 2)) = None) /\
    now <= r /\ (nearer o target lat lon radius r \/ exists x, Rabs (x - r) <= 1 /\ at_target o target lat lon radius x).
Proof.
  intros solver C o target lat lon radius now r Ho Ht H. pose proof (period_pos o Ho) as T.
  induction H as [now r H|now r H _ (k & A & B & L & D)].
  - exists 0%nat. cbn [INR]. rewrite Rmult_0_l, Rplus_0_r. split; [exact H|]. split; [intros j J; inversion J|].
    destruct (pass_partial solver C o target lat lon radius now r Ho Ht H) as (W & _ & D). split; [lra|exact D].
  - exists (S k). split; [|split; [|split; [lra|exact D]]].
    + rewrite S_INR. rewrite <- A. f_equal. ring.
    + intros [|j] J; [cbn [INR]; rewrite Rmult_0_l, Rplus_0_r; exact H|].
      rewrite S_INR. rewrite <- (B j) by lia. f_equal. ring.
Qed.
Print Assumptions search_answer_partial.

(** * C65: the search for a pass need not end *)

Theorem search_never_ends : forall solver o target lat lon radius now r, 0 <= target ->
  (forall t, farther o target lat lon radius t \/ at_target o target lat lon radius t) ->
  ~ next_time solver o target lat lon radius now r.
Proof.
  intros solver o target lat lon radius now r Ht Far.
  assert (P : forall t, 0 <= distance_at o target lat lon radius t).
  { intros t. destruct (f_signs o target lat lon radius Ht t) as (Z & _ & A). destruct (Far t) as [H|H]; [apply A in H|apply Z in H]; lra. }
  intros H. induction H as [now r H|]; [|assumption]. unfold find_next_cross, distance_solver in H.
  destruct (solver _ now (now + orbital_period o)) as [[[l u] s]|]; [|discriminate].
  destruct (Rlt_dec _ 0) as [N|]; [|discriminate]. apply Rmin_neg in N. pose proof (P (s - 1)). pose proof (P (s + 1)). lra.
Qed.
Print Assumptions search_never_ends.

(** Over the pole, an equatorial satellite is always as far as sqrt (R^2 + r^2). *)
Lemma pole_distance : forall R r ph t, 0 < R -> 0 < r -> separation (Orbit 0 0 R ph) (PI / 2) 0 r t (sqrt (R * R + r * r)).
Proof.
  intros R r ph t HR Hr. destruct (separation_at (Orbit 0 0 R ph) 0 (PI / 2) 0 r t) as (d & S & D & F).
  replace (sqrt (R * R + r * r)) with d; [exact S|]. rewrite distance_at_eq in F. cbn [orbit_radius] in F.
  unfold circular_motion, ground_observer, dot, scale, vadd, node_dir, ahead_dir in F; cbn [vx vy vz inclination ascending_node orbit_radius] in F.
  rewrite cos_PI2, sin_0 in F. assert (Q : R * R + r * r = d * d) by lra. rewrite Q. rewrite sqrt_sq_nonneg by exact D. reflexivity.
Qed.

(** The claim that the search for the distance of an elevation above the horizon ends, with some root finder at least. *)
Definition search_claim : Prop := forall o e lat lon radius now,
  earth_radius < orbit_radius o -> 0 < radius -> 0 <= e <= PI / 2 ->
  exists solver r, solver_contract solver /\ next_time solver o (ground_distance_at_elevation o e radius) lat lon radius now r.

Theorem search_refuted : ~ search_claim.
Proof.
  intros C. set (o := Orbit 0 0 7000000 0). assert (ER : earth_radius < orbit_radius o) by (cbn; unfold earth_radius; lra).
  pose proof PI_RGT_0 as P.
  destruct (C o 0 (PI / 2) 0 earth_radius 0 ER ltac:(unfold earth_radius; lra) ltac:(lra)) as (solver & r & _ & H).
  revert H. apply search_never_ends; [apply sqrt_pos|]. intros t. left. eexists. split.
  - apply pole_distance; [lra|unfold earth_radius; lra].
  - unfold ground_distance_at_elevation, sat_altitude. change (orbit_radius o) with 7000000. rewrite sin_0.
    apply sqrt_lt_1.
    + unfold earth_radius. rewrite ?Rmult_0_r, ?Rmult_0_l. lra.
    + unfold earth_radius. lra.
    + unfold earth_radius. rewrite ?Rmult_0_r, ?Rmult_0_l. lra.
Qed.
Print Assumptions search_refuted.
