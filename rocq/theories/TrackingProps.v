(** Theorems about stations that follow satellites in motion. *)
From Coq Require Import Reals Lra Psatz ZArith Lia List Arith Bool.
From Verif Require Import Base SatAddrModel ConstellationModel ConstellationSpec ConstellationProofs ConstellationProps TrackerModel TrackerProps
  OrbitModel OrbitSpec OrbitProofs PassProps TrackingModel TrackingSpec TrackingProofs.
Import ListNotations.
Open Scope R_scope.

(** * C80: satellites move smoothly *)

(** However the position is put together from latitude and longitude, it never jumps, and moves at most at the speed of
    the orbit and of the Earth's rotation added up. *)
Theorem motion_bounded : forall rs o t u p q, flies rs o -> position rs o t = Ok p -> position rs o u = Ok q ->
  distance p q <= top_speed rs o * Rabs (t - u).
Proof.
  intros rs o t u p q F P Q. destruct (position_moves rs o t u F) as (p' & q' & P' & Q' & L).
  rewrite P in P'. rewrite Q in Q'. injection P' as <-. injection Q' as <-. exact L.
Qed.
Print Assumptions motion_bounded.

(** The satellite on the equator that flies against the Earth's rotation. *)
Lemma retrograde_chord : forall rs node r phase t u p q, 0 < r -> 0 <= rs + (r - earth_radius) ->
  position rs (Orbit PI node r phase) t = Ok p -> position rs (Orbit PI node r phase) u = Ok q ->
  sq_distance p q = (2 * (rs + (r - earth_radius)) * sin ((mean_motion r + earth_rotation) * (t - u) / 2)) ^ 2.
Proof.
  intros rs node r phase t u p q H Hr P Q. set (o := Orbit PI node r phase) in *.
  destruct (position_rotated rs o t H) as (v & V & P'). destruct (position_rotated rs o u H) as (v' & V' & Q').
  rewrite inertial_motion in V, V'. injection V as <-. injection V' as <-. rewrite P in P'. rewrite Q in Q'. injection P' as ->. injection Q' as ->.
  change (orbit_radius o) with r. set (w := mean_motion r). set (e := earth_rotation). set (k := (rs + (r - earth_radius)) / r).
  replace (rs + (r - earth_radius)) with (k * r) by (unfold k; field; lra).
  replace ((2 * (k * r) * sin ((w + e) * (t - u) / 2)) ^ 2) with (k * k * (r * r * (2 - 2 * cos ((w + e) * (t - u))))).
  2:{ pose proof (cos_2a_sin ((w + e) * (t - u) / 2)) as C. replace (2 * ((w + e) * (t - u) / 2)) with ((w + e) * (t - u)) in C by field.
      rewrite C. ring. }
  assert (G : forall s, rotate (- (e * s)) (circular_motion o w s) =
    Vec (r * cos (node - (w + e) * s - phase)) (r * sin (node - (w + e) * s - phase)) 0).
  { intros s. unfold rotate, circular_motion, scale, vadd, node_dir, ahead_dir; cbn [vx vy vz]. unfold o; cbn [inclination ascending_node orbit_radius orbit_phase].
    rewrite cos_PI, sin_PI. replace (node - (w + e) * s - phase) with (node - (w * s + phase) + - (e * s)) by ring.
    set (a := w * s + phase). set (b := - (e * s)).
    rewrite cos_plus, sin_plus, cos_minus, sin_minus. f_equal; ring. }
  rewrite (G t), (G u). unfold sq_distance, scale; cbn [vx vy vz].
  replace ((w + e) * (t - u)) with ((node - (w + e) * u - phase) - (node - (w + e) * t - phase)) by ring.
  set (x := node - (w + e) * u - phase). set (y := node - (w + e) * t - phase). rewrite cos_minus.
  pose proof (trig1 x) as X. pose proof (trig1 y) as Y.
  transitivity (k * k * (r * r * ((sin x * sin x + cos x * cos x) + (sin y * sin y + cos y * cos y) - 2 * (cos x * cos y + sin x * sin y)))); [ring|].
  rewrite X, Y. ring.
Qed.

(** No smaller bound would do: it is the speed of that satellite. *)
Theorem motion_bound_best : forall rs r v, 0 < r -> 0 <= rs + (r - earth_radius) -> 0 <= v ->
  (forall o t u p q, orbit_radius o = r -> position rs o t = Ok p -> position rs o u = Ok q -> distance p q <= v * Rabs (t - u)) ->
  (rs + (r - earth_radius)) * (kepler_rate r + earth_rotation) <= v.
Proof.
  change kepler_rate with mean_motion.
  intros rs r v H Hr Hv B. apply Rnot_lt_le. intros L. set (W := mean_motion r + earth_rotation) in *. set (A := rs + (r - earth_radius)) in *.
  assert (HW : 0 < W) by (unfold W; pose proof (mean_motion_pos r H); unfold earth_rotation; lra).
  assert (HA : 0 < A) by (destruct Hr as [Hr|Hr]; [exact Hr|]; fold A in Hr; rewrite <- Hr in L; lra).
  set (V := A * W) in *. assert (HV : 0 < V) by (unfold V; apply Rmult_lt_0_compat; assumption).
  set (y := (V - v) / V). assert (Hy : 0 < y <= 1).
  { unfold y. split; [apply Rdiv_lt_0_compat; lra|]. apply Rmult_le_reg_r with V; [exact HV|]. unfold Rdiv. rewrite Rmult_assoc, Rinv_l by lra. lra. }
  set (t := 2 * y / W). destruct (position_rotated rs (Orbit PI 0 r 0) t H) as (v1 & _ & P). destruct (position_rotated rs (Orbit PI 0 r 0) 0 H) as (v2 & _ & Q).
  match type of P with _ = Ok ?x => set (p := x) in * end. match type of Q with _ = Ok ?x => set (q := x) in * end.
  specialize (B (Orbit PI 0 r 0) t 0 p q eq_refl P Q). pose proof (retrograde_chord rs 0 r 0 t 0 p q H Hr P Q) as C.
  fold A W in C. rewrite Rminus_0_r in B, C. replace (W * t / 2) with y in C by (unfold t; field; lra).
  assert (Ht : 0 < t) by (unfold t; apply Rdiv_lt_0_compat; lra). rewrite Rabs_right in B by lra.
  rewrite <- distance_sq in C. set (D := distance p q) in *.
  assert (S : y - y ^ 3 / 6 <= sin y).
  { pose proof (sin_bound y 0 ltac:(lra) ltac:(pose proof PI2_3_2; lra)) as [S _]. unfold sin_approx, sin_term in S. simpl in S. lra. }
  assert (E : D = 2 * A * sin y).
  { assert (0 <= D) by apply distance_nonneg. assert (0 <= sin y) by nra. assert (0 <= 2 * A * sin y) by (apply Rmult_le_pos; lra). nra. }
  rewrite E in B. assert (Vt : V * t = 2 * A * y) by (unfold V, t; field; lra).
  assert (vt : v * t = (1 - y) * (V * t)) by (unfold y; field; lra). rewrite vt, Vt in B.
  assert (B' : sin y <= (1 - y) * y) by (apply Rmult_le_reg_l with (2 * A); lra).
  nra.
Qed.
Print Assumptions motion_bound_best.

(** * C81: how far behind the periodic tracker falls *)

(** The state [s] of the tracker is the one that holds at time [t]. *)
Definition current (s : tracker) (t : Z) : Prop := (tr_now s <= t)%Z /\ forall e, In e (tr_events s) -> (t < fst e)%Z.

(** From the start on there is always such a state, and the satellite followed in it is, compared with any other, farther
    by at most what the two can have moved since the last update, less than an interval ago. *)
Theorem station_follows : forall rs orbits here h id P S adds c addrs addr t0 interval offset r0,
  run_adds h (con_new id P S) adds = Ok (c, addrs) -> adds <> [] -> (0 < interval)%Z -> (0 <= offset <= interval)%Z ->
  (forall d, In d (map dev_of adds) -> flies rs (orbits d)) ->
  let run n := station_run rs orbits here c addr interval offset t0 r0 n in
  (forall t, (t0 <= t)%Z -> exists n s, run n = Some (Ok s) /\ current s t) /\
  (forall t n s, run n = Some (Ok s) -> current s t ->
     (t0 <= tr_now s)%Z /\ (t - tr_now s < interval)%Z /\
     exists d, In d (map dev_of adds) /\ tr_remote s = addr d /\
       forall x, In x (map dev_of adds) ->
         distance (sat_at rs orbits t d) here <= distance (sat_at rs orbits t x) here +
           (top_speed rs (orbits d) + top_speed rs (orbits x)) * seconds (t - tr_now s)).
Proof.
  intros rs orbits here h id P S adds c addrs addr t0 interval offset r0 R Ne Hi Ho F run.
  pose proof (periodic_state h id P S adds c addrs R rleb rleb_total (sq_away rs orbits here) addr t0 interval offset r0 Hi Ho Ne) as St.
  assert (Step : forall n, (update_time t0 interval offset n <= update_time t0 interval offset (Datatypes.S n))%Z /\
    (update_time t0 interval offset (Datatypes.S n) <= update_time t0 interval offset n + interval)%Z /\ (t0 <= update_time t0 interval offset n)%Z).
  { intros [|n]; unfold update_time; nia. }
  split.
  - intros t Ht. destruct (periodic_general _ _ (sq_away rs orbits here) h id P S adds c addrs addr t0 interval offset r0 rleb_total R Ne Hi Ho) as [_ V].
    destruct (V t Ht) as (n & s & m & X & B & <- & M & _). exists n, s. split; [exact X|]. split; [lia|exact B].
  - intros t [|n] s X [Nt Ev].
    + exfalso. unfold run, station_run in X. cbn [periodic_run] in X. injection X as <-. unfold periodic_init in Nt, Ev. cbn [tr_now tr_events] in Nt, Ev.
      destruct (Z.eqb_spec interval 0); [lia|]. cbn [tr_schedule fst] in Ev. destruct (Z.leb_spec t0 (t0 + offset)); [|lia].
      specialize (Ev _ (or_introl eq_refl)). cbn [fst] in Ev. lia.
    + destruct (St n) as (s' & X' & Nw & (d & Ad & I & M) & Evs & _). unfold run, station_run in X. rewrite X in X'. injection X' as <-.
      specialize (Step n). rewrite Evs in Ev. specialize (Ev _ (or_introl eq_refl)). cbn [fst] in Ev. rewrite Nw.
      split; [lia|]. split; [lia|]. exists d. split; [exact I|]. split; [exact Ad|]. intros x Hx. rewrite Nw in Nt. set (m := update_time t0 interval offset n) in *.
      pose proof (sq_away_le rs orbits here m d x (M x Hx)) as L.
      pose proof (range_moves rs orbits here d t m (F d I)) as D. pose proof (range_moves rs orbits here x m t (F x Hx)) as X2.
      rewrite seconds_minus. pose proof (seconds_le _ _ Nt) as Sl.
      rewrite Rabs_right in D by lra. rewrite Rabs_left1 in X2 by lra. lra.
Qed.
Print Assumptions station_follows.

(** So with a distance limit, a station can reach the satellite it follows whenever there is one closer than the limit by
    what two satellites move in an interval, [v] being the fastest. *)
Theorem station_reaches : forall rs orbits here h id P S adds c addrs addr t0 interval offset r0 v limit n s t,
  run_adds h (con_new id P S) adds = Ok (c, addrs) -> adds <> [] -> (0 < interval)%Z -> (0 <= offset <= interval)%Z ->
  (forall d, In d (map dev_of adds) -> flies rs (orbits d) /\ top_speed rs (orbits d) <= v) ->
  station_run rs orbits here c addr interval offset t0 r0 n = Some (Ok s) -> current s t ->
  (exists x, In x (map dev_of adds) /\ distance (sat_at rs orbits t x) here <= limit - 2 * v * seconds interval) ->
  exists d, In d (map dev_of adds) /\ tr_remote s = addr d /\
    success_distance (Some limit) (OnGround here) (OnOrbit (sat_at rs orbits t d)) = Ok true.
Proof.
  intros rs orbits here h id P S adds c addrs addr t0 interval offset r0 v limit n s t R Ne Hi Ho F X C (x & Hx & L).
  destruct (station_follows rs orbits here h id P S adds c addrs addr t0 interval offset r0 R Ne Hi Ho (fun d I => proj1 (F d I))) as [_ B].
  destruct (B t n s X C) as (_ & Lt & d & I & A & M). exists d. split; [exact I|]. split; [exact A|].
  unfold success_distance; cbn [mobility_position]. unfold within, rleb. destruct (Rle_dec _ _) as [|No]; [reflexivity|]. exfalso. apply No.
  rewrite distance_sym. specialize (M x Hx). destruct (F d I) as [Fd Vd]. destruct (F x Hx) as [Fx Vx].
  destruct C as [C _]. pose proof (seconds_le 0 (t - tr_now s) ltac:(lia)) as S0. pose proof (seconds_le (t - tr_now s) interval ltac:(lia)) as S1.
  unfold seconds at 1 in S0. pose proof (top_speed_nonneg _ _ Fd). pose proof (top_speed_nonneg _ _ Fx).
  assert ((top_speed rs (orbits d) + top_speed rs (orbits x)) * seconds (t - tr_now s) <= 2 * v * seconds interval).
  { apply Rmult_le_compat; lra. }
  lra.
Qed.
Print Assumptions station_reaches.

(** That it follows the closest satellite at all times would be too much to ask. *)
Definition always_closest_claim (rs : R) : Prop := forall orbits here h id P S adds c addrs addr t0 interval offset r0 n s t,
  run_adds h (con_new id P S) adds = Ok (c, addrs) -> adds <> [] -> (0 < interval)%Z -> (0 <= offset <= interval)%Z ->
  (forall d, In d (map dev_of adds) -> flies rs (orbits d)) ->
  station_run rs orbits here c addr interval offset t0 r0 n = Some (Ok s) -> current s t ->
  exists d, In d (map dev_of adds) /\ tr_remote s = addr d /\
    forall x, In x (map dev_of adds) -> distance (sat_at rs orbits t d) here <= distance (sat_at rs orbits t x) here.

(** Two satellites one radian apart, flying west along the equator, and a station below the first at time 0. *)
Definition chase (d : nat) : orbit := Orbit PI 0 7000000 (- INR d).
Definition chase_station : vec := Vec earth_radius 0 0.

Lemma chase_away : forall rs t d, sq_away rs chase chase_station t d =
  (rs + (7000000 - earth_radius)) ^ 2 + earth_radius ^ 2 -
  2 * (rs + (7000000 - earth_radius)) * earth_radius * cos ((mean_motion 7000000 + earth_rotation) * seconds t - INR d).
Proof.
  intros rs t d. unfold sq_away, sat_at. destruct (position_rotated rs (chase d) (seconds t)) as (v & V & P); [cbn; lra|].
  rewrite P. rewrite inertial_motion in V. injection V as <-. change (orbit_radius (chase d)) with 7000000.
  set (w := mean_motion 7000000). set (e := earth_rotation). set (A := rs + (7000000 - earth_radius)). set (s := seconds t).
  unfold rotate, circular_motion, scale, vadd, node_dir, ahead_dir, chase_station, sq_distance; cbn [vx vy vz inclination ascending_node orbit_radius orbit_phase chase].
  rewrite cos_PI, sin_PI, cos_0, sin_0. replace ((w + e) * s - INR d) with ((w * s + - INR d) - - (e * s)) by ring.
  set (a := w * s + - INR d). set (b := - (e * s)). rewrite cos_minus. pose proof (trig1 a) as Ta. pose proof (trig1 b) as Tb.
  transitivity (A * A * ((sin a * sin a + cos a * cos a) * (sin b * sin b + cos b * cos b)) + earth_radius ^ 2 -
    2 * A * earth_radius * (cos a * cos b + sin a * sin b)); [field|]. rewrite Ta, Tb. ring.
Qed.

Theorem always_closest_refuted : ~ always_closest_claim ns3_sphere_radius.
Proof.
  intros H. destruct (run_adds LittleEndian (con_new 1 1 2) [(0, 0, 0); (0, 1, 1)]%nat) as [[c l]| | |] eqn:R; try discriminate R.
  set (adr := fun d => sat_make LittleEndian 1 0 (Z.of_nat d)). set (T := 600000000000%Z).
  assert (F : forall d, In d (map dev_of [(0, 0, 0); (0, 1, 1)]%nat) -> flies ns3_sphere_radius (chase d)).
  { intros d _. unfold flies, chase, ns3_sphere_radius, earth_radius; cbn [orbit_radius]. lra. }
  destruct (station_follows ns3_sphere_radius chase chase_station _ _ _ _ _ c l adr 0%Z 1000000000000%Z 1000000000000%Z sat_default R ltac:(discriminate) ltac:(lia) ltac:(lia) F) as [Ex Al].
  destruct (Ex T ltac:(unfold T; lia)) as (n & s & X & C).
  destruct (H chase chase_station _ _ _ _ _ c l adr 0%Z 1000000000000%Z 1000000000000%Z sat_default n s T R ltac:(discriminate) ltac:(lia) ltac:(lia) F X C) as (d & I & A & M).
  (* the only update so far was at 0 *)
  assert (N0 : tr_now s = 0%Z).
  { pose proof (periodic_state _ _ _ _ _ c l R rleb rleb_total (sq_away ns3_sphere_radius chase chase_station) adr 0 1000000000000 1000000000000 sat_default ltac:(lia) ltac:(lia) ltac:(discriminate)) as St.
    destruct n as [|n]; [unfold station_run in X; cbn in X; injection X as <-; reflexivity|].
    destruct (St n) as (s' & X' & Nw & _). unfold station_run in X. rewrite X in X'. injection X' as <-. destruct C as [C _]. rewrite Nw in C |- *.
    unfold update_time, T in *. destruct n; lia. }
  destruct (Al T n s X C) as (_ & _ & d' & I' & A' & M').
  assert (Bound : forall t0' d1 d2, distance (sat_at ns3_sphere_radius chase t0' d1) chase_station <= distance (sat_at ns3_sphere_radius chase t0' d2) chase_station ->
    cos ((mean_motion 7000000 + earth_rotation) * seconds t0' - INR d2) <= cos ((mean_motion 7000000 + earth_rotation) * seconds t0' - INR d1)).
  { intros t1 d1 d2 L. assert (Q : sq_away ns3_sphere_radius chase chase_station t1 d1 <= sq_away ns3_sphere_radius chase chase_station t1 d2).
    { unfold sq_away. rewrite <- !distance_sq. pose proof (distance_nonneg (sat_at ns3_sphere_radius chase t1 d1) chase_station). nra. }
    rewrite !chase_away in Q. unfold ns3_sphere_radius, earth_radius in Q. lra. }
  (* followed: the satellite closest at 0, which is the first *)
  assert (D0 : tr_remote s = adr 0%nat).
  { pose proof (periodic_state _ _ _ _ _ c l R rleb rleb_total (sq_away ns3_sphere_radius chase chase_station) adr 0 1000000000000 1000000000000 sat_default ltac:(lia) ltac:(lia) ltac:(discriminate)) as St.
    destruct n as [|n].
    - exfalso. unfold station_run in X. cbn in X. injection X as <-. destruct C as [_ C]. specialize (C _ (or_introl eq_refl)). cbn in C. unfold T in C. lia.
    - destruct (St n) as (s' & X' & Nw & (dd & Ad & Id & Md) & _). unfold station_run in X. rewrite X in X'. injection X' as <-.
      rewrite Ad. destruct Id as [<-|[<-|[]]]; [reflexivity|]. exfalso. rewrite <- Nw, N0 in Md. cbn [dev_of snd] in Md.
      specialize (Md 0%nat (or_introl eq_refl)). apply sq_away_le, Bound in Md. unfold seconds in Md. cbn [INR] in Md.
      replace ((mean_motion 7000000 + earth_rotation) * (0 / 10 ^ 9) - 0) with 0 in Md by lra.
      replace ((mean_motion 7000000 + earth_rotation) * (0 / 10 ^ 9) - 1) with (- (1)) in Md by lra.
      rewrite cos_neg, cos_0 in Md. pose proof (cos_decreasing_1 0 1 ltac:(lra) ltac:(pose proof PI2_3_2; lra) ltac:(lra) ltac:(pose proof PI2_3_2; lra) ltac:(lra)) as Q.
      rewrite cos_0 in Q. lra. }
  rewrite A in D0. assert (d = 0%nat).
  { destruct I as [<-|[<-|[]]]; [reflexivity|]. exfalso. revert D0. vm_compute. discriminate. }
  subst d. specialize (M 1%nat (or_intror (or_introl eq_refl))). apply Bound in M.
  pose proof skip_motion as W. set (w := mean_motion 7000000) in *. cbn [INR] in M. unfold seconds, T in M.
  replace ((w + earth_rotation) * (600000000000 / 10 ^ 9) - 0) with ((w + earth_rotation) * 600) in M by lra.
  replace ((w + earth_rotation) * (600000000000 / 10 ^ 9) - 1) with ((w + earth_rotation) * 600 - 1) in M by lra.
  assert (E : 7 / 100000 < earth_rotation < 8 / 100000) by (unfold earth_rotation; lra). set (y := (w + earth_rotation) * 600) in *.
  assert (Y : 6 / 10 < y < 13 / 10) by (unfold y; lra). pose proof PI2_3_2 as Pi.
  assert (Q : cos y < cos (y - 1)).
  { destruct (Rle_dec 1 y).
    - apply cos_decreasing_1; lra.
    - rewrite <- (cos_neg (y - 1)). apply cos_decreasing_1; lra. }
  lra.
Qed.
Print Assumptions always_closest_refuted.

(** * C82: the elevation tracker keeps a satellite in view *)

Open Scope Z_scope.

Lemma lost_at_fun : forall above t d b b', lost_at above t d b -> lost_at above t d b' -> b = b'.
Proof.
  intros above t d b b' (L & N & A) (L' & N' & A'). destruct (Z.lt_total b b') as [X|[X|X]]; [|exact X|].
  - rewrite (A' b) in N by lia. discriminate.
  - rewrite (A b') in N' by lia. discriminate.
Qed.

Section Watch.
Variables (h : host) (id : Z) (P S : nat) (adds : list (nat * nat * nat)) (c : constellation) (addrs : list sat_address).
Hypothesis R : run_adds h (con_new id P S) adds = Ok (c, addrs).
Hypothesis Full : (length adds = P * S)%nat.
Variables (addr : nat -> sat_address) (above : Z -> nat -> bool) (next_at : Z -> nat -> option Z) (half_period : nat -> Z).
Hypothesis Half : forall t d b, In d (map dev_of adds) -> above t d = true -> next_at t d = Some b -> b - t < half_period d.
Hypothesis Ex : exact (map dev_of adds) above next_at.

Let upd := elevation_update c addr above next_at half_period.
Let run := elevation_run c addr above next_at half_period.
Let sats := map dev_of adds.

Lemma update_exact : forall t,
  (exists d e, In d sats /\ upd t = Ok (addr d, e) /\ above t d = true /\ lost_at above t d e /\
     forall x b, In x sats -> above t x = true -> lost_at above t x b -> b <= e) \/
  (upd t = Abort /\ forall d, In d sats -> above t d = false).
Proof.
  intros t. destruct (size_and_listing_agree h id P S adds c addrs R) as (_ & _ & Ls & Pm). rewrite Ls in Pm.
  destruct (elevation_tracker_partial h id P S adds c addrs addr above next_at half_period t R Full) as [[Ab No]|(bf & d & af & e & L & U & [Ab Nx] & B & A)].
  - intros d b I [U1 U2]. exact (Half t d b I U1 U2).
  - right. split; [exact Ab|]. intros d I. destruct (above t d) eqn:Q; [|reflexivity]. exfalso.
    destruct (Ex t d I Q) as (b & Nx & _). apply (No d b); [|split; assumption].
    eapply Permutation.Permutation_in; [apply Permutation.Permutation_sym; exact Pm|exact I].
  - left. assert (I : In d sats) by (eapply Permutation.Permutation_in; [exact Pm|]; rewrite L; apply in_or_app; right; left; reflexivity).
    exists d, e. split; [exact I|]. split; [exact U|]. split; [exact Ab|].
    destruct (Ex t d I Ab) as (b' & Nx' & Lo). rewrite Nx in Nx'. injection Nx' as <-. split; [exact Lo|].
    intros x b Ix Ax Lx. destruct (Ex t x Ix Ax) as (b' & Nb & Lb). rewrite (lost_at_fun _ _ _ _ _ Lx Lb).
    assert (Ix' : In x (listing P S adds)) by (eapply Permutation.Permutation_in; [apply Permutation.Permutation_sym; exact Pm|exact Ix]).
    rewrite L in Ix'. apply in_app_or in Ix'. destruct Ix' as [Ix'|[<-|Ix']].
    + apply Z.lt_le_incl, (B x b' Ix'). split; assumption.
    + rewrite Nx in Nb. injection Nb as <-. lia.
    + apply (A x b' Ix'). split; assumption.
Qed.

Lemma run_S : forall n t, run (Datatypes.S n) t = rbind (upd t) (fun r => let '(a, t') := r in rbind (run n t') (fun r' => let '(l, e) := r' in Ok ((t, a) :: l, e))).
Proof. intros. reflexivity. Qed.

Lemma run_after : forall n t l e u, run n t = Ok (l, e) -> u < t -> at_time l u = None.
Proof.
  induction n as [|n IH]; intros t l e u H L; [cbn in H; injection H as <- <-; reflexivity|]. rewrite run_S in H.
  destruct (update_exact t) as [(d & t1 & _ & U & _ & (L1 & _) & _)|[U _]]; rewrite U in H; [|discriminate H]. cbn [rbind] in H.
  destruct (run n t1) as [[l' e']| | |] eqn:E; try discriminate H. cbn [rbind] in H. injection H as <- <-.
  cbn [at_time]. rewrite (IH t1 l' e' u E) by lia. destruct (Z.leb_spec t u); [lia|reflexivity].
Qed.

Lemma watches : forall n t0 log tn, run n t0 = Ok (log, tn) -> t0 + Z.of_nat n <= tn /\
  forall t, t0 <= t < tn -> exists d, In d sats /\ at_time log t = Some (addr d) /\ above t d = true.
Proof.
  induction n as [|n IH]; intros t0 log tn H; [cbn in H; injection H as <- <-; split; [|intros]; lia|]. rewrite run_S in H.
  destruct (update_exact t0) as [(d & t1 & I & U & Ab & (L1 & Lo & Se) & _)|[U _]]; rewrite U in H; [|discriminate H]. cbn [rbind] in H.
  destruct (run n t1) as [[l' e']| | |] eqn:E; try discriminate H. cbn [rbind] in H. injection H as <- <-.
  destruct (IH t1 l' e' E) as [Pr W]. split; [lia|]. intros t Ht. cbn [at_time].
  destruct (Z_lt_ge_dec t t1) as [Lt|Ge].
  - rewrite (run_after n t1 l' e' t E Lt). destruct (Z.leb_spec t0 t); [|lia]. exists d. split; [exact I|]. split; [reflexivity|]. apply Se. lia.
  - destruct (W t ltac:(lia)) as (x & Ix & A & B). exists x. rewrite A. auto.
Qed.

Lemma run_outcome : forall n t, (exists log tn, run n t = Ok (log, tn)) \/ run n t = Abort.
Proof.
  induction n as [|n IH]; intros t; [left; exists [], t; reflexivity|]. rewrite run_S.
  destruct (update_exact t) as [(d & t1 & _ & U & _)|[U _]]; rewrite U; [|right; reflexivity]. cbn [rbind].
  destruct (IH t1) as [(l & e & E)|E]; rewrite E; [|right; reflexivity]. left. cbn. eauto.
Qed.

Lemma aborts_uncovered : forall n t0, run n t0 = Abort -> exists t, t0 <= t /\ forall d, In d sats -> above t d = false.
Proof.
  induction n as [|n IH]; intros t0 H; [discriminate H|]. rewrite run_S in H.
  destruct (update_exact t0) as [(d & t1 & _ & U & _ & (L & _) & _)|[U No]]; rewrite U in H.
  - cbn [rbind] in H. destruct (IH t1) as (t & Lt & No).
    { destruct (run_outcome n t1) as [(l & e & E)|E]; [rewrite E in H; discriminate H|exact E]. }
    exists t. split; [lia|exact No].
  - exists t0. split; [lia|exact No].
Qed.

Lemma lasts : forall T t0, covered sats above t0 T <-> exists n log tn, run n t0 = Ok (log, tn) /\ T < tn.
Proof.
  intros T t0. split.
  - assert (G : forall k t, T - t < Z.of_nat k -> covered sats above t T -> exists n log tn, run n t = Ok (log, tn) /\ T < tn).
    { induction k as [|k IH]; intros t Hk Cv; [exists 0%nat, [], t; split; [reflexivity|lia]|].
      destruct (Z_lt_ge_dec T t) as [Lt|Ge]; [exists 0%nat, [], t; split; [reflexivity|exact Lt]|].
      destruct (update_exact t) as [(d & t1 & _ & U & _ & (L & _) & _)|[_ No]].
      - destruct (IH t1 ltac:(lia)) as (n & log & tn & E & Lt); [intros u Hu; apply Cv; lia|].
        exists (Datatypes.S n), ((t, addr d) :: log), tn. rewrite run_S, U. cbn [rbind]. rewrite E. auto.
      - destruct (Cv t ltac:(lia)) as (d & I & A). rewrite (No d I) in A. discriminate A. }
    apply (G (Z.to_nat (T - t0 + 1))). lia.
  - intros (n & log & tn & E & Lt) t Ht. destruct (watches n t0 log tn E) as [_ W]. destruct (W t ltac:(lia)) as (d & I & _ & A). eauto.
Qed.

Lemma fewest : forall n t0 log tn s plan T, run n t0 = Ok (log, tn) -> (forall e, In e log -> fst e < T) -> s <= t0 ->
  serves sats above s plan T -> (n <= length plan)%nat.
Proof.
  induction n as [|n IH]; intros t0 log tn s plan T H B Hs Sv; [lia|]. rewrite run_S in H.
  destruct (update_exact t0) as [(d & t1 & I & U & _ & (L1 & _) & Best)|[U _]]; rewrite U in H; [|discriminate H]. cbn [rbind] in H.
  destruct (run n t1) as [[l' e']| | |] eqn:E; try discriminate H. cbn [rbind] in H. injection H as <- <-.
  pose proof (B _ (or_introl eq_refl)) as B0. cbn [fst] in B0.
  destruct plan as [|x l]; cbn [serves] in Sv; [lia|]. destruct Sv as (Ix & e & Se & Sv). cbn [length].
  apply le_n_S, (IH t1 l' e' e l T E); [intros y Hy; apply B; right; exact Hy| |exact Sv].
  destruct (Z_le_gt_dec e t0) as [Le|Gt]; [lia|]. pose proof (Se t0 ltac:(lia)) as Ax.
  destruct (Ex t0 x Ix Ax) as (b & _ & Lo). apply Z.le_trans with b; [|exact (Best x b Ix Ax Lo)].
  destruct Lo as (Lb & Nb & _). apply Z.nlt_ge. intros X. rewrite Se in Nb by lia. discriminate Nb.
Qed.

Lemma log_length : forall n t0 log tn, run n t0 = Ok (log, tn) -> length log = n.
Proof.
  induction n as [|n IH]; intros t0 log tn H; [cbn in H; injection H as <- <-; reflexivity|]. rewrite run_S in H.
  destruct (upd t0) as [[a t1]| | |]; try discriminate H. cbn [rbind] in H.
  destruct (run n t1) as [[l' e']| | |] eqn:E; try discriminate H. cbn [rbind] in H. injection H as <- <-. cbn. f_equal. exact (IH _ _ _ E).
Qed.
End Watch.

(** A complete constellation whose satellites, as seen from the station, rise and set at the times the predictor says. *)
Definition well_predicted (adds : list (nat * nat * nat)) (above : Z -> nat -> bool) (next_at : Z -> nat -> option Z) (half_period : nat -> Z) : Prop :=
  exact (map dev_of adds) above next_at /\
  forall t d b, In d (map dev_of adds) -> above t d = true -> next_at t d = Some b -> b - t < half_period d.

(** At every moment the satellite followed can be seen; updates move on by at least a tick; the tracker lasts until after
    [T] exactly when some satellite can be seen all the time until then, and gives up exactly when at some moment none
    can. *)
Theorem elevation_watches : forall h id P S adds c addrs addr above next_at half_period t0,
  run_adds h (con_new id P S) adds = Ok (c, addrs) -> (length adds = P * S)%nat -> well_predicted adds above next_at half_period ->
  let run n := elevation_run c addr above next_at half_period n t0 in
  (forall n log tn, run n = Ok (log, tn) -> length log = n /\ t0 + Z.of_nat n <= tn /\
     forall t, t0 <= t < tn -> exists d, In d (map dev_of adds) /\ at_time log t = Some (addr d) /\ above t d = true) /\
  (forall T, covered (map dev_of adds) above t0 T <-> exists n log tn, run n = Ok (log, tn) /\ T < tn) /\
  ((exists n, run n = Abort) <-> exists t, t0 <= t /\ forall d, In d (map dev_of adds) -> above t d = false) /\
  (forall n, run n = Abort \/ exists x, run n = Ok x).
Proof.
  intros h id P S adds c addrs addr above next_at half_period t0 R Full [Ex Half] run. split; [|split; [|split]].
  - intros n log tn E. split; [exact (log_length c addr above next_at half_period n t0 log tn E)|].
    exact (watches h id P S adds c addrs R Full addr above next_at half_period Half Ex n t0 log tn E).
  - intros T. exact (lasts h id P S adds c addrs R Full addr above next_at half_period Half Ex T t0).
  - split.
    + intros (n & A). exact (aborts_uncovered h id P S adds c addrs R Full addr above next_at half_period Half Ex n t0 A).
    + intros (t & Ht & No). exists (Z.to_nat (t - t0 + 1)).
      destruct (run_outcome h id P S adds c addrs R Full addr above next_at half_period Half Ex (Z.to_nat (t - t0 + 1)) t0) as [(log & tn & E)|E]; [|exact E].
      exfalso. destruct (watches h id P S adds c addrs R Full addr above next_at half_period Half Ex _ t0 log tn E) as [Pr W].
      destruct (W t ltac:(lia)) as (d & I & _ & A). rewrite (No d I) in A. discriminate A.
  - intros n. destruct (run_outcome h id P S adds c addrs R Full addr above next_at half_period Half Ex n t0) as [(l & e & E)|E]; eauto.
Qed.
Print Assumptions elevation_watches.

(** * C83: fewest handovers *)

(** No way of serving the station by visible satellites until [T] uses fewer of them than the tracker has set by then. *)
Theorem elevation_fewest : forall h id P S adds c addrs addr above next_at half_period t0 n log tn T plan,
  run_adds h (con_new id P S) adds = Ok (c, addrs) -> (length adds = P * S)%nat -> well_predicted adds above next_at half_period ->
  elevation_run c addr above next_at half_period n t0 = Ok (log, tn) -> (forall e, In e log -> fst e < T) ->
  serves (map dev_of adds) above t0 plan T -> (length log <= length plan)%nat.
Proof.
  intros h id P S adds c addrs addr above next_at half_period t0 n log tn T plan R Full [Ex Half] E B Sv.
  rewrite (log_length c addr above next_at half_period n t0 log tn E).
  exact (fewest h id P S adds c addrs R Full addr above next_at half_period Half Ex n t0 log tn t0 plan T E B (Z.le_refl _) Sv).
Qed.
Print Assumptions elevation_fewest.

(** The satellites followed are themselves such a plan, so the bound is met. *)
Theorem elevation_fewest_met : forall h id P S adds c addrs addr above next_at half_period t0 n log tn,
  run_adds h (con_new id P S) adds = Ok (c, addrs) -> (length adds = P * S)%nat -> well_predicted adds above next_at half_period ->
  elevation_run c addr above next_at half_period n t0 = Ok (log, tn) ->
  exists plan, map addr plan = map snd log /\ serves (map dev_of adds) above t0 plan tn.
Proof.
  intros h id P S adds c addrs addr above next_at half_period t0 n log tn R Full [Ex Half]. revert t0 log tn.
  induction n as [|n IH]; intros t0 log tn H; [cbn in H; injection H as <- <-; exists []; split; [reflexivity|cbn; lia]|].
  cbn [elevation_run] in H. destruct (update_exact h id P S adds c addrs R Full addr above next_at half_period Half Ex t0) as [(d & t1 & I & U & _ & (_ & _ & Se) & _)|[U _]];
    rewrite U in H; [|discriminate H]. cbn [rbind] in H.
  destruct (elevation_run c addr above next_at half_period n t1) as [[l' e']| | |] eqn:E; try discriminate H. cbn [rbind] in H. injection H as <- <-.
  destruct (IH t1 l' e' E) as (plan & Mp & Sv). exists (d :: plan). split; [cbn; f_equal; exact Mp|]. cbn [serves]. split; [exact I|]. exists t1. split; [exact Se|exact Sv].
Qed.
Print Assumptions elevation_fewest_met.

(** * When the predicted time is cut off to a tick *)

(** Seconds (double) drops what is below a nanosecond, so the tracker may wake up while the satellite can still be seen,
    and be told "now" for its loss. *)
Definition nearly_predicted (adds : list (nat * nat * nat)) (above : Z -> nat -> bool) (next_at : Z -> nat -> option Z) (half_period : nat -> Z) : Prop :=
  cut_off (map dev_of adds) above next_at /\
  forall t d b, In d (map dev_of adds) -> above t d = true -> next_at t d = Some b -> b - t < half_period d.

(** Then the claim that the tracker gives up or goes on, and goes on as long as some satellite can be seen, is false. *)
Definition elevation_lasts_claim : Prop := forall h id P S adds c addrs addr above next_at half_period t0 T,
  run_adds h (con_new id P S) adds = Ok (c, addrs) -> (length adds = P * S)%nat -> nearly_predicted adds above next_at half_period ->
  exists n, elevation_run c addr above next_at half_period n t0 = Abort \/
    exists log tn, elevation_run c addr above next_at half_period n t0 = Ok (log, tn) /\ T < tn.

(** If the best satellite is lost "now", the tracker wakes up now, for ever: no time passes any more. *)
Theorem elevation_stuck : forall c addr above next_at half_period t a, elevation_update c addr above next_at half_period t = Ok (a, t) ->
  forall n, elevation_run c addr above next_at half_period n t = Ok (repeat (t, a) n, t).
Proof.
  intros c addr above next_at half_period t a U. induction n as [|n IH]; [reflexivity|]. cbn [elevation_run repeat]. rewrite U. cbn [rbind]. rewrite IH. reflexivity.
Qed.
Print Assumptions elevation_stuck.

(** One satellite, seen until 5, another from 6 on. *)
Definition relay_above (t : Z) (d : nat) : bool := if (d =? 0)%nat then t <=? 5 else (6 <=? t) && (t <=? 20).
Definition relay_next (t : Z) (d : nat) : option Z := Some (if (d =? 0)%nat then 5 else 20).

Theorem elevation_lasts_refuted : ~ elevation_lasts_claim.
Proof.
  intros H. destruct (run_adds LittleEndian (con_new 1 1 2) [(0, 0, 0); (0, 1, 1)]%nat) as [[c l]| | |] eqn:R; try discriminate R.
  set (above := fun t d => (0 <=? t) && relay_above t d).
  set (adr := fun d => sat_make LittleEndian 1 0 (Z.of_nat d)).
  destruct (H _ _ _ _ _ c l adr above relay_next (fun _ => 100) 0 10 R eq_refl) as (n & Q).
  - split.
    + intros t d I A. unfold above in A. apply andb_prop in A. destruct A as [A0 A]. apply Z.leb_le in A0. unfold relay_above in A.
      destruct I as [<-|[<-|[]]]; cbn in A; unfold relay_next; cbn.
      * apply Z.leb_le in A. exists 5. split; [reflexivity|]. split; [lia|]. right. split; [lia|]. split; [reflexivity|].
        intros u Hu. unfold above, relay_above. cbn. apply andb_true_intro. split; apply Z.leb_le; lia.
      * apply andb_prop in A. destruct A as [A1 A2]. apply Z.leb_le in A1, A2. exists 20. split; [reflexivity|]. split; [lia|].
        right. split; [lia|]. split; [reflexivity|].
        intros u Hu. unfold above, relay_above. cbn. apply andb_true_intro. split; [|apply andb_true_intro; split]; apply Z.leb_le; lia.
    + intros t d b _ A B. unfold above in A. apply andb_prop in A. destruct A as [A0 _]. apply Z.leb_le in A0. unfold relay_next in B. injection B as <-.
      destruct (d =? 0)%nat; lia.
  - assert (U : elevation_update c adr above relay_next (fun _ => 100) 5 = Ok (adr 0%nat, 5)) by (vm_compute in R; injection R as <- <-; vm_compute; reflexivity).
    assert (U0 : elevation_update c adr above relay_next (fun _ => 100) 0 = Ok (adr 0%nat, 5)) by (vm_compute in R; injection R as <- <-; vm_compute; reflexivity).
    pose proof (elevation_stuck c adr above relay_next (fun _ => 100) 5 (adr 0%nat) U) as St.
    destruct n as [|n]; [destruct Q as [Q|(log & tn & Q & L)]; [discriminate Q|]; cbn in Q; injection Q as <- <-; lia|].
    cbn [elevation_run] in Q. rewrite U0 in Q. cbn [rbind] in Q. rewrite St in Q. cbn [rbind] in Q.
    destruct Q as [Q|(log & tn & Q & L)]; [discriminate Q|]. injection Q as <- <-. lia.
Qed.
Print Assumptions elevation_lasts_refuted.

Section Nearly.
Variables (h : host) (id : Z) (P S : nat) (adds : list (nat * nat * nat)) (c : constellation) (addrs : list sat_address).
Hypothesis R : run_adds h (con_new id P S) adds = Ok (c, addrs).
Hypothesis Full : (length adds = P * S)%nat.
Variables (addr : nat -> sat_address) (above : Z -> nat -> bool) (next_at : Z -> nat -> option Z) (half_period : nat -> Z).
Hypothesis Near : nearly_predicted adds above next_at half_period.
Let upd := elevation_update c addr above next_at half_period.
Let run := elevation_run c addr above next_at half_period.
Let sats := map dev_of adds.

Lemma update_near : forall t,
  (exists d e, In d sats /\ upd t = Ok (addr d, e) /\ above t d = true /\ t <= e /\ (forall u, t <= u < e -> above u d = true) /\
     forall x, In x sats -> above t x = true -> above (t + 1) x = true -> t < e) \/
  (upd t = Abort /\ forall d, In d sats -> above t d = false).
Proof.
  destruct Near as [Cut Half]. intros t. destruct (size_and_listing_agree h id P S adds c addrs R) as (_ & _ & Ls & Pm). rewrite Ls in Pm.
  destruct (elevation_tracker_partial h id P S adds c addrs addr above next_at half_period t R Full) as [[Ab No]|(bf & d & af & e & L & U & [Ab Nx] & B & A)].
  - intros d b I [U1 U2]. exact (Half t d b I U1 U2).
  - right. split; [exact Ab|]. intros d I. destruct (above t d) eqn:Q; [|reflexivity]. exfalso.
    destruct (Cut t d I Q) as (b & Nx & _). apply (No d b); [|split; assumption].
    eapply Permutation.Permutation_in; [apply Permutation.Permutation_sym; exact Pm|exact I].
  - left. assert (I : In d sats) by (eapply Permutation.Permutation_in; [exact Pm|]; rewrite L; apply in_or_app; right; left; reflexivity).
    exists d, e. split; [exact I|]. split; [exact U|]. split; [exact Ab|].
    destruct (Cut t d I Ab) as (b' & Nx' & Lb & Lo). rewrite Nx in Nx'. injection Nx' as <-. split; [exact Lb|]. split.
    + intros u Hu. destruct Lo as [(_ & _ & Lo)|(_ & _ & Lo)]; apply Lo; lia.
    + intros x Ix Ax Ax1. destruct (Cut t x Ix Ax) as (b' & Nb & Lb' & Lb1).
      assert (t < b').
      { destruct Lb1 as [(Q & _)|(Q & N1 & _)]; [exact Q|]. destruct (Z.eq_dec b' t) as [->|]; [congruence|lia]. }
      apply Z.lt_le_trans with b'; [assumption|].
      assert (Ix' : In x (listing P S adds)) by (eapply Permutation.Permutation_in; [apply Permutation.Permutation_sym; exact Pm|exact Ix]).
      rewrite L in Ix'. apply in_app_or in Ix'. destruct Ix' as [Ix'|[<-|Ix']].
      * apply Z.lt_le_incl, (B x b' Ix'). split; assumption.
      * rewrite Nx in Nb. injection Nb as <-. lia.
      * apply (A x b' Ix'). split; assumption.
Qed.

Lemma near_after : forall n t l e, run n t = Ok (l, e) -> t <= e /\ forall u, u < t -> at_time l u = None.
Proof.
  induction n as [|n IH]; intros t l e H; [cbn in H; injection H as <- <-; split; [lia|reflexivity]|]. unfold run in H. cbn [elevation_run] in H. fold run upd in H.
  destruct (update_near t) as [(d & t1 & _ & U & _ & L1 & _)|[U _]]; rewrite U in H; [|discriminate H]. cbn [rbind] in H.
  destruct (run n t1) as [[l' e']| | |] eqn:E; try discriminate H. cbn [rbind] in H. injection H as <- <-.
  destruct (IH t1 l' e' E) as [Le No]. split; [lia|]. intros u Hu.
  cbn [at_time]. rewrite (No u) by lia. destruct (Z.leb_spec t u); [lia|reflexivity].
Qed.

Lemma near_watches : forall n t0 log tn, run n t0 = Ok (log, tn) ->
  forall t, t0 <= t < tn -> exists d, In d sats /\ at_time log t = Some (addr d) /\ above t d = true.
Proof.
  induction n as [|n IH]; intros t0 log tn H t Ht; [cbn in H; injection H as <- <-; lia|]. unfold run in H. cbn [elevation_run] in H. fold run upd in H.
  destruct (update_near t0) as [(d & t1 & I & U & Ab & L1 & Se & _)|[U _]]; rewrite U in H; [|discriminate H]. cbn [rbind] in H.
  destruct (run n t1) as [[l' e']| | |] eqn:E; try discriminate H. cbn [rbind] in H. injection H as <- <-. cbn [at_time].
  destruct (Z_lt_ge_dec t t1) as [Lt|Ge].
  - rewrite (proj2 (near_after n t1 l' e' E) t Lt). destruct (Z.leb_spec t0 t); [|lia]. exists d. split; [exact I|]. split; [reflexivity|]. apply Se. lia.
  - destruct (IH t1 l' e' E t ltac:(lia)) as (x & Ix & A & B). exists x. rewrite A. auto.
Qed.

Lemma near_lasts : forall T k t, T - t < Z.of_nat k -> (forall u, t <= u <= T -> exists x, In x sats /\ above u x = true /\ above (u + 1) x = true) ->
  exists n log tn, run n t = Ok (log, tn) /\ T < tn.
Proof.
  intros T. induction k as [|k IH]; intros t Hk Cv; [exists 0%nat, [], t; split; [reflexivity|lia]|].
  destruct (Z_lt_ge_dec T t) as [Lt|Ge]; [exists 0%nat, [], t; split; [reflexivity|exact Lt]|].
  destruct (Cv t ltac:(lia)) as (x & Ix & Ax & Ax1).
  destruct (update_near t) as [(d & t1 & _ & U & _ & L & _ & Pr)|[_ No]].
  - specialize (Pr x Ix Ax Ax1). destruct (IH t1 ltac:(lia)) as (n & log & tn & E & Lt); [intros u Hu; apply Cv; lia|].
    exists (Datatypes.S n), ((t, addr d) :: log), tn. unfold run. cbn [elevation_run]. fold run upd. rewrite U. cbn [rbind]. rewrite E. auto.
  - rewrite (No x Ix) in Ax. discriminate Ax.
Qed.
End Nearly.

(** True even so: whatever is followed can be seen, and the tracker lasts as long as at each tick some satellite can be
    seen that can still be seen at the next.  Missing: that it gives up when there is none. *)
Theorem elevation_lasts_partial : forall h id P S adds c addrs addr above next_at half_period t0,
  run_adds h (con_new id P S) adds = Ok (c, addrs) -> (length adds = P * S)%nat -> nearly_predicted adds above next_at half_period ->
  (forall n log tn t, elevation_run c addr above next_at half_period n t0 = Ok (log, tn) -> t0 <= t < tn ->
     exists d, In d (map dev_of adds) /\ at_time log t = Some (addr d) /\ above t d = true) /\
  (forall T, (forall t, t0 <= t <= T -> exists x, In x (map dev_of adds) /\ above t x = true /\ above (t + 1) x = true) ->
     exists n log tn, elevation_run c addr above next_at half_period n t0 = Ok (log, tn) /\ T < tn).
Proof.
  intros h id P S adds c addrs addr above next_at half_period t0 R Full Near. split.
  - intros n log tn t E Ht. exact (near_watches h id P S adds c addrs R Full addr above next_at half_period Near n t0 log tn E t Ht).
  - intros T Cv. apply (near_lasts h id P S adds c addrs R Full addr above next_at half_period Near T (Z.to_nat (T - t0 + 1)) t0 ltac:(lia) Cv).
Qed.
Print Assumptions elevation_lasts_partial.

(** A station and moving satellites: whenever a satellite is followed, the elevation test of the channel (C57) with the
    same minimum lets frames through, both ways. *)
Theorem elevation_station_reaches : forall rs orbits here m h id P S adds c addrs addr next_at half_period t0 n log tn t,
  run_adds h (con_new id P S) adds = Ok (c, addrs) -> (length adds = P * S)%nat ->
  nearly_predicted adds (sees rs orbits here m) next_at half_period ->
  elevation_run c addr (sees rs orbits here m) next_at half_period n t0 = Ok (log, tn) -> t0 <= t < tn ->
  exists d, In d (map dev_of adds) /\ at_time log t = Some (addr d) /\
    success_elevation m (OnGround here) (OnOrbit (sat_at rs orbits t d)) = Ok true /\
    success_elevation m (OnOrbit (sat_at rs orbits t d)) (OnGround here) = Ok true.
Proof.
  intros rs orbits here m h id P S adds c addrs addr next_at half_period t0 n log tn t R Full Near E Ht.
  destruct (elevation_lasts_partial h id P S adds c addrs addr (sees rs orbits here m) next_at half_period t0 R Full Near) as [W _].
  destruct (W n log tn t E Ht) as (d & I & A & B). exists d. split; [exact I|]. split; [exact A|].
  unfold sees, rltb in B. destruct (Rlt_dec _ _) as [L|]; [|discriminate B].
  unfold success_elevation, rleb; cbn [orbit_position mobility_position]. destruct (Rle_dec _ _) as [|N]; [split; reflexivity|]. exfalso. apply N. left. exact L.
Qed.
Print Assumptions elevation_station_reaches.

(** Three satellites in view over [0, 10), [3, 8) and [6, 25): two are enough, and the tracker gives up at 25. *)
Definition window (d : nat) : Z * Z := match d with 0%nat => (0, 10) | 1%nat => (3, 8) | _ => (6, 25) end.
Definition win_above (t : Z) (d : nat) : bool := (fst (window d) <=? t) && (t <? snd (window d)).
Definition win_next (t : Z) (d : nat) : option Z := Some (snd (window d)).
Definition win_adds : list (nat * nat * nat) := [(0, 0, 0); (0, 1, 1); (0, 2, 2)]%nat.

Example window_predicted : well_predicted win_adds win_above win_next (fun _ => 30).
Proof.
  split.
  - intros t d _ A. unfold win_above in A. apply andb_prop in A. destruct A as [A1 A2]. apply Z.leb_le in A1. apply Z.ltb_lt in A2.
    exists (snd (window d)). split; [reflexivity|]. split; [exact A2|]. split.
    + unfold win_above. rewrite Z.ltb_irrefl. apply andb_false_r.
    + intros u Hu. unfold win_above. apply andb_true_intro. split; [apply Z.leb_le|apply Z.ltb_lt]; lia.
  - intros t d b _ A [= <-]. unfold win_above in A. apply andb_prop in A. destruct A as [A1 A2]. apply Z.leb_le in A1. apply Z.ltb_lt in A2.
    destruct d as [|[|d]]; unfold window in *; cbn [fst snd] in *; lia.
Qed.
Example window_case :
  match run_adds LittleEndian (con_new 1 1 3) win_adds with
  | Ok (c, _) =>
      let adr d := sat_make LittleEndian 1 0 (Z.of_nat d) in
      elevation_run c adr win_above win_next (fun _ => 30) 2 0 = Ok ([(0, adr 0%nat); (10, adr 2%nat)], 25) /\
      elevation_run c adr win_above win_next (fun _ => 30) 3 0 = Abort
  | _ => False
  end.
Proof. vm_compute. split; reflexivity. Qed.
Example window_plan : serves [0; 1; 2]%nat win_above 0 [0; 1; 2]%nat 25.
Proof.
  cbn. split; [auto|]. exists 4. split; [intros t Ht; unfold win_above; cbn; apply andb_true_intro; split; [apply Z.leb_le|apply Z.ltb_lt]; lia|].
  split; [auto|]. exists 7. split; [intros t Ht; unfold win_above; cbn; apply andb_true_intro; split; [apply Z.leb_le|apply Z.ltb_lt]; lia|].
  split; [auto|]. exists 25. split; [intros t Ht; unfold win_above; cbn; apply andb_true_intro; split; [apply Z.leb_le|apply Z.ltb_lt]; lia|lia].
Qed.
