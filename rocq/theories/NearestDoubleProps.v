(** C140: the satellite of a launched constellation that is closest to a place, in double precision. *)
From Coq Require Import ZArith List Lia Bool Arith Reals Lra Psatz.
From Flocq Require Import Core BinarySingleNaN.
From Verif Require Import Base SatAddrModel ConstellationModel ConstellationSpec ConstellationProofs LaunchModel LaunchSpec LaunchProofs SetupRun OrbitModel OrbitSpec OrbitProofs TrackingProofs GeodeticProofs DoubleModel DoubleSpec DoubleProofs DoubleProps ElevationDoubleModel ElevationDoubleSpec ElevationDoubleProofs OrbitDoubleModel OrbitDoubleSpec OrbitDoubleProofs OrbitDoubleProps FixedDoubleModel FixedDoubleSpec FixedDoubleProofs FixedDoubleProps LaunchDoubleModel LaunchDoubleSpec LaunchDoubleProofs LaunchDoubleProps SightDoubleSpec SightDoubleProofs SightDoubleProps LinkDoubleSpec LinkDoubleProps WalkerDoubleModel WalkerDoubleSpec WalkerDoubleProps NearestDoubleSpec.
Import ListNotations.
Open Scope R_scope.

(** The devices in the grid are those launched. *)
Lemma launched_devices : forall debug ho id P S F alt inc ds s outs, sizes P S F -> (length ds <= P * S)%nat ->
  launch_all doubles debug ho (helper_new doubles id alt inc P S F) ds = Ok (s, outs) ->
  forall d, In (Some d) (concat (con_grid (h_con s))) <-> exists k, nth_error ds k = Some d.
Proof.
  intros debug ho id P S F alt inc ds s outs Z L E.
  destruct (launch_double debug ho id P S F alt inc ds (QArith_base.Qmake 0 1) (QArith_base.Qmake 0 1) Z L) as (s1 & outs1 & E1 & _ & (s' & outs' & E' & Hc) & _). rewrite E in E1. injection E1 as <- <-.
  destruct Z as (HP & HS & HF). destruct (launch_all_inv debug ho id P S F (QArith_base.Qmake 0 1) (QArith_base.Qmake 0 1) ds ltac:(lia) ltac:(lia) L) as (s2 & outs2 & E2 & ((l & R) & _) & _). rewrite E' in E2. injection E2 as <- <-. rewrite <- Hc in R.
  destruct (run_adds_wf _ _ _ _ _ (new_wf id P S) R) as (W & _ & CP & CS & _). cbn in CP, CS. unfold wf, shaped in W. rewrite CP, CS in W. destruct W as (Wp & Ws). rewrite Forall_forall in Ws.
  intros d. split.
  - intros I. apply in_concat in I. destruct I as (row & Ir & Id). pose proof (Ws row Ir) as Lr. apply In_nth_error in Ir, Id. destruct Ir as (p & Hp). destruct Id as (i & Hi).
    assert (p < P)%nat by (rewrite <- Wp; apply nth_error_Some; rewrite Hp; discriminate). assert (i < S)%nat by (rewrite <- Lr; apply nth_error_Some; rewrite Hi; discriminate).
    pose proof (run_new_at _ _ _ _ _ _ _ R p i H H0) as A. unfold con_at in A. rewrite Hp, Hi in A. injection A as A. symmetry in A. apply added_at_inv in A. unfold launch_adds in A. apply in_map_iff in A. destruct A as ([k d'] & Q & A). cbn in Q. injection Q as _ _ ->.
    apply in_combine_r in A. apply In_nth_error in A. exact A.
  - intros (k & Hk). assert (K : (k < length ds)%nat) by (apply nth_error_Some; rewrite Hk; discriminate). destruct (flat_slot P S k ltac:(lia)) as (Kp & Ks).
    pose proof (run_new_at _ _ _ _ _ _ _ R _ _ Kp Ks) as A. rewrite (added_at_launched _ _ _ _ _ _ _ _ _ R Hk) in A. unfold con_at in A.
    destruct (nth_error (con_grid (h_con s)) (k / S)) as [row|] eqn:Er; [|discriminate]. destruct (nth_error row (k mod S)) as [x|] eqn:Ex; [|discriminate]. injection A as ->.
    apply in_concat. exists row. split; eapply nth_error_In; eassumption.
Qed.

Section Library.
Variables (dasin dsin dcos dhalf : double -> double) (datan2 : double -> double -> double) (twopi dpi deg rad dsphere : double).
Hypothesis orbits : orbit_library dsin dcos dhalf datan2 twopi dpi.
Hypothesis fixed : fixed_library dasin datan2 deg rad dsphere.
Let fly o := d_position dasin dsin dcos dhalf datan2 twopi dpi deg rad dsphere (d_launch_sat rad o).

(** The satellite found closest to a place is closest in the exact Walker constellation, up to half a millionth of the radius; none is
    found only if none was launched. *)
Theorem launched_closest : forall debug ho id P S F alt inc ds, sizes P S F -> (length ds <= P * S)%nat -> launchable inc alt -> (forall k, (k < length ds)%nat -> phase_degrees P S F k <= 8400) ->
  exists s outs radius, launch_all doubles debug ho (helper_new doubles id alt inc P S F) ds = Ok (s, outs) /\ length outs = length ds /\
    Rabs (radius - (6371009 + real_of alt)) <= 1 / 10 ^ 6 /\
    forall t, within_week t -> (forall k a o, nth_error outs k = Some (a, o) -> exists v, fly o t = Ok v) /\
    forall pos ground, (forall k a o d, nth_error outs k = Some (a, o) -> nth_error ds k = Some d -> fly o t = Ok (pos d)) -> inside sky ground ->
      match closest_double pos (h_con s) ground with
      | None => ds = []
      | Some d => nearest_launched (5 / 10 ^ 7 * radius) ds (fun k => earth_motion (real_of dsphere) (walker_orbit P S F k (real_of inc) radius) (real_of t)) (vec_of ground) d
      end.
Proof.
  intros debug ho id P S F alt inc ds Z L La Ph. destruct (walker_double _ _ _ _ _ _ _ _ _ _ orbits fixed debug ho id P S F alt inc ds Z L La) as (s & outs & radius & E & Lo & Rr & W).
  exists s, outs, radius. split; [exact E|]. split; [exact Lo|]. split; [exact Rr|]. destruct La as (_ & _ & _ & Ba). destruct (fl_sphere _ _ _ _ _ fixed) as (_ & Bs).
  assert (Br : 6371009 <= radius <= 4938 * 10 ^ 4) by (apply Rabs_le_inv in Rr; lra). intros t T.
  assert (Kk : forall k x, nth_error outs k = Some x -> (k < length ds)%nat) by (intros k x H; rewrite <- Lo; apply nth_error_Some; rewrite H; discriminate).
  split; [intros k a o H; destruct (W k a o H (Ph k (Kk _ _ H)) t T) as (v & Ev & _); exists v; exact Ev|].
  intros pos ground Hp Gi. pose proof (launched_devices debug ho id P S F alt inc ds s outs Z L E) as Dev. set (at_ := fun k => earth_motion (real_of dsphere) (walker_orbit P S F k (real_of inc) radius) (real_of t)).
  assert (Nx : forall m, norm (at_ m) = real_of dsphere + (radius - 6371009)) by (intros m; apply (earth_motion_norm (real_of dsphere) (walker_orbit P S F m (real_of inc) radius) (real_of t)); cbn; lra).
  assert (B : forall k d, nth_error ds k = Some d -> norm (vsub (vec_of (pos d)) (at_ k)) <= 22 / 10 ^ 8 * radius /\ inside sky (pos d)).
  { intros k d Hk. assert (K : (k < length ds)%nat) by (apply nth_error_Some; rewrite Hk; discriminate). destruct (nth_error outs k) as [[a o]|] eqn:N; [|apply nth_error_None in N; lia].
    destruct (W k a o N (Ph k K) t T) as (v & Ev & Rv). pose proof (Hp k a o d N Hk) as Ev'. unfold fly in Ev'. rewrite Ev in Ev'. injection Ev' as Ev'. subst v. fold (at_ k) in Rv.
    split; [eapply Rle_trans; [apply (right_distance (12 / 10 ^ 8 * radius) _ _ ltac:(lra) Rv)|lra]|].
    destruct Rv as ((Fx & X) & (Fy & Y) & (Fz & Zz)). destruct (part_norm (at_ k)) as (Px & Py & Pz & _). rewrite (Nx k) in Px, Py, Pz. apply Rabs_le_inv in X, Y, Zz, Px, Py, Pz. unfold inside, sky. repeat split; try assumption; apply Rabs_le; lra. }
  assert (Ap : forall a b, apart (place a) (place b) = distance (vec_of a) (vec_of b)).
  { intros a b. unfold apart, distance, norm, square_of_distance, place, vec_of, dot, vsub. cbn [px py pz vx vy vz]. f_equal. ring. }
  assert (In_ : forall d, In (Some d) (concat (con_grid (h_con s))) -> inside sky (pos d)) by (intros d I; apply Dev in I; destruct I as (k & Hk); apply (B k d Hk)).
  pose proof (closest_double_near pos (h_con s) ground In_ Gi) as C. destruct (closest_double pos (h_con s) ground) as [d|].
  - destruct C as (I & C). apply Dev in I. destruct I as (k & Hk). exists k. split; [exact Hk|]. intros j Hj. destruct (nth_error ds j) as [e|] eqn:Ej; [|apply nth_error_None in Ej; lia].
    specialize (C e (proj2 (Dev e) (ex_intro _ j Ej))). rewrite !Ap in C. destruct (B k d Hk) as (N & _). destruct (B j e Ej) as (N' & _).
    pose proof (distance_triangle (at_ k) (vec_of (pos d)) (vec_of ground)) as T1. pose proof (distance_triangle (vec_of (pos e)) (at_ j) (vec_of ground)) as T2.
    rewrite (dist_sym (vec_of (pos e)) (at_ j)) in T2. unfold distance at 2 in T1. unfold distance at 2 in T2. lra.
  - destruct ds as [|d r]; [reflexivity|]. exfalso. apply (C d). apply Dev. exists 0%nat. reflexivity.
Qed.
End Library.
Print Assumptions launched_closest.

(** Two satellites 780 km up on one orbit, numbered 0 and 1: at the start the first is found closest to the place on the equator below it. *)
Example launched_closest_case : forall dasin dsin dcos dhalf datan2 twopi dpi deg rad, orbit_library dsin dcos dhalf datan2 twopi dpi -> fixed_library dasin datan2 deg rad (dint 6371000) ->
  exists s outs pos, launch_all doubles true LittleEndian (helper_new doubles 1 (dint 780000) (dnum 3 (-1)) 1 2 0) [0%nat; 1%nat] = Ok (s, outs) /\
    (forall k a o, nth_error outs k = Some (a, o) -> d_position dasin dsin dcos dhalf datan2 twopi dpi deg rad (dint 6371000) (d_launch_sat rad o) (dint 0) = Ok (pos k)) /\
    closest_double pos (h_con s) (mkDvec (dint 6371000) (dint 0) (dint 0)) = Some 0%nat.
Proof.
  intros dasin dsin dcos dhalf datan2 twopi dpi deg rad L K. assert (H : Rabs (IZR 3 * bpow radix2 (-1)) <= bpow radix2 1023) by (change (bpow radix2 (-1)) with (/ 2); apply big_below_max; rewrite Rabs_pos_eq; lra).
  destruct (dnum_ok 3 (-1) H) as (F3 & V3). rewrite rnd_scaled in V3 by lia. change (bpow radix2 (-1)) with (/ 2) in V3. destruct (dint_ok 780000 ltac:(lia)) as (Fa & Va). destruct (dint_ok 6371000 ltac:(lia)) as (Fe & R2). destruct (dint_ok 0 ltac:(lia)) as (F0 & V0). change val with real_of in *.
  assert (Ph : forall k, (k < 2)%nat -> node_degrees 1 2 k = 0 /\ phase_degrees 1 2 0 k = 180 * INR k).
  { intros k Hk. unfold node_degrees, phase_degrees. rewrite Nat.div_small, Nat.mod_small by lia. cbn [INR]. split; field. }
  destruct (launched_closest _ _ _ _ _ _ _ _ _ _ L K true LittleEndian 1%Z 1 2 0 (dint 780000) (dnum 3 (-1)) [0%nat; 1%nat]) as (s & outs & radius & E & Lo & Rr & W); [unfold sizes; lia|cbn; lia|split; [exact F3|]; rewrite V3, Va; repeat split; try exact Fa; try (rewrite Rabs_pos_eq; lra); lra| |].
  { intros k Hk. cbn in Hk. rewrite (proj2 (Ph k Hk)). destruct k as [|[|k]]; cbn [INR]; [lra|lra|lia]. }
  rewrite Va in Rr. apply Rabs_le_inv in Rr. destruct (W (dint 0)) as (Ex & C); [split; [exact F0|rewrite V0; lra]|].
  set (pos := fun k => match nth_error outs k with Some (_, o) => match d_position dasin dsin dcos dhalf datan2 twopi dpi deg rad (dint 6371000) (d_launch_sat rad o) (dint 0) with Ok v => v | _ => mkDvec (dint 0) (dint 0) (dint 0) end | None => mkDvec (dint 0) (dint 0) (dint 0) end).
  assert (Hp : forall k a o, nth_error outs k = Some (a, o) -> d_position dasin dsin dcos dhalf datan2 twopi dpi deg rad (dint 6371000) (d_launch_sat rad o) (dint 0) = Ok (pos k)).
  { intros k a o N. destruct (Ex k a o N) as (v & Ev). unfold pos. rewrite N. cbv beta zeta in Ev. rewrite Ev. reflexivity. }
  exists s, outs, pos. split; [exact E|]. split; [exact Hp|].
  specialize (C pos (mkDvec (dint 6371000) (dint 0) (dint 0))). destruct (closest_double pos (h_con s) (mkDvec (dint 6371000) (dint 0) (dint 0))) as [d|].
  - destruct C as (k & Hk & C).
    + intros k a o d' N Hd. assert (d' = k) as -> by (destruct k as [|[|[|k]]]; cbn in Hd; congruence). apply (Hp k a o N).
    + unfold inside, sky. cbn [dvx dvy dvz]. rewrite R2, V0. repeat split; try assumption; rewrite Rabs_pos_eq; lra.
    + destruct k as [|[|[|k]]]; cbn in Hk; try discriminate; injection Hk as <-; [reflexivity|exfalso]. specialize (C 0%nat ltac:(cbn; lia)). cbv beta in C. unfold walker_orbit in C. destruct (Ph 0%nat ltac:(lia)) as (A1 & A2). destruct (Ph 1%nat ltac:(lia)) as (B1 & B2). rewrite A1, A2, B1, B2, V0, V3, R2 in C. cbn [INR] in C.
      replace (180 * 1 * (PI / 180)) with PI in C by field. replace (180 * 0 * (PI / 180)) with 0 in C by field.
      assert (G : vec_of (mkDvec (dint 6371000) (dint 0) (dint 0)) = Vec 6371000 0 0) by (unfold vec_of; cbn [dvx dvy dvz]; rewrite R2, V0; reflexivity). rewrite G in C.
      assert (M : forall p, (p = 0 \/ p = PI) -> earth_motion 6371000 (Orbit (3 * / 2) (0 * (PI / 180)) radius p) 0 = Vec (cos p * (6371000 + (radius - 6371009))) 0 0).
      { intros p Q. assert (S0 : sin p = 0) by (destruct Q as [->| ->]; [apply sin_0|apply sin_PI]). unfold earth_motion, circular_motion, rotate, scale, vadd, node_dir, ahead_dir, earth_radius. cbn [vx vy vz inclination ascending_node orbit_radius orbit_phase].
        rewrite !Rmult_0_r, !Rmult_0_l, Ropp_0, !Rplus_0_l, cos_0, sin_0, S0. f_equal; field; lra. }
      rewrite (M PI), (M 0) in C by auto. rewrite cos_PI, cos_0 in C.
      assert (Dx : forall a b, distance (Vec a 0 0) (Vec b 0 0) = Rabs (a - b)).
      { intros a b. unfold distance, norm, dot, vsub. cbn [vx vy vz]. rewrite <- sqrt_Rsqr_abs. f_equal. unfold Rsqr. ring. }
      rewrite !Dx in C. rewrite (Rabs_pos_eq (1 * _ - _)) in C by lra. rewrite Rabs_left in C by lra. lra.
  - exfalso. assert (X : [0%nat; 1%nat] = []); [|discriminate X]. apply C.
    + intros k a o d' N Hd. assert (d' = k) as -> by (destruct k as [|[|[|k]]]; cbn in Hd; congruence). apply (Hp k a o N).
    + unfold inside, sky. cbn [dvx dvy dvz]. rewrite R2, V0. repeat split; try assumption; rewrite Rabs_pos_eq; lra.
Qed.
