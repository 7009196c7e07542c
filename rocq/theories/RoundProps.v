(** Answers come within a round trip. *)
From Coq Require Import ZArith List Bool Lia Arith.
From Verif Require Import Base SatAddrModel ConstellationModel ConstellationSpec IslModel GeoTagModel GeoTagSpec GeoTagProps GeoTagRoute GeoTagNetProps IslProps PendingModel PendingSpec PendingProps
  ReturnModel ReturnSpec ReturnProofs ReturnProps TripModel TripSpec TripProofs TripProps RecoverModel RecoverSpec RecoverProofs RecoverProps RoundModel RoundSpec RoundProofs.
Import ListNotations.
Open Scope Z_scope.

(** If no frame is under way for longer than [d]: nothing fails, and as long as station [g], which asked at [a], has no Data (and has not been
    turned), it is not later than [k] and twice the number of hops times [d] after [a], now and when anything happens next. *)
Definition round_claim (k : Z) : Prop :=
  forall h id P S adds addrs links nh scope cid q j stations producer point t ops1 s1 tr1 t0 life ops2 d r,
  set_up h id P S adds addrs links nh -> (q < P)%nat -> (j < S)%nat -> (forall g, scope g = false) -> (forall g, In (point g) (map dev_of adds)) -> In producer stations -> 0 <= d ->
  let nw := launched_net adds addrs links P S in
  let tag := (cid, Z.of_nat q, Z.of_nat j) in
  Forall (led_to (map dev_of adds)) ops1 -> l_run nw h nh scope tag stations producer (t_init t point) ops1 = Some (Ok (s1, tr1)) -> silent s1 retx_max t0 ->
  Forall (in_time t0 life) ops2 -> Forall (turned_to (map dev_of adds)) ops2 -> m_run nw h nh scope tag stations producer d (sm_start s1) ops2 = Some r ->
  exists s2 tr2, r = Ok (s2, tr2) /\ t_run nw h nh scope tag stations producer s1 ops2 = Some (Ok (sm_state s2, map snd tr2)) /\
    forall g a, In g stations -> ts_point s1 producer = placed adds (q, j) -> (forall n, ~ In (LTurn producer n) (map snd tr2)) -> since tr2 g = Some a ->
      let deadline := a + (2 * node_dist P S adds q j (ts_point (sm_state s2) g) + k) * d in
      rs_now (ts_sky (sm_state s2)) <= deadline /\
      forall o r', m_step nw h nh scope tag stations producer d s2 o = Some r' -> top_time (sm_state s2) o <= deadline.

Definition slow := ms 10.
(** Station 10 asks for what 12 has, a hop away, and every frame takes 10 ms; at last the Data comes to the others first. *)
Definition slow_trip (k : nat) : list top :=
  [TAsk 0 10 (ms 4000); TUp slow 0; TMove (2 * slow) 0; TDown (3 * slow) 2; TDown (3 * slow) 1; TDown (3 * slow) 0; TUp (4 * slow) 0; TMove (5 * slow) 0] ++
  firstn k [TDown (6 * slow) 2; TDown (6 * slow) 1; TDown (6 * slow) 0].
Definition ex_round (k : nat) := m_run three LittleEndian ring3_nh free (1, 1, 0) [10; 11; 12]%nat 12 slow (sm_start (t_init (- retx_max) trip_point)) (slow_trip k).

Theorem round_exact : forall k, round_claim k <-> 4 <= k.
Proof.
  intros k. split.
  - intros C. 
    destruct (ex_round 2) as [r|] eqn:R; [|vm_compute in R; discriminate R].
    destruct (C LittleEndian 1 3%nat 1%nat ring3 ring3_addrs ring3_links ring3_nh free 1 1%nat 0%nat [10; 11; 12]%nat 12%nat trip_point (- retx_max) [] (t_init (- retx_max) trip_point) [] 0 (ms 4000) (slow_trip 2) slow r ring3_up)
      as (s2 & tr2 & -> & _ & H); try assumption; try reflexivity; try lia.
    all: try exact trip_points.
    all: try (right; right; left; reflexivity).
    all: try (unfold slow, ms; lia).
    all: try (repeat (apply Forall_cons; [cbn; unfold slow, ms; lia|]); apply Forall_nil).
    all: try (repeat (apply Forall_cons; [exact Logic.I|]); apply Forall_nil).
    + split; [repeat split|cbn; lia].
    + destruct (H 10%nat 0) as (H1 & _).
      * left. reflexivity.
      * reflexivity.
      * intros n. vm_compute in R. injection R as _ <-. cbn. intuition congruence.
      * vm_compute in R. injection R as _ <-. reflexivity.
      * replace (rs_now (ts_sky (sm_state s2))) with (6 * slow) in H1 by (vm_compute in R; injection R as <- _; reflexivity).
        replace (ts_point (sm_state s2) 10%nat) with 0%nat in H1 by (vm_compute in R; injection R as <- _; reflexivity).
        change (node_dist 3 1 ring3 1 0 0) with 1 in H1. unfold slow, ms in H1. lia.
  - intros Hk h id P S adds addrs links nh scope cid q j stations producer point t ops1 s1 tr1 t0 life ops2 d r Up Hq Hj Free Points Here Hd nw tag Le R1 Si Ti Tu R2.
    destruct (recover_fine h id P S adds addrs links nh scope cid q j stations producer point Up Hq Hj Free Points t ops1 _ Le R1) as (s & tr & E & K & _). injection E as <- <-.
    pose proof (u_pos h id P S adds addrs links nh q j Up Hq Hj) as Pos.
    pose proof (u_sym links) as Sym. pose proof (u_remote h id P S adds addrs links nh Up) as Rem. pose proof (u_react h id P S adds addrs links nh cid q j Up Hq Hj) as Rea.
    pose proof (anew_start nw h nh scope tag (map dev_of adds) (placed adds (q, j)) (node_dist P S adds q j) (ends links) Free Pos Sym Rem Rea stations producer t0 life (ts_point s1) s1 K Si eq_refl) as W.
    pose proof (timed_start (map dev_of adds) (placed adds (q, j)) (node_dist P S adds q j) (ends links) stations producer t0 life (ts_point s1) d s1 W (proj1 Si)) as V.
    destruct (timed_run nw h nh scope tag (map dev_of adds) (placed adds (q, j)) (node_dist P S adds q j) (ends links) Free Pos Sym Rem Rea stations producer Here t0 life (ts_point s1) d Hd ops2 (sm_start s1) [] r V Ti Tu R2)
      as (s2 & tr2 & -> & R3 & V2). cbn [app] in V2. exists s2, tr2. split; [reflexivity|]. split; [exact R3|].
    intros g a Hg Pp Nt A. cbv zeta.
    assert (Lk : a + (2 * node_dist P S adds q j (ts_point (sm_state s2) g) + 4) * d <= a + (2 * node_dist P S adds q j (ts_point (sm_state s2) g) + k) * d) by nia.
    split.
    + etransitivity; [|exact Lk]. eapply (timed_bound); eauto. exact (z_young _ _ _ _ _ _ _ _ _ _ _ _ V2). split; assumption.
    + intros o r' R'. etransitivity; [|exact Lk]. eapply timed_next; eauto. split; assumption.
Qed.
Print Assumptions round_exact.

(** At the last moment station 10 hears the Data. *)
Example round_case :
  match ex_round 2, ex_round 3 with
  | Some (Ok (s2, tr2)), Some (Ok (s3, tr3)) =>
      since tr2 10 = Some 0 /\ rs_now (ts_sky (sm_state s2)) = 6 * slow /\ (2 * node_dist 3 1 ring3 1 0 (trip_point 10) + 4) * slow = 6 * slow /\
      since tr3 10 = None /\ In (6 * slow, LData 10) tr3
  | _, _ => False
  end.
Proof. vm_compute. repeat split; auto 10. Qed.
