(** After losses: an Interest sent after a quarter of a second of silence is answered. *)
From Coq Require Import ZArith List Bool Lia Arith.
From Verif Require Import Base SatAddrModel ConstellationModel ConstellationSpec IslModel GeoTagModel GeoTagSpec GeoTagProps GeoTagRoute GeoTagNetProps IslProps PendingModel PendingSpec PendingProps
  ReturnModel ReturnSpec ReturnProofs ReturnProps TripModel TripSpec TripProofs TripProps RecoverModel RecoverSpec RecoverProofs.
Import ListNotations.
Open Scope Z_scope.

Section Set_up.
Variables (h : host) (id : Z) (P S : nat) (adds : list (nat * nat * nat)) (addrs : list sat_address) (links : list (nat * nat)) (nh : nat -> list face).
Variables (scope : face -> bool) (cid : Z) (q j : nat) (stations : list nat) (producer : nat) (point : nat -> nat).
Hypothesis Up : set_up h id P S adds addrs links nh.
Hypothesis Hq : (q < P)%nat.
Hypothesis Hj : (j < S)%nat.
Hypothesis Free : forall g, scope g = false.
Hypothesis Points : forall g, In (point g) (map dev_of adds).

Notation fly := (t_run (launched_net adds addrs links P S) h nh scope (cid, Z.of_nat q, Z.of_nat j) stations producer).
Notation stray := (l_run (launched_net adds addrs links P S) h nh scope (cid, Z.of_nat q, Z.of_nat j) stations producer).
Notation fine := (tcalm (map dev_of adds) (node_dist P S adds q j) (ends links)).

Lemma recover_fine : forall t ops r, Forall (led_to (map dev_of adds)) ops -> stray (t_init t point) ops = Some r ->
  exists s tr, r = Ok (s, tr) /\ fine s /\ Forall quiet (sat_log tr).
Proof.
  intros t ops r Le R. exact (calm_lrun _ h nh scope (cid, Z.of_nat q, Z.of_nat j) (map dev_of adds) (placed adds (q, j)) (node_dist P S adds q j) (ends links) Free
    (u_pos h id P S adds addrs links nh q j Up Hq Hj) (u_sym links) (u_remote h id P S adds addrs links nh Up)
    (u_react h id P S adds addrs links nh cid q j Up Hq Hj) stations producer ops (t_init t point) r (calm_init _ _ _ t point Points) Le R).
Qed.

(** Whatever is asked and lost, however long it takes and wherever stations are turned: nothing fails, no satellite refuses or gives up, and
    all that is under way can come in. *)
Theorem recover_safe : forall t ops r, Forall (led_to (map dev_of adds)) ops -> stray (t_init t point) ops = Some r ->
  exists s tr, r = Ok (s, tr) /\ Forall quiet (sat_log tr) /\
    exists more s' tr', Forall (one_more (rs_now (ts_sky s))) more /\ fly s more = Some (Ok (s', tr')) /\ all_quiet s'.
Proof.
  intros t ops r Le R. destruct (recover_fine t ops r Le R) as (s & tr & -> & K & Q). exists s, tr. split; [reflexivity|]. split; [exact Q|].
  exact (calm_rest _ h nh scope (cid, Z.of_nat q, Z.of_nat j) (map dev_of adds) (placed adds (q, j)) (node_dist P S adds q j) (ends links) Free
    (u_pos h id P S adds addrs links nh q j Up Hq Hj) (u_sym links) (u_remote h id P S adds addrs links nh Up)
    (u_react h id P S adds addrs links nh cid q j Up Hq Hj) stations producer (u_nodup h id P S adds addrs links nh Up) s K).
Qed.

Lemma recover_served : In producer stations -> forall t ops1 s1 tr1 t0 life ops2 s2 tr2 g,
  Forall (led_to (map dev_of adds)) ops1 -> stray (t_init t point) ops1 = Some (Ok (s1, tr1)) -> silent s1 retx_max t0 ->
  Forall (in_time t0 life) ops2 -> Forall (turned_to (map dev_of adds)) ops2 -> fly s1 ops2 = Some (Ok (s2, tr2)) -> all_quiet s2 ->
  ts_point s1 producer = placed adds (q, j) -> (forall n, ~ In (LTurn producer n) tr2) -> In g stations -> asking tr2 g = false.
Proof.
  intros Here t ops1 s1 tr1 t0 life ops2 s2 tr2 g Le R1 Si Ti Tu R2 Qu Pp Nt Hg.
  destruct (recover_fine t ops1 _ Le R1) as (s & tr & E & K & _). injection E as <- <-.
  pose proof (anew_start (launched_net adds addrs links P S) h nh scope (cid, Z.of_nat q, Z.of_nat j) (map dev_of adds) (placed adds (q, j)) (node_dist P S adds q j) (ends links) Free
    (u_pos h id P S adds addrs links nh q j Up Hq Hj) (u_sym links) (u_remote h id P S adds addrs links nh Up)
    (u_react h id P S adds addrs links nh cid q j Up Hq Hj) stations producer t0 life (ts_point s1) s1 K Si eq_refl) as W.
  pose proof (anew_trun _ h nh scope (cid, Z.of_nat q, Z.of_nat j) (map dev_of adds) (placed adds (q, j)) (node_dist P S adds q j) (ends links) Free
    (u_pos h id P S adds addrs links nh q j Up Hq Hj) (u_sym links) (u_remote h id P S adds addrs links nh Up)
    (u_react h id P S adds addrs links nh cid q j Up Hq Hj) stations producer Here t0 life (ts_point s1) ops2 s1 [] s2 tr2 W Ti Tu R2) as W2. cbn [app] in W2.
  exact (anew_served (launched_net adds addrs links P S) h nh (cid, Z.of_nat q, Z.of_nat j) (map dev_of adds) (placed adds (q, j)) (node_dist P S adds q j) (ends links)
    (u_pos h id P S adds addrs links nh q j Up Hq Hj) (u_sym links) (u_remote h id P S adds addrs links nh Up)
    (u_react h id P S adds addrs links nh cid q j Up Hq Hj) stations producer t0 life (ts_point s1) s2 tr2 g W2
    (conj Pp Nt) Qu Hg).
Qed.
End Set_up.
Print Assumptions recover_safe.

(** After [gap] of silence, whoever asks gets an answer, as if nothing had been lost before. *)
Definition recover_claim (gap : Z) : Prop :=
  forall h id P S adds addrs links nh scope cid q j stations producer point t ops1 s1 tr1 t0 life ops2 s2 tr2 g,
  set_up h id P S adds addrs links nh -> (q < P)%nat -> (j < S)%nat -> (forall g, scope g = false) -> (forall g, In (point g) (map dev_of adds)) -> In producer stations ->
  let nw := launched_net adds addrs links P S in
  let tag := (cid, Z.of_nat q, Z.of_nat j) in
  Forall (led_to (map dev_of adds)) ops1 -> l_run nw h nh scope tag stations producer (t_init t point) ops1 = Some (Ok (s1, tr1)) -> silent s1 gap t0 ->
  Forall (in_time t0 life) ops2 -> Forall (turned_to (map dev_of adds)) ops2 -> t_run nw h nh scope tag stations producer s1 ops2 = Some (Ok (s2, tr2)) -> all_quiet s2 ->
  ts_point s1 producer = placed adds (q, j) -> (forall n, ~ In (LTurn producer n) tr2) -> In g stations -> asking tr2 g = false.

(** Six Interests of station 10, each as soon as it is forwarded, all lost behind the first satellite. *)
Definition tries : list Z := map ms [0; 10; 30; 70; 150; 310].
Definition all_lost : list lop := flat_map (fun t => [LGo (TAsk t 10 (ms 4000)); LGo (TUp t 0); LoseAir 0]) tries.
Definition ex_stray (ops : list lop) := l_run three LittleEndian ring3_nh free (1, 1, 0) [10; 11; 12]%nat 12 (t_init 0 trip_point) ops.
Definition ex_fly (s : tstate) (ops : list top) := t_run three LittleEndian ring3_nh free (1, 1, 0) [10; 11; 12]%nat 12 s ops.

(** The silence needed is exactly RETX_SUPPRESSION_MAX. *)
Theorem recover_exact : forall gap, recover_claim gap <-> retx_max <= gap.
Proof.
  intros gap. split.
  - intros C. destruct (Z.le_gt_cases retx_max gap) as [|Hg]; [assumption|]. exfalso.
    destruct (ex_stray all_lost) as [[[s1 tr1]| | |]|] eqn:R1; try (vm_compute in R1; discriminate R1).
    set (t0 := ms 310 + retx_max - 1). set (ops2 := [TAsk t0 10 (ms 4000); TUp t0 0]).
    assert (Q1 : all_quiet s1 /\ rs_now (ts_sky s1) = ms 310 /\ ts_point s1 12%nat = 1%nat).
    { vm_compute in R1. injection R1 as <- <-. repeat split. }
    destruct Q1 as (Q1 & N1 & P1).
    destruct (ex_fly s1 ops2) as [[[s2 tr2]| | |]|] eqn:R2.
    1: assert (Q2 : all_quiet s2 /\ asking tr2 10%nat = true /\ forall n, ~ In (LTurn 12 n) tr2).
    { vm_compute in R1. injection R1 as <- <-. vm_compute in R2. injection R2 as <- <-. repeat split. intros n K. cbn in K. intuition congruence. }
    1: destruct Q2 as (Q2 & A2 & T2).
    1: rewrite (C LittleEndian 1 3%nat 1%nat ring3 ring3_addrs ring3_links ring3_nh free 1 1%nat 0%nat [10; 11; 12]%nat 12%nat trip_point 0 all_lost s1 tr1 t0 (ms 4000) ops2 s2 tr2 10%nat ring3_up) in A2; try assumption; try discriminate A2; try lia; try reflexivity.
    all: try (vm_compute in R1; injection R1 as <- <-; vm_compute in R2; discriminate R2).
    + exact trip_points.
    + right. right. left. reflexivity.
    + repeat (apply Forall_cons; [exact Logic.I|]); apply Forall_nil.
    + split; [exact Q1|]. rewrite N1. unfold t0. lia.
    + repeat (apply Forall_cons; [cbn; unfold ms; lia|]); apply Forall_nil.
    + repeat (apply Forall_cons; [exact Logic.I|]); apply Forall_nil.
    + left. reflexivity.
  - intros Hg h id P S adds addrs links nh scope cid q j stations producer point t ops1 s1 tr1 t0 life ops2 s2 tr2 g Up Hq Hj Free Points Here nw tag Le R1 (Qi & Si) Ti Tu R2 Qu Pp Nt Hgs.
    assert (Sm : silent s1 retx_max t0) by (split; [exact Qi|lia]).
    exact (recover_served h id P S adds addrs links nh scope cid q j stations producer point Up Hq Hj Free Points Here t ops1 s1 tr1 t0 life ops2 s2 tr2 g Le R1
      Sm Ti Tu R2 Qu Pp Nt Hgs).
Qed.
Print Assumptions recover_exact.

(** All six Interests of station 10 are lost; the seventh, 250 ms later, is forwarded, answered, and the Data is heard; a nanosecond earlier it is suppressed. *)
Definition once_more (t : Z) : list top := [TAsk t 10 (ms 4000); TUp t 0; TMove t 0; TDown t 2; TUp t 0; TMove t 0] ++ repeat (TDown t 0) 5.
Example recover_case :
  match ex_stray all_lost with
  | Some (Ok (s1, tr1)) =>
      all_quiet s1 /\ awaits tr1 10 = true /\ option_map e_wait (rs_pit (ts_sky s1) 0%nat) = Some retx_max /\
      match ex_fly s1 (once_more (ms 560)) with
      | Some (Ok (s2, tr2)) => all_quiet s2 /\ awaits tr2 10 = false /\ filter (fun v => match v with LData _ => true | _ => false end) tr2 = [LData 10]
      | _ => False
      end /\
      match ex_fly s1 [TAsk (ms 560 - 1) 10 (ms 4000); TUp (ms 560 - 1) 0] with Some (Ok (s2, tr2)) => all_quiet s2 /\ awaits tr2 10 = true | _ => False end
  | _ => False
  end.
Proof. vm_compute. repeat split; reflexivity. Qed.
