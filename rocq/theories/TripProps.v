(** There and back: everybody who asks gets an answer. *)
From Coq Require Import ZArith List Bool Lia Arith.
From Verif Require Import Base SatAddrModel ConstellationModel ConstellationSpec IslModel GeoTagModel GeoTagSpec GeoTagProps GeoTagRoute GeoTagNetProps IslProps PendingModel PendingSpec PendingProps
  ReturnModel ReturnSpec ReturnProofs ReturnProps TripModel TripSpec TripProofs.
Import ListNotations.
Open Scope Z_scope.

Section Set_up.
Variables (h : host) (id : Z) (P S : nat) (adds : list (nat * nat * nat)) (addrs : list sat_address) (links : list (nat * nat)) (nh : nat -> list face).
Variables (scope : face -> bool) (cid : Z) (q j : nat) (t0 life : Z) (stations : list nat) (producer : nat) (point : nat -> nat).
Hypothesis Up : set_up h id P S adds addrs links nh.
Hypothesis Hq : (q < P)%nat.
Hypothesis Hj : (j < S)%nat.
Hypothesis Free : forall g, scope g = false.
Hypothesis Hl : 0 < life.
Hypothesis Here : In producer stations.
Hypothesis Points : forall g, In (point g) (map dev_of adds).

Notation fly := (t_run (launched_net adds addrs links P S) h nh scope (cid, Z.of_nat q, Z.of_nat j) stations producer).
Notation kept := (tinv (map dev_of adds) (placed adds (q, j)) (node_dist P S adds q j) (ends links) t0 life stations producer point).

Lemma trip_start : kept (t_init t0 point) [].
Proof.
  constructor; cbn [t_init ts_sky ts_up ts_down ts_point sat_log flat_map awaits fold_left].
  - exact (u_start P S adds links q j Hq Hj t0 life Hl).
  - intros n u [].
  - exact Points.
  - intros (F & _). exact F.
  - intros _ N. destruct (N eq_refl).
  - intros g _ X. discriminate.
Qed.

Lemma trip_kept : forall ops r, Forall (in_time t0 life) ops -> Forall (turned_to (map dev_of adds)) ops -> fly (t_init t0 point) ops = Some r ->
  exists s tr, r = Ok (s, tr) /\ kept s tr /\ Forall quiet (sat_log tr).
Proof.
  intros ops r Ti Tu R. exact (keep_trun _ h nh scope (cid, Z.of_nat q, Z.of_nat j) (map dev_of adds) (placed adds (q, j)) (node_dist P S adds q j) (ends links) Free
    (u_pos h id P S adds addrs links nh q j Up Hq Hj) (u_sym links) (u_remote h id P S adds addrs links nh Up)
    (u_react h id P S adds addrs links nh cid q j Up Hq Hj) t0 life stations producer Here point ops (t_init t0 point) [] r trip_start Ti Tu R).
Qed.

(** Whatever stations ask and wherever they are turned, within a lifetime nothing fails and all that is under way can come in. *)
Theorem trip_safe : forall ops r, Forall (in_time t0 life) ops -> Forall (turned_to (map dev_of adds)) ops -> fly (t_init t0 point) ops = Some r ->
  exists s tr, r = Ok (s, tr) /\ Forall quiet (sat_log tr) /\
    exists more s' tr', Forall (one_more (rs_now (ts_sky s))) more /\ fly s more = Some (Ok (s', tr')) /\ all_quiet s'.
Proof.
  intros ops r Ti Tu R. destruct (trip_kept ops r Ti Tu R) as (s & tr & -> & K & Q). exists s, tr. split; [reflexivity|]. split; [exact Q|].
  exact (trip_rest _ h nh scope (cid, Z.of_nat q, Z.of_nat j) (map dev_of adds) (placed adds (q, j)) (node_dist P S adds q j) (ends links) Free
    (u_pos h id P S adds addrs links nh q j Up Hq Hj) (u_sym links) (u_remote h id P S adds addrs links nh Up)
    (u_react h id P S adds addrs links nh cid q j Up Hq Hj) t0 life stations producer Here point (u_nodup h id P S adds addrs links nh Up) s tr K).
Qed.

(** If the producer is not turned, once nothing is under way no station has asked since it last heard Data or was turned: one that asks again
    from where it is turned to gets its answer. *)
Theorem trip_served : forall ops s tr g, Forall (in_time t0 life) ops -> Forall (turned_to (map dev_of adds)) ops -> fly (t_init t0 point) ops = Some (Ok (s, tr)) ->
  all_quiet s -> point producer = placed adds (q, j) -> (forall n, ~ In (LTurn producer n) tr) -> In g stations -> asking tr g = false.
Proof.
  intros ops s tr g Ti Tu R Qu Pp Nt Hg. destruct (trip_kept ops _ Ti Tu R) as (s' & tr' & E & K & _). injection E as <- <-.
  exact (rest_served _ h nh (cid, Z.of_nat q, Z.of_nat j) (map dev_of adds) (placed adds (q, j)) (node_dist P S adds q j) (ends links)
    (u_pos h id P S adds addrs links nh q j Up Hq Hj) (u_sym links) (u_remote h id P S adds addrs links nh Up)
    (u_react h id P S adds addrs links nh cid q j Up Hq Hj) t0 life stations producer point s tr g K (conj Pp Nt) Qu Hg).
Qed.
End Set_up.
Print Assumptions trip_safe.
Print Assumptions trip_served.

(** Everybody gets an answer: once nothing is under way, no station that asked waits.  [still] and [stays] say how long the station and the
    producer keep pointing at their satellites. *)
Definition trip_claim (still : list tevent -> nat -> Prop) (stays : list tevent -> nat -> Prop) : Prop :=
  forall h id P S adds addrs links nh scope cid q j t0 life stations producer point ops s tr g,
  set_up h id P S adds addrs links nh -> (q < P)%nat -> (j < S)%nat -> (forall g, scope g = false) -> 0 < life -> In producer stations ->
  (forall g, In (point g) (map dev_of adds)) -> Forall (in_time t0 life) ops -> Forall (turned_to (map dev_of adds)) ops ->
  t_run (launched_net adds addrs links P S) h nh scope (cid, Z.of_nat q, Z.of_nat j) stations producer (t_init t0 point) ops = Some (Ok (s, tr)) ->
  all_quiet s -> point producer = placed adds (q, j) -> stays tr producer -> In g stations -> still tr g -> awaits tr g = false.

Theorem trip_partial : trip_claim patient (fun tr g => forall n, ~ In (LTurn g n) tr).
Proof.
  intros h id P S adds addrs links nh scope cid q j t0 life stations producer point ops s tr g Up Hq Hj Free Hl Here Points Ti Tu R Qu Pp Nt Hg Pa.
  rewrite patient_asking by exact Pa.
  exact (trip_served h id P S adds addrs links nh scope cid q j t0 life stations producer point Up Hq Hj Free Hl Here Points ops s tr g Ti Tu R Qu Pp Nt Hg).
Qed.
Print Assumptions trip_partial.

(** ** A station that is turned away misses the Data, and a producer the Interest *)
(** Station 10 below satellite 0, station 11 below satellite 2, the producer, 12, below satellite 1. *)
Definition trip_point (g : nat) : nat := match g with 10 => 0 | 11 => 2 | _ => 1 end%nat.
Definition ex_trip (ops : list top) := t_run three LittleEndian ring3_nh free (1, 1, 0) [10; 11; 12]%nat 12 (t_init 0 trip_point) ops.

Definition trip_there : list top := [TAsk 0 10 (ms 4000); TUp (ms 10) 0; TMove (ms 11) 0; TDown (ms 20) 2].
Definition trip_back : list top := [TUp (ms 30) 0; TMove (ms 31) 0; TDown (ms 40) 0; TDown (ms 40) 0; TDown (ms 40) 0; TDown (ms 41) 0; TDown (ms 41) 0].

Lemma trip_points : forall g, In (trip_point g) (map dev_of ring3).
Proof. intros g. cbn. unfold trip_point. do 10 (destruct g as [|g]; [auto|]). destruct g as [|[|g]]; auto. Qed.

Lemma trip_false : forall (still stays : list tevent -> nat -> Prop) ops s tr g, Forall (in_time 0 (ms 4000)) ops -> Forall (turned_to [0; 1; 2]%nat) ops -> ex_trip ops = Some (Ok (s, tr)) -> all_quiet s ->
  stays tr 12%nat -> In g [10; 11; 12]%nat -> still tr g -> awaits tr g = true -> ~ trip_claim still stays.
Proof.
  intros still stays ops s tr g Ti Tu R Qu Sy Hg St Aw C.
  rewrite (C LittleEndian 1 3%nat 1%nat ring3 ring3_addrs ring3_links ring3_nh free 1 1%nat 0%nat 0 (ms 4000) [10; 11; 12]%nat 12%nat trip_point ops s tr g ring3_up) in Aw; try assumption; try discriminate; try lia; try reflexivity.
  - right. right. left. reflexivity.
  - exact trip_points.
Qed.

Theorem trip_turned_refuted : ~ trip_claim (fun _ _ => True) (fun tr g => forall n, ~ In (LTurn g n) tr).
Proof.
  destruct (ex_trip (trip_there ++ TTurn 10 2 :: trip_back)) as [[[s tr]| | |]|] eqn:R; try (vm_compute in R; discriminate R).
  apply (trip_false _ _ (trip_there ++ TTurn 10 2 :: trip_back) s tr 10%nat); try exact R; vm_compute in R; injection R as <- <-.
  - repeat (apply Forall_cons; [cbn; unfold ms; first [exact Logic.I|lia]|]); apply Forall_nil.
  - repeat (apply Forall_cons; [cbn; auto 6|]); apply Forall_nil.
  - repeat split.
  - cbn. intros n K. intuition congruence.
  - left. reflexivity.
  - exact Logic.I.
  - reflexivity.
Qed.
Print Assumptions trip_turned_refuted.

Theorem trip_producer_refuted : ~ trip_claim (fun tr g => forall n, ~ In (LTurn g n) tr) (fun _ _ => True).
Proof.
  set (ops := [TAsk 0 10 (ms 4000); TUp (ms 10) 0; TMove (ms 11) 0; TTurn 12 2; TDown (ms 20) 0; TDown (ms 20) 0; TDown (ms 20) 0]).
  destruct (ex_trip ops) as [[[s tr]| | |]|] eqn:R; try (vm_compute in R; discriminate R).
  apply (trip_false _ _ ops s tr 10%nat); try exact R; vm_compute in R; injection R as <- <-.
  - repeat (apply Forall_cons; [cbn; unfold ms; first [exact Logic.I|lia]|]); apply Forall_nil.
  - repeat (apply Forall_cons; [cbn; auto 6|]); apply Forall_nil.
  - repeat split.
  - exact Logic.I.
  - left. reflexivity.
  - cbn. intros n K. intuition congruence.
  - reflexivity.
Qed.
Print Assumptions trip_producer_refuted.

(** Station 10 asks, the producer answers, the Data comes back and is heard by station 10 only. *)
Example trip_case :
  match ex_trip trip_there with Some (Ok (s, tr)) => awaits tr 10 = true /\ ts_up s = [(1%nat, UData)] | _ => False end /\
  match ex_trip (trip_there ++ trip_back) with
  | Some (Ok (s, tr)) => all_quiet s /\ awaits tr 10 = false /\ filter (fun v => match v with LData _ => true | _ => false end) tr = [LData 10]
  | _ => False
  end.
Proof. vm_compute. repeat split; reflexivity. Qed.

(** Station 10 is turned to satellite 2 while it waits and asks again from there. *)
Example trip_again :
  match ex_trip (trip_there ++ TTurn 10 2 :: TAsk (ms 25) 10 (ms 4000) :: [TUp (ms 30) 0; TUp (ms 30) 0; TMove (ms 31) 1; TMove (ms 31) 0] ++ repeat (TDown (ms 40) 0) 8 ++ [TUp (ms 50) 0; TMove (ms 51) 0] ++ repeat (TDown (ms 60) 0) 3) with
  | Some (Ok (s, tr)) => all_quiet s /\ awaits tr 10 = false /\ filter (fun v => match v with LData _ => true | _ => false end) tr = [LData 10; LData 11]
  | _ => False
  end.
Proof. vm_compute. repeat split; reflexivity. Qed.
