(** What is asked of a mission to be flown with what a script builds, read off the script. *)
From Coq Require Import ZArith List Bool Arith.
From Verif Require Import Base SatAddrModel ConstellationModel GeoTagModel SystemProps DownSpec RelayProps JourneyModel JourneySpec SetupModel SetupSpec.
Import ListNotations.
Open Scope Z_scope.

(** One constellation [h] is linked, once; its satellites and the stations are on channel [c], which was told of it. *)
Record one_fleet (b : before) (t0 : nat) (l : list sop) (h c : nat) : Prop := mkFleet {
  of_links : exists cs ns, asked [] 0 t0 l = [(cs, ns, h)];
  of_told : nth_error (told l []) c = Some (Some h);
  of_chan : forall x, In (true, x) (marks (b_pos b) [] (calls 0 t0 l)) -> cl_helper x = h -> cl_chan x = Some c }.

(** The device that stands at plane [p], place [i]: the one asked for by the launch of that number. *)
Definition launches (b : before) (t0 : nat) (l : list sop) (h : nat) : list nat := places (launch_of h) 0 (marks (b_pos b) [] (calls 0 t0 l)).
Definition device_at (b : before) (t0 : nat) (l : list sop) (plans : nat -> plan) (h p i k : nat) : Prop :=
  (p < pl_P (plans h))%nat /\ (i < pl_S (plans h))%nat /\ nth_error (launches b t0 l h) (p * pl_S (plans h) + i) = Some k.

(** Everything else about the mission is in order: durations, slots, requests as the tags say, stations that point at
    satellites of the fleet, and routes to the ground and over all links of a satellite ([SetDefaultRoutes]). *)
Record in_order (ho : host) (plans : nat -> plan) (b : before) (t0 : nat) (l : list sop) (h : nat) (links : nat -> list nat) (t : mission) : Prop := mkInOrder {
  io_proper : SystemProps.proper (m_up t);
  io_slots : enough_slots (m_up t);
  io_itx : forall r u, 0 <= g_tx (m_set t) r u;
  io_idelay : forall x i j, 0 <= g_delay (m_set t) x i j;
  io_dtx : forall r u, 0 <= DownSpec.v_tx (m_down t) r u;
  io_ddelay : forall x g s, 0 <= DownSpec.v_delay (m_down t) x g s;
  io_ndn : is_u16 (g_ndn (m_set t));
  io_request : forall x i n f, rq_tag (g_request (m_set t) x i n f) = Some (fst (fst (g_tag (m_set t) i)), Z.of_nat (snd (fst (g_tag (m_set t) i))), Z.of_nat (snd (g_tag (m_set t) i))) /\
    rq_ingress (g_request (m_set t) x i n f) = f /\ rq_sup (g_request (m_set t) x i n f) <> SUPPRESS /\ forall g, rq_scope (g_request (m_set t) x i n f) g = false;
  io_table : forall k f, In k (launches b t0 l h) -> (In f (g_table (m_set t) k) <-> f = GroundFace \/ exists j, f = IslFace j /\ In j (links k));
  io_start : forall g, exists p i, (p < pl_P (plans h))%nat /\ (i < pl_S (plans h))%nat /\
    w_a0 (m_up t) g = sat_make ho (pl_id (plans h)) (Z.of_nat p) (Z.of_nat i) }.

(** Interests are tagged with places of the constellation; stations are turned to its satellites. *)
Definition aimed (ho : host) (p : plan) (t : mission) (ops : list jop) : Prop :=
  (forall x g i, In (JSend x g i) ops -> (snd (fst (g_tag (m_set t) i)) < pl_P p)%nat /\ (snd (g_tag (m_set t) i) < pl_S p)%nat) /\
  (forall x g a, In (JTurn x g a) ops -> exists q j, (q < pl_P p)%nat /\ (j < pl_S p)%nat /\ a = sat_make ho (pl_id p) (Z.of_nat q) (Z.of_nat j)).

(** The stations: the devices asked for on channel [c] on nodes that have a position. *)
Definition stations (b : before) (t0 : nat) (l : list sop) (c : nat) : list nat := places (ground_at c) 0 (marks (b_pos b) [] (calls 0 t0 l)).

(** Nothing is lost: not at queues, not in the channels. *)
Definition lossless (t : mission) : Prop :=
  (forall j q u, w_fits (m_up t) j q u = true) /\ (forall x u g i, w_success (m_up t) x u g i = true) /\
  (forall x u i j, g_success (m_set t) x u i j = true) /\ (forall i q u, g_fits (m_set t) i q u = true) /\
  (forall j q u, v_fits (m_down t) j q u = true) /\ (forall x u r n, v_success (m_down t) x u r n = true).
