(** Reading what a run from station to station shows. *)
From Coq Require Import ZArith List Bool Arith.
From Verif Require Import Base SatAddrModel ConstellationModel ConstellationSpec IslModel GeoTagModel DeviceModel DeviceSpec RxModel ChannelModel LinkModel LinkSpec SystemModel SystemProps
  DownSpec IslNetSpec FaceModel FaceSpec FaceNetSpec RelayModel RelaySpec RelayProps JourneyModel.
Import ListNotations.
Open Scope Z_scope.

(** The Interests that stations sent: time, station, Interest; what stations got. *)
Definition j_sent (ops : list jop) : list (Z * nat * Z) := flat_map (fun o => match o with JSend t g b => [(t, g, b)] | _ => [] end) ops.
Definition d_outs (l : list jnote) : list (fnote (knote sat_address)) := flat_map (fun n => match n with JnDown _ out => out | _ => [] end) l.
Definition j_got (l : list jnote) : list (Z * nat * Z) := gots (d_outs l).
Definition j_got_at (g : nat) (l : list jnote) : list Z := got_at g (d_outs l).

(** Where a station points after some operations. *)
Fixpoint points (a : sat_address) (g : nat) (ops : list jop) : sat_address :=
  match ops with
  | [] => a
  | JTurn _ g' b :: l => points (if (g' =? g)%nat then b else a) g l
  | _ :: l => points a g l
  end.

(** Nothing is under way. *)
Definition at_rest {M} (s : jworld (M := M)) : Prop :=
  y_queue (fw_net (j_up s)) = [] /\ l_queue (fw_net (j_isl s)) = [] /\ l_queue (fw_net (j_down s)) = [].

(** What can come next: at what time, and whether nothing happened later and nothing is due earlier. *)
Definition op_time {M} (s : jworld (M := M)) (o : jop) : option Z :=
  match o with
  | JSend t _ _ => Some t | JTurn t _ _ => Some t | JPower t _ _ => Some t
  | JUp => due (y_queue (fw_net (j_up s))) | JIsl => due (l_queue (fw_net (j_isl s))) | JDown => due (l_queue (fw_net (j_down s)))
  end.
Definition can_come {M} (s : jworld (M := M)) (o : jop) : Prop := exists t, op_time s o = Some t /\ all_ready s t = true.

(** A mission: the constellation in service with its links, the stations with their uplink, and the downlink. *)
Record mission := mkMission { m_set : setting; m_up : network; m_down : downlink }.
Definition fly_mission {M} (m : mission) (rx : mac_rx M) (m0 : M) (ops : list jop) : option (result (jworld * list jnote)) :=
  j_run (m_up m) rx (g_net (m_set m)) (m_down m) (g_ndn (m_set m)) (install_pairs 0 (g_links (m_set m))) (g_react (m_set m)) (j_init (m_up m) (m_down m) m0) ops.

(** The parts belong together: the uplink channel has the launched constellation, the devices have the addresses that were
    given at launch, stations point at launched satellites. *)
Record prepared (m : mission) : Prop := mkPrepared {
  p_service : in_service (m_set m);
  p_proper : proper (m_up m);
  p_slots : enough_slots (m_up m);
  p_host : w_host (m_up m) = g_host (m_set m);
  p_con : exists id, is_u16 id /\ run_adds (g_host (m_set m)) (con_new id (g_planes (m_set m)) (g_size (m_set m))) (g_adds (m_set m)) = Ok (w_con (m_up m), g_addrs (m_set m));
  p_start : forall g, In (w_a0 (m_up m) g) (g_addrs (m_set m));
  p_dtx : forall r u, 0 <= DownSpec.v_tx (m_down m) r u;
  p_ddelay : forall t g s, 0 <= DownSpec.v_delay (m_down m) t g s;
  p_dhost : v_host (m_down m) = g_host (m_set m);
  p_daddr : forall k e a, nth_error (g_adds (m_set m)) k = Some e -> nth_error (g_addrs (m_set m)) k = Some a -> v_addr (m_down m) (dev_of e) = a;
  p_dreal : forall s, wf_sat (v_host (m_down m)) (v_addr (m_down m) s);
  p_dstart : forall g, v_a0 (m_down m) g = w_a0 (m_up m) g }.

(** Interests are tagged with a slot there is; stations are turned to launched satellites. *)
Definition sensible (m : mission) (ops : list jop) : Prop :=
  (forall t g b, In (JSend t g b) ops -> (snd (fst (g_tag (m_set m) b)) < g_planes (m_set m))%nat /\ (snd (g_tag (m_set m) b) < g_size (m_set m))%nat) /\
  (forall t g a, In (JTurn t g a) ops -> In a (g_addrs (m_set m))).

(** Address [a] was given at launch to satellite [n]; the slot in the tag of Interest [b] is satellite [n]'s. *)
Definition satellite_at (m : mission) (a : sat_address) (n : nat) : Prop :=
  exists k p i, nth_error (g_adds (m_set m)) k = Some (p, i, n) /\ nth_error (g_addrs (m_set m)) k = Some a.
Definition tagged_to (m : mission) (b : Z) (n : nat) : Prop := In (snd (fst (g_tag (m_set m) b)), snd (g_tag (m_set m) b), n) (g_adds (m_set m)).
