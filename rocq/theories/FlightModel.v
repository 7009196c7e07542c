(** The network of C75 as it is found in a scenario built by the helpers.  Satellites and stations go by the numbers of their
    devices for the other side (helper/icarus-helper.cc:267-316 makes one for each node it is given). *)
From Coq Require Import ZArith QArith List Bool Arith.
From Verif Require Import Base SatAddrModel ConstellationModel LaunchModel ChannelModel IslModel GeoTagModel SystemProps DownSpec RelayProps JourneySpec
  SetupModel InstanceModel.
Import ListNotations.
Open Scope nat_scope.

Section Flight.
Context {A : Type} (ho : host).

(** The devices a constellation holds, plane by plane (constellation.cc:71-82). *)
Definition seats (c : constellation) : list (nat * nat * nat) :=
  flat_map (fun j => let p := j / con_plane_size c in let i := j mod con_plane_size c in
      match get_satellite c p i with Ok (Some d) => [(p, i, d)] | _ => [] end)
    (seq 0 (con_planes c * con_plane_size c)).

(** Sat2GroundNetDevice::GetAddress; of other devices, which are not asked, nothing in particular. *)
Definition sat_of (w : world A) (k : nat) : sat_address :=
  match nth_error (sw_devs w) k with Some (mkSD _ (KSat a) _) => a | _ => sat_make ho 0 0 0 end.
Definition node_at (w : world A) (k : nat) : nat := match nth_error (sw_devs w) k with Some d => dv_node d | None => 0 end.
(** [Node::GetDevice (0)], when it is not one of a link. *)
Definition first_dev (w : world A) (n : nat) : nat := match sn_devs (sw_nodes w n) with RGs k :: _ => k | _ => 0 end.

(** The channels of the links of a satellite: each makes a face (isl-helper.cc:413-450), and with default routes
    (ground2groundping.cc:131, code of ndnSIM) each face is a way. *)
Definition links_at (w : world A) (k : nat) : list nat := map isl_chan (filter (fun d => isl_node d =? node_at w k) (sw_links w)).

(** A mission that goes by what was built: the constellation, the addresses, the links, the stations on channel [c] and the
    sizes in the strategy.  Times, losses, queues, MAC models, tables and Interests are those of the mission [t]. *)
Definition built (w : world A) (c : nat) (sizes : Z * Z) (t : mission) : mission :=
  let ch := gs_view w c in
  let con := match gs_con ch with Some k => k | None => con_new 0 0 0 end in
  let s := m_set t in let u := m_up t in let d := m_down t in
  mkMission
    (mkSetting ho (Z.to_nat (fst sizes)) (Z.to_nat (snd sizes)) (seats con) (map (fun e => sat_of w (snd e)) (seats con))
       (map (fun e => (first_dev w (fst e), first_dev w (snd e))) (link_ends (sw_links w)))
       (g_table s) (g_tag s) (g_request s) (g_tx s) (g_rate s) (g_delay s) (g_success s) (g_fits s) (g_ndn s))
    (SystemProps.mkNet ho con (w_tx u) (w_rate u) (w_delay u) (w_loss u) (w_success u)
       (fun k => match nth_error (sw_devs w) k with Some (mkSD _ (KGround m) _) => m | _ => 0%Z end)
       (w_fits u) (w_mac u) (w_a0 u) (w_p0 u))
    (mkDownlink ho (DownSpec.v_tx d) (v_rate d) (DownSpec.v_delay d) (v_loss d) (v_success d) (sat_of w) (gs_ground ch) (v_power d) (v_fits d) (w_a0 u)).
End Flight.
