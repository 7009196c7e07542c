(** Faces on top of each kind of network. *)
From Coq Require Import ZArith List Bool Arith.
From Verif Require Import Base SatAddrModel ConstellationModel DeviceModel DeviceSpec RxModel ChannelModel LinkModel LinkSpec SystemModel SystemProps
  DownSpec IslNetSpec FaceModel FaceSpec.
Import ListNotations.
Open Scope Z_scope.

(** * Satellites to ground stations *)
Inductive down_other := DTurn (t : Z) (g : nat) (a : sat_address) | DNext.
Definition down_do (x : down_other) : lop := match x with DTurn t g a => LTurn t g a | DNext => LNext end.
Definition link_up {F} (n : knote F) : option (Z * nat * Z * Z) :=
  match n with KUp t f => Some (t, fl_to f, fl_uid f, fl_proto f) | _ => None end.
Definition link_send {F} (o : lop (F := F)) : option (Z * nat * Z * Z) := match o with LSend t i u p => Some (t, i, u, p) | _ => None end.
Definition down_l_step (d : downlink) :=
  l_step (down_step (v_tx d) (v_rate d) (v_fits d)) (fun i => v_tx d (v_rate d i))
         (down_spread (v_tx d) (v_rate d) (v_delay d) (v_loss d) (v_success d) (v_addr d) (v_ground d) (v_power d)) (down_hears (v_host d) (v_addr d)).
Definition down_calls (d : downlink) (ndn : Z) (cs : list (fcall down_other)) :=
  f_calls (down_l_step d) LSend down_do link_up ndn (fw_init (l_init (v_a0 d))) cs.
(** Stations track real addresses; other programs keep to themselves. *)
Definition down_good (d : downlink) (ndn : Z) (cs : list (fcall down_other)) : Prop :=
  apart ndn cs /\ forall t g a, In (FDo (DTurn t g a)) cs -> wf_sat (v_host d) a.

(** * Satellites to each other *)
Definition isl_do (x : unit) : lop (F := unit) := LNext.
Definition isl_l_step (w : islnet) :=
  l_step (isl_step (IslNetSpec.w_tx w) (IslNetSpec.w_rate w) (IslNetSpec.w_fits w)) (fun i => IslNetSpec.w_tx w (IslNetSpec.w_rate w i))
         (isl_spread (IslNetSpec.w_tx w) (IslNetSpec.w_rate w) (IslNetSpec.w_delay w) (IslNetSpec.w_success w) (w_channel w)) isl_hears.
Definition isl_calls (w : islnet) (ndn : Z) (cs : list (fcall unit)) :=
  f_calls (isl_l_step w) LSend isl_do link_up ndn (fw_init (l_init (fun _ => tt))) cs.

(** * Ground stations to satellites *)
Inductive up_other := UTurn (t : Z) (g : nat) (a : sat_address) | UPower (t : Z) (g : nat) (p : Z) | UNext.
Definition up_do (x : up_other) : yop := match x with UTurn t g a => YRetarget t g a | UPower t g p => YPower t g p | UNext => YNext end.
Definition sat_up (n : note) : option (Z * nat * Z * Z) := match n with NUp t s u _ p => Some (t, s, u, p) | _ => None end.
Definition ground_send (o : yop) : option (Z * nat * Z * Z) := match o with YSend t g u p => Some (t, g, u, p) | _ => None end.
Definition up_y_step {M} (w : network) (rx : mac_rx M) :=
  y_step (w_host w) (w_con w) (SystemProps.w_tx w) (SystemProps.w_rate w) (SystemProps.w_delay w) (w_loss w) (SystemProps.w_success w) (w_addr w)
         (SystemProps.w_fits w) (w_mac w) rx.
Definition up_calls {M} (w : network) (rx : mac_rx M) (m0 : M) (ndn : Z) (cs : list (fcall up_other)) :=
  f_calls (up_y_step w rx) YSend up_do sat_up ndn (fw_init (y_init (w_a0 w) (w_p0 w) m0)) cs.
(** Where a station points after some calls. *)
Fixpoint aimed (a : sat_address) (g : nat) (cs : list (fcall up_other)) : sat_address :=
  match cs with
  | [] => a
  | FDo (UTurn _ g' b) :: l => aimed (if (g' =? g)%nat then b else a) g l
  | _ :: l => aimed a g l
  end.
(** Whenever a station sends, it points at a satellite that is there. *)
Definition aims (w : network) (cs : list (fcall up_other)) : Prop := forall c1 c c2 g, cs = c1 ++ c :: c2 ->
  (exists t b, c = FSend t g b) \/ (exists t p, c = FRaw t g p) ->
  exists s, get_satellite_addr (w_host w) (w_con w) (aimed (w_a0 w g) g c1) = Ok (Some s).

(** Each device is used by faces only, or by other programs only, and those keep to themselves. *)
Definition one_kind {X} (ndn : Z) (cs : list (fcall X)) : Prop := forall i,
  (forall t p, ~ In (FRaw t i p) cs) \/ ((forall t b, ~ In (FSend t i b) cs) /\ (forall t p, In (FRaw t i p) cs -> u16 p <> ndn)).
