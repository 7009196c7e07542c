(** Interests from station to station: the uplink, the satellites with their links and the downlink, put together.
    The three networks have devices of their own (the receiving and the sending side of a satellite's device for the ground
    do not share state, model/sat2ground-net-device.cc; of a station's device they share the remote address,
    model/ground-sta-net-device.cc:301-311), and one clock.  Between them are the faces and the strategy, which act in the
    event that passes a packet up.  Events of different networks that are due at the same time may come in any order; the
    simulator takes one of these.  Data, Nacks and what happens to an Interest at a station are not carried. *)
From Coq Require Import ZArith List Bool Arith.
From Verif Require Import Base SatAddrModel ConstellationModel IslModel GeoTagModel DeviceModel RxModel ChannelModel LinkModel LinkSpec SystemModel SystemProps
  DownSpec IslNetSpec FaceModel FaceNetSpec RelayModel.
Import ListNotations.
Open Scope Z_scope.

Section Journey.
Context {M : Type}.
Variable w : network.
Variable rx : mac_rx M.
Variable x : islnet.
Variable d : downlink.
Variable ndn : Z.
Variable devs : list isl_device.
Variable react : Z -> Z -> nat -> face -> result (list action).

Record jworld := mkJ { j_up : fworld (sys (M := M)); j_isl : fworld (lstate (F := unit)); j_down : fworld (lstate (F := sat_address)) }.

(** What is seen: in each network, a call and what followed there. *)
Inductive jnote :=
| JnUp (c : fcall up_other) (out : list (fnote note))
| JnIsl (o : rop) (out : list rnote)
| JnDown (c : fcall down_other) (out : list (fnote (knote sat_address))).

Definition then_ {A B} (r : option (result (A * list B))) (k : A -> option (result (A * list B))) : option (result (A * list B)) :=
  obind r (fun y => obind (k (fst y)) (fun z => Some (Ok (fst z, snd y ++ snd z)))).

Definition call_up (s : jworld) (c : fcall up_other) : option (result (jworld * list (fnote note))) :=
  obind (f_call (up_y_step w rx) YSend up_do sat_up ndn (j_up s) c) (fun y => Some (Ok (mkJ (fst y) (j_isl s) (j_down s), snd y))).
Definition call_down (s : jworld) (c : fcall down_other) : option (result (jworld * list jnote)) :=
  obind (f_call (down_l_step d) LSend down_do link_up ndn (j_down s) c)
    (fun y => Some (Ok (mkJ (j_up s) (j_isl s) (fst y), [JnDown c (snd y)]))).

(** What the strategy of a satellite sends to the ground goes to the face on its device for the ground
    (helper/icarus-helper.cc:501-541, sat2ground-transport.cc:114-127). *)
Fixpoint go_down (s : jworld) (rns : list rnote) : option (result (jworld * list jnote)) :=
  match rns with
  | [] => Some (Ok (s, []))
  | RGround t n b :: l => then_ (call_down s (FSend t n b)) (fun s1 => go_down s1 l)
  | _ :: l => go_down s l
  end.
Definition call_isl (s : jworld) (o : rop) : option (result (jworld * list jnote)) :=
  obind (r_step x ndn devs react (j_isl s) o)
    (fun y => obind (go_down (mkJ (j_up s) (fst y) (j_down s)) (snd y)) (fun z => Some (Ok (fst z, JnIsl o (snd y) :: snd z)))).
(** What the face on a satellite's device for the ground gets goes to its strategy. *)
Fixpoint go_on (s : jworld) (fns : list (fnote note)) : option (result (jworld * list jnote)) :=
  match fns with
  | [] => Some (Ok (s, []))
  | FGot t n b :: l => then_ (call_isl s (RIn t n b)) (fun s1 => go_on s1 l)
  | FNote _ :: l => go_on s l
  end.
Definition call_sky (s : jworld) (c : fcall up_other) : option (result (jworld * list jnote)) :=
  obind (call_up s c) (fun y => obind (go_on (fst y) (snd y)) (fun z => Some (Ok (fst z, JnUp c (snd y) :: snd z)))).

(** The clock: nothing has happened later and nothing is due earlier. *)
Definition up_ready (y : sys (M := M)) (t : Z) : bool := (y_now y <=? t) && forallb (fun e => t <=? fst e) (y_queue y).
Definition all_ready (s : jworld) (t : Z) : bool := up_ready (fw_net (j_up s)) t && ready (fw_net (j_isl s)) t && ready (fw_net (j_down s)) t.
Definition due {E} (q : list (Z * E)) : option Z := match q with [] => None | e :: _ => Some (fst e) end.
Definition at_due {E A} (s : jworld) (q : list (Z * E)) (k : option A) : option A :=
  match due q with Some t => if all_ready s t then k else None | None => None end.

(** A station sends an Interest; a station is pointed at another satellite (SetRemoteAddress, which is used for sending
    and for receiving: ground-sta-net-device.cc:301-311, 368, 224); another transmission power; the next event of a network. *)
Inductive jop := JSend (t : Z) (g : nat) (b : Z) | JTurn (t : Z) (g : nat) (a : sat_address) | JPower (t : Z) (g : nat) (p : Z) | JUp | JIsl | JDown.

Definition j_step (s : jworld) (o : jop) : option (result (jworld * list jnote)) :=
  match o with
  | JSend t g b => if all_ready s t then call_sky s (FSend t g b) else None
  | JTurn t g a => if all_ready s t then then_ (call_sky s (FDo (UTurn t g a))) (fun s1 => call_down s1 (FDo (DTurn t g a))) else None
  | JPower t g p => if all_ready s t then call_sky s (FDo (UPower t g p)) else None
  | JUp => at_due s (y_queue (fw_net (j_up s))) (call_sky s (FDo UNext))
  | JIsl => at_due s (l_queue (fw_net (j_isl s))) (call_isl s RNext)
  | JDown => at_due s (l_queue (fw_net (j_down s))) (call_down s (FDo DNext))
  end.

Fixpoint j_run (s : jworld) (ops : list jop) : option (result (jworld * list jnote)) :=
  match ops with
  | [] => Some (Ok (s, []))
  | o :: l => then_ (j_step s o) (fun s1 => j_run s1 l)
  end.

Definition j_init (m0 : M) : jworld :=
  mkJ (fw_init (y_init (w_a0 w) (w_p0 w) m0)) (fw_init (l_init (fun _ => tt))) (fw_init (l_init (v_a0 d))).
End Journey.
