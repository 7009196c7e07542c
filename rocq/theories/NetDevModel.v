(** The device classes as network devices: their settings, attaching to channels, and what they answer
    (model/icarus-net-device.cc, ground-sta-net-device.cc, sat2ground-net-device.cc, sat-net-device.cc).  How frames are queued
    and sent is in [DeviceModel]; here is which objects a device refers to, and which channels refer to it. *)
From Coq Require Import ZArith List Bool Arith.
From Verif Require Import Base SatAddrModel ChannelModel.
Import ListNotations.
Open Scope Z_scope.

Inductive dclass := GroundSta | SatDown | SatSide.

(** Members of the classes that calls set (icarus-net-device.h:92-99, ground-sta-net-device.h:89-92, sat2ground-net-device.h:76-77,
    sat-net-device.h:97-102, 114-115). *)
Inductive reg := Rate | Mtu | TxQueue | IfIndex | Chan | TheNode | Receive | Promisc | TxPower | Address | Remote | MacModel.
Definition reg_eqb (a b : reg) : bool :=
  match a, b with
  | Rate, Rate | Mtu, Mtu | TxQueue, TxQueue | IfIndex, IfIndex | Chan, Chan | TheNode, TheNode | Receive, Receive
  | Promisc, Promisc | TxPower, TxPower | Address, Address | Remote, Remote | MacModel, MacModel => true
  | _, _ => false
  end.

(** What they hold; [VJunk]: never initialised; objects are numbered. *)
Inductive dval := VJunk | VNil | VNum (z : Z) | VObj (n : nat) | VMac48 (bytes : list Z) | VSat (a : sat_address).

(** A device: its class, members, and the callbacks for changes of the link, in order. *)
Record ndev := mkND { nd_class : dclass; nd_reg : reg -> dval; nd_change : list nat }.

(** As the constructors and the defaults of the attributes leave it (icarus-net-device.cc:40-64, ground-sta-net-device.cc:175-195,
    sat2ground-net-device.cc:159-172, sat-net-device.cc:41-64, 122-125); powers are in some unit. *)
Definition nd_new (c : dclass) : ndev :=
  mkND c (fun r => match r, c with
    | Rate, _ => VNum 1000000000
    | Mtu, _ => VNum 1500
    | IfIndex, _ => VJunk
    | TxPower, SatSide => VJunk
    | TxPower, _ => VNum 0
    | Address, GroundSta => VMac48 [0; 0; 0; 0; 0; 0]
    | Address, SatDown => VSat sat_default
    | Address, SatSide => VJunk
    | Remote, GroundSta => VSat sat_default
    | Remote, _ => VJunk
    | _, _ => VNil
    end) [].

Record nworld := mkNW { nw_dev : nat -> ndev; nw_gs : nat -> gs_channel; nw_ss : nat -> ss_channel }.

(** Calls.  The last four set attributes by name; the others of these names go through the calls above them. *)
Inductive ncall :=
| NRate (r : Z) | NQueue (q : option nat) | NIfIndex (i : Z) | NMtu (m : Z) | NNode (n : option nat)
| NReceive (cb : option nat) | NPromisc (cb : option nat) | NPower (p : Z) | NAddress (a : gen_address)
| NRemote (a : sat_address) | NRemoteAny (a : gen_address) | NOnChange (cb : nat) | NAttach (c : option nat) | NSendFrom
| NMacAttr (m : option nat) | NChanAttr (c : option nat) | NMacAddressAttr (b : list Z) | NSatAddressAttr (a : sat_address) | NRemoteAttr (a : sat_address).

Inductive nsignal := Changed (d cb : nat) | Retargeted (d : nat) (old new : sat_address).

Definition ptr (o : option nat) : dval := match o with None => VNil | Some n => VObj n end.
Definition nd_set (x : ndev) (r : reg) (v : dval) : ndev := mkND (nd_class x) (fun q => if reg_eqb q r then v else nd_reg x q) (nd_change x).
Definition nw_upd {B} (f : nat -> B) (n : nat) (v : B) (m : nat) : B := if (m =? n)%nat then v else f m.
Definition nw_put (w : nworld) (d : nat) (x : ndev) : nworld := mkNW (nw_upd (nw_dev w) d x) (nw_gs w) (nw_ss w).
Definition nw_set (w : nworld) (d : nat) (r : reg) (v : dval) : nworld := nw_put w d (nd_set (nw_dev w d) r v).

Section NetDev.
Variable h : host.
(** The type codes of Mac48Address and SatAddress. *)
Variables mac_type sat_type : Z.
(** The mobility model of each node; whether the inter-satellite channels have a success model. *)
Variable mob : nat -> mobility.
Variable success : option (nat -> nat -> bool).

(** Mac48Address::ConvertFrom (ns-3): [Address::CopyTo] copies all there is into an array of six bytes. *)
Definition mac_from (a : gen_address) : result (list Z) :=
  assert_ (check_compatible a mac_type 6) ;;
  if (length (ga_data a) =? 6)%nat then Ok (ga_data a) else UB.

(** m_linkChangeCallbacks (), with ConnectWithoutContext having added at the end. *)
Definition call_all (w : nworld) (d : nat) : list nsignal := map (Changed d) (nd_change (nw_dev w d)).

(** The node of a device, dereferenced. *)
Definition node_mob (x : ndev) : result mobility := match nd_reg x TheNode with VObj n => Ok (mob n) | _ => UB end.

(** GroundStaNetDevice::Attach (206-216), Sat2GroundNetDevice::Attach (182-191), SatNetDevice::Attach (176-189). *)
Definition nd_attach (w : nworld) (d : nat) (c : option nat) : result (nworld * list nsignal) :=
  let x := nw_dev w d in
  match nd_class x, c with
  | GroundSta, None => UB
  | GroundSta, Some i =>
      do m <- node_mob x ;
      do ch <- add_ground (nw_gs w i) d (match m with NoMobility => false | _ => true end) ;
      Ok (mkNW (nw_dev (nw_set w d Chan (VObj i))) (nw_upd (nw_gs w) i ch) (nw_ss w), call_all w d)
  | SatDown, _ => Ok (nw_set w d Chan (ptr c), call_all w d)
  | SatSide, None => UB
  | SatSide, Some i =>
      do m <- node_mob x ;
      do ch <- ss_attach success (fun _ => m) (nw_ss w i) d ;
      Ok (mkNW (nw_dev (nw_set w d Chan (VObj i))) (nw_gs w) (nw_upd (nw_ss w) i ch), call_all w d)
  end.

Definition quiet (w : nworld) : option (result (nworld * list nsignal)) := Some (Ok (w, [])).

(** [None]: the class has no such call.  Setting an attribute that a class does not have stops the program.
    - icarus-net-device.cc:132-138 SetDataRate, 148-154 SetQueue, 156-162 SetIfIndex, 180-188 SetMtu, 206-212 AddLinkChangeCallback,
      222-228 SetNode, 230-244 the callbacks, 258-264 SetTxPower; the "Channel" attribute 45-47;
    - sat-net-device.cc:140-145, 199-205, 238-244, 262-268 (SetAddress does nothing), 279-287, 305-311, 398-406, 416-446; "Channel" 46-48;
    - ground-sta-net-device.cc:253-259, 269-275 SetAddress, 293-311 SetRemoteAddress, 433-441 SendFrom; attributes 180-190;
    - sat2ground-net-device.cc:235-241 SetAddress, 372-380 SendFrom; attributes 164-169. *)
Definition nd_step (w : nworld) (d : nat) (o : ncall) : option (result (nworld * list nsignal)) :=
  let x := nw_dev w d in
  match o with
  | NRate r => quiet (nw_set w d Rate (VNum r))
  | NQueue q => quiet (nw_set w d TxQueue (ptr q))
  | NIfIndex i => quiet (nw_set w d IfIndex (VNum (u32 i)))
  | NMtu m => quiet (nw_set w d Mtu (VNum (u16 m)))
  | NNode n => quiet (nw_set w d TheNode (ptr n))
  | NReceive cb => quiet (nw_set w d Receive (ptr cb))
  | NPromisc cb => quiet (nw_set w d Promisc (ptr cb))
  | NPower p => match nd_class x with SatSide => None | _ => quiet (nw_set w d TxPower (VNum p)) end
  | NAddress a =>
      match nd_class x with
      | GroundSta => Some (do b <- mac_from a ; Ok (nw_set w d Address (VMac48 b), []))
      | SatDown => Some (do s <- convert_from h sat_type a ; Ok (nw_set w d Address (VSat s), []))
      | SatSide => quiet w
      end
  | NRemote a =>
      match nd_class x, nd_reg x Remote with
      | GroundSta, VSat r => Some (Ok (nw_set w d Remote (VSat a), if sat_neqb h r a then [Retargeted d r a] else []))
      | GroundSta, _ => Some UB
      | _, _ => None
      end
  | NRemoteAny b =>
      match nd_class x, nd_reg x Remote with
      | GroundSta, VSat r =>
          Some (do a <- convert_from h sat_type b ; Ok (nw_set w d Remote (VSat a), if sat_neqb h r a then [Retargeted d r a] else []))
      | GroundSta, _ => Some UB
      | _, _ => None
      end
  | NOnChange cb => quiet (nw_put w d (mkND (nd_class x) (nd_reg x) (nd_change x ++ [cb])))
  | NAttach c => Some (nd_attach w d c)
  | NSendFrom => quiet w
  | NMacAttr m => Some (match nd_class x with SatSide => Abort | _ => Ok (nw_set w d MacModel (ptr m), []) end)
  | NChanAttr c => quiet (nw_set w d Chan (ptr c))
  | NMacAddressAttr b => Some (match nd_class x with GroundSta => Ok (nw_set w d Address (VMac48 b), []) | _ => Abort end)
  | NSatAddressAttr a => Some (match nd_class x with SatDown => Ok (nw_set w d Address (VSat a), []) | _ => Abort end)
  | NRemoteAttr a => Some (match nd_class x with GroundSta => Ok (nw_set w d Remote (VSat a), []) | _ => Abort end)
  end.

(** A program: calls on devices, in order; what was signalled. *)
Fixpoint nd_run (w : nworld) (l : list (nat * ncall)) : option (result (nworld * list nsignal)) :=
  match l with
  | [] => Some (Ok (w, []))
  | (d, o) :: r =>
      match nd_step w d o with
      | None => None
      | Some (Ok (w1, s1)) =>
          match nd_run w1 r with
          | Some (Ok (w2, s2)) => Some (Ok (w2, s1 ++ s2))
          | x => x
          end
      | Some x => Some x
      end
  end.

(** * Questions *)

(** Members of integer type, read; one never written is indeterminate (GetDataRate, GetIfIndex, GetMtu, GetTxPower). *)
Definition nd_number (x : ndev) (r : reg) : result Z := match nd_reg x r with VNum z => Ok z | _ => UB end.
(** Members that are pointers (GetQueue, GetChannel, GetInternalChannel, GetNode). *)
Definition nd_object (x : ndev) (r : reg) : option nat := match nd_reg x r with VObj n => Some n | _ => None end.

(** IsLinkUp (icarus-net-device.cc:198-204, sat-net-device.cc:297-303) *)
Definition nd_link_up (x : ndev) : bool := match nd_object x Chan with Some _ => true | None => false end.

Definition mac_broadcast : gen_address := mkGen mac_type [255; 255; 255; 255; 255; 255].

(** GetAddress (ground-sta-net-device.cc:277-283, sat2ground-net-device.cc:243-249, sat-net-device.cc:270-277) *)
Definition nd_address (x : ndev) : result gen_address :=
  match nd_class x, nd_reg x Address with
  | GroundSta, VMac48 b => Ok (mkGen mac_type b)
  | SatDown, VSat a => Ok (convert_to h sat_type a)
  | SatSide, _ => Ok mac_broadcast
  | _, _ => UB
  end.
(** GetRemoteAddress (ground-sta-net-device.cc:285-291) *)
Definition nd_remote (x : ndev) : option (result gen_address) :=
  match nd_class x, nd_reg x Remote with
  | GroundSta, VSat a => Some (Ok (convert_to h sat_type a))
  | GroundSta, _ => Some UB
  | _, _ => None
  end.

(** GetBroadcast, GetMulticast: the empty address on the ground (ground-sta-net-device.cc:313-343; sat2ground-net-device.cc:251-284;
    sat-net-device.cc:321-354).  IsBroadcast (261-267; 225-233; 313-319), IsMulticast, IsBridge, IsPointToPoint (345-359; 286-300;
    356-370), NeedsArp and SupportsSendFrom (443-457; 382-396; 424-430, 448-454). *)
Definition nd_broadcast (c : dclass) : gen_address := match c with GroundSta => mkGen 0 [] | _ => mac_broadcast end.
Definition nd_is_broadcast (c : dclass) : bool := match c with SatDown => true | _ => false end.
Definition nd_is_multicast (c : dclass) : bool := false.
Definition nd_is_bridge (c : dclass) : bool := false.
Definition nd_is_p2p (c : dclass) : bool := match c with SatDown => false | _ => true end.
Definition nd_needs_arp (c : dclass) : bool := false.
Definition nd_supports_send_from (c : dclass) : bool := false.
Definition nd_send_from (c : dclass) : bool := false.

(** What Send and the transmission it starts dereference (ground-sta-net-device.cc:361-416, sat2ground-net-device.cc:302-350,
    sat-net-device.cc:147-158, 372-396): the queue; then, for a packet it accepts on an idle device, the MAC model on the ground and
    the channel, which between satellites must have both ends (sat2sat-channel.cc:115-116).  [size] is that of the packet, [room] whether the queue
    takes it.  The answer is that of Send. *)
Definition nd_send (w : nworld) (d : nat) (size : Z) (room idle : bool) : result bool :=
  let x := nw_dev w d in
  match nd_reg x TxQueue with
  | VObj _ =>
      if room && idle then
        match nd_class x, nd_reg x MacModel, nd_reg x Chan with
        | GroundSta, VObj _, VObj _ => Ok true
        | SatDown, _, VObj _ => Ok true
        | SatSide, _, VObj c => assert_ (ss_linked (nw_ss w c)) ;; Ok true
        | _, _, _ => UB
        end
      else Ok room
  | _ => UB
  end.

(** Who hears a frame of a device on its channel: on the ground side those in the list of the channel
    (ground-sat-channel.cc:139-168), between satellites the one that is taken for the other end (sat2sat-channel.cc:118-119). *)
Definition nd_heard_by (w : nworld) (d : nat) : list nat :=
  match nd_class (nw_dev w d), nd_object (nw_dev w d) Chan with
  | SatDown, Some c => gs_ground (nw_gs w c)
  | SatSide, Some c => match ss_src (nw_ss w c) with [a; b] => [if (d =? a)%nat then b else a] | _ => [] end
  | _, _ => []
  end.

(** The end of a reception: the promiscuous callback may be missing, the other may not (ground-sta-net-device.cc:236-251,
    sat2ground-net-device.cc:208-223, sat-net-device.cc:217-236). *)
Definition nd_pass_up (x : ndev) : result (list nat) :=
  let p := match nd_reg x Promisc with VObj n => [n] | _ => [] end in
  match nd_reg x Receive with VObj n => Ok (p ++ [n]) | _ => UB end.

(** * What the helpers do with a device *)

(** Node::AddDevice (ns-3): SetNode, SetIfIndex, SetReceiveCallback. *)
Definition add_device (n : nat) (index : Z) (cb : nat) : list ncall := [NNode (Some n); NIfIndex index; NReceive (Some cb)].
(** icarus-helper.cc:267-316: CreateDeviceForNode, then InstallPriv; [addr] is where the satellite was launched, or the address
    allocated. *)
Definition made_ground (m n : nat) (index : Z) (cb : nat) (addr : list Z) (q c : nat) : list ncall :=
  NMacAttr (Some m) :: NAddress (mkGen mac_type addr) :: add_device n index cb ++ [NQueue (Some q); NAttach (Some c)].
Definition made_sat (m n : nat) (index : Z) (cb : nat) (addr : sat_address) (q : nat) (c : option nat) : list ncall :=
  NMacAttr (Some m) :: add_device n index cb ++ [NAddress (convert_to h sat_type addr); NQueue (Some q); NAttach c].
(** isl-helper.cc:223-238 *)
Definition made_side (n : nat) (index : Z) (cb : nat) (q c : nat) : list ncall := add_device n index cb ++ [NQueue (Some q); NAttach (Some c)].
End NetDev.
