(** The URIs of the faces that the helpers make for the devices of a scenario (helper/icarus-helper.cc:485-566,
    helper/isl-helper.cc:398-457). *)
From Coq Require Import Ascii String ZArith List Bool Arith.
From Verif Require Import DeviceModel Base SatAddrModel AddrTextModel LaunchModel IslModel SetupModel.
Import ListNotations.
Open Scope nat_scope.

(** What NetDevice::GetAddress returns: an address tagged as one of 48 bits, or one tagged as a satellite's. *)
Inductive raw_address := AMac (m : Z) | ASat (a : sat_address).

(** Mac48Address::GetBroadcast. *)
Definition mac_broadcast : Z := 281474976710655%Z.

(** Of ns-3: Mac48Address::Allocate puts the lowest 48 bits of a counter in six bytes, most significant first, and the stream
    operator writes each as two digits, separated by colons. *)
Definition mac_byte (m : Z) (i : nat) : Z := (Z.shiftr m (8 * (5 - Z.of_nat i)) mod 256)%Z.
Definition mac_text (m : Z) : text :=
  flat_map (fun i => setw 2 "0" (hex_min 2 (mac_byte m i)) ++ [colon]) (seq 0 5) ++ setw 2 "0" (hex_min 2 (mac_byte m 5)).

(** constructFaceUri (icarus-helper.cc:487-499, isl-helper.cc:398-411): Mac48Address::IsMatchingType looks at the tag. *)
Definition construct_face_uri (a : raw_address) : text :=
  txt "netdev://" ++ match a with AMac m => txt "[" ++ mac_text m ++ txt "]" | ASat _ => [] end.

(** GroundStaNetDevice::GetAddress (ground-sta-net-device.cc:277-283), Sat2GroundNetDevice::GetAddress
    (sat2ground-net-device.cc:243-249). *)
Definition gs_address (d : sdevice) : raw_address :=
  match dv_kind_of d with KGround m => AMac m | KSat a => ASat a end.
(** SatNetDevice::GetAddress (sat-net-device.cc:270-277). *)
Definition isl_address : raw_address := AMac mac_broadcast.

(** The devices attached to a channel of a link, in order (sat2sat-channel.cc:82-92); Sat2SatChannel::GetDevice (149-156). *)
Fixpoint attached (c from : nat) (l : list isl_device) : list nat :=
  match l with
  | [] => []
  | e :: r => (if isl_chan e =? c then [from] else []) ++ attached c (S from) r
  end.
Definition get_device (links : list isl_device) (c i : nat) : result nat :=
  match nth_error (attached c 0 links) i with Some k => Ok k | None => Abort end.

(** isl-helper.cc:421-427: the first device of the channel, or the second if the first is on the same node. *)
Definition isl_remote (links : list isl_device) (k : nat) : result nat :=
  match nth_error links k with
  | None => UB
  | Some e =>
      do r <- get_device links (isl_chan e) 0 ;
      match nth_error links r with
      | None => UB
      | Some e0 => if isl_node e0 =? isl_node e then get_device links (isl_chan e) 1 else Ok r
      end
  end.

(** The local and the remote URI of the face made for a device: GroundStaNetDeviceCallback (icarus-helper.cc:501-526),
    Sat2GroundNetDeviceCallback (528-554), SatNetDeviceCallback (isl-helper.cc:413-449).  The rest of a face, its link service
    and the entry in the table of faces, is not kept; GroundStaTransport later rewrites the remote URI (DeviceModel). *)
Definition face_uris {A} (w : world A) (d : dev_ref) : result (text * text) :=
  match d with
  | RGs k =>
      match nth_error (sw_devs w) k with
      | None => UB
      | Some dv =>
          Ok (construct_face_uri (gs_address dv),
              match dv_kind_of dv with KGround _ => initial_uri | KSat _ => txt "netdev://[ff:ff:ff:ff:ff:ff]" end)
      end
  | RIsl k =>
      do r <- isl_remote (sw_links w) k ;
      match nth_error (sw_links w) r with
      | None => UB
      | Some _ => Ok (construct_face_uri isl_address, construct_face_uri isl_address)
      end
  end.
