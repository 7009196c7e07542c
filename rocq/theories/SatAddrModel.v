(** Satellite addresses (utils/sat-address.cc) and the per-packet tags that carry them. *)
From Coq Require Import ZArith List Lia Bool.
From Verif Require Import Base.
Import ListNotations.
Open Scope Z_scope.

(** Host byte order.  The code is written with htons/ntohs/memcpy, so both are modelled. *)
Inductive host := LittleEndian | BigEndian.

(** htons/ntohs on a 16-bit value (used at sat-address.cc:57-59, 121, 129, 137). *)
Definition htons (h : host) (x : Z) : Z :=
  match h with
  | LittleEndian => (x mod 256) * 256 + x / 256
  | BigEndian => x
  end.
Definition ntohs := htons.

(** The two bytes of a uint16_t in memory, and back: memcpy of 2 bytes (sat-address.cc:70-72, 82-84). *)
Definition mem16 (h : host) (v : Z) : list Z :=
  match h with
  | LittleEndian => [v mod 256; v / 256]
  | BigEndian => [v / 256; v mod 256]
  end.
Definition of_mem16 (h : host) (b0 b1 : Z) : Z :=
  match h with
  | LittleEndian => b0 + 256 * b1
  | BigEndian => 256 * b0 + b1
  end.

(** The three stored fields, in network order as the object keeps them (sat-address.h members). *)
Record sat_address := mkSat { raw_constellation : Z; raw_plane : Z; raw_index : Z }.

(** SatAddress::SatAddress () (sat-address.cc:52-54). *)
Definition sat_default : sat_address := mkSat 0 0 0.

(** SatAddress::SatAddress (uint16_t, uint16_t, uint16_t) (sat-address.cc:56-61); arguments are
    converted to uint16_t by the call. *)
Definition sat_make (h : host) (c p i : Z) : sat_address :=
  mkSat (htons h (u16 c)) (htons h (u16 p)) (htons h (u16 i)).

(** getConstellationId, getOrbitalPlane, getPlaneIndex (sat-address.cc:116-138). *)
Definition get_constellation h a := ntohs h (raw_constellation a).
Definition get_plane h a := ntohs h (raw_plane a).
Definition get_index h a := ntohs h (raw_index a).

(** SatAddress::CopyTo (sat-address.cc:87-95). *)
Definition copy_to (h : host) (a : sat_address) : list Z :=
  mem16 h (raw_constellation a) ++ mem16 h (raw_plane a) ++ mem16 h (raw_index a).

(** SatAddress::CopyFrom (sat-address.cc:77-85).  The parameter is an array of WIRE_SIZE = 6 bytes;
    reading a shorter one is undefined. *)
Definition copy_from (h : host) (b : list Z) : result sat_address :=
  match b with
  | b0 :: b1 :: b2 :: b3 :: b4 :: b5 :: _ =>
      Ok (mkSat (of_mem16 h b0 b1) (of_mem16 h b2 b3) (of_mem16 h b4 b5))
  | _ => UB
  end.

(** ns-3 generic Address: a type code and up to 20 bytes. *)
Record gen_address := mkGen { ga_type : Z; ga_data : list Z }.

(** ns-3 Address::CheckCompatible (type, len). *)
Definition check_compatible (a : gen_address) (ty : Z) (len : Z) : bool :=
  ((Z.of_nat (length (ga_data a)) =? len) && (ga_type a =? ty))
  || ((len <=? Z.of_nat (length (ga_data a))) && (ga_type a =? 0)).

(** SatAddress::ConvertTo (sat-address.cc:63-75); [ty] is the type code registered by GetType. *)
Definition convert_to (h : host) (ty : Z) (a : sat_address) : gen_address :=
  mkGen ty (mem16 h (raw_constellation a) ++ mem16 h (raw_plane a) ++ mem16 h (raw_index a)).

(** SatAddress::ConvertFrom (sat-address.cc:97-114). *)
Definition convert_from (h : host) (ty : Z) (a : gen_address) : result sat_address :=
  assert_ (check_compatible a ty 6) ;;
  assert_ (Z.of_nat (length (ga_data a)) =? 6) ;;
  match ga_data a with
  | b0 :: b1 :: b2 :: b3 :: b4 :: b5 :: _ =>
      Ok (sat_make h (u16 (b0 * 256 + b1)) (u16 (b2 * 256 + b3)) (u16 (b4 * 256 + b5)))
  | _ => UB
  end.

(** operator== and operator!= (sat-address.cc:140-153). *)
Definition sat_eqb (h : host) (a b : sat_address) : bool :=
  (get_constellation h a =? get_constellation h b)
  && (get_plane h a =? get_plane h b)
  && (get_index h a =? get_index h b).
Definition sat_neqb h a b := negb (sat_eqb h a b).

(** * Packet tags *)

(** ns-3 TagBuffer over a buffer of fixed size: bytes already produced (or still to consume) and
    the room left.  Writing past the end fails an assertion in ns-3. *)
Definition tb_write (room : Z) (out : list Z) (bs : list Z) : result (Z * list Z) :=
  if Z.of_nat (length bs) <=? room
  then Ok (room - Z.of_nat (length bs), out ++ bs) else Assert.

Fixpoint tb_take (n : nat) (bs : list Z) : result (list Z * list Z) :=
  match n with
  | O => Ok ([], bs)
  | S m => match bs with
           | [] => Assert
           | b :: r => do (x, r') <- tb_take m r ; Ok (b :: x, r')
           end
  end.

(** TagBuffer::WriteU16 stores the low byte first; WriteDouble copies the eight bytes of the double.
    A double is modelled by its 64-bit pattern, as eight bytes. *)
Definition u16_bytes (x : Z) : list Z := [x mod 256; (x / 256) mod 256].

(** GroundSatTag fields (ground-sta-net-device.cc:119-122). *)
Record ground_tag := mkGTag { gt_dst : sat_address; gt_proto : Z; gt_power : list Z }.

(** GroundSatTag::GetSerializedSize (ground-sta-net-device.cc:142-146). *)
Definition ground_tag_size : Z := 8 + 8 + 2 + 8.

(** GroundSatTag::Serialize (ground-sta-net-device.cc:147-155). *)
Definition ground_tag_serialize (h : host) (t : ground_tag) : result (list Z) :=
  do (room1, o1) <- tb_write ground_tag_size [] (copy_to h (gt_dst t)) ;
  do (room2, o2) <- tb_write room1 o1 (u16_bytes (gt_proto t)) ;
  do (room3, o3) <- tb_write room2 o2 (gt_power t) ;
  Ok (o3 ++ repeat 0 (Z.to_nat room3)).

(** GroundSatTag::Deserialize (ground-sta-net-device.cc:156-165). *)
Definition ground_tag_deserialize (h : host) (bs : list Z) : result ground_tag :=
  do (mac, r1) <- tb_take 6 bs ;
  do dst <- copy_from h mac ;
  do (pr, r2) <- tb_take 2 r1 ;
  do (pw, r3) <- tb_take 8 r2 ;
  Ok (mkGTag dst (nth 0 pr 0 + 256 * nth 1 pr 0) pw).

(** SatGroundTag (sat2ground-net-device.cc:100-146): the destination is a Mac48Address that is
    never set, six zero bytes. *)
Record sat_tag := mkSTag { st_dst : list Z; st_proto : Z; st_power : list Z }.
Definition sat_tag_size : Z := 8 + 8 + 2 + 8.

Definition sat_tag_serialize (t : sat_tag) : result (list Z) :=
  do (room1, o1) <- tb_write sat_tag_size [] (st_dst t) ;
  do (room2, o2) <- tb_write room1 o1 (u16_bytes (st_proto t)) ;
  do (room3, o3) <- tb_write room2 o2 (st_power t) ;
  Ok (o3 ++ repeat 0 (Z.to_nat room3)).

Definition sat_tag_deserialize (bs : list Z) : result sat_tag :=
  do (mac, r1) <- tb_take 6 bs ;
  do (pr, r2) <- tb_take 2 r1 ;
  do (pw, r3) <- tb_take 8 r2 ;
  Ok (mkSTag mac (nth 0 pr 0 + 256 * nth 1 pr 0) pw).
