(** The geo-tag forwarding strategy (fw/geotag-strategy.cpp). *)
From Coq Require Import ZArith List Lia Bool Arith.
From Verif Require Import Base SatAddrModel ConstellationModel.
Import ListNotations.
Open Scope Z_scope.

(** (int) x for an unsigned value (two's complement). *)
Definition c_int (x : Z) : Z := (x + 2147483648) mod 4294967296 - 2147483648.

(** enum Target (geotag-strategy.hpp:69). *)
Inductive target := SEND_TO_GROUND | NEXT_PLANE | PREVIOUS_PLANE | NEXT_SAT | PREVIOUS_SAT.

(** GeoTagStrategy::getTarget (geotag-strategy.cpp:306-351).  uint16_t differences are int; the
    divisions by two truncate as in C. *)
Definition get_target (nPlanes planeSize plane pindex this_plane this_pindex : Z) : target :=
  if plane =? this_plane then
    if pindex =? this_pindex then SEND_TO_GROUND
    else
      let dif := pindex - this_pindex in
      if dif >? 0 then
        if dif <=? Z.quot (c_int planeSize) 2 then NEXT_SAT else PREVIOUS_SAT
      else
        if dif >=? Z.quot (- c_int planeSize) 2 then PREVIOUS_SAT else NEXT_SAT
  else
    let dif := plane - this_plane in
    if dif >? 0 then
      if dif <=? Z.quot (c_int nPlanes) 2 then NEXT_PLANE else PREVIOUS_PLANE
    else
      if dif >=? Z.quot (- c_int nPlanes) 2 then PREVIOUS_PLANE else NEXT_PLANE.

(** Faces of a node by their transport: the face to the ground (Sat2GroundTransport), a face on an
    inter-satellite device (NetDeviceTransport over the device on channel [k]), a face on some other
    net device of the node, and faces with any other transport (applications, GroundStaTransport). *)
Inductive face :=
| GroundFace
| IslFace (k : nat)
| NetFace (n : nat)
| OtherFace (n : nat).

Definition face_eqb (a b : face) : bool :=
  match a, b with
  | GroundFace, GroundFace => true
  | IslFace k, IslFace l => Nat.eqb k l
  | NetFace k, NetFace l => Nat.eqb k l
  | OtherFace k, OtherFace l => Nat.eqb k l
  | _, _ => false
  end.

(** Link types: ndn/sat2ground-transport.h and ndn/ground-sta-transport.h default to ad hoc; the
    ISL faces are point to point (helper/isl-helper.cc:413-449).  [OtherFace] is taken as point to
    point, which is what application faces are. *)
Definition ad_hoc (f : face) : bool := match f with GroundFace => true | _ => false end.

(** The network as seen by the strategy: the address of device 0 of a node ([None] if that device
    is not a satellite-to-ground device), the two ends of each inter-satellite channel in attachment
    order, and the dimensions read by the constructor (geotag-strategy.cpp:77-83). *)
Record network := mkNet {
  nw_addr : dev -> option sat_address;
  nw_links : list (dev * dev);
  nw_planes : Z;
  nw_size : Z }.

(** GeoTagStrategy::getNetDevice (geotag-strategy.cpp:253-272): whether the result is not null. *)
Definition has_net_device (f : face) : bool :=
  match f with OtherFace _ => false | _ => true end.

(** GeoTagStrategy::getRemoteNetDevice (geotag-strategy.cpp:274-295): node of the returned device.
    The null result of getNetDevice is dereferenced. *)
Definition remote_node (nw : network) (self : dev) (f : face) : result dev :=
  match f with
  | OtherFace _ => UB
  | GroundFace | NetFace _ => Ok self
  | IslFace k =>
      match nth_error (nw_links nw) k with
      | None => UB
      | Some (a, b) => Ok (if Nat.eqb a self then b else a)
      end
  end.

(** GeoTagStrategy::getSatAddress (geotag-strategy.cpp:297-304); SatAddress::ConvertFrom asserts on
    addresses of another type. *)
Definition sat_address_of (nw : network) (self : dev) (f : face) : result sat_address :=
  do n <- remote_node nw self f ;
  match nw_addr nw n with Some a => Ok a | None => Assert end.

(** RetxSuppressionResult, decided by NFD. *)
Inductive suppression := NEW | FORWARD | SUPPRESS.

(** A received Interest and what NFD knows about its PIT entry: the tag (converted to uint16_t), the
    incoming face, the suppression decision, per face the (last renewed, expiry) of its out-record, the faces
    whose use would violate the name's scope, and the current time. *)
Record request := mkReq {
  rq_tag : option (Z * Z * Z);
  rq_ingress : face;
  rq_sup : suppression;
  rq_out : face -> option (Z * Z);
  rq_scope : face -> bool;
  rq_now : Z }.

(** NFD isNextHopEligible (fw/algorithm.cpp): not back to the incoming face unless ad hoc, no scope
    violation and, when [unused] is asked, no unexpired out-record. *)
Definition eligible (rq : request) (f : face) : bool :=
  negb (face_eqb f (rq_ingress rq) && negb (ad_hoc f)) && negb (rq_scope rq f).
Definition eligible_unused (rq : request) (f : face) : bool :=
  eligible rq f &&
  match rq_out rq f with Some (_, expiry) => expiry <=? rq_now rq | None => true end.

(** NFD findEligibleNextHopWithEarliestOutRecord (fw/best-route / algorithm.cpp). *)
Fixpoint earliest (rq : request) (best : option (face * Z)) (l : list face) : result (option (face * Z)) :=
  match l with
  | [] => Ok best
  | f :: r =>
      if eligible rq f then
        match rq_out rq f with
        | None => Assert
        | Some (t, _) =>
            match best with
            | Some (_, b) => if t <? b then earliest rq (Some (f, t)) r else earliest rq best r
            | None => earliest rq (Some (f, t)) r
            end
        end
      else earliest rq best r
  end.

(** What the strategy asks of the forwarder. *)
Inductive action :=
| SendInterest (f : face)
| SendNoRouteNack (f : face)
| RejectPendingInterest.

(** std::find_if with a predicate that can fail. *)
Fixpoint rfind {A} (p : A -> result bool) (l : list A) : result (option A) :=
  match l with
  | [] => Ok None
  | x :: r => do b <- p x ; if b then Ok (Some x) else rfind p r
  end.

(** The five predicates (geotag-strategy.cpp:141-176); [m mod 0] is undefined. *)
Definition cmod (x m : Z) : result Z := if m =? 0 then UB else Ok (x mod m).

Definition face_matches (nw : network) (h : host) (self : dev) (t : target) (plane_this pindex_this : Z)
    (f : face) : result bool :=
  do a <- sat_address_of nw self f ;
  match t with
  | SEND_TO_GROUND => Ok ((get_plane h a =? plane_this) && (get_index h a =? pindex_this))
  | NEXT_PLANE =>
      do m <- cmod (plane_this + 1) (nw_planes nw) ; Ok (get_plane h a =? m)
  | PREVIOUS_PLANE =>
      do m <- cmod (nw_planes nw + plane_this - 1) (nw_planes nw) ; Ok (get_plane h a =? m)
  | NEXT_SAT =>
      if get_plane h a =? plane_this then
        do m <- cmod (pindex_this + 1) (nw_size nw) ; Ok (get_index h a =? m)
      else Ok false
  | PREVIOUS_SAT =>
      if get_plane h a =? plane_this then
        do m <- cmod (nw_size nw + pindex_this - 1) (nw_size nw) ; Ok (get_index h a =? m)
      else Ok false
  end.

Definition send_or_nack (rq : request) (it : option face) : list action :=
  match it with
  | None => [SendNoRouteNack (rq_ingress rq); RejectPendingInterest]
  | Some f => [SendInterest f]
  end.

(** GeoTagStrategy::afterReceiveInterest (geotag-strategy.cpp:93-244). *)
Definition after_receive_interest (nw : network) (h : host) (self : dev) (nexthops : list face)
    (rq : request) : result (list action) :=
  match rq_sup rq with
  | SUPPRESS => Ok []
  | sup =>
      match rq_tag rq, has_net_device (rq_ingress rq) with
      | Some (_, plane, pindex), true =>
          match nw_addr nw self with
          | None => UB
          | Some this =>
              let nhs := filter (eligible rq) nexthops in
              let t := get_target (nw_planes nw) (nw_size nw) plane pindex
                         (get_plane h this) (get_index h this) in
              do it <- rfind (face_matches nw h self t (get_plane h this) (get_index h this)) nhs ;
              Ok (send_or_nack rq it)
          end
      | _, _ =>
          match sup with
          | NEW => Ok (send_or_nack rq (find (eligible rq) nexthops))
          | _ =>
              match find (eligible_unused rq) nexthops with
              | Some f => Ok [SendInterest f]
              | None =>
                  do e <- earliest rq None nexthops ;
                  match e with
                  | Some (f, _) => Ok [SendInterest f]
                  | None => Ok []
                  end
              end
          end
      end
  end.
