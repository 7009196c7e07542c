(** Interests passed on from satellite to satellite: the faces on the inter-satellite devices of a node
    (helper/isl-helper.cc:413-449) and, between a face that gets an Interest and the face that sends it on, the strategy
    (fw/geotag-strategy.cpp).  All of it happens in the event that passes the packet up; the forwarder of NFD is taken as
    calling the strategy for each Interest that comes in.  Nacks and Data are not carried. *)
From Coq Require Import ZArith List Bool Arith.
From Verif Require Import Base SatAddrModel ConstellationModel IslModel GeoTagModel DeviceModel ChannelModel LinkModel IslNetSpec FaceModel FaceNetSpec.
Import ListNotations.
Open Scope Z_scope.

(** Continuing after an operation that may be impossible or fail. *)
Definition obind {A B} (m : option (result A)) (k : A -> option (result B)) : option (result B) :=
  match m with
  | Some (Ok a) => k a
  | Some Assert => Some Assert
  | Some Abort => Some Abort
  | Some UB => Some UB
  | None => None
  end.

(** The channels that installing pairs leaves (isl-helper.cc:204-238, model/sat2sat-channel.cc:82-107): channel [k] with
    the devices [2 k] and [2 k + 1] attached in this order, on satellites in orbit. *)
Definition installed_channel (k : nat) : result ss_channel :=
  ss_attach_all (Some (fun _ _ => true)) (fun _ => Orbit) ss_new [2 * k; 2 * k + 1]%nat.
Definition installed_net (tx : Z -> Z -> Z) (rate : nat -> Z) (delay : Z -> nat -> nat -> Z) (success : Z -> Z -> nat -> nat -> bool)
    (fits : nat -> list Z -> Z -> bool) : islnet :=
  IslNetSpec.mkIsl tx rate delay success
    (fun i => match installed_channel (i / 2) with Ok c => c | _ => ss_new end)
    (fun i => if Nat.even i then S i else Nat.pred i) fits.

Section Relay.
Variable w : islnet.
Variable ndn : Z.
(** The inter-satellite devices in the order they were created; device [i] of [w] is the [i]th. *)
Variable devs : list isl_device.
(** What the strategy asks for: time, Interest, node, face it came in on. *)
Variable react : Z -> Z -> nat -> face -> result (list action).

Local Notation world := (fworld (lstate (F := unit))).

(** What is seen: calls of faces and the simulator, what follows from them, and Interests that leave the
    inter-satellite links. *)
Inductive rnote :=
| RCall (c : fcall unit)
| RNet (f : fnote (knote unit))
| RGround (t : Z) (n : nat) (b : Z)
| RElse (t : Z) (n : nat) (b : Z)
| RNack (t : Z) (n : nat) (b : Z).

(** The device below a face on an inter-satellite link. *)
Fixpoint find_device (i : nat) (l : list isl_device) (n k : nat) : option nat :=
  match l with
  | [] => None
  | d :: r => if (isl_node d =? n)%nat && (isl_chan d =? k)%nat then Some i else find_device (S i) r n k
  end.

Definition relay_call (fw : world) (c : fcall unit) : option (result (world * list rnote)) :=
  obind (f_call (isl_l_step w) LSend isl_do link_up ndn fw c) (fun x => Some (Ok (fst x, RCall c :: map RNet (snd x)))).

Fixpoint relay_acts (fw : world) (t : Z) (n : nat) (b : Z) (acts : list action) : option (result (world * list rnote)) :=
  match acts with
  | [] => Some (Ok (fw, []))
  | a :: l =>
      obind match a with
            | SendInterest (IslFace k) =>
                match find_device 0 devs n k with
                | Some i => relay_call fw (FSend t i b)
                | None => Some UB
                end
            | SendInterest GroundFace => Some (Ok (fw, [RGround t n b]))
            | SendInterest _ => Some (Ok (fw, [RElse t n b]))
            | SendNoRouteNack _ => Some (Ok (fw, [RNack t n b]))
            | RejectPendingInterest => Some (Ok (fw, []))
            end
            (fun x => obind (relay_acts (fst x) t n b l) (fun y => Some (Ok (fst y, snd x ++ snd y))))
  end.

(** An Interest comes in. *)
Definition relay_in (fw : world) (t : Z) (n : nat) (f : face) (b : Z) : option (result (world * list rnote)) :=
  obind (Some (react t b n f)) (relay_acts fw t n b).

(** What the faces of an event got, one after the other. *)
Fixpoint relay_gots (fw : world) (fns : list (fnote (knote unit))) : option (result (world * list rnote)) :=
  match fns with
  | [] => Some (Ok (fw, []))
  | FGot t r b :: l =>
      match nth_error devs r with
      | None => Some UB
      | Some d =>
          obind (relay_in fw t (isl_node d) (IslFace (isl_chan d)) b)
            (fun x => obind (relay_gots (fst x) l) (fun y => Some (Ok (fst y, snd x ++ snd y))))
      end
  | FNote _ :: l => relay_gots fw l
  end.

(** An Interest from the ground comes in at a satellite; the next event. *)
Inductive rop := RIn (t : Z) (n : nat) (b : Z) | RNext.

Definition r_step (fw : world) (o : rop) : option (result (world * list rnote)) :=
  match o with
  | RIn t n b => if ready (fw_net fw) t then relay_in fw t n GroundFace b else None
  | RNext =>
      obind (f_call (isl_l_step w) LSend isl_do link_up ndn fw (FDo tt))
        (fun x => obind (relay_gots (fst x) (snd x)) (fun y => Some (Ok (fst y, (RCall (FDo tt) :: map RNet (snd x)) ++ snd y))))
  end.

Fixpoint r_run (fw : world) (ops : list rop) : option (result (world * list rnote)) :=
  match ops with
  | [] => Some (Ok (fw, []))
  | o :: l => obind (r_step fw o) (fun x => obind (r_run (fst x) l) (fun y => Some (Ok (fst y, snd x ++ snd y))))
  end.

Definition relay (ops : list rop) := r_run (fw_init (l_init (fun _ => tt))) ops.
End Relay.
