(** The channels: ground to satellite (ground-sat-channel.cc) and between satellites (sat2sat-channel.cc). *)
From Coq Require Import ZArith List Lia Bool Arith.
From Verif Require Import Base SatAddrModel ConstellationModel.
Import ListNotations.
Open Scope Z_scope.

(** What a channel does with a frame: the drop trace, or a reception scheduled some time later at a device.
    The sender is given as its device reports it: a MAC address (a number) or a satellite address. *)
Inductive sender := SrcGround (mac : Z) | SrcSat (a : sat_address).
Inductive outcome :=
| Dropped (u : Z)
| AtSat (after : Z) (d : nat) (u rate : Z) (src : sender) (proto power : Z)
| AtGround (after : Z) (g : nat) (u rate : Z) (src : sender) (proto power : Z).

(** ground-sat-channel.h:75-85.  Ground devices are numbered apart from satellites. *)
Record gs_channel := mkGS { gs_con : option constellation; gs_ground : list nat }.
Definition gs_new : gs_channel := mkGS None [].

Section GroundSat.
Variable h : host.
(** Bytes transmission time at a rate, in ticks, of a packet (DataRate::CalculateBytesTxTime). *)
Variable tx_time : Z -> Z -> Z.
(** Propagation delay and loss between ground station and satellite now (both models are set by the helper),
    and the success model, if any, on (first argument, second argument) as the code calls it. *)
Variable delay : nat -> nat -> Z.
Variable loss : Z -> nat -> nat -> Z.
Variable success : option (nat -> nat -> bool).
(** The addresses devices report. *)
Variable ground_addr : nat -> Z.
Variable sat_addr : nat -> sat_address.

Definition gs_succeeds (g s : nat) : bool := match success with None => true | Some f => f g s end.

(** AddGroundDevice (73-81) *)
Definition add_ground (ch : gs_channel) (g : nat) (mobility : bool) : result gs_channel :=
  abort_unless mobility ;; Ok (mkGS (gs_con ch) (gs_ground ch ++ [g])).

(** SetConstellation (192-198) *)
Definition set_constellation (ch : gs_channel) (c : constellation) : gs_channel := mkGS (Some c) (gs_ground ch).

(** Transmit2Sat (94-137).  After the drop trace for a missing satellite the null pointer is used (119). *)
Definition transmit2sat (ch : gs_channel) (u rate : Z) (src : nat) (dst : sat_address) (proto power : Z)
  : result (Z * list outcome) :=
  match gs_con ch with
  | None => Ok (tx_time rate u, [Dropped u])
  | Some c =>
      do sat <- get_satellite_addr h c dst ;
      match sat with
      | None => UB
      | Some s =>
          if gs_succeeds src s then
            Ok (tx_time rate u, [AtSat (delay src s) s u rate (SrcGround (ground_addr src)) proto (loss power src s)])
          else Ok (tx_time rate u, [Dropped u])
      end
  end.

(** Transmit2Ground (139-168) *)
Fixpoint to_each (ground : list nat) (u rate : Z) (src : nat) (proto power : Z) : list outcome :=
  match ground with
  | [] => []
  | g :: l =>
      (if gs_succeeds g src then AtGround (delay g src) g u rate (SrcSat (sat_addr src)) proto (loss power g src)
       else Dropped u) :: to_each l u rate src proto power
  end.
Definition transmit2ground (ch : gs_channel) (u rate : Z) (src : nat) (proto power : Z) : list outcome :=
  to_each (gs_ground ch) u rate src proto power.

(** GetNDevices (170-175) *)
Definition gs_count (ch : gs_channel) : result nat :=
  match gs_con ch with
  | None => UB
  | Some c => do n <- get_size c ; Ok (n + length (gs_ground ch))%nat
  end.

(** GetDevice (177-191) *)
Inductive any_device := DSat (d : nat) | DGround (g : nat) | DNull.
Definition gs_device (ch : gs_channel) (i : nat) : result any_device :=
  do n <- gs_count ch ;
  abort_unless (i <? n)%nat ;;
  match gs_con ch with
  | None => UB
  | Some c =>
      do k <- get_size c ;
      if (i <? k)%nat then do s <- con_get c i ; Ok (match s with Some d => DSat d | None => DNull end)
      else match nth_error (gs_ground ch) (i - k) with Some g => Ok (DGround g) | None => Abort (* .at () throws *) end
  end.
End GroundSat.

(** * Between satellites *)

(** What mobility model the node of a device has. *)
Inductive mobility := NoMobility | OtherMobility | Orbit.

(** sat2sat-channel.h:55-80: the sources attached, in order; linked (IDLE) once there are two. *)
Record ss_channel := mkSS { ss_src : list nat; ss_linked : bool }.
Definition ss_new : ss_channel := mkSS [] false.

Section SatSat.
Variable tx_time : Z -> Z -> Z.
Variable delay : nat -> nat -> Z.
Variable success : option (nat -> nat -> bool).
Variable mob : nat -> mobility.

(** AttachNewSat (82-107).  On the second one the success model and the orbit of the second device are used. *)
Definition ss_attach (ch : ss_channel) (d : nat) : result ss_channel :=
  abort_unless (match mob d with NoMobility => false | _ => true end) ;;
  assert_ (length (ss_src ch) <? 2)%nat ;;
  let src := ss_src ch ++ [d] in
  if (length src =? 2)%nat then
    match success, mob d with
    | Some _, Orbit => Ok (mkSS src true)
    | _, _ => UB
    end
  else Ok (mkSS src (ss_linked ch)).

(** TransmitStart (109-140); the reception carries no sender. *)
Inductive ss_outcome := SSDropped (u : Z) | SSAt (after : Z) (d : nat) (u rate proto : Z).
Definition ss_transmit (ch : ss_channel) (u : Z) (src : nat) (rate proto : Z) : result (Z * list ss_outcome) :=
  assert_ (ss_linked ch) ;;
  match ss_src ch with
  | [a; b] =>
      let dst := if (src =? a)%nat then b else a in
      if match success with None => true | Some f => f src dst end then
        Ok (tx_time rate u, [SSAt (delay src dst) dst u rate proto])
      else Ok (tx_time rate u, [SSDropped u])
  | _ => UB
  end.

(** GetNDevices, GetDevice (142-156) *)
Definition ss_device (ch : ss_channel) (i : nat) : result nat :=
  abort_unless (i <? length (ss_src ch))%nat ;;
  match nth_error (ss_src ch) i with Some d => Ok d | None => UB end.

Fixpoint ss_attach_all (ch : ss_channel) (l : list nat) : result ss_channel :=
  match l with [] => Ok ch | d :: l' => do c1 <- ss_attach ch d ; ss_attach_all c1 l' end.
End SatSat.
