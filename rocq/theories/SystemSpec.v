(** Reading what a whole run shows. *)
From Coq Require Import ZArith List Bool Arith.
From Verif Require Import Base SatAddrModel ConstellationModel DeviceModel DeviceSpec RxModel RxSpec SystemModel.
Import ListNotations.
Open Scope Z_scope.

Definition note_time (n : note) : Z :=
  match n with NGround t _ _ _ => t | NDrop t _ _ => t | NSat t _ _ => t | NUp t _ _ _ _ => t end.

(** What one station, and what one satellite, took part in. *)
Definition station_ops (g : nat) (ns : list note) : list gop :=
  flat_map (fun n => match n with NGround _ g' o _ => if (g' =? g)%nat then [o] else [] | _ => [] end) ns.
Definition station_events (g : nat) (ns : list note) : list gevent :=
  flat_map (fun n => match n with NGround _ g' _ ev => if (g' =? g)%nat then ev else [] | _ => [] end) ns.
Definition sat_ops (s : nat) (ns : list note) : list rx_op :=
  flat_map (fun n => match n with NSat _ s' o => if (s' =? s)%nat then [o] else [] | _ => [] end) ns.
Definition sat_ups (s : nat) (ns : list note) : list Z :=
  flat_map (fun n => match n with NUp _ s' u _ _ => if (s' =? s)%nat then [u] else [] | _ => [] end) ns.

(** Calls from outside: what was asked and what happened. *)
Definition asked (ops : list yop) : list (Z * nat * gop) :=
  flat_map (fun o => match o with
    | YSend t g u p => [(t, g, GSend u p)] | YRetarget t g a => [(t, g, GRetarget a)]
    | YPower t g p => [(t, g, GPower p)] | YNext => [] end) ops.
Definition happened (ns : list note) : list (Z * nat * gop) :=
  flat_map (fun n => match n with
    | NGround _ _ (GMac _) _ => [] | NGround t g o _ => [(t, g, o)] | _ => [] end) ns.

(** Packets handed to stations, anywhere. *)
Definition sent_uids (ops : list yop) : list Z :=
  flat_map (fun o => match o with YSend _ _ u _ => [u] | _ => [] end) ops.

(** The satellite a station points at after some calls. *)
Fixpoint pointing (a : sat_address) (ops : list gop) : sat_address :=
  match ops with [] => a | GRetarget b :: l => pointing b l | _ :: l => pointing a l end.

(** Station [g] starts transmitting [u] at [t]. *)
Definition transmits (ns : list note) (t : Z) (g : nat) (u : Z) : Prop := exists k tag, In (NGround t g (GMac k) [EAir u tag]) ns.

(** The calls that concern one station. *)
Definition orders (g : nat) (ops : list yop) : list gop :=
  map snd (filter (fun x => (snd (fst x) =? g)%nat) (asked ops)).

(** How often a packet was passed up, by any satellite; dropped by the channel. *)
Definition ups (u : Z) (ns : list note) : nat :=
  length (filter (fun n => match n with NUp _ _ v _ _ => v =? u | _ => false end) ns).
Definition lost (u : Z) (ns : list note) : nat :=
  length (filter (fun n => match n with NDrop _ _ v => v =? u | _ => false end) ns).

(** The MAC of a satellite passes up only what it received, not before the [bound] of that reception. *)
Definition honest {M} (rx : mac_rx M) (m0 : M) (bound : reception -> Z) : Prop :=
  forall ops st x up v, rx_run rx (rx_init m0) ops = Some (Ok st) -> sane ops -> In (x, up) (st_log st) -> In v up ->
    exists y, In y (receptions ops) /\ rx_uid y = v /\ bound y <= rx_end x.
