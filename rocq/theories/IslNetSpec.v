(** Pairs of satellites linked by a channel. *)
From Coq Require Import ZArith List Bool Arith.
From Verif Require Import Base SatAddrModel DeviceModel DeviceSpec ChannelModel LinkModel LinkSpec.
Import ListNotations.
Open Scope Z_scope.

(** [w_peer]: the device at the other end. *)
Record islnet := mkIsl {
  w_tx : Z -> Z -> Z;                       (* rate, packet: transmission time *)
  w_rate : nat -> Z;
  w_delay : Z -> nat -> nat -> Z;           (* time, sender, receiver *)
  w_success : Z -> Z -> nat -> nat -> bool; (* time, packet, sender, receiver *)
  w_channel : nat -> ss_channel;
  w_peer : nat -> nat;
  w_fits : nat -> list Z -> Z -> bool }.

Definition w_run (w : islnet) := isl_run (w_tx w) (w_rate w) (w_delay w) (w_success w) (w_channel w) (w_fits w) (l_init (fun _ => tt)).

(** Each device is on one channel, with its peer only, in either order. *)
Record w_linked (w : islnet) : Prop := {
  ws_tx : forall r u, 0 <= w_tx w r u;
  ws_delay : forall t i j, 0 <= w_delay w t i j;
  ws_peer : forall i, w_peer w (w_peer w i) = i;
  ws_channel : forall i, w_channel w i = mkSS [i; w_peer w i] true \/ w_channel w i = mkSS [w_peer w i; i] true }.

(** The frame of a transmission at the peer. *)
Definition w_frame (w : islnet) (s : sending) : flight :=
  let i := sd_from s in let j := w_peer w i in
  mkFlight i j (sd_uid s) (sd_proto s) (sd_time s + w_delay w (sd_time s) i j) (w_tx w (w_rate w i) (sd_uid s)).
Definition w_reaches (w : islnet) (s : sending) : bool := w_success w (sd_time s) (sd_uid s) (sd_from s) (w_peer w (sd_from s)).

(** Transmissions of one device. *)
Definition sent_by (i : nat) (ns : list (knote unit)) : list sending := filter (fun s => (sd_from s =? i)%nat) (sendings ns).
Definition passed_at (r : nat) (ns : list (knote unit)) : list flight := filter (fun f => (fl_to f =? r)%nat) (passed ns).

(** A transmission that starts after another has ended also arrives, to the last bit, after it. *)
Definition no_overtaking (w : islnet) : Prop := forall i t t' u v, let j := w_peer w i in
  t + w_tx w (w_rate w i) u <= t' ->
  t + w_delay w t i j + w_tx w (w_rate w i) u < t' + w_delay w t' i j + w_tx w (w_rate w i) v.
