(** The trivial MAC and Aloha. *)
From Coq Require Import ZArith List Lia Bool.
From Verif Require Import Base RxModel.
Import ListNotations.
Open Scope Z_scope.

(** ** Sending.  A MAC answers Send by a plan: for each transmission the instant at which transmit_callback
    runs and the instant at which finish_callback runs.  [tx] is the duration transmit_callback returns. *)
Definition tx_plan := list (Z * Z).

(** none-mac-model.cc:44-60 *)
Definition none_send (now tx : Z) : tx_plan := [(now, now + tx)].

(** now / slotDuration as an int64x64_t: GetHigh is the integer part, GetLow the first 64 bits of the
    fraction (ns-3's division is taken to be exact in these bits).  aloha-mac-model.cc:67 *)
Definition quotient_high (now d : Z) : Z := now / d.
Definition quotient_low (now d : Z) : Z := (now mod d) * 2 ^ 64 / d.

(** Time to the next multiple of [d].  aloha-mac-model.cc:63-73; also crdsa-mac-model.cc:169-178 *)
Definition time_to_next (d now : Z) : Z :=
  if 0 <? d then
    if 0 <? quotient_low now d then (quotient_high now d + 1) * d - now else 0
  else 0.

(** aloha-mac-model.cc:57-96 *)
Definition aloha_send (slot now tx : Z) : tx_plan :=
  let start := now + time_to_next slot now in [(start, start + tx)].

(** ** Receiving *)

(** none-mac-model.cc:62-77 *)
Definition none_mac : mac_rx unit :=
  mkMac (fun m _ => m) (fun m r => Ok (m, [rx_uid r])).

(** aloha-mac-model.h: m_busyPeriodPacketUid, m_busyPeriodFinishTime, m_busyPeriodCollision,
    m_busyPeriodInterferencePower.  The constructor (aloha-mac-model.cc:52) leaves the power unset; it is
    written before it is read, so [aloha_init] takes it as a parameter. *)
Record aloha := mkAloha { al_uid : option Z; al_finish : Z; al_coll : bool; al_power : Z }.
Definition aloha_init (garbage : Z) : aloha := mkAloha None 0 false garbage.

(** aloha-mac-model.cc:98-129 *)
Definition aloha_start (s : aloha) (r : reception) : aloha :=
  let now := rx_start r in
  let busy := match al_uid s with Some _ => true | None => false end in
  let s1 := if busy && (now <? al_finish s)
            then mkAloha (al_uid s) (al_finish s) true (al_power s + rx_pow r) else s in
  if negb busy || (al_finish s1 <=? rx_end r)
  then mkAloha (Some (rx_uid r)) (rx_end r) (al_coll s1) (if busy then al_power s1 else rx_pow r)
  else s1.

(** aloha-mac-model.cc:131-168.  [below p i] is [10 log10 (p / i) < SirThreshold]. *)
Definition aloha_finish (below : Z -> Z -> bool) (s : aloha) (r : reception) : result (aloha * list Z) :=
  let has_collided := al_coll s && below (rx_pow r) (al_power s - rx_pow r) in
  let s1 := match al_uid s with
            | Some u => if u =? rx_uid r then mkAloha None (rx_end r) false 0 else s
            | None => s end in
  Ok (s1, if has_collided then [] else [rx_uid r]).

Definition aloha_mac (below : Z -> Z -> bool) : mac_rx aloha := mkMac aloha_start (aloha_finish below).

(** SirThreshold = numeric_limits<double>::max() (aloha-mac-model.cc:45-48): for a positive interference the
    ratio is finite, hence below; for 0 it is infinite and for a negative one not a number, hence not below. *)
Definition no_capture (p i : Z) : bool := 0 <? i.
