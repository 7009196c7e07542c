(** Receptions in slots. *)
From Coq Require Import ZArith List.
From Verif Require Import RxModel RxSpec PeelSpec.
Import ListNotations.
Open Scope Z_scope.

(** [slot r] is the slot in which frame [r] arrives.  The frames of a slot all overlap, different slots do not
    touch, and no packet is twice in the same slot. *)
Definition slotted (slot : reception -> Z) (ops : list rx_op) : Prop :=
  (forall a b, In a (receptions ops) -> In b (receptions ops) -> slot a = slot b -> rx_start a < rx_end b) /\
  (forall a b, In a (receptions ops) -> In b (receptions ops) -> slot a < slot b -> rx_end a < rx_start b) /\
  NoDup (map (fun r => (rx_uid r, slot r)) (receptions ops)).

(** The packets that arrive in each of the slots used. *)
Definition in_slot (slot : reception -> Z) (k : Z) (l : list reception) : list reception := filter (fun r => slot r =? k) l.
Definition slots_used (slot : reception -> Z) (l : list reception) : list Z := nodup Z.eq_dec (map slot l).
Definition slot_contents (slot : reception -> Z) (l : list reception) : list (list Z) :=
  map (fun k => packets (in_slot slot k l)) (slots_used slot l).

(** A packet belongs to one frame of the access scheme: slots are not shared between frames, and the frames of
    one packet arrive within [memory]. *)
Definition frame_slots (memory : Z) (frame : Z -> Z) (slot : reception -> Z) (l : list reception) : Prop :=
  (forall a b, In a l -> In b l -> slot a = slot b -> frame (rx_uid a) = frame (rx_uid b)) /\
  (forall a b, In a l -> In b l -> frame (rx_uid a) = frame (rx_uid b) -> rx_end a < rx_end b + memory).
