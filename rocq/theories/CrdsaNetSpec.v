(** A slotted uplink: CRDSA or Aloha stations whose frames, whatever the distance, arrive inside the slot. *)
From Coq Require Import ZArith List Bool Arith Permutation.
From Verif Require Import Base DeviceModel RxModel RxSpec CrdsaModel SystemModel SystemSpec SystemProps UplinkSpec.
Import ListNotations.
Open Scope Z_scope.

(** All stations use frames of [n] slots of length [slot]; with slotted Aloha, of one slot.  [base s] is the shortest delay to satellite [s], and all
    delays to it are within [spread] of that.  Frames last longer than [spread] and leave a guard time of
    [spread] in the slot. *)
Record guarded (w : network) (slot : Z) (n : nat) (base : nat -> Z) (spread : Z) : Prop := mkGuard {
  gu_slot : 0 < slot;
  gu_size : slot * Z.of_nat n < 2 ^ 63;
  gu_mac : match w_mac w with
           | TxCrdsa d slots repl => d = slot /\ forall g u, Permutation (slots g u) (set_slots_per_frame n) /\ (1 <= repl g u <= n)%nat
           | TxAloha d => d = slot /\ n = 1%nat
           | TxNone => False
           end;
  gu_delay : forall t g s, base s <= w_delay w t g s <= base s + spread;
  gu_fit : forall g u, spread < w_tx w (w_rate w g) u /\ w_tx w (w_rate w g) u + spread < slot;
  gu_power : forall t p g s, 0 < w_loss w t p g s }.

(** The packets that stations transmit at the same instant towards satellite [s], without those that the channel
    loses; one list for each instant. *)
Definition sent_together (w : network) (s : nat) (ns : list note) (t : Z) : list Z :=
  map rx_uid (beams w s (filter (fun n => note_time n =? t) ns)).
Definition meetings (w : network) (s : nat) (ns : list note) : list (list Z) := map (sent_together w s ns) (map note_time ns).
