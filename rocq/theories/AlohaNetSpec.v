(** An Aloha uplink: which transmissions get through. *)
From Coq Require Import ZArith List Bool Arith.
From Verif Require Import Base RxModel RxSpec SystemModel SystemSpec SystemProps UplinkSpec CrdsaNetSpec.
Import ListNotations.
Open Scope Z_scope.

(** No frame reaches satellite [s] at the very instant at which another one ends there. *)
Definition no_touch (w : network) (s : nat) (ns : list note) : Prop :=
  forall a b, In a (beams w s ns) -> In b (beams w s ns) -> rx_start a <> rx_end b.

(** Packet [u] is transmitted towards [s], not lost, and overlaps no other frame there. *)
Definition clear (w : network) (s : nat) (ns : list note) (u : Z) : Prop :=
  exists b, In b (beams w s ns) /\ rx_uid b = u /\ forall c, In c (beams w s ns) -> c <> b -> ~ overlap b c.

(** Packet [u] is the only one transmitted towards [s] at its instant. *)
Definition alone (w : network) (s : nat) (ns : list note) (u : Z) : Prop := exists t, sent_together w s ns t = [u].
