(** How long frames are under way. *)
From Coq Require Import ZArith List Bool Arith.
From Verif Require Import Base DeviceModel DeviceSpec LinkModel LinkSpec.
Import ListNotations.
Open Scope Z_scope.

(** Queues with room for [n] packets: DropTailQueue with MaxSize [n]p. *)
Definition holds_up_to (n : nat) (fits : list Z -> Z -> bool) : Prop := forall q u, fits q u = true -> (List.length q < n)%nat.

Section Reading.
Context {F : Type}.
(** Packet [u] of device [i] waits in its queue, flies, or is being received. *)
Definition under_way (y : @lstate F) (i : nat) (u : Z) : Prop :=
  In u (s_queue (l_dev y i)) \/ exists f, In f (flying (l_queue y) ++ arriving (l_queue y)) /\ fl_src f = i /\ fl_uid f = u.

(** What device [i] accepted, each packet once, is over after [d]: not under way any more, and passed up not later than that. *)
Definition over_within (d : Z) (i : nat) (y : @lstate F) (ns : list (knote F)) : Prop :=
  NoDup (map snd (requests (dev_events i ns))) -> forall t u, In (t, u) (requests (dev_events i ns)) ->
    (under_way y i u -> l_now y <= t + d) /\ forall tm f, In (KUp tm f) ns -> fl_src f = i -> fl_uid f = u -> t <= tm <= t + d.
End Reading.
