(** What CRDSA should do. *)
From Coq Require Import ZArith List Lia Bool.
From Verif Require Import Base RxModel RxSpec.
Import ListNotations.
Open Scope Z_scope.

(** A stored collision: when it ended and the packets in it. *)
Definition collision := (Z * list Z)%type.

(** [X] is closed under cancelling: whatever is the only packet missing from a collision is in it. *)
Definition cancel_closed (stored : list collision) (got X : Z -> Prop) : Prop :=
  forall c u, In c stored -> In u (snd c) -> ~ got u ->
    (forall v, In v (snd c) -> v <> u -> got v \/ X v) -> X u.

(** The packets that cancellation can recover: the least closed set. *)
Definition recoverable (stored : list collision) (got : Z -> Prop) (u : Z) : Prop :=
  forall X, cancel_closed stored got X -> X u.

(** [u] may be recovered next, once [got] have been passed up. *)
Definition only_missing (stored : list collision) (got : Z -> Prop) (u : Z) : Prop :=
  ~ got u /\ exists c, In c stored /\ In u (snd c) /\ forall v, In v (snd c) -> v <> u -> got v.

(** The frames received since the channel was last idle, from the schedule alone. *)
Fixpoint busy_frames (pending busy : list reception) (ops : list rx_op) : list reception :=
  match ops with
  | [] => busy
  | OStart t uid tx pow :: l =>
      let r := mkRx uid t (t + tx) pow in
      busy_frames (schedule r pending) (match pending with [] => [r] | _ => busy ++ [r] end) l
  | OFinish :: l => busy_frames (tl pending) busy l
  end.

(** How many replicas of a packet the schedule contains. *)
Definition replicas (u : Z) (ops : list rx_op) : nat :=
  length (filter (fun r => rx_uid r =? u) (receptions ops)).

(** How often [u] was passed up. *)
Definition times_up (u : Z) (log : list (reception * list Z)) : nat :=
  length (filter (Z.eqb u) (concat (map snd log))).
