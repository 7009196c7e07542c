(** Receptions as intervals. *)
From Coq Require Import ZArith List.
From Verif Require Import RxModel.
Import ListNotations.
Open Scope Z_scope.

(** The receptions that a schedule starts. *)
Definition receptions (ops : list rx_op) : list reception :=
  flat_map (fun o => match o with
    | OStart t uid tx pow => [mkRx uid t (t + tx) pow]
    | OFinish => [] end) ops.

(** Half-open intervals [start, end) that meet. *)
Definition overlap (a b : reception) : Prop := rx_start a < rx_end b /\ rx_start b < rx_end a.

(** Every frame lasts a positive time, and carries its own packet. *)
Definition sane (ops : list rx_op) : Prop :=
  Forall (fun r => rx_start r < rx_end r) (receptions ops).
Definition distinct (ops : list rx_op) : Prop := NoDup (map rx_uid (receptions ops)).

(** No replica starts while another replica of the same packet is still being received. *)
Fixpoint separate (pending : list reception) (ops : list rx_op) : Prop :=
  match ops with
  | [] => True
  | OStart t uid tx pow :: l =>
      Forall (fun r => rx_uid r <> uid) pending /\ separate (schedule (mkRx uid t (t + tx) pow) pending) l
  | OFinish :: l => separate (tl pending) l
  end.
