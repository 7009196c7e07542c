(** How long frames to satellites are under way. *)
From Coq Require Import ZArith List Bool Arith.
From Verif Require Import Base SatAddrModel DeviceModel RxModel SystemModel.
Import ListNotations.
Open Scope Z_scope.

(** The least multiple of [s] that is not less than [x]. *)
Definition whole_slots (s x : Z) : Z := - ((- x) / s) * s.

(** Station [g] accepts packet [u] at [t]. *)
Definition accepts (ns : list note) (t : Z) (g : nat) (u : Z) : Prop := exists p ev, In (NGround t g (GSend u p) ev) ns /\ In (EAccept u) ev.

(** Packet [u] waits in the queue of [g], or something is still to happen to it: it is to be transmitted, its transmission is to end, it is to
    arrive, its reception is to end. *)
Definition about (u : Z) (e : event) : Prop :=
  match e with
  | VAir _ j => job_uid j = u
  | VDone _ j => job_uid j = u
  | VArrive _ v _ _ _ _ => v = u
  | VFinish _ r _ _ => rx_uid r = u
  end.
Definition up_under_way {M} (y : @sys M) (g : nat) (u : Z) : Prop := In u (g_queue (y_ground y g)) \/ exists t e, In (t, e) (y_queue y) /\ about u e.

(** What a station accepted is over after [d]: all its copies are received or lost. *)
Definition up_over {M} (d : Z) (y : @sys M) (ns : list note) : Prop := forall t g u, accepts ns t g u -> up_under_way y g u -> y_now y <= t + d.

(** What a station accepted is over after [d], and passed up not later than that. *)
Definition up_within {M} (d : Z) (y : @sys M) (ns : list note) : Prop := forall t g u, accepts ns t g u ->
  (up_under_way y g u -> y_now y <= t + d) /\ forall tm s src proto, In (NUp tm s u src proto) ns -> t <= tm <= t + d.
