(** The nearest of launched satellites. *)
From Coq Require Import Reals List.
From Verif Require Import Base OrbitModel OrbitSpec ConstellationModel.
Open Scope R_scope.

(** [d] was launched, and no satellite launched is nearer than it by more than [e]; [at_ k] is where the [k]-th is. *)
Definition nearest_launched (e : R) (ds : list dev) (at_ : nat -> vec) (ground : vec) (d : dev) : Prop :=
  exists k, nth_error ds k = Some d /\ forall j, (j < length ds)%nat -> distance (at_ k) ground <= distance (at_ j) ground + e.
