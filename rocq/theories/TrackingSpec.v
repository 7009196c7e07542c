(** What following satellites in motion should come to. *)
From Coq Require Import Reals ZArith List.
From Verif Require Import OrbitModel.
Import ListNotations.

(** The angular speed that Kepler's third law gives a circular orbit, in radians per second. *)
Definition kepler_rate (r : R) : R := sqrt (big_g * earth_mass / r ^ 3)%R.

(** An upper bound on the speed of a satellite as seen from the ground, in metres per second: its own angular speed and
    that of the Earth, at the radius where the simulator sees it. *)
Definition top_speed (rs : R) (o : orbit) : R :=
  ((rs + (orbit_radius o - earth_radius)) * (kepler_rate (orbit_radius o) + earth_rotation))%R.

(** On or above the centre of the Earth, whichever sphere is used. *)
Definition flies (rs : R) (o : orbit) : Prop := (0 < orbit_radius o /\ 0 <= rs + (orbit_radius o - earth_radius))%R.

Open Scope Z_scope.

(** What a log of changes says at time [t]: the last change not after it. *)
Fixpoint at_time {X} (log : list (Z * X)) (t : Z) : option X :=
  match log with
  | [] => None
  | (s, x) :: l => match at_time l t with Some y => Some y | None => if s <=? t then Some x else None end
  end.

Section Visibility.
(** Which satellites there are, and when each can be seen. *)
Variable sats : list nat.
Variable above : Z -> nat -> bool.

(** [b] is the moment after [t] when [d], seen at [t], is lost. *)
Definition lost_at (t : Z) (d : nat) (b : Z) : Prop := t < b /\ above b d = false /\ forall u, t <= u < b -> above u d = true.

(** A predictor that is right to the tick, and knows of every loss. *)
Definition exact (next_at : Z -> nat -> option Z) : Prop := forall t d, In d sats -> above t d = true ->
  exists b, next_at t d = Some b /\ lost_at t d b.

(** One that cuts off the part of the answer below a tick: the satellite is lost within the tick after the answer. *)
Definition cut_off (next_at : Z -> nat -> option Z) : Prop := forall t d, In d sats -> above t d = true ->
  exists b, next_at t d = Some b /\ t <= b /\ (lost_at t d b \/ lost_at t d (b + 1)).

(** Some satellite can be seen all along [t0, T]. *)
Definition covered (t0 T : Z) : Prop := forall t, t0 <= t <= T -> exists d, In d sats /\ above t d = true.

(** One satellite after the other, each seen for as long as it serves, from [t0] until at least [T]. *)
Fixpoint serves (t0 : Z) (plan : list nat) (T : Z) : Prop :=
  match plan with
  | [] => T <= t0
  | d :: l => In d sats /\ exists e, (forall t, t0 <= t < e -> above t d = true) /\ serves e l T
  end.
End Visibility.
