(** What is claimed of several applications of one Poisson helper. *)
From Coq Require Import ZArith QArith List Bool Arith Sorted Permutation.
From Verif Require Import Base TrafficModel TrafficSpec SharedModel.
Import ListNotations.
Open Scope Z_scope.

(** When the next event of an application is due, if it has one. *)
Definition next_due (a : shared_app) (t : Z) : Prop :=
  match sa_state a with
  | Waiting => t = sa_start a
  | Running s => match oo_send s, oo_toggle s with
      | None, None => False
      | Some (u, _), None => t = u
      | None, Some (_, u, _) => t = u
      | Some (u, _), Some (_, u', _) => t = Z.min u u'
      end
  end.
(** The simulator runs events in order of time. *)
Definition first_due (f : shared) (i : nat) : Prop :=
  exists a t, nth_error (sh_apps f) i = Some a /\ next_due a t /\ forall b t', In b (sh_apps f) -> next_due b t' -> t <= t'.
Inductive in_time (ns_of : Q -> Z) (bits_of : Z -> Z -> Z) (packet : Z) (draws : nat -> Q) : shared -> list nat -> Prop :=
| in_time_nil : forall f, in_time ns_of bits_of packet draws f []
| in_time_cons : forall f i f' l, first_due f i -> shared_step ns_of bits_of packet draws f i = Ok f' ->
    in_time ns_of bits_of packet draws f' l -> in_time ns_of bits_of packet draws f (i :: l).

(** The traffic of an application that got the values with the numbers [part], in this order. *)
Definition own_traffic (ns_of : Q -> Z) (packet : Z) (draws : nat -> Q) (a : shared_app) (part : list nat) : Prop :=
  match sa_state a with
  | Waiting => part = []
  | Running s =>
      let gaps := fun n => ns_of (draws (nth n part O)) in
      exists k, (k <= length part <= k + 1)%nat /\ oo_sent s = departures gaps (sa_start a) k /\
        (forall i, (i < k)%nat -> room (sa_max a) packet i /\ leaves gaps (sa_start a) i <= oo_now s) /\
        ((oo_send s = None /\ oo_toggle s = None) -> ~ room (sa_max a) packet k) /\
        (~ (oo_send s = None /\ oo_toggle s = None) -> room (sa_max a) packet k /\ ((k < length part)%nat -> oo_now s <= leaves gaps (sa_start a) k))
  end.
