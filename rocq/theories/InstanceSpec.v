(** Which grid an instance of the strategy should use, read off the script alone. *)
From Coq Require Import ZArith List Bool Arith.
From Verif Require Import SetupModel SetupSpec.
Import ListNotations.
Open Scope nat_scope.

(** The first device asked for on a node is that of a station, on channel [c]. *)
Definition station_first (b : before) (cs : list call) (n c : nat) : Prop :=
  exists k cl, nth_error (marks (b_pos b) [] cs) k = Some (false, cl) /\ cl_node cl = n /\ cl_chan cl = Some c /\
    forall i x, i < k -> nth_error cs i = Some x -> cl_node x <> n.

(** The last node made is a station whose channel was last told of constellation [h]. *)
Definition last_serves (b : before) (t0 : nat) (l : list sop) (nodes h : nat) : Prop :=
  exists n c, nodes = S n /\ station_first b (calls 0 t0 l) n c /\ nth_error (told l []) c = Some (Some h).

(** The satellite at plane [p], place [i] of a constellation launched in order. *)
Definition stands (b : before) (plans : nat -> plan) (h : nat) (cs : list call) (p i n : nat) : Prop :=
  p < pl_P (plans h) /\ i < pl_S (plans h) /\ nth_error (sats_of b h cs) (p * pl_S (plans h) + i) = Some n.

(** Links of constellation [h] were asked for. *)
Definition linked (t0 : nat) (l : list sop) (h : nat) : Prop := exists cs ns, In (cs, ns, h) (asked [] 0 t0 l).
