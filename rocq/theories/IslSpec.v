(** The torus, as a graph on slots. *)
From Coq Require Import List Arith Bool.
Import ListNotations.
Open Scope nat_scope.

Definition slot : Type := (nat * nat)%type.

(** Ring neighbours on 0..n-1: different, one step apart modulo n. *)
Definition ring_neighbour (n a b : nat) : Prop :=
  a < n /\ b < n /\ a <> b /\ (b = (a + 1) mod n \/ a = (b + 1) mod n).

Definition torus_neighbour (P S : nat) (x y : slot) : Prop :=
  (fst x = fst y /\ fst x < P /\ ring_neighbour S (snd x) (snd y)) \/
  (snd x = snd y /\ snd x < S /\ ring_neighbour P (fst x) (fst y)).

(** How many links of a list join two given nodes, in either direction. *)
Definition joins (links : list (nat * nat)) (a b : nat) : nat :=
  length (filter (fun l => ((fst l =? a) && (snd l =? b)) || ((fst l =? b) && (snd l =? a))) links).

(** Number of ring neighbours. *)
Definition ring_degree (n : nat) : nat := match n with 0 => 0 | 1 => 0 | 2 => 1 | _ => 2 end.
