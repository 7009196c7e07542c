(** What is claimed of the slots chosen. *)
From Coq Require Import ZArith List Bool Arith.
From Coq Require Factorial.
From Verif Require Import Base CrdsaModel ShuffleModel.
Import ListNotations.
Open Scope nat_scope.

(** What can be drawn to shuffle [n] things, listed: the number at place [k] is one of [0 .. k + 1]. *)
Definition can_draw (n : nat) (ds : list nat) : Prop := length ds = n - 1 /\ forall k j, nth_error ds k = Some j -> j <= S k.
Fixpoint draws_from (i k : nat) : list (list nat) :=
  match k with
  | O => [[]]
  | S k' => flat_map (fun j => map (cons j) (draws_from (S i) k')) (seq 0 (S i))
  end.
Definition all_draws (n : nat) : list (list nat) := draws_from 1 (n - 1).
(** For [m] packets, one after the other. *)
Fixpoint all_rounds (n m : nat) : list (list (list nat)) :=
  match m with
  | O => [[]]
  | S m' => flat_map (fun d => map (cons d) (all_rounds n m')) (all_draws n)
  end.

(** A choice of [r] different slots of a frame of [n]. *)
Definition choice (n r : nat) (sel : list Z) : Prop := length sel = r /\ NoDup sel /\ forall k, In k sel -> (0 <= k < Z.of_nat n)%Z.

Definition picks_eqb (x : result (list (list Z))) (sels : list (list Z)) : bool :=
  match x with Ok y => if list_eq_dec (list_eq_dec Z.eq_dec) y sels then true else false | _ => false end.

(** In how many of the ways to draw the packets get the slots [sels]. *)
Definition ways (n : nat) (reps : list nat) (sels : list (list Z)) : nat :=
  length (filter (fun dss => picks_eqb (select_all (set_slots_per_frame n) reps dss) sels) (all_rounds n (length reps))).

(** The number of choices left open: of the slots not selected, in any order. *)
Definition others (n : nat) (reps : list nat) : nat := fold_right (fun r p => Factorial.fact (n - r) * p) 1 reps.

(** In how many of the ways to draw, slot [s] is among those of a packet with [r] replicas. *)
Definition uses (ids : list Z) (r : nat) (s : Z) (ds : list nat) : bool :=
  match select_all ids [r] [ds] with Ok [sel] => existsb (Z.eqb s) sel | _ => false end.
