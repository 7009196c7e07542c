(** What traffic the helpers are asked for. *)
From Coq Require Import ZArith QArith Qround List Lia.
Import ListNotations.
Open Scope Z_scope.

(** ns-3 turns seconds into ns by cutting (older releases) or by rounding (newer ones). *)
Definition reads (ns_of : Q -> Z) : Prop :=
  (forall q, ns_of q = Qfloor (q * inject_Z (10 ^ 9))) \/ (forall q, ns_of q = Qfloor (q * inject_Z (10 ^ 9) + (1 # 2))).
(** Whole bits sent in a number of ns at a rate; the division in fixed point may lose one more. *)
Definition counts (bits_of : Z -> Z -> Z) : Prop := forall ns rate, 0 <= ns -> 0 <= rate ->
  0 <= bits_of ns rate /\ ns * rate / 10 ^ 9 - 1 <= bits_of ns rate <= ns * rate / 10 ^ 9.

(** When the [k]-th packet (from 0) leaves, with these gaps, from a start. *)
Fixpoint leaves (gaps : nat -> Z) (start : Z) (k : nat) : Z :=
  match k with O => start + gaps O | S k' => leaves gaps start k' + gaps (S k') end.
(** The first [k] of them. *)
Definition departures (gaps : nat -> Z) (start : Z) (k : nat) : list Z := map (leaves gaps start) (seq 0 k).

(** Consecutive elements of a list, the first after a start. *)
Fixpoint spaced (R : Z -> Z -> Prop) (from : Z) (l : list Z) : Prop :=
  match l with [] => True | t :: l => R from t /\ spaced R t l end.

(** The gap between two packets of some bits at a rate, with an interruption every [on] ns: never shorter than the bits take,
    less a ns; never longer by more than a ns and two bits for each interruption. *)
Definition gap_right (bits rate on t t' : Z) : Prop :=
  let g := t' - t in bits * 10 ^ 9 < rate * (g + 1) /\ rate * (g - 1) <= (bits + 2 * (g / on + 1)) * 10 ^ 9.

(** Whether a limit on the bytes (0: none) leaves room for packet [k], counted from 0. *)
Definition room (max packet : Z) (k : nat) : Prop := max = 0 \/ Z.of_nat k * packet < max.
