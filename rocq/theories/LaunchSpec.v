(** Walker constellation elements, in closed form. *)
From Coq Require Import ZArith QArith List Arith.
Import ListNotations.

Definition q (n : nat) : Q := inject_Z (Z.of_nat n).

(** The k-th satellite of a constellation of P planes with S satellites and phasing F. *)
Definition walker_node (P S k : nat) : Q := (q 360 * q (k / S) / q P)%Q.
Definition walker_phase (P S F k : nat) : Q :=
  (q 360 * q (k mod S) / q S + q (k / S) * (q 360 * q F / (q S * q P)))%Q.
