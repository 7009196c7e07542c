(** Elements of a Walker constellation in degrees, as real numbers. *)
From Coq Require Import Reals Arith.
From Flocq Require Import Core BinarySingleNaN.
From Verif Require Import Base DoubleModel DoubleSpec.
Open Scope R_scope.

Definition node_degrees (P S k : nat) : R := 360 * INR (k / S) / INR P.
Definition phase_degrees (P S F k : nat) : R := 360 * INR (k mod S) / INR S + INR (k / S) * (360 * INR F / (INR S * INR P)).
(** A number, and within [e] of [r]. *)
Definition about (x : double) (r e : R) : Prop := is_finite x = true /\ Rabs (real_of x - r) <= e.
(** Up to a thousand planes of up to a thousand satellites, with the phasings that are different. *)
Definition sizes (P S F : nat) : Prop := (0 < P <= 1000 /\ 0 < S <= 1000 /\ F <= P)%nat.
