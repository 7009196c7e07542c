(** How far launched satellites may be from the elevation they should have. *)
From Coq Require Import Reals.
Open Scope R_scope.

(** Eight seconds of arc. *)
Definition clear_angle : R := 4 / 10 ^ 5.
