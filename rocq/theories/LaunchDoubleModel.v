(** Launching satellites with IEEE 754 doubles (constellation-helper.cc:52-109): [LaunchModel] with its third arithmetic, the doubles of
    Flocq.  Angles are in degrees as in the helper; [LaunchSat] gets them in radians. *)
From Coq Require Import ZArith.
From Flocq Require Import Core BinarySingleNaN.
From Verif Require Import Base DoubleModel LaunchModel.

Definition doubles : angles double := {|
  a_zero := dint 0;
  a_of_nat := fun n => dint (Z.of_nat n);
  a_add := dadd; a_mul := dmul; a_div := ddiv;
  a_ltb := dlt |}.
