(** Silence. *)
From Coq Require Import ZArith List.
From Verif Require Import Base ReturnModel TripModel TripSpec RecoverModel.
Import ListNotations.
Open Scope Z_scope.

(** Stations are turned to satellites. *)
Definition led_to (sats : list nat) (o : lop) : Prop := match o with LGo o => turned_to sats o | _ => True end.

(** Nothing is under way, and nothing happens for [gap] until [t0]. *)
Definition silent (s : tstate) (gap t0 : Z) : Prop := all_quiet s /\ rs_now (ts_sky s) + gap <= t0.
