(** Since when a station waits. *)
From Coq Require Import ZArith List Bool Arith.
From Verif Require Import Base ReturnModel TripModel.
Import ListNotations.
Open Scope Z_scope.

(** Station [g] asked first at the time given, and has neither heard Data nor been turned since. *)
Definition since (tr : list (Z * tevent)) (g : nat) : option Z :=
  fold_left (fun w v => match snd v with
    | LAsk x => if (x =? g)%nat then match w with Some a => Some a | None => Some (fst v) end else w
    | LData x | LTurn x _ => if (x =? g)%nat then None else w
    | LSat _ => w
    end) tr None.
