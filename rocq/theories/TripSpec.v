(** Who waits on the ground. *)
From Coq Require Import ZArith List Bool Arith.
From Verif Require Import Base ReturnModel TripModel.
Import ListNotations.
Open Scope Z_scope.

(** Station [g] has asked since it last heard Data. *)
Definition awaits (tr : list tevent) (g : nat) : bool :=
  fold_left (fun w v => match v with LAsk x => (x =? g)%nat || w | LData x => negb (x =? g)%nat && w | _ => w end) tr false.

(** The same, but turning the station ends its waiting. *)
Definition asking (tr : list tevent) (g : nat) : bool :=
  fold_left (fun w v => match v with LAsk x => (x =? g)%nat || w | LData x | LTurn x _ => negb (x =? g)%nat && w | LSat _ => w end) tr false.

(** Within a lifetime, as [timely]. *)
Definition in_time (t0 life : Z) (o : top) : Prop :=
  match o with
  | TAsk t _ l => t0 <= t < t0 + life /\ life <= l
  | TUp t _ | TMove t _ | TDown t _ => t0 <= t < t0 + life
  | TTurn _ _ => True
  end.

(** Stations point at satellites. *)
Definition turned_to (sats : list nat) (o : top) : Prop := match o with TTurn _ n => In n sats | _ => True end.

(** Station [g] is not turned away while it waits. *)
Definition patient (tr : list tevent) (g : nat) : Prop := forall a n b, tr = a ++ LTurn g n :: b -> awaits a g = false.

Definition all_quiet (s : tstate) : Prop := rs_air (ts_sky s) = [] /\ ts_up s = [] /\ ts_down s = [].
