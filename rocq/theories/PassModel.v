(** Prediction of passes: model/orbit/search/distancesolver.cc and circular-orbit-impl.cc:125-146.

    GSL's bracketing root finder is not modelled; [solver f a b] is the outcome of the loop of [DistanceSolver::solve]
    (distancesolver.cc:143-157), which sets the finder to [a, b] and iterates until [gsl_root_test_interval] succeeds:
    the last bracket and root, or [None] when the loop gives up.  Only [solver_contract] is assumed of it. *)
From Coq Require Import Reals.
From Verif Require Import Base OrbitModel.
Open Scope R_scope.

Definition solver_type : Type := (R -> R) -> R -> R -> option (R * R * R).

(** gsl_root_test_interval (lower, upper, 0, 0.000001) *)
Definition interval_test (l u : R) : Prop :=
  (0 < l /\ 0 < u \/ l < 0 /\ u < 0) /\ Rabs (u - l) < 1 / 10 ^ 6 * Rmin (Rabs l) (Rabs u).

(** The bracket stays in the interval and the root at one of its ends.  When the ends of the interval are on both sides of
    zero, so are those of the bracket; otherwise [gsl_root_fsolver_set] reports an error, which is not looked at
    (distancesolver.cc:151), and the iteration goes on all the same. *)
Definition solver_contract (solver : solver_type) : Prop := forall f a b l u r, a <= b -> solver f a b = Some (l, u, r) ->
  a <= l <= u /\ u <= b /\ interval_test l u /\ (r = l \/ r = u) /\ (f a * f b <= 0 -> f l * f u <= 0).

Section Predictor.
Variable solver : solver_type.

(** distancesolver.cc:134-175 *)
Definition distance_solver (f : R -> R) (min max : R) : option R :=
  match solver f min max with
  | Some (_, _, r) => if Rlt_dec (Rmin (f (r - 1)) (f (r + 1))) 0 then Some r else None
  | None => None
  end.

Variables (o : orbit) (target lat lon radius : R).

(** distancesolver.cc:177-184; the assertion in the position never fails ([stays_on_orbit]). *)
Definition distance_at (t : R) : R := match distance_function o lat lon radius target t with Ok v => v | _ => 0 end.

(** distancesolver.cc:189-213 *)
Definition find_next_cross (now : R) : option R :=
  match distance_solver distance_at now (now + orbital_period o) with
  | Some sol =>
      if Rlt_dec now (sol - 1) then
        match distance_solver distance_at now (sol - 1) with Some previous => Some previous | None => Some sol end
      else Some sol
  | None => None
  end.

(** circular-orbit-impl.cc:134-146; a relation, because the loop may never end. *)
Inductive next_time : R -> R -> Prop :=
| next_found : forall now r, find_next_cross now = Some r -> next_time now r
| next_later : forall now r, find_next_cross now = None -> next_time (now + orbital_period o / 2) r -> next_time now r.
End Predictor.
