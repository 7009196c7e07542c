(** The calls of the helpers in the programs under examples/.  Nodes go by their numbers; what else those programs do is
    not here: traces, applications, the NDN stack, and the time they run for. *)
From Coq Require Import ZArith QArith List Bool Arith.
From Verif Require Import SetupModel SetupSpec.
Import ListNotations.
Open Scope nat_scope.

(** A constellation of [P] planes of [S] on the first nodes, [g] stations with a position on the next, all installed together,
    then the links: isl-grid.cc:78-84 (6, 20, 0) and ground2groundping.cc:93-125 (14, 20, 2). *)
Definition grid_before (P S : nat) : before := mkBefore (fun n => P * S <=? n) (fun _ => false) (fun _ => []).
Definition fleet_script (P S g : nat) : list sop := [SNew (seq 0 (P * S + g)) 0].
Definition grid_script (P S g : nat) : list sop := fleet_script P S g ++ [SIsl (seq 0 (P * S)) 0].
(** One constellation only; the identifier, altitude and inclination are the constructor's and the program's. *)
Definition one_plan (id : Z) (P S F : nat) (alt inc : Q) : nat -> plan := fun _ => mkPlan id P S F alt inc.

(** constellation-positions.cc:153-158: [fleet_script 6 4 0].  elevation-tracker.cc:62-86: [fleet_script planes satplane 1] with
    SetTrackerModel before ([STracker]); both sizes are read from the command line. *)
Definition elevation_script (P S : nat) : list sop := STracker 1 :: fleet_script P S 1.

(** sputping.cc:68-91: two stations first, then two satellites, in two planes of one. *)
Definition sputping_before : before := mkBefore (fun n => n <? 2) (fun _ => false) (fun _ => []).
Definition sputping_script : list sop := [SNew [0; 1; 2; 3] 0].
(** vostping.cc:58-79: a satellite and a station; the constellation could have two. *)
Definition vostping_before : before := mkBefore (fun n => n =? 1) (fun _ => false) (fun _ => []).
Definition vostping_script : list sop := [SNew [0; 1] 0].
(** isl-vostping.cc:52-65: two satellites of a constellation of one plane of fifty, and links. *)
Definition islping_before : before := mkBefore (fun _ => false) (fun _ => false) (fun _ => []).
Definition islping_script : list sop := [SNew [0; 1] 0; SIsl [0; 1] 0].
