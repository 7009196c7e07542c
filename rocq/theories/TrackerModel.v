(** Trackers: which satellite a ground station follows. *)
From Coq Require Import ZArith QArith List Lia Bool Arith.
From Verif Require Import Base SatAddrModel ConstellationModel.
Import ListNotations.
Open Scope Z_scope.

(** * Periodic tracker (ground-node-sat-tracker-periodic.cc) *)

Inductive tracker_event := UpdateOnce | PeriodicUpdate.

(** Events of this tracker still to come, earliest first; [tr_log] records when updates ran and what they set. *)
Record tracker := mkTracker {
  tr_now : Z;
  tr_remote : sat_address;
  tr_events : list (Z * tracker_event);
  tr_log : list (Z * sat_address) }.

(** Simulator::Schedule: after everything due not later. *)
Fixpoint tr_schedule (e : Z * tracker_event) (l : list (Z * tracker_event)) : list (Z * tracker_event) :=
  match l with
  | [] => [e]
  | x :: r => if fst x <=? fst e then x :: tr_schedule e r else e :: l
  end.

Section Periodic.
Variable c : constellation.
(** The squared distance from the station to each satellite as time passes, in any number type with a comparison, and
    the address each satellite reports. *)
Context {A : Type} (leb : A -> A -> bool).
Variable sq : Z -> nat -> A.
Variable addr : nat -> sat_address.
(** m_interval, and the random first offset (70-73), both in ticks. *)
Variable interval offset : Z.

(** DoInitialize (56-78) at time [t0]. *)
Definition periodic_init (t0 : Z) (remote : sat_address) : tracker :=
  mkTracker t0 remote
    (if interval =? 0 then [] else tr_schedule (t0 + offset, PeriodicUpdate) (tr_schedule (t0, UpdateOnce) [])) [].

(** UpdateOnce (103-115): the closest satellite is dereferenced. *)
Definition update_once (t : Z) : result sat_address :=
  match get_closest_by leb (sq t) c with None => UB | Some d => Ok (addr d) end.

(** One event; PeriodicUpdate (80-88). *)
Definition periodic_step (s : tracker) : option (result tracker) :=
  match tr_events s with
  | [] => None
  | (t, e) :: l =>
      Some (do a <- update_once t ;
            Ok (mkTracker t a
              (match e with UpdateOnce => l | PeriodicUpdate => tr_schedule (t + interval, PeriodicUpdate) l end)
              (tr_log s ++ [(t, a)])))
  end.

Fixpoint periodic_run (n : nat) (s : tracker) : option (result tracker) :=
  match n with
  | O => Some (Ok s)
  | S k => match periodic_step s with
           | Some (Ok s') => periodic_run k s'
           | x => x
           end
  end.
End Periodic.

(** That distance when the positions of the satellites and of the station are given as rationals (90-101). *)
Definition away (pos : Z -> nat -> vec3) (here : Z -> vec3) (t : Z) (d : nat) : Q := sq_distance (pos t d) (here t).

(** * Elevation tracker (ground-node-sat-tracker-elevation.cc) *)

Section Elevation.
Variable c : constellation.
Variable addr : nat -> sat_address.
(** Whether a satellite is above the minimum elevation (strictly) at a time, and what
    tryGetNextTimeAtElevation answers for it (circular-orbit.cc:144-152); half its orbital period. *)
Variable above : Z -> nat -> bool.
Variable next_at : Z -> nat -> option Z.
Variable half_period : nat -> Z.

(** The loop nest of getVisibleSats (102-146).  A missing satellite is dereferenced (116-119). *)
Fixpoint visible_sats (t : Z) (places : list (nat * nat)) : result (list (Z * nat * nat)) :=
  match places with
  | [] => Ok []
  | (p, i) :: l =>
      do s <- get_satellite c p i ;
      match s with
      | None => UB
      | Some d =>
          if above t d then
            match next_at t d with
            | None => visible_sats t l
            | Some b =>
                assert_ (b - t <? half_period d) ;;
                do r <- visible_sats t l ; Ok ((b - t, p, i) :: r)
            end
          else visible_sats t l
      end
  end.
Definition all_places : list (nat * nat) :=
  flat_map (fun p => map (fun i => (p, i)) (seq 0 (con_plane_size c))) (seq 0 (con_planes c)).

(** std::max_element by time: the first of the largest. *)
Definition max_by_time (l : list (Z * nat * nat)) : option (Z * nat * nat) :=
  match l with
  | [] => None
  | x :: r => Some (fold_left (fun best y => if fst (fst best) <? fst (fst y) then y else best) r x)
  end.

(** Update (148-182): the address set and when the next update is due. *)
Definition elevation_update (t : Z) : result (sat_address * Z) :=
  do l <- visible_sats t all_places ;
  match max_by_time l with
  | None => Abort
  | Some (v, p, i) =>
      do s <- get_satellite c p i ;
      match s with None => UB | Some d => Ok (addr d, t + v) end
  end.

(** DoInitialize (91-99) and the updates that follow: when each ran and what it set. *)
Fixpoint elevation_run (n : nat) (t : Z) : result (list (Z * sat_address) * Z) :=
  match n with
  | O => Ok ([], t)
  | S k => do (a, t') <- elevation_update t ;
           do (l, e) <- elevation_run k t' ; Ok ((t, a) :: l, e)
  end.
End Elevation.
