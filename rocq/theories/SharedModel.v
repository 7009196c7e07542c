(** Several applications made by one Poisson helper (helper/poisson-helper.cc:33-83). *)
From Coq Require Import ZArith QArith List Bool Arith.
From Verif Require Import Base HelpersModel TrafficModel.
Import ListNotations.
Open Scope Z_scope.

(** "OnTime" and "OffTime" are set to pointers (poisson-helper.cc:40-52), and Install (61-77) makes every application with them: all
    draw from the same exponential variable, in the order in which the simulator runs their events.  "MaxBytes" may be set anew
    (55-59) between calls of Install. *)
Inductive shared_state := Waiting | Running (s : onoff).
Record shared_app := mkSharedApp { sa_max : Z; sa_start : Z; sa_state : shared_state }.
Record shared := mkShared { sh_drawn : nat; sh_apps : list shared_app }.

Section Shared.
Context (ns_of : Q -> Z) (bits_of : Z -> Z -> Z) (packet : Z) (draws : nat -> Q).

(** The next event of application [i]: its start (StartApplication), or one of its own.  [None]: it has none. *)
Definition shared_event (g : nat) (a : shared_app) : result (option onoff) :=
  let c := poisson_cfg packet (sa_max a) (fun _ => draws g) in
  match sa_state a with
  | Waiting => Ok (Some (start_application ns_of bits_of c (sa_start a)))
  | Running s => app_step ns_of bits_of c s
  end.
(** Values drawn by it. *)
Definition taken (a : shared_app) : nat := match sa_state a with Waiting => O | Running s => oo_offs s end.
Fixpoint replace {B} (l : list B) (i : nat) (a : B) : list B :=
  match l, i with
  | [], _ => []
  | _ :: r, O => a :: r
  | x :: r, S k => x :: replace r k a
  end.
Definition shared_step (f : shared) (i : nat) : result shared :=
  match nth_error (sh_apps f) i with
  | None => Ok f
  | Some a =>
      do o <- shared_event (sh_drawn f) a ;
      match o with
      | None => Ok f
      | Some s => let a' := mkSharedApp (sa_max a) (sa_start a) (Running s) in
                  Ok (mkShared (sh_drawn f + (taken a' - taken a)) (replace (sh_apps f) i a'))
      end
  end.
Fixpoint shared_run (f : shared) (l : list nat) : result shared :=
  match l with
  | [] => Ok f
  | i :: r => do f <- shared_step f i ; shared_run f r
  end.
(** Applications with these byte limits and start times, installed and not started. *)
Definition installed (apps : list (Z * Z)) : shared := mkShared 0 (map (fun p => mkSharedApp (fst p) (snd p) Waiting) apps).
End Shared.

(** * Streams: AssignStreams (poisson-helper.cc:79-83, lora-helper.cc:76-80) *)

(** An application with the variables its "OnTime" and "OffTime" point to. *)
Definition app_vars : Type := nat * nat.
(** SetStream of a variable: the stream given last counts. *)
Definition set_stream (st : nat -> Z) (v : nat) (s : Z) : nat -> Z := fun w => if (w =? v)%nat then s else st w.
(** OnOffHelper::AssignStreams of ns-3, with OnOffApplication::AssignStreams for each application; the number of streams used. *)
Fixpoint assign_from (st : nat -> Z) (apps : list app_vars) (s : Z) : (nat -> Z) * Z :=
  match apps with
  | [] => (st, s)
  | (on, off) :: r => assign_from (set_stream (set_stream st on s) off (s + 1)) r (s + 2)
  end.
Definition assign_streams (st : nat -> Z) (apps : list app_vars) (s : Z) : (nat -> Z) * Z :=
  let r := assign_from st apps s in (fst r, snd r - s).
(** The applications a Poisson helper makes: all with the variables 0 and 1. *)
Definition poisson_vars (n : nat) : list app_vars := repeat (0%nat, 1%nat) n.
(** Those of a LoRa helper: SetConstantRate (lora-helper.cc:47) sets texts, from which each application makes its own variables. *)
Definition lora_vars (n : nat) : list app_vars := map (fun k => (2 * k, 2 * k + 1)%nat) (seq 0 n).
