(** Receptions at a satellite, driven by the simulator.  The channel calls StartPacketRx when the first bit
    arrives; the MAC schedules FinishReception for the end of the frame (aloha-mac-model.cc:127,
    none-mac-model.cc:68, crdsa-mac-model.cc:349).  ns-3 runs events by time and, at equal times, in the order
    they were scheduled; a start may have been scheduled before or after a pending finish of the same time. *)
From Coq Require Import ZArith List Lia Bool.
From Verif Require Import Base.
Import ListNotations.
Open Scope Z_scope.

(** A frame being received: packet uid, first and last instant, received power.  Powers are integer
    multiples of some unit: exact arithmetic, no rounding. *)
Record reception := mkRx { rx_uid : Z; rx_start : Z; rx_end : Z; rx_pow : Z }.

(** What a MAC does at the two ends of a reception.  FinishReception returns the uids passed up. *)
Record mac_rx (M : Type) := mkMac {
  mac_start : M -> reception -> M;
  mac_finish : M -> reception -> result (M * list Z) }.
Arguments mkMac {M}.
Arguments mac_start {M}.
Arguments mac_finish {M}.

Record rx_state (M : Type) := mkSt {
  st_now : Z;
  st_mac : M;
  st_pending : list reception;           (* scheduled FinishReception events, in order of execution *)
  st_log : list (reception * list Z) }.  (* finished receptions with what they passed up *)
Arguments mkSt {M}.
Arguments st_now {M}.
Arguments st_mac {M}.
Arguments st_pending {M}.
Arguments st_log {M}.

(** Simulator::Schedule: after everything due not later. *)
Fixpoint schedule (r : reception) (l : list reception) : list reception :=
  match l with
  | [] => [r]
  | x :: t => if rx_end x <=? rx_end r then x :: schedule r t else r :: l
  end.

(** One event: a reception starts, or the next pending one finishes. *)
Inductive rx_op := OStart (t uid tx pow : Z) | OFinish.

(** [None]: not an event ns-3 could run next (time going backwards, overdue finish, nothing pending). *)
Definition rx_step {M} (m : mac_rx M) (s : rx_state M) (o : rx_op) : option (result (rx_state M)) :=
  match o with
  | OStart t uid tx pow =>
      if (st_now s <=? t) && forallb (fun r => t <=? rx_end r) (st_pending s) then
        let r := mkRx uid t (t + tx) pow in
        Some (Ok (mkSt t (mac_start m (st_mac s) r) (schedule r (st_pending s)) (st_log s)))
      else None
  | OFinish =>
      match st_pending s with
      | [] => None
      | r :: l =>
          Some (do (m', up) <- mac_finish m (st_mac s) r ;
                Ok (mkSt (rx_end r) m' l (st_log s ++ [(r, up)])))
      end
  end.

Fixpoint rx_run {M} (m : mac_rx M) (s : rx_state M) (ops : list rx_op) : option (result (rx_state M)) :=
  match ops with
  | [] => Some (Ok s)
  | o :: l =>
      match rx_step m s o with
      | Some (Ok s') => rx_run m s' l
      | x => x
      end
  end.

Definition rx_init {M} (m0 : M) : rx_state M := mkSt 0 m0 [] [].
