(** There and back with the times at which frames leave: TripModel run so that no frame is under way for longer than [d], which bounds
    the waiting in queues, the transmission (DeviceModel) and the propagation (ChannelModel) together. *)
From Coq Require Import ZArith List Bool Arith.
From Verif Require Import Base SatAddrModel ConstellationModel GeoTagModel PendingModel ReturnModel TripModel.
Import ListNotations.
Open Scope Z_scope.

(** When what is on the way up, between satellites, and down left, in the same order. *)
Record stamped := mkSm { sm_state : tstate; sm_up : list Z; sm_air : list Z; sm_down : list Z }.
Definition sm_start (s : tstate) : stamped := mkSm s [] [] [].

Definition top_time (s : tstate) (o : top) : Z := match o with TAsk t _ _ | TUp t _ | TMove t _ | TDown t _ => t | TTurn _ _ => rs_now (ts_sky s) end.

(** What has come in goes, what is new (up to [n] in all) leaves now. *)
Definition without (i : nat) (l : list Z) : list Z := match take_out i l with Some (_, r) => r | None => l end.
Definition stamp (t : Z) (l : list Z) (n : nat) : list Z := l ++ repeat t (n - List.length l).

Section Round.
Variable nw : network.
Variable h : host.
Variable nh : nat -> list face.
Variable scope : face -> bool.
Variable tag : Z * Z * Z.
Variable stations : list nat.
Variable producer : nat.
Variable d : Z.

(** [None] also if something should have come in before. *)
Definition m_step (s : stamped) (o : top) : option (result (stamped * list (Z * tevent))) :=
  let t := top_time (sm_state s) o in
  if forallb (fun x => t - d <=? x) (sm_up s ++ sm_air s ++ sm_down s) then
    match t_step nw h nh scope tag stations producer (sm_state s) o with
    | Some (Ok (s1, ev)) =>
        Some (Ok (mkSm s1
          (stamp t match o with TUp _ i => without i (sm_up s) | _ => sm_up s end (List.length (ts_up s1)))
          (stamp t match o with TMove _ i => without i (sm_air s) | _ => sm_air s end (List.length (rs_air (ts_sky s1))))
          (stamp t match o with TDown _ i => without i (sm_down s) | _ => sm_down s end (List.length (ts_down s1))), map (pair t) ev))
    | Some Assert => Some Assert | Some Abort => Some Abort | Some UB => Some UB
    | None => None
    end
  else None.

Fixpoint m_run (s : stamped) (ops : list top) : option (result (stamped * list (Z * tevent))) :=
  match ops with
  | [] => Some (Ok (s, []))
  | o :: l =>
      match m_step s o with
      | Some (Ok (s1, x)) =>
          match m_run s1 l with
          | Some (Ok (s2, tr)) => Some (Ok (s2, x ++ tr))
          | r => r
          end
      | r => r
      end
  end.
End Round.
