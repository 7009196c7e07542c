(** Links: devices that send as soon as they can, a channel, and receivers; one simulator.
    Two instances: satellites to ground stations, and satellites to each other. *)
From Coq Require Import ZArith List Lia Bool Arith.
From Verif Require Import Base SatAddrModel ConstellationModel DeviceModel ChannelModel.
Import ListNotations.
Open Scope Z_scope.

(** What the channel does with a frame for one receiver: the drop trace, or a reception [after] some time at
    receiver [r], which will take [lasts] (computed by the receiver from the rate it is given). *)
Inductive hop := Lost | Reach (after : Z) (r : nat) (lasts : Z).

(** The arguments bound in the scheduled reception. *)
Record flight := mkFlight { fl_src : nat; fl_to : nat; fl_uid : Z; fl_proto : Z; fl_arr : Z; fl_lasts : Z }.

(** TransmitComplete, Receive / ReceiveFromSat, ReceiveFinish / ReceiveFromSatFinish *)
Inductive levent := LDone (i : nat) | LArrive (f : flight) | LFinish (f : flight).

(** What is seen.  [KArrive]: whether the receiver goes on with the frame. *)
Inductive knote {F : Type} :=
| KDev (t : Z) (i : nat) (o : sop) (ev : list sevent)
| KDrop (t : Z) (i : nat) (u : Z)
| KArrive (t : Z) (f : flight) (ok : bool)
| KTurn (t : Z) (r : nat) (x : F)
| KUp (t : Z) (f : flight).
Arguments knote : clear implicits.

(** Simulator::Schedule: after everything due not later. *)
Fixpoint put {E} (t : Z) (e : E) (q : list (Z * E)) : list (Z * E) :=
  match q with
  | [] => [(t, e)]
  | x :: l => if fst x <=? t then x :: put t e l else (t, e) :: q
  end.
Definition put_all {E} (l : list (Z * E)) (q : list (Z * E)) : list (Z * E) :=
  fold_left (fun q x => put (fst x) (snd x) q) l q.
Definition at_index {A} (f : nat -> A) (i : nat) (x : A) (j : nat) : A := if (j =? i)%nat then x else f j.

Section Link.
Variable step : nat -> sdev -> sop -> option (result (sdev * list sevent)).   (* of each sending device *)
Variable dur : nat -> Z -> Z.                                                 (* its transmission time of a packet *)
(** The channel: time, sender, packet, protocol; one hop for each receiver, in the order of the channel. *)
Variable spread : Z -> nat -> Z -> Z -> result (list hop).
(** What a receiver listens to, and whether it goes on with a frame of a sender. *)
Context {F : Type}.
Variable hears : F -> nat -> bool.
Local Notation knote := (knote F).

Record lstate := mkL { l_now : Z; l_queue : list (Z * levent); l_dev : nat -> sdev; l_focus : nat -> F }.

Definition reach_events (t : Z) (i : nat) (u proto : Z) (hops : list hop) : list (Z * levent) :=
  flat_map (fun x => match x with
    | Reach after r lasts => [(t + after, LArrive (mkFlight i r u proto (t + after) lasts))]
    | Lost => [] end) hops.
Definition lost_notes (t : Z) (i : nat) (u : Z) (hops : list hop) : list knote :=
  flat_map (fun x => match x with Lost => [KDrop t i u] | _ => [] end) hops.

(** The channel is called first, the end is scheduled afterwards (sat2ground-net-device.cc:345-349,
    sat-net-device.cc:156-157). *)
Fixpoint fly (t : Z) (i : nat) (ev : list sevent) (q : list (Z * levent)) : result (list (Z * levent) * list knote) :=
  match ev with
  | [] => Ok (q, [])
  | SAir a :: l =>
      do hops <- spread t i (a_uid a) (a_proto a) ;
      do (q', ns) <- fly t i l (put (t + dur i (a_uid a)) (LDone i) (put_all (reach_events t i (a_uid a) (a_proto a) hops) q)) ;
      Ok (q', lost_notes t i (a_uid a) hops ++ ns)
  | _ :: l => fly t i l q
  end.

(** A call on a device. *)
Definition device_call (y : lstate) (t : Z) (i : nat) (o : sop) : result (lstate * list knote) :=
  match step i (l_dev y i) o with
  | None => UB
  | Some r =>
      do (d, ev) <- r ;
      do (q, ns) <- fly t i ev (l_queue y) ;
      Ok (mkL (l_now y) q (at_index (l_dev y) i d) (l_focus y), KDev t i o ev :: ns)
  end.

(** ReceiveFromSat (ground-sta-net-device.cc:218-235), Receive (sat-net-device.cc:207-215) *)
Definition receive (y : lstate) (t : Z) (f : flight) : lstate * list knote :=
  let ok := hears (l_focus y (fl_to f)) (fl_src f) in
  (if ok then mkL (l_now y) (put (t + fl_lasts f) (LFinish f) (l_queue y)) (l_dev y) (l_focus y) else y,
   [KArrive t f ok]).

(** What applications do at a time, and: run the next event. *)
Inductive lop := LSend (t : Z) (i : nat) (u proto : Z) | LTurn (t : Z) (r : nat) (x : F) | LNext.

Definition ready (y : lstate) (t : Z) : bool := (l_now y <=? t) && forallb (fun e => t <=? fst e) (l_queue y).

(** [None]: not something that can happen next (in the past, after an event that is due, nothing to run). *)
Definition l_step (y : lstate) (o : lop) : option (result (lstate * list knote)) :=
  match o with
  | LSend t i u proto =>
      if ready y t then Some (device_call (mkL t (l_queue y) (l_dev y) (l_focus y)) t i (SSend t u proto)) else None
  | LTurn t r x =>
      if ready y t then Some (Ok (mkL t (l_queue y) (l_dev y) (at_index (l_focus y) r x), [KTurn t r x])) else None
  | LNext =>
      match l_queue y with
      | [] => None
      | (t, e) :: q =>
          let y1 := mkL t q (l_dev y) (l_focus y) in
          Some match e with
               | LDone i => device_call y1 t i SComplete
               | LArrive f => Ok (receive y1 t f)
               | LFinish f => Ok (y1, [KUp t f])
               end
      end
  end.

Fixpoint l_run (y : lstate) (ops : list lop) : option (result (lstate * list knote)) :=
  match ops with
  | [] => Some (Ok (y, []))
  | o :: l =>
      match l_step y o with
      | Some (Ok (y1, n1)) =>
          match l_run y1 l with
          | Some (Ok (y2, n2)) => Some (Ok (y2, n1 ++ n2))
          | x => x
          end
      | x => x
      end
  end.

Definition l_init (x0 : nat -> F) : lstate := mkL 0 [] (fun _ => s_init) x0.
End Link.

(** * Satellites to ground stations *)
Section Down.
Variable h : host.
Variable tx_time : Z -> Z -> Z.                 (* rate, packet *)
Variable rate : nat -> Z.                       (* of each satellite *)
Variable delay : Z -> nat -> nat -> Z.          (* time, station, satellite *)
Variable loss : Z -> Z -> nat -> nat -> Z.
Variable success : Z -> Z -> nat -> nat -> bool.
Variable sat_addr : nat -> sat_address.
Variable grounds : list nat.                    (* stations on the channel, in the order they were added *)
Variable power : nat -> Z.
Variable fits : nat -> list Z -> Z -> bool.

Definition down_step (i : nat) := s_step (fits i) (tx_time (rate i)).

(** Transmit2Ground (ground-sat-channel.cc:139-168).  The received power is handed over but not used by a station. *)
Definition down_hop (o : outcome) : hop :=
  match o with
  | AtGround after g u r _ _ _ => Reach after g (tx_time r u)
  | _ => Lost
  end.
Definition down_spread (t : Z) (i : nat) (u proto : Z) : result (list hop) :=
  Ok (map down_hop (transmit2ground (delay t) (loss t) (Some (success t u)) sat_addr (mkGS None grounds) u (rate i) i proto (power i))).

(** ReceiveFromSat compares the address of the sender with the tracked one (ground-sta-net-device.cc:224-228). *)
Definition down_hears (tracked : sat_address) (i : nat) : bool := negb (sat_neqb h (sat_addr i) tracked).

Definition down_run := l_run down_step (fun i => tx_time (rate i)) down_spread down_hears.
End Down.

(** * Satellites to each other *)
Section Isl.
Variable tx_time : Z -> Z -> Z.
Variable rate : nat -> Z.
Variable delay : Z -> nat -> nat -> Z.          (* time, sender, receiver *)
Variable success : Z -> Z -> nat -> nat -> bool.
Variable channel : nat -> ss_channel.           (* of each device *)
Variable fits : nat -> list Z -> Z -> bool.

Definition isl_step (i : nat) := i_step (fits i) (tx_time (rate i)).
(** Sat2SatChannel::TransmitStart (sat2sat-channel.cc:109-140) *)
Definition isl_hop (o : ss_outcome) : hop :=
  match o with SSAt after d u r _ => Reach after d (tx_time r u) | SSDropped _ => Lost end.
Definition isl_spread (t : Z) (i : nat) (u proto : Z) : result (list hop) :=
  do (tx, outs) <- ss_transmit tx_time (delay t) (Some (success t u)) (channel i) u i (rate i) proto ;
  Ok (map isl_hop outs).
(** A satellite receives whatever its link carries (sat-net-device.cc:207-215). *)
Definition isl_hears (_ : unit) (_ : nat) : bool := true.

Definition isl_run := l_run isl_step (fun i => tx_time (rate i)) isl_spread isl_hears.
End Isl.
