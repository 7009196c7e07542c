(** Ground stations, the uplink channel and the satellites, put together: one simulator, many devices. *)
From Coq Require Import ZArith List Lia Bool Arith.
From Verif Require Import Base SatAddrModel ConstellationModel DeviceModel RxModel AlohaModel CrdsaModel ChannelModel.
Import ListNotations.
Open Scope Z_scope.

(** The MAC of a ground station, sending. For CRDSA: slot duration, the slots of the frame in the order the
    shuffle left them and the number of replicas, both per station and packet. *)
Inductive tx_mac :=
| TxNone
| TxAloha (slot : Z)
| TxCrdsa (slot : Z) (slots : nat -> Z -> list Z) (replicas : nat -> Z -> nat).

(** Events in the simulator: StartPacketTx / DoSend, FinishTransmission, ReceiveFromGround, FinishReception.
    The last carries the callback bound at StartPacketRx (sat2ground-net-device.cc:203-204). *)
Inductive event :=
| VAir (g : nat) (j : mac_job)
| VDone (g : nat) (j : mac_job)
| VArrive (s : nat) (u rate src proto pow : Z)
| VFinish (s : nat) (r : reception) (src proto : Z).

(** What is seen: a call on a ground station with its effects, a frame the channel dropped, a call on the MAC
    of a satellite, a packet that a satellite passes up (ReceiveFromGroundFinish) with sender and protocol. *)
Inductive note :=
| NGround (t : Z) (g : nat) (o : gop) (ev : list gevent)
| NDrop (t : Z) (g : nat) (u : Z)
| NSat (t : Z) (s : nat) (o : rx_op)
| NUp (t : Z) (s : nat) (u src proto : Z).

(** Simulator::Schedule: after everything due not later. *)
Fixpoint post (t : Z) (e : event) (q : list (Z * event)) : list (Z * event) :=
  match q with
  | [] => [(t, e)]
  | x :: l => if fst x <=? t then x :: post t e l else (t, e) :: q
  end.

Definition upd {A} (f : nat -> A) (i : nat) (x : A) (j : nat) : A := if (j =? i)%nat then x else f j.

Definition tag_dec (a b : gtag) : {a = b} + {a <> b}.
Proof. decide equality; try apply Z.eq_dec. decide equality; apply Z.eq_dec. Defined.
Definition job_dec (a b : mac_job) : {a = b} + {a <> b}.
Proof. decide equality; [apply bool_dec | apply tag_dec | apply Z.eq_dec]. Defined.
Fixpoint job_index (j : mac_job) (l : list mac_job) : option nat :=
  match l with
  | [] => None
  | x :: t => if job_dec x j then Some O else match job_index j t with Some k => Some (S k) | None => None end
  end.

(** An arrival as the satellite will report it: packet, sender, protocol. *)
Definition call := (Z * (Z * Z))%type.

Section System.
Variable h : host.
Variable con : constellation.                  (* complete: the helper installs it before anything is sent *)
Variable tx_time : Z -> Z -> Z.                (* rate, packet *)
Variable rate : nat -> Z.                      (* of each station *)
(** Propagation delay, received power and success model; they depend on the time of the transmission. *)
Variable delay : Z -> nat -> nat -> Z.
Variable loss : Z -> Z -> nat -> nat -> Z.
Variable success : Z -> Z -> nat -> nat -> bool.
Variable ground_addr : nat -> Z.
Variable fits : nat -> list Z -> Z -> bool.    (* the queue of each station *)
Variable mac : tx_mac.
Context {M : Type}.
Variable rx : mac_rx M.

Record sys := mkSys {
  y_now : Z;
  y_queue : list (Z * event);
  y_ground : nat -> gdev;
  y_mac : nat -> M;
  y_calls : nat -> list call }.   (* callbacks given to the MAC of each satellite, in order *)

Definition copies (g : nat) (u : Z) : nat := match mac with TxCrdsa _ _ r => r g u | _ => 1%nat end.

Definition set_ground (y : sys) (g : nat) (d : gdev) : sys :=
  mkSys (y_now y) (y_queue y) (upd (y_ground y) g d) (y_mac y) (y_calls y).
Definition add_event (t : Z) (e : event) (y : sys) : sys :=
  mkSys (y_now y) (post t e (y_queue y)) (y_ground y) (y_mac y) (y_calls y).

(** The frames that Transmit2Sat schedules (ground-sat-channel.cc:122-134). *)
Definition arrivals (t : Z) (outs : list outcome) : list (Z * event) :=
  flat_map (fun o => match o with
    | AtSat after s u r (SrcGround a) proto pow => [(t + after, VArrive s u r a proto pow)]
    | _ => [] end) outs.
Definition drops (t : Z) (g : nat) (outs : list outcome) : list note :=
  flat_map (fun o => match o with Dropped u => [NDrop t g u] | _ => [] end) outs.
Definition post_all (l : list (Z * event)) (y : sys) : sys :=
  fold_left (fun y e => add_event (fst e) (snd e) y) l y.

(** A step of one device. *)
Definition on_ground (y : sys) (g : nat) (o : gop) : option (result (gdev * list gevent)) :=
  g_step (fits g) (copies g) (y_ground y g) o.

(** transmit_callback, then Schedule of the end (none-mac-model.cc:50-51, aloha-mac-model.cc:85-86,
    crdsa-mac-model.cc:199-200; ground-sta-net-device.cc:405-410). *)
Definition go_air (y : sys) (t : Z) (g : nat) (j : mac_job) : result (sys * list note) :=
  match job_index j (g_mac (y_ground y g)) with
  | None => UB
  | Some k =>
      match on_ground y g (GMac k) with
      | Some (Ok (d, ev)) =>
          do (tx, outs) <- transmit2sat h tx_time (delay t) (loss t) (Some (success t (job_uid j))) ground_addr
                             (mkGS (Some con) []) (job_uid j) (rate g) g (tg_dst (job_tag j)) (tg_proto (job_tag j))
                             (tg_power (job_tag j)) ;
          let y1 := post_all (arrivals t outs) (set_ground y g d) in
          Ok (add_event (t + tx) (VDone g (mkJob (job_uid j) (job_tag j) true)) y1,
              NGround t g (GMac k) ev :: drops t g outs)
      | _ => UB
      end
  end.

(** When the replicas of a packet go out. *)
Definition air_times (t : Z) (g : nat) (u : Z) : result (list Z) :=
  match mac with
  | TxNone => Ok [t]
  | TxAloha slot => Ok (map fst (aloha_send slot t 0))
  | TxCrdsa slot slots replicas => rmap (map fst) (crdsa_send slot (slots g u) (replicas g u) t 0)
  end.

(** MacModel::Send at the end of TransmitStart.  The trivial MAC transmits at once. *)
Definition hand_over (y : sys) (t : Z) (g : nat) (u : Z) : result (sys * list note) :=
  match find_tag u (g_tags (y_ground y g)) with
  | None => UB
  | Some tag =>
      let j := mkJob u tag false in
      match mac with
      | TxNone => go_air y t g j
      | _ => do l <- air_times t g u ; Ok (post_all (map (fun a => (a, VAir g j)) l) y, [])
      end
  end.

(** A call on a station, and what the MAC does if TransmitStart was reached. *)
Definition to_mac (ev : list gevent) : option Z :=
  match flat_map (fun e => match e with EHand u => [u] | _ => [] end) ev with [] => None | u :: _ => Some u end.
Definition ground_call (y : sys) (t : Z) (g : nat) (o : gop) : result (sys * list note) :=
  match on_ground y g o with
  | None => UB
  | Some r =>
      do (d, ev) <- r ;
      let y1 := set_ground y g d in
      match to_mac ev with
      | None => Ok (y1, [NGround t g o ev])
      | Some u => do (y2, ns) <- hand_over y1 t g u ; Ok (y2, NGround t g o ev :: ns)
      end
  end.

(** ReceiveFromGround (sat2ground-net-device.cc:193-205) *)
Definition arrive (y : sys) (t : Z) (s : nat) (u r src proto pow : Z) : sys * list note :=
  let x := mkRx u t (t + tx_time r u) pow in
  (mkSys (y_now y) (post (t + tx_time r u) (VFinish s x src proto) (y_queue y)) (y_ground y)
         (upd (y_mac y) s (mac_start rx (y_mac y s) x)) (upd (y_calls y) s (y_calls y s ++ [(u, (src, proto))])),
   [NSat t s (OStart t u (tx_time r u) pow)]).

(** What ReceiveFromGroundFinish reports for a packet passed up: the frame that just ended has its own callback;
    for one resolved by cancellation CRDSA keeps the callback of its first frame in a busy period
    (crdsa-mac-model.cc:348).  Here: of its first frame at all; the theorems show that it makes no difference. *)
Definition report (y : sys) (s : nat) (r : reception) (src proto : Z) (v : Z) : Z * Z :=
  if v =? rx_uid r then (src, proto)
  else match find_tag v (y_calls y s) with Some m => m | None => (0, 0) end.

Definition finish (y : sys) (t : Z) (s : nat) (r : reception) (src proto : Z) : result (sys * list note) :=
  do (m, up) <- mac_finish rx (y_mac y s) r ;
  Ok (mkSys (y_now y) (y_queue y) (y_ground y) (upd (y_mac y) s m) (y_calls y),
      NSat t s OFinish :: map (fun v => let m := report y s r src proto v in NUp t s v (fst m) (snd m)) up).

(** What applications do at a time, and: run the next event. *)
Inductive yop :=
| YSend (t : Z) (g : nat) (u proto : Z)
| YRetarget (t : Z) (g : nat) (a : sat_address)
| YPower (t : Z) (g : nat) (p : Z)
| YNext.

Definition call_at (y : sys) (t : Z) (g : nat) (o : gop) : option (result (sys * list note)) :=
  if (y_now y <=? t) && forallb (fun e => t <=? fst e) (y_queue y) then
    Some (ground_call (mkSys t (y_queue y) (y_ground y) (y_mac y) (y_calls y)) t g o)
  else None.

(** [None]: not something that can happen next (in the past, after an event that is due, nothing to run). *)
Definition y_step (y : sys) (o : yop) : option (result (sys * list note)) :=
  match o with
  | YSend t g u proto => call_at y t g (GSend u proto)
  | YRetarget t g a => call_at y t g (GRetarget a)
  | YPower t g p => call_at y t g (GPower p)
  | YNext =>
      match y_queue y with
      | [] => None
      | (t, e) :: q =>
          let y1 := mkSys t q (y_ground y) (y_mac y) (y_calls y) in
          Some match e with
               | VAir g j => go_air y1 t g j
               | VDone g j =>
                   match job_index j (g_mac (y_ground y g)) with
                   | None => UB
                   | Some k => ground_call y1 t g (GMac k)
                   end
               | VArrive s u r src proto pow => Ok (arrive y1 t s u r src proto pow)
               | VFinish s r src proto => finish y1 t s r src proto
               end
      end
  end.

Fixpoint y_run (y : sys) (ops : list yop) : option (result (sys * list note)) :=
  match ops with
  | [] => Some (Ok (y, []))
  | o :: l =>
      match y_step y o with
      | Some (Ok (y1, n1)) =>
          match y_run y1 l with
          | Some (Ok (y2, n2)) => Some (Ok (y2, n1 ++ n2))
          | x => x
          end
      | x => x
      end
  end.

Definition y_init (a0 : nat -> sat_address) (p0 : nat -> Z) (m0 : M) : sys :=
  mkSys 0 [] (fun g => g_init (a0 g) (p0 g)) (fun _ => m0) (fun _ => []).
End System.
