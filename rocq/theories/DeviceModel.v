(** The network devices: transmission state machines, reception at a ground station, tracked address. *)
From Coq Require Import ZArith List Lia Bool Ascii String.
From Verif Require Import Base SatAddrModel AddrTextModel.
Import ListNotations.
Open Scope Z_scope.

(** * Ground station, transmitting (ground-sta-net-device.cc) *)

(** GroundSatTag (46-122).  Powers are integer multiples of some unit. *)
Record gtag := mkTag { tg_dst : sat_address; tg_proto : Z; tg_power : Z }.

(** A packet is known by its uid.  Packet tags live on the packet: [tags] lists the packets that carry a
    GroundSatTag now.  ns-3's AddPacketTag asserts that there is no tag of the same type. *)
Definition tag_table := list (Z * gtag).
Definition find_tag {A} (u : Z) (l : list (Z * A)) : option A :=
  match find (fun e => fst e =? u) l with Some e => Some (snd e) | None => None end.
Definition remove_tag {A} (u : Z) (l : list (Z * A)) : list (Z * A) := filter (fun e => negb (fst e =? u)) l.

(** What a MAC owes for one transmission of a packet: first run transmit_callback, which puts the packet on
    the air, then finish_callback.  Both were bound at TransmitStart (403-415). *)
Record mac_job := mkJob { job_uid : Z; job_tag : gtag; job_on_air : bool }.

(** ground-sta-net-device.h:80-90, icarus-net-device.h *)
Record gdev := mkG {
  g_remote : sat_address;        (* m_remoteAddress *)
  g_power : Z;                   (* m_txPower *)
  g_busy : bool;                 (* m_txMachineState *)
  g_queue : list Z;              (* the queue of the device *)
  g_tags : tag_table;
  g_mac : list mac_job }.

Inductive gevent :=
| EAccept (u : Z)                (* Send returned true *)
| ERefuse (u : Z)                (* Send returned false *)
| EHand (u : Z)                  (* the packet goes to the MAC *)
| EAir (u : Z) (t : gtag)        (* Transmit2Sat *)
| EDone (u : Z).                 (* the MAC reports the end *)

Section Ground.
(** Whether the queue has room, given what is queued; how often the MAC transmits a packet. *)
Variable fits : list Z -> Z -> bool.
Variable copies : Z -> nat.

(** TransmitStart (388-416).  Dequeue of an empty queue gives a null pointer; without a tag the protocol
    number read is indeterminate. *)
Definition g_transmit_start (d : gdev) : result (gdev * list gevent) :=
  assert_ (negb (g_busy d)) ;;
  match g_queue d with
  | [] => UB
  | u :: q =>
      match find_tag u (g_tags d) with
      | None => UB
      | Some t => Ok (mkG (g_remote d) (g_power d) true q (g_tags d)
                          (g_mac d ++ repeat (mkJob u t false) (copies u)), [EHand u])
      end
  end.

(** Send (361-386) *)
Definition g_send (d : gdev) (u proto : Z) : result (gdev * list gevent) :=
  match find_tag u (g_tags d) with
  | Some _ => Assert
  | None =>
      let tags := (u, mkTag (g_remote d) (u16 proto) (g_power d)) :: g_tags d in
      if fits (g_queue d) u then
        let d1 := mkG (g_remote d) (g_power d) (g_busy d) (g_queue d ++ [u]) tags (g_mac d) in
        if g_busy d then Ok (d1, [EAccept u])
        else do (d2, ev) <- g_transmit_start d1 ; Ok (d2, EAccept u :: ev)
      else Ok (mkG (g_remote d) (g_power d) (g_busy d) (g_queue d) tags (g_mac d), [ERefuse u])
  end.

(** TransmitComplete (418-431) *)
Definition g_transmit_complete (d : gdev) (u : Z) : result (gdev * list gevent) :=
  let d1 := mkG (g_remote d) (g_power d) false (g_queue d) (remove_tag u (g_tags d)) (g_mac d) in
  match g_queue d with
  | [] => Ok (d1, [EDone u])
  | _ => do (d2, ev) <- g_transmit_start d1 ; Ok (d2, EDone u :: ev)
  end.

Fixpoint remove_nth {A} (k : nat) (l : list A) : list A :=
  match l, k with
  | [], _ => []
  | _ :: t, O => t
  | x :: t, S k' => x :: remove_nth k' t
  end.

(** The MAC runs the next callback of its k-th job. *)
Definition g_mac_step (d : gdev) (k : nat) : option (result (gdev * list gevent)) :=
  match nth_error (g_mac d) k with
  | None => None
  | Some j =>
      if job_on_air j then
        Some (g_transmit_complete (mkG (g_remote d) (g_power d) (g_busy d) (g_queue d) (g_tags d)
                                       (remove_nth k (g_mac d))) (job_uid j))
      else
        Some (Ok (mkG (g_remote d) (g_power d) (g_busy d) (g_queue d) (g_tags d)
                      (set_nth k (mkJob (job_uid j) (job_tag j) true) (g_mac d)),
                  [EAir (job_uid j) (job_tag j)]))
  end.

Inductive gop := GSend (u proto : Z) | GRetarget (a : sat_address) | GPower (p : Z) | GMac (k : nat).

(** [None]: the MAC has no such job. *)
Definition g_step (d : gdev) (o : gop) : option (result (gdev * list gevent)) :=
  match o with
  | GSend u proto => Some (g_send d u proto)
  | GRetarget a => Some (Ok (mkG a (g_power d) (g_busy d) (g_queue d) (g_tags d) (g_mac d), []))
  | GPower p => Some (Ok (mkG (g_remote d) p (g_busy d) (g_queue d) (g_tags d) (g_mac d), []))
  | GMac k => g_mac_step d k
  end.

Fixpoint g_run (d : gdev) (ops : list gop) : option (result (gdev * list gevent)) :=
  match ops with
  | [] => Some (Ok (d, []))
  | o :: l =>
      match g_step d o with
      | Some (Ok (d1, ev1)) =>
          match g_run d1 l with
          | Some (Ok (d2, ev2)) => Some (Ok (d2, ev1 ++ ev2))
          | x => x
          end
      | x => x
      end
  end.
End Ground.

Definition g_init (a : sat_address) (p : Z) : gdev := mkG a p false [] [] [].

(** * Satellite to ground device, transmitting (sat2ground-net-device.cc) *)

(** Completions are scheduled at the end of the transmission: after everything due not later. *)
Record completion := mkDone { c_end : Z; c_uid : Z; c_proto : Z }.
Fixpoint due (c : completion) (l : list completion) : list completion :=
  match l with
  | [] => [c]
  | x :: t => if c_end x <=? c_end c then x :: due c t else c :: l
  end.

(** A transmission as the channel sees it. *)
Record airing := mkAir { a_uid : Z; a_start : Z; a_proto : Z }.

Record sdev := mkS {
  s_now : Z;
  s_busy : bool;                 (* m_txMachineState *)
  s_queue : list Z;
  s_tags : list (Z * Z);         (* SatGroundTag: only the protocol number is kept here *)
  s_pending : list completion }.

Inductive sop := SSend (t u proto : Z) | SComplete.
Inductive sevent := SAccept (t u proto : Z) | SRefuse (u : Z) | SAir (a : airing).

Section Downlink.
Variable fits : list Z -> Z -> bool.
(** Transmission time of a packet, from its size and the data rate. *)
Variable dur : Z -> Z.

(** TransmitStart (330-350) *)
Definition s_transmit_start (d : sdev) : result (sdev * list sevent) :=
  assert_ (s_busy d) ;;
  match s_queue d with
  | [] => UB
  | u :: q =>
      match find_tag u (s_tags d) with
      | None => UB
      | Some proto =>
          Ok (mkS (s_now d) true q (s_tags d) (due (mkDone (s_now d + dur u) u proto) (s_pending d)),
              [SAir (mkAir u (s_now d) proto)])
      end
  end.

(** Send (302-328) at time [t]. *)
Definition s_send (d : sdev) (t u proto : Z) : result (sdev * list sevent) :=
  match find_tag u (s_tags d) with
  | Some _ => Assert
  | None =>
      let tags := (u, u16 proto) :: s_tags d in
      if fits (s_queue d) u then
        if s_busy d then Ok (mkS t true (s_queue d ++ [u]) tags (s_pending d), [SAccept t u proto])
        else do (d2, ev) <- s_transmit_start (mkS t true (s_queue d ++ [u]) tags (s_pending d)) ;
             Ok (d2, SAccept t u proto :: ev)
      else Ok (mkS t (s_busy d) (s_queue d) tags (s_pending d), [SRefuse u])
  end.

(** TransmitComplete (352-370) *)
Definition s_complete (d : sdev) (c : completion) (rest : list completion) : result (sdev * list sevent) :=
  let tags := remove_tag (c_uid c) (s_tags d) in
  match s_queue d with
  | [] => Ok (mkS (c_end c) false [] tags rest, [])
  | _ => s_transmit_start (mkS (c_end c) (s_busy d) (s_queue d) tags rest)
  end.

Definition s_step (d : sdev) (o : sop) : option (result (sdev * list sevent)) :=
  match o with
  | SSend t u proto =>
      if (s_now d <=? t) && forallb (fun c => t <=? c_end c) (s_pending d) then Some (s_send d t u proto) else None
  | SComplete => match s_pending d with [] => None | c :: l => Some (s_complete d c l) end
  end.

(** * Inter-satellite device, transmitting (sat-net-device.cc); same state, no tags *)

(** TransmitStart (147-158) *)
Definition i_transmit_start (d : sdev) (u proto : Z) : result (sdev * list sevent) :=
  assert_ (negb (s_busy d)) ;;
  Ok (mkS (s_now d) true (s_queue d) (s_tags d) (due (mkDone (s_now d + dur u) u proto) (s_pending d)),
      [SAir (mkAir u (s_now d) proto)]).

(** Send (372-396) at time [t] *)
Definition i_send (d : sdev) (t u proto : Z) : result (sdev * list sevent) :=
  if fits (s_queue d) u then
    let q := s_queue d ++ [u] in
    if s_busy d then Ok (mkS t true q (s_tags d) (s_pending d), [SAccept t u proto])
    else match q with
         | [] => Ok (mkS t false q (s_tags d) (s_pending d), [SAccept t u proto])
         | u' :: q' =>
             do (d2, ev) <- i_transmit_start (mkS t false q' (s_tags d) (s_pending d)) u' (u16 proto) ;
             Ok (d2, SAccept t u proto :: ev)
         end
  else Ok (mkS t (s_busy d) (s_queue d) (s_tags d) (s_pending d), [SRefuse u]).

(** TransmitComplete (160-174): the protocol number is that of the packet just sent. *)
Definition i_complete (d : sdev) (c : completion) (rest : list completion) : result (sdev * list sevent) :=
  match s_queue d with
  | [] => Ok (mkS (c_end c) false [] (s_tags d) rest, [])
  | u :: q => i_transmit_start (mkS (c_end c) false q (s_tags d) rest) u (c_proto c)
  end.

Definition i_step (d : sdev) (o : sop) : option (result (sdev * list sevent)) :=
  match o with
  | SSend t u proto =>
      if (s_now d <=? t) && forallb (fun c => t <=? c_end c) (s_pending d) then Some (i_send d t u proto) else None
  | SComplete => match s_pending d with [] => None | c :: l => Some (i_complete d c l) end
  end.
End Downlink.

Definition s_init : sdev := mkS 0 false [] [] [].

(** A run of a device; [None] if ns-3 could not run these events. *)
Fixpoint s_run (step : sdev -> sop -> option (result (sdev * list sevent))) (d : sdev) (ops : list sop)
  : option (result (sdev * list sevent)) :=
  match ops with
  | [] => Some (Ok (d, []))
  | o :: l =>
      match step d o with
      | Some (Ok (d1, ev1)) =>
          match s_run step d1 l with
          | Some (Ok (d2, ev2)) => Some (Ok (d2, ev1 ++ ev2))
          | x => x
          end
      | x => x
      end
  end.

(** * Ground station, receiving and retargeting (ground-sta-net-device.cc) *)

(** A frame on its way up: who sent it, packet, protocol, end of the reception. *)
Record hearing := mkHear { h_src : sat_address; h_uid : Z; h_proto : Z; h_end : Z }.
Fixpoint hear_due (c : hearing) (l : list hearing) : list hearing :=
  match l with
  | [] => [c]
  | x :: t => if h_end x <=? h_end c then x :: hear_due c t else c :: l
  end.

Record ears := mkEars {
  e_now : Z; e_remote : sat_address; e_pending : list hearing;
  e_up : list (Z * hearing);                          (* when, what was passed up *)
  e_signals : list (sat_address * sat_address) }.     (* remoteAddressChange *)

Inductive eop :=
| RArrive (t : Z) (src : sat_address) (u proto tx : Z)   (* ReceiveFromSat *)
| RRetarget (t : Z) (a : sat_address)                    (* SetRemoteAddress *)
| RFinish.                                               (* ReceiveFromSatFinish *)

Section Ears.
Variable h : host.

(** SetRemoteAddress (301-311) *)
Definition set_remote (old new : sat_address) : sat_address * list (sat_address * sat_address) :=
  (new, if sat_neqb h old new then [(old, new)] else []).

(** 218-251 *)
Definition e_step (s : ears) (o : eop) : option ears :=
  let on_time t := (e_now s <=? t) && forallb (fun c => t <=? h_end c) (e_pending s) in
  match o with
  | RArrive t src u proto tx =>
      if on_time t then
        Some (if sat_neqb h src (e_remote s) then mkEars t (e_remote s) (e_pending s) (e_up s) (e_signals s)
              else mkEars t (e_remote s) (hear_due (mkHear src u proto (t + tx)) (e_pending s)) (e_up s) (e_signals s))
      else None
  | RRetarget t a =>
      if on_time t then
        let (r, sg) := set_remote (e_remote s) a in
        Some (mkEars t r (e_pending s) (e_up s) (e_signals s ++ sg))
      else None
  | RFinish =>
      match e_pending s with
      | [] => None
      | c :: l => Some (mkEars (h_end c) (e_remote s) l (e_up s ++ [(h_end c, c)]) (e_signals s))
      end
  end.

Fixpoint e_run (s : ears) (ops : list eop) : option ears :=
  match ops with
  | [] => Some s
  | o :: l => match e_step s o with Some s' => e_run s' l | None => None end
  end.

(** * The face of a ground station *)

(** ground-sta-transport.cc:152-160 *)
Definition sat_uri (a : sat_address) : text := txt "satdev://[" ++ print_address h a ++ txt "]".
(** icarus-helper.cc:516-517: the remote URI a face is created with. *)
Definition initial_uri : text := txt "satdev://[0000:0000:0000]".

Inductive fop := FCreate | FRetarget (a : sat_address).
Record face_state := mkFace { f_remote : sat_address; f_uri : option text }.

(** icarus-helper.cc:501-530; ground-sta-transport.cc:46, 75-76 *)
Definition f_step (s : face_state) (o : fop) : face_state :=
  match o with
  | FCreate => mkFace (f_remote s) (Some initial_uri)
  | FRetarget a =>
      let (r, sg) := set_remote (f_remote s) a in
      mkFace r (match f_uri s with
                | None => None
                | Some u => Some (fold_left (fun _ e => sat_uri (snd e)) sg u) end)
  end.
Definition f_run (s : face_state) (ops : list fop) : face_state := fold_left f_step ops s.
End Ears.

Definition e_init (a : sat_address) : ears := mkEars 0 a [] [] [].
