(** The trace sources of the devices, and the files the helpers make from them. *)
From Coq Require Import ZArith List Lia Bool Ascii String.
From Verif Require Import Base SatAddrModel DeviceModel.
Import ListNotations.
Open Scope Z_scope.

(** icarus-net-device.cc:65-114 and sat-net-device.cc:68-117 declare the same sources; the last three are those
    of the ns-3 queue. *)
Inductive source := MacTx | MacTxDrop | MacRx | PhyRxBegin | PhyTxBegin | PhyTxEnd | PhyRxEnd | Sniffer
  | Enqueue | Dequeue | QueueDrop.

(** What a device does, in program order: firing a source for a packet at some time; a call of the channel; the value
    returned by [Send]; handing a packet to the callbacks of the node. *)
Inductive effect (C : Type) :=
| Tr (s : source) (t u : Z)
| Call (c : C)
| Ret (u : Z) (b : bool)
| Up (t u : Z).
Arguments Tr {C}. Arguments Call {C}. Arguments Ret {C}. Arguments Up {C}.

(** ns-3's queue: a packet that does not fit fires [Drop]. *)

(** * Ground station (ground-sta-net-device.cc); [t] is the time *)

Section Ground.
Variable fits : list Z -> Z -> bool.
Variable copies : Z -> nat.
Notation geffect := (effect (Z * gtag)).

(** 388-416; the two callbacks given to the MAC are in [gt_mac_step]. *)
Definition gt_transmit_start (t : Z) (d : gdev) : result (gdev * list geffect) :=
  assert_ (negb (g_busy d)) ;;
  match g_queue d with
  | [] => UB
  | u :: q =>
      match find_tag u (g_tags d) with
      | None => UB
      | Some tag => Ok (mkG (g_remote d) (g_power d) true q (g_tags d)
                            (g_mac d ++ repeat (mkJob u tag false) (copies u)), [Tr Dequeue t u])
      end
  end.

(** 361-386 *)
Definition gt_send (t : Z) (d : gdev) (u proto : Z) : result (gdev * list geffect) :=
  match find_tag u (g_tags d) with
  | Some _ => Assert
  | None =>
      let tags := (u, mkTag (g_remote d) (u16 proto) (g_power d)) :: g_tags d in
      if fits (g_queue d) u then
        let d1 := mkG (g_remote d) (g_power d) (g_busy d) (g_queue d ++ [u]) tags (g_mac d) in
        if g_busy d then Ok (d1, [Tr MacTx t u; Tr Enqueue t u; Ret u true])
        else do (d2, ev) <- gt_transmit_start t d1 ; Ok (d2, [Tr MacTx t u; Tr Enqueue t u] ++ ev ++ [Ret u true])
      else Ok (mkG (g_remote d) (g_power d) (g_busy d) (g_queue d) tags (g_mac d),
               [Tr MacTx t u; Tr QueueDrop t u; Tr MacTxDrop t u; Ret u false])
  end.

(** 418-431 *)
Definition gt_transmit_complete (t : Z) (d : gdev) (u : Z) : result (gdev * list geffect) :=
  let d1 := mkG (g_remote d) (g_power d) false (g_queue d) (remove_tag u (g_tags d)) (g_mac d) in
  match g_queue d with
  | [] => Ok (d1, [])
  | _ => gt_transmit_start t d1
  end.

(** 403-415: the transmit callback, then the finish callback. *)
Definition gt_mac_step (t : Z) (d : gdev) (k : nat) : option (result (gdev * list geffect)) :=
  match nth_error (g_mac d) k with
  | None => None
  | Some j =>
      let u := job_uid j in
      if job_on_air j then
        Some (do (d2, ev) <- gt_transmit_complete t (mkG (g_remote d) (g_power d) (g_busy d) (g_queue d) (g_tags d)
                                                         (remove_nth k (g_mac d))) u ;
              Ok (d2, Tr PhyTxEnd t u :: ev))
      else
        Some (Ok (mkG (g_remote d) (g_power d) (g_busy d) (g_queue d) (g_tags d)
                      (set_nth k (mkJob u (job_tag j) true) (g_mac d)),
                  [Tr Sniffer t u; Tr PhyTxBegin t u; Call (u, job_tag j)]))
  end.

Definition gt_step (t : Z) (d : gdev) (o : gop) : option (result (gdev * list geffect)) :=
  match o with
  | GSend u proto => Some (gt_send t d u proto)
  | GRetarget a => Some (Ok (mkG a (g_power d) (g_busy d) (g_queue d) (g_tags d) (g_mac d), []))
  | GPower p => Some (Ok (mkG (g_remote d) p (g_busy d) (g_queue d) (g_tags d) (g_mac d), []))
  | GMac k => gt_mac_step t d k
  end.

Fixpoint gt_run (d : gdev) (ops : list (Z * gop)) : option (result (gdev * list geffect)) :=
  match ops with
  | [] => Some (Ok (d, []))
  | (t, o) :: l =>
      match gt_step t d o with
      | Some (Ok (d1, ev1)) =>
          match gt_run d1 l with
          | Some (Ok (d2, ev2)) => Some (Ok (d2, ev1 ++ ev2))
          | x => x
          end
      | x => x
      end
  end.
End Ground.

(** * The devices of satellites *)

Section Serial.
Variable fits : list Z -> Z -> bool.
Variable dur : Z -> Z.
Notation seffect := (effect airing).

(** sat2ground-net-device.cc:330-350 *)
Definition st_transmit_start (d : sdev) : result (sdev * list seffect) :=
  assert_ (s_busy d) ;;
  match s_queue d with
  | [] => UB
  | u :: q =>
      match find_tag u (s_tags d) with
      | None => UB
      | Some proto =>
          Ok (mkS (s_now d) true q (s_tags d) (due (mkDone (s_now d + dur u) u proto) (s_pending d)),
              [Tr Dequeue (s_now d) u; Tr Sniffer (s_now d) u; Tr PhyTxBegin (s_now d) u; Call (mkAir u (s_now d) proto)])
      end
  end.

(** 302-328 *)
Definition st_send (d : sdev) (t u proto : Z) : result (sdev * list seffect) :=
  match find_tag u (s_tags d) with
  | Some _ => Assert
  | None =>
      let tags := (u, u16 proto) :: s_tags d in
      if fits (s_queue d) u then
        if s_busy d then Ok (mkS t true (s_queue d ++ [u]) tags (s_pending d), [Tr MacTx t u; Tr Enqueue t u; Ret u true])
        else do (d2, ev) <- st_transmit_start (mkS t true (s_queue d ++ [u]) tags (s_pending d)) ;
             Ok (d2, [Tr MacTx t u; Tr Enqueue t u] ++ ev ++ [Ret u true])
      else Ok (mkS t (s_busy d) (s_queue d) tags (s_pending d), [Tr MacTx t u; Tr QueueDrop t u; Tr MacTxDrop t u; Ret u false])
  end.

(** 352-370 *)
Definition st_complete (d : sdev) (c : completion) (rest : list completion) : result (sdev * list seffect) :=
  let tags := remove_tag (c_uid c) (s_tags d) in
  match s_queue d with
  | [] => Ok (mkS (c_end c) false [] tags rest, [Tr PhyTxEnd (c_end c) (c_uid c)])
  | _ => do (d2, ev) <- st_transmit_start (mkS (c_end c) (s_busy d) (s_queue d) tags rest) ;
         Ok (d2, Tr PhyTxEnd (c_end c) (c_uid c) :: ev)
  end.

Definition st_step (d : sdev) (o : sop) : option (result (sdev * list seffect)) :=
  match o with
  | SSend t u proto =>
      if (s_now d <=? t) && forallb (fun c => t <=? c_end c) (s_pending d) then Some (st_send d t u proto) else None
  | SComplete => match s_pending d with [] => None | c :: l => Some (st_complete d c l) end
  end.

(** sat-net-device.cc:147-158 *)
Definition it_transmit_start (d : sdev) (u proto : Z) : result (sdev * list seffect) :=
  assert_ (negb (s_busy d)) ;;
  Ok (mkS (s_now d) true (s_queue d) (s_tags d) (due (mkDone (s_now d + dur u) u proto) (s_pending d)),
      [Tr PhyTxBegin (s_now d) u; Call (mkAir u (s_now d) proto)]).

(** 372-396 *)
Definition it_send (d : sdev) (t u proto : Z) : result (sdev * list seffect) :=
  if fits (s_queue d) u then
    let q := s_queue d ++ [u] in
    if s_busy d then Ok (mkS t true q (s_tags d) (s_pending d), [Tr MacTx t u; Tr Enqueue t u; Ret u true])
    else match q with
         | [] => Ok (mkS t false q (s_tags d) (s_pending d), [Tr MacTx t u; Tr Enqueue t u; Ret u true])
         | u' :: q' =>
             do (d2, ev) <- it_transmit_start (mkS t false q' (s_tags d) (s_pending d)) u' (u16 proto) ;
             Ok (d2, [Tr MacTx t u; Tr Enqueue t u; Tr Dequeue t u'; Tr Sniffer t u'] ++ ev ++ [Ret u true])
         end
  else Ok (mkS t (s_busy d) (s_queue d) (s_tags d) (s_pending d), [Tr MacTx t u; Tr QueueDrop t u; Tr MacTxDrop t u; Ret u false]).

(** 160-174 *)
Definition it_complete (d : sdev) (c : completion) (rest : list completion) : result (sdev * list seffect) :=
  match s_queue d with
  | [] => Ok (mkS (c_end c) false [] (s_tags d) rest, [Tr PhyTxEnd (c_end c) (c_uid c)])
  | u :: q =>
      do (d2, ev) <- it_transmit_start (mkS (c_end c) false q (s_tags d) rest) u (c_proto c) ;
      Ok (d2, [Tr PhyTxEnd (c_end c) (c_uid c); Tr Dequeue (c_end c) u; Tr Sniffer (c_end c) u] ++ ev)
  end.

Definition it_step (d : sdev) (o : sop) : option (result (sdev * list seffect)) :=
  match o with
  | SSend t u proto =>
      if (s_now d <=? t) && forallb (fun c => t <=? c_end c) (s_pending d) then Some (it_send d t u proto) else None
  | SComplete => match s_pending d with [] => None | c :: l => Some (it_complete d c l) end
  end.
End Serial.

Fixpoint st_run (step : sdev -> sop -> option (result (sdev * list (effect airing)))) (d : sdev) (ops : list sop)
  : option (result (sdev * list (effect airing))) :=
  match ops with
  | [] => Some (Ok (d, []))
  | o :: l =>
      match step d o with
      | Some (Ok (d1, ev1)) =>
          match st_run step d1 l with
          | Some (Ok (d2, ev2)) => Some (Ok (d2, ev1 ++ ev2))
          | x => x
          end
      | x => x
      end
  end.

(** * Receiving at a ground station (ground-sta-net-device.cc:218-251)

    The other two devices fire the same sources in the same order around the reception of a frame
    (sat2ground-net-device.cc:193-224, where the MAC decides whether it ends; sat-net-device.cc:207-242). *)
Definition rx_begin {C} (t u : Z) : list (effect C) := [Tr PhyRxBegin t u].
Definition rx_end {C} (t u : Z) : list (effect C) := [Tr PhyRxEnd t u; Tr Sniffer t u; Tr MacRx t u; Up t u].

Section Ears.
Variable h : host.
Definition et_step (s : ears) (o : eop) : option (ears * list (effect unit)) :=
  let on_time t := (e_now s <=? t) && forallb (fun c => t <=? h_end c) (e_pending s) in
  match o with
  | RArrive t src u proto tx =>
      if on_time t then
        Some (if sat_neqb h src (e_remote s) then (mkEars t (e_remote s) (e_pending s) (e_up s) (e_signals s), [])
              else (mkEars t (e_remote s) (hear_due (mkHear src u proto (t + tx)) (e_pending s)) (e_up s) (e_signals s), rx_begin t u))
      else None
  | RRetarget t a =>
      if on_time t then
        let (r, sg) := set_remote h (e_remote s) a in
        Some (mkEars t r (e_pending s) (e_up s) (e_signals s ++ sg), [])
      else None
  | RFinish =>
      match e_pending s with
      | [] => None
      | c :: l => Some (mkEars (h_end c) (e_remote s) l (e_up s ++ [(h_end c, c)]) (e_signals s), rx_end (h_end c) (h_uid c))
      end
  end.
Fixpoint et_run (s : ears) (ops : list eop) : option (ears * list (effect unit)) :=
  match ops with
  | [] => Some (s, [])
  | o :: l =>
      match et_step s o with
      | Some (s1, ev1) => match et_run s1 l with Some (s2, ev2) => Some (s2, ev1 ++ ev2) | None => None end
      | None => None
      end
  end.
End Ears.

(** * Trace files *)

(** The sources a device declares (icarus-net-device.cc:65-114, sat-net-device.cc:68-117). *)
Definition declared : list (string * source) :=
  [("MacTx", MacTx); ("MacTxDrop", MacTxDrop); ("MacRx", MacRx); ("PhyRxBegin", PhyRxBegin); ("PhyTxBegin", PhyTxBegin);
   ("PhyTxEnd", PhyTxEnd); ("PhyRxEnd", PhyRxEnd); ("Sniffer", Sniffer)]%string.
Definition lookup (name : string) : option source :=
  match find (fun e => String.eqb (fst e) name) declared with Some e => Some (snd e) | None => None end.

Inductive class := CGroundSta | CSat2Ground | CSat | COther.
Inductive which_helper := HIcarus | HIsl.
(** The devices a helper deals with (icarus-helper.cc:323-334; isl-helper.cc:250-256). *)
Definition deals (w : which_helper) (c : class) : bool :=
  match w, c with HIcarus, (CGroundSta | CSat2Ground) => true | HIsl, CSat => true | _, _ => false end.

(** ns-3's [PcapHelper::HookDefaultSink]: the source is connected, and asserts that it could be. *)
Definition hook (debug : bool) (name : string) : result (option source) :=
  match lookup name with
  | Some s => Ok (Some s)
  | None => if debug then Assert else Ok None
  end.

(** EnablePcapInternal (icarus-helper.cc:314-357; isl-helper.cc:240-279): the source the new file is connected to, if any. *)
Definition enable_pcap (debug : bool) (w : which_helper) (c : class) (promiscuous : bool) : result (option source) :=
  if deals w c then hook debug (if promiscuous then "PromiscSniffer" else "Sniffer")%string else Ok None.

Definition source_dec (a b : source) : {a = b} + {a <> b}.
Proof. decide equality. Defined.
Definition source_eqb (a b : source) : bool := if source_dec a b then true else false.

(** What a file connected to a source holds at the end. *)
Definition pcap_file {C} (connected : option source) (tr : list (effect C)) : list (Z * Z) :=
  match connected with
  | None => []
  | Some s => flat_map (fun e => match e with Tr s' t u => if source_eqb s s' then [(t, u)] else [] | _ => [] end) tr
  end.

(** EnableAsciiInternal (icarus-helper.cc:359-478; isl-helper.cc:281-397): the same four sources whether the file is its own or
    a stream given; ns-3 writes r, +, - and d. *)
Definition ascii_line {C} (e : effect C) : list (ascii * Z * Z) :=
  match e with
  | Tr MacRx t u => [("r"%char, t, u)]
  | Tr Enqueue t u => [("+"%char, t, u)]
  | Tr Dequeue t u => [("-"%char, t, u)]
  | Tr QueueDrop t u => [("d"%char, t, u)]
  | _ => []
  end.
Definition ascii_file {C} (w : which_helper) (c : class) (tr : list (effect C)) : list (ascii * Z * Z) :=
  if deals w c then flat_map ascii_line tr else [].
