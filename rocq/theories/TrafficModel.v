(** The traffic the Poisson and LoRa helpers generate: ns-3's on/off application with the attributes they set
    (helper/poisson-helper.cc, helper/lora-helper.cc). *)
From Coq Require Import ZArith QArith Qround List Lia Bool.
From Verif Require Import Base HelpersModel.
Import ListNotations.
Open Scope Z_scope.

(** * The application (ns-3, src/applications/model/onoff-application.cc) *)

(** The attributes "PacketSize", "DataRate", "MaxBytes", and the values "OnTime" and "OffTime" return in seconds, draw by
    draw. *)
Record onoff_cfg := mkOnOff { ao_packet : Z; ao_rate : Z; ao_max : Z; ao_on : nat -> Q; ao_off : nat -> Q }.

(** Times are in ns.  An event is its time and its number; of those due at the same time the simulator runs the one
    scheduled first. *)
Record onoff := mkApp {
  oo_now : Z;
  oo_tot : Z;                         (* m_totBytes *)
  oo_residual : Z;                    (* m_residualBits *)
  oo_last : Z;                        (* m_lastStartTime *)
  oo_send : option (Z * nat);         (* m_sendEvent *)
  oo_toggle : option (bool * Z * nat);(* m_startStopEvent; [true]: StartSending *)
  oo_uid : nat;
  oo_ons : nat; oo_offs : nat;        (* values drawn *)
  oo_sent : list Z }.                 (* when SendPacket sent a packet *)

Section OnOff.
(** [Seconds (x)] in ns, and the whole bits sent in some ns at a rate: conversions of ns-3. *)
Context (ns_of : Q -> Z) (bits_of : Z -> Z -> Z) (c : onoff_cfg).

(** CancelEvents; the rate does not change while the application runs. *)
Definition cancel_events (s : onoff) : onoff :=
  let residual := match oo_send s with
    | Some _ => u32 (oo_residual s + bits_of (oo_now s - oo_last s) (ao_rate c))
    | None => oo_residual s
    end in
  mkApp (oo_now s) (oo_tot s) residual (oo_last s) None None (oo_uid s) (oo_ons s) (oo_offs s) (oo_sent s).
(** ScheduleStartEvent *)
Definition schedule_start (s : onoff) : onoff :=
  mkApp (oo_now s) (oo_tot s) (oo_residual s) (oo_last s) (oo_send s)
    (Some (true, oo_now s + ns_of (ao_off c (oo_offs s)), oo_uid s)) (Datatypes.S (oo_uid s)) (oo_ons s) (Datatypes.S (oo_offs s)) (oo_sent s).
(** ScheduleStopEvent *)
Definition schedule_stop (s : onoff) : onoff :=
  mkApp (oo_now s) (oo_tot s) (oo_residual s) (oo_last s) (oo_send s)
    (Some (false, oo_now s + ns_of (ao_on c (oo_ons s)), oo_uid s)) (Datatypes.S (oo_uid s)) (Datatypes.S (oo_ons s)) (oo_offs s) (oo_sent s).
(** ScheduleNextTx; [StopApplication] cancels the events and closes the socket. *)
Definition schedule_next (s : onoff) : result onoff :=
  if (ao_max c =? 0) || (oo_tot s <? ao_max c) then
    abort_unless (oo_residual s <=? u32 (ao_packet c * 8)) ;;
    let bits := u32 (u32 (ao_packet c * 8) - oo_residual s) in
    Ok (mkApp (oo_now s) (oo_tot s) (oo_residual s) (oo_last s)
          (Some (oo_now s + ns_of (inject_Z bits / inject_Z (ao_rate c))%Q, oo_uid s)) (oo_toggle s)
          (Datatypes.S (oo_uid s)) (oo_ons s) (oo_offs s) (oo_sent s))
  else Ok (cancel_events s).
(** StartSending, StopSending *)
Definition start_sending (s : onoff) : result onoff :=
  do s <- schedule_next (mkApp (oo_now s) (oo_tot s) (oo_residual s) (oo_now s) (oo_send s) (oo_toggle s) (oo_uid s) (oo_ons s) (oo_offs s) (oo_sent s)) ;
  Ok (schedule_stop s).
Definition stop_sending (s : onoff) : onoff := schedule_start (cancel_events s).
(** SendPacket; the socket takes every packet. *)
Definition send_packet (s : onoff) : result onoff :=
  schedule_next (mkApp (oo_now s) (u64 (oo_tot s + ao_packet c)) 0 (oo_now s) (oo_send s) (oo_toggle s) (oo_uid s) (oo_ons s) (oo_offs s)
    (oo_sent s ++ [oo_now s])).

(** StartApplication, at some time. *)
Definition start_application (at_ : Z) : onoff :=
  schedule_start (cancel_events (mkApp at_ 0 0 0 None None 0 0 0 [])).

(** The simulator: runs the earlier of the two events; [None] when there is none. *)
Definition before (t : Z) (u : nat) (t' : Z) (u' : nat) : bool := (t <? t') || ((t =? t') && (u <? u')%nat).
Definition run_send (s : onoff) (t : Z) : result onoff :=
  send_packet (mkApp t (oo_tot s) (oo_residual s) (oo_last s) None (oo_toggle s) (oo_uid s) (oo_ons s) (oo_offs s) (oo_sent s)).
Definition run_toggle (s : onoff) (start : bool) (t : Z) : result onoff :=
  let s := mkApp t (oo_tot s) (oo_residual s) (oo_last s) (oo_send s) None (oo_uid s) (oo_ons s) (oo_offs s) (oo_sent s) in
  if start then start_sending s else Ok (stop_sending s).
Definition app_step (s : onoff) : result (option onoff) :=
  match oo_send s, oo_toggle s with
  | None, None => Ok None
  | Some (t, _), None => do s <- run_send s t ; Ok (Some s)
  | None, Some (b, t, _) => do s <- run_toggle s b t ; Ok (Some s)
  | Some (t, u), Some (b, t', u') => do s <- (if before t u t' u' then run_send s t else run_toggle s b t') ; Ok (Some s)
  end.
(** The first [n] events; the state stays when there are no more. *)
Fixpoint app_run (n : nat) (s : onoff) : result onoff :=
  match n with
  | O => Ok s
  | Datatypes.S n => do o <- app_step s ; match o with Some s => app_run n s | None => Ok s end
  end.
End OnOff.

(** * The helpers *)

(** poisson-helper.cc:33-53; [draws] are the values of the exponential variable.  [max] is the "MaxBytes" attribute, which
    [SetAttribute] (55-59) may set; its default is 0. *)
Definition poisson_cfg (packet max : Z) (draws : nat -> Q) : onoff_cfg :=
  mkOnOff (u32 packet) (2 ^ 64 - 1) max (fun _ => poisson_t_on (u32 packet)) draws.

(** lora-helper.cc:44-45: products in 64 bits, the sum of the payload size and the header size in 32. *)
Definition lora_sending_rate (rate header payload : Z) : result Z :=
  let whole := u32 (payload + u16 header) in
  if whole =? 0 then UB else Ok (u64 (u64 rate * payload) / whole).
(** lora-helper.cc:47-48, with [OnOffHelper::SetConstantRate]: "OnTime" 1000 s, "OffTime" 0 s. *)
Definition lora_max_bytes (payload frames : Z) : Z := u64 (payload * u64 frames).
Definition lora_cfg (rate header payload frames : Z) : result onoff_cfg :=
  do r <- lora_sending_rate rate header payload ;
  Ok (mkOnOff payload r (lora_max_bytes payload frames) (fun _ => inject_Z 1000) (fun _ => 0%Q)).
