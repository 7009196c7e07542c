(** Whole downlink networks: what becomes of a transmission of a satellite, and what a station sees. *)
From Coq Require Import ZArith List Bool Arith.
From Verif Require Import Base SatAddrModel DeviceModel DeviceSpec ChannelModel LinkModel LinkSpec.
Import ListNotations.
Open Scope Z_scope.

(** A network.  [v_a0]: what each station tracks at first. *)
Record downlink := mkDownlink {
  v_host : host;
  v_tx : Z -> Z -> Z;                       (* rate, packet: transmission time *)
  v_rate : nat -> Z;                        (* of a satellite *)
  v_delay : Z -> nat -> nat -> Z;           (* time, station, satellite *)
  v_loss : Z -> Z -> nat -> nat -> Z;
  v_success : Z -> Z -> nat -> nat -> bool; (* time, packet, station, satellite *)
  v_addr : nat -> sat_address;
  v_ground : list nat;
  v_power : nat -> Z;
  v_fits : nat -> list Z -> Z -> bool;
  v_a0 : nat -> sat_address }.

Definition v_run (d : downlink) :=
  down_run (v_host d) (v_tx d) (v_rate d) (v_delay d) (v_loss d) (v_success d) (v_addr d) (v_ground d) (v_power d) (v_fits d)
           (l_init (v_a0 d)).

(** Times are not negative, addresses are real ones. *)
Record v_sane (d : downlink) : Prop := {
  vs_tx : forall r u, 0 <= v_tx d r u;
  vs_delay : forall t g s, 0 <= v_delay d t g s;
  vs_addr : forall s, wf_sat (v_host d) (v_addr d s);
  vs_a0 : forall g, wf_sat (v_host d) (v_a0 d g) }.
Definition v_turns (d : downlink) (ops : list (lop (F := sat_address))) : Prop :=
  forall t g a, In (LTurn t g a) ops -> wf_sat (v_host d) a.

(** The frame of a transmission at a station, the stations it reaches and those it does not. *)
Definition frame_at (d : downlink) (s : sending) (g : nat) : flight :=
  mkFlight (sd_from s) g (sd_uid s) (sd_proto s) (sd_time s + v_delay d (sd_time s) g (sd_from s)) (v_tx d (v_rate d (sd_from s)) (sd_uid s)).
Definition reaches (d : downlink) (s : sending) (g : nat) : bool := v_success d (sd_time s) (sd_uid s) g (sd_from s).
Definition frames_of (d : downlink) (s : sending) : list flight := map (frame_at d s) (filter (reaches d s) (v_ground d)).
Definition drops_of (d : downlink) (s : sending) : list (Z * nat * Z) :=
  map (fun _ => (sd_time s, sd_from s, sd_uid s)) (filter (fun g => negb (reaches d s g)) (v_ground d)).

(** The run of one station, as its device sees it, and what it passes up. *)
Definition hearing_of (d : downlink) (f : flight) : hearing := mkHear (v_addr d (fl_src f)) (fl_uid f) (fl_proto f) (fl_end f).
Definition ear_ops (d : downlink) (r : nat) (ns : list (knote sat_address)) : list eop :=
  flat_map (fun n => match n with
    | KArrive t f _ => if (fl_to f =? r)%nat then [RArrive t (v_addr d (fl_src f)) (fl_uid f) (fl_proto f) (fl_lasts f)] else []
    | KTurn t r' a => if (r' =? r)%nat then [RRetarget t a] else []
    | KUp _ f => if (fl_to f =? r)%nat then [RFinish] else []
    | _ => [] end) ns.
Definition ear_up (d : downlink) (r : nat) (ns : list (knote sat_address)) : list (Z * hearing) :=
  flat_map (fun n => match n with
    | KUp t f => if (fl_to f =? r)%nat then [(t, hearing_of d f)] else [] | _ => [] end) ns.

(** Sends to one satellite. *)
Definition sends_to (i : nat) (ops : list (lop (F := sat_address))) : list (Z * Z) :=
  flat_map (fun o => match o with LSend _ j u p => if (j =? i)%nat then [(u, p)] else [] | _ => [] end) ops.
(** Accepted by one satellite: time, packet, protocol. *)
Definition accepts {F} (i : nat) (ns : list (knote F)) : list (Z * Z * Z) :=
  flat_map (fun e => match e with SAccept t u p => [(t, u, p)] | _ => [] end) (dev_events i ns).
