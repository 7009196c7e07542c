(** What the devices should do, in terms of what is seen from outside. *)
From Coq Require Import ZArith List Lia Bool Ascii String Permutation.
From Verif Require Import Base SatAddrModel AddrTextModel DeviceModel.
Import ListNotations.
Open Scope Z_scope.

(** * Ground station: reading a trace *)
Definition accepted (tr : list gevent) : list Z := flat_map (fun e => match e with EAccept u => [u] | _ => [] end) tr.
Definition handed (tr : list gevent) : list Z := flat_map (fun e => match e with EHand u => [u] | _ => [] end) tr.
Definition sends (ops : list gop) : list Z := flat_map (fun o => match o with GSend u _ => [u] | _ => [] end) ops.
(** Accepted packets the MAC has not got yet. *)
Definition waiting (tr : list gevent) : list Z := skipn (List.length (handed tr)) (accepted tr).

(** What a MAC that sends one packet at a time, once, sees. *)
Inductive phase := PIdle | PHeld (u : Z) | PAir (u : Z).
Definition phase_step (p : option phase) (e : gevent) : option phase :=
  match p, e with
  | Some p, (EAccept _ | ERefuse _) => Some p
  | Some PIdle, EHand u => Some (PHeld u)
  | Some (PHeld v), EAir u _ => if u =? v then Some (PAir u) else None
  | Some (PAir v), EDone u => if u =? v then Some PIdle else None
  | _, _ => None
  end.
Definition phase_of (tr : list gevent) : option phase := fold_left phase_step tr (Some PIdle).

(** The settings in force at each Send. *)
Fixpoint sent_with (a : sat_address) (p : Z) (ops : list gop) : list (Z * gtag) :=
  match ops with
  | [] => []
  | GSend u proto :: l => (u, mkTag a (u16 proto) p) :: sent_with a p l
  | GRetarget b :: l => sent_with b p l
  | GPower q :: l => sent_with a q l
  | GMac _ :: l => sent_with a p l
  end.

(** * Devices that transmit as soon as they can: the schedule of a queue served in order *)
Definition requests (tr : list sevent) : list (Z * Z) :=
  flat_map (fun e => match e with SAccept t u _ => [(t, u)] | _ => [] end) tr.
Definition airings (tr : list sevent) : list airing :=
  flat_map (fun e => match e with SAir a => [a] | _ => [] end) tr.
Definition s_sends (ops : list sop) : list (Z * Z) :=
  flat_map (fun o => match o with SSend _ u p => [(u, p)] | _ => [] end) ops.
Definition starts (l : list airing) : list (Z * Z) := map (fun a => (a_start a, a_uid a)) l.

(** [free]: when the transmitter is free again.  Requests are (when accepted, packet), results (start, packet). *)
Fixpoint in_turn (dur : Z -> Z) (free : Z) (reqs : list (Z * Z)) : list (Z * Z) :=
  match reqs with
  | [] => []
  | (t, u) :: l => let s := Z.max free t in (s, u) :: in_turn dur (s + dur u) l
  end.
Definition busy_time (dur : Z -> Z) (us : list Z) : Z := fold_right Z.add 0 (map dur us).

(** * Receiving *)
Definition sat_dec (a b : sat_address) : {a = b} + {a <> b}.
Proof. decide equality; apply Z.eq_dec. Defined.

(** Frames that arrive while their sender is tracked. *)
Fixpoint heard (tracked : sat_address) (ops : list eop) : list hearing :=
  match ops with
  | [] => []
  | RArrive t src u proto tx :: l =>
      if sat_dec src tracked then mkHear src u proto (t + tx) :: heard tracked l else heard tracked l
  | RRetarget _ a :: l => heard a l
  | RFinish :: l => heard tracked l
  end.

(** A real address: made by the constructor from three 16-bit numbers. *)
Definition wf_sat (h : host) (a : sat_address) : Prop :=
  exists c p i, is_u16 c /\ is_u16 p /\ is_u16 i /\ a = sat_make h c p i.
Definition eop_wf (h : host) (o : eop) : Prop :=
  match o with RArrive _ src _ _ tx => wf_sat h src /\ 0 <= tx | RRetarget _ a => wf_sat h a | RFinish => True end.

(** The satellites tracked, in order. *)
Definition targets (ops : list eop) : list sat_address :=
  flat_map (fun o => match o with RRetarget _ a => [a] | _ => [] end) ops.
Fixpoint changes (a : sat_address) (l : list sat_address) : list (sat_address * sat_address) :=
  match l with
  | [] => []
  | b :: l' => if sat_dec a b then changes b l' else (a, b) :: changes b l'
  end.
(** Each signal starts where the previous one ended. *)
Fixpoint chain (a : sat_address) (l : list (sat_address * sat_address)) : Prop :=
  match l with
  | [] => True
  | (x, y) :: l' => x = a /\ x <> y /\ chain y l'
  end.

(** Retargetings of a station with a face. *)
Definition f_targets (ops : list fop) : list sat_address :=
  flat_map (fun o => match o with FRetarget a => [a] | FCreate => [] end) ops.
