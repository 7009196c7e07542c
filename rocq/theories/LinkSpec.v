(** Reading what a run of links shows. *)
From Coq Require Import ZArith List Bool Arith.
From Verif Require Import Base SatAddrModel DeviceModel DeviceSpec ChannelModel LinkModel.
Import ListNotations.
Open Scope Z_scope.

Section Reading.
Context {F : Type}.
Local Notation knote := (knote F).

Definition k_time (n : knote) : Z :=
  match n with KDev t _ _ _ => t | KDrop t _ _ => t | KArrive t _ _ => t | KTurn t _ _ => t | KUp t _ => t end.

(** What one sending device took part in. *)
Definition dev_ops (i : nat) (ns : list knote) : list sop :=
  flat_map (fun n => match n with KDev _ j o _ => if (j =? i)%nat then [o] else [] | _ => [] end) ns.
Definition dev_events (i : nat) (ns : list knote) : list sevent :=
  flat_map (fun n => match n with KDev _ j _ ev => if (j =? i)%nat then ev else [] | _ => [] end) ns.

(** Calls from outside: what was asked and what happened. *)
Inductive order := OrderSend (t : Z) (i : nat) (u proto : Z) | OrderTurn (t : Z) (r : nat) (x : F).
Definition ordered (ops : list lop) : list order :=
  flat_map (fun o => match o with
    | LSend t i u p => [OrderSend t i u p] | LTurn t r x => [OrderTurn t r x] | LNext => [] end) ops.
Definition obeyed (ns : list knote) : list order :=
  flat_map (fun n => match n with
    | KDev t i (SSend _ u p) _ => [OrderSend t i u p] | KTurn t r x => [OrderTurn t r x] | _ => [] end) ns.

(** Transmissions of anybody, in order: time, sender, packet, protocol. *)
Record sending := mkSending { sd_time : Z; sd_from : nat; sd_uid : Z; sd_proto : Z }.
Definition sendings (ns : list knote) : list sending :=
  flat_map (fun n => match n with
    | KDev t i _ ev => map (fun a => mkSending t i (a_uid a) (a_proto a)) (airings ev) | _ => [] end) ns.

(** Frames whose first bit came in; those the receiver went on with; those it passed up; drop traces. *)
Definition arrived (ns : list knote) : list flight := flat_map (fun n => match n with KArrive _ f _ => [f] | _ => [] end) ns.
Definition taken (ns : list knote) : list flight := flat_map (fun n => match n with KArrive _ f true => [f] | _ => [] end) ns.
Definition passed (ns : list knote) : list flight := flat_map (fun n => match n with KUp _ f => [f] | _ => [] end) ns.
Definition dropped (ns : list knote) : list (Z * nat * Z) := flat_map (fun n => match n with KDrop t i u => [(t, i, u)] | _ => [] end) ns.

(** What receiver [r] listens to, after all this. *)
Fixpoint focus (x : F) (r : nat) (ns : list knote) : F :=
  match ns with
  | [] => x
  | KTurn _ r' y :: l => focus (if (r' =? r)%nat then y else x) r l
  | _ :: l => focus x r l
  end.

(** The packets given to devices, anywhere. *)
Definition given (ops : list (lop (F := F))) : list Z := flat_map (fun o => match o with LSend _ _ u _ => [u] | _ => [] end) ops.
End Reading.
Arguments order : clear implicits.

(** What becomes of a transmission. *)
Definition hops_of (spread : Z -> nat -> Z -> Z -> result (list hop)) (s : sending) : list hop :=
  match spread (sd_time s) (sd_from s) (sd_uid s) (sd_proto s) with Ok l => l | _ => [] end.
Definition carried (s : sending) (l : list hop) : list flight :=
  flat_map (fun x => match x with
    | Reach after r lasts => [mkFlight (sd_from s) r (sd_uid s) (sd_proto s) (sd_time s + after) lasts]
    | Lost => [] end) l.
Definition missed (s : sending) (l : list hop) : list (Z * nat * Z) :=
  flat_map (fun x => match x with Lost => [(sd_time s, sd_from s, sd_uid s)] | _ => [] end) l.

(** Still to come, in the simulator. *)
Definition flying (q : list (Z * levent)) : list flight := flat_map (fun e => match snd e with LArrive f => [f] | _ => [] end) q.
Definition arriving (q : list (Z * levent)) : list flight := flat_map (fun e => match snd e with LFinish f => [f] | _ => [] end) q.
Definition fl_end (f : flight) : Z := fl_arr f + fl_lasts f.
