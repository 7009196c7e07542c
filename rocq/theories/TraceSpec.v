(** What a reader of the traces may conclude. *)
From Coq Require Import ZArith List Lia Bool Ascii String.
From Verif Require Import Base SatAddrModel DeviceModel DeviceSpec TraceModel.
Import ListNotations.
Open Scope Z_scope.

Section Reading.
Context {C : Type}.

(** Time and packet of the firings of a source, in order. *)
Definition shown (s : source) (tr : list (effect C)) : list (Z * Z) :=
  flat_map (fun e => match e with Tr s' t u => if source_dec s s' then [(t, u)] else [] | _ => [] end) tr.
Definition calls (tr : list (effect C)) : list C := flat_map (fun e => match e with Call c => [c] | _ => [] end) tr.
Definition passed_up (tr : list (effect C)) : list (Z * Z) := flat_map (fun e => match e with Up t u => [(t, u)] | _ => [] end) tr.

(** The part of a trace that tells of the packets given to [Send]; of those put on the air; of the time on the air. *)
Definition entry (e : effect C) : bool :=
  match e with Tr (MacTx | MacTxDrop | Enqueue | QueueDrop) _ _ | Ret _ _ => true | _ => false end.
Definition launching (e : effect C) : bool := match e with Tr (Sniffer | PhyTxBegin) _ _ | Call _ => true | _ => false end.
Definition on_air (e : effect C) : bool := match e with Tr (PhyTxBegin | PhyTxEnd) _ _ => true | _ => false end.

(** A packet given to [Send] at [t]: taken or refused. *)
Definition taken_or_refused (r : Z * Z * bool) : list (effect C) :=
  let '(t, u, b) := r in
  if b then [Tr MacTx t u; Tr Enqueue t u; Ret u true] else [Tr MacTx t u; Tr QueueDrop t u; Tr MacTxDrop t u; Ret u false].

(** A transmission that lasted from [t] to [t']. *)
Definition transmission (x : Z * Z * Z) : list (effect C) := let '(t, t', u) := x in [Tr PhyTxBegin t u; Tr PhyTxEnd t' u].
Definition begun (x : option (Z * Z)) : list (effect C) := match x with Some (t, u) => [Tr PhyTxBegin t u] | None => [] end.

Definition fired (s : source) (u : Z) (tr : list (effect C)) : nat := count_occ Z.eq_dec (map snd (shown s tr)) u.
End Reading.

(** When packets were given to [Send]. *)
Definition g_asked (ops : list (Z * gop)) : list (Z * Z) :=
  flat_map (fun x => match snd x with GSend u _ => [(fst x, u)] | _ => [] end) ops.
Definition s_asked (ops : list sop) : list (Z * Z) :=
  flat_map (fun o => match o with SSend t u _ => [(t, u)] | _ => [] end) ops.

(** Traces change nothing: what is left without them. *)
Definition g_plain (e : effect (Z * gtag)) : list gevent :=
  match e with
  | Tr Enqueue _ u => [EAccept u]
  | Tr QueueDrop _ u => [ERefuse u]
  | Tr Dequeue _ u => [EHand u]
  | Call (u, tag) => [EAir u tag]
  | Tr PhyTxEnd _ u => [EDone u]
  | _ => []
  end.
Definition s_plain (o : sop) (e : effect airing) : list sevent :=
  match e, o with
  | Tr Enqueue _ u, SSend t _ proto => [SAccept t u proto]
  | Tr QueueDrop _ u, _ => [SRefuse u]
  | Call a, _ => [SAir a]
  | _, _ => []
  end.

(** The same runs, traces left out; and how they end. *)
Definition s_erase (o : sop) (r : option (result (sdev * list (effect airing)))) : option (result (sdev * list sevent)) :=
  option_map (rmap (fun x => (fst x, flat_map (s_plain o) (snd x)))) r.

Definition g_erase (r : option (result (gdev * list (effect (Z * gtag))))) : option (result (gdev * list gevent)) :=
  option_map (rmap (fun x => (fst x, flat_map g_plain (snd x)))) r.

Definition fate {A B} (r : option (result (A * B))) : option (result A) := option_map (rmap fst) r.


(** Putting a packet on the air. *)
Definition firing (a : airing) : list (effect airing) :=
  [Tr Sniffer (a_start a) (a_uid a); Tr PhyTxBegin (a_start a) (a_uid a); Call a].

Definition gfiring (t : Z) (x : Z * gtag) : list (effect (Z * gtag)) := [Tr Sniffer t (fst x); Tr PhyTxBegin t (fst x); Call x].


(** Jobs of the MAC for packet [u] on the air and not. *)
Definition jobs_of (on : bool) (u : Z) (l : list mac_job) : nat :=
  List.length (filter (fun j => (job_uid j =? u) && Bool.eqb (job_on_air j) on) l).


(** The tracked_arrivals taken, with their time. *)
Fixpoint tracked_arrivals (tracked : sat_address) (ops : list eop) : list (Z * Z) :=
  match ops with
  | [] => []
  | RArrive t src u _ _ :: l => if sat_dec src tracked then (t, u) :: tracked_arrivals tracked l else tracked_arrivals tracked l
  | RRetarget _ a :: l => tracked_arrivals a l
  | RFinish :: l => tracked_arrivals tracked l
  end.

Definition up_of (s : ears) : list (Z * Z) := map (fun x => (fst x, h_uid (snd x))) (e_up s).

(** A frame received: its end, the capture, the MAC, and then the node. *)
Definition reception {C} (x : Z * Z) : list (effect C) :=
  let (t, u) := x in [Tr PhyRxEnd t u; Tr Sniffer t u; Tr MacRx t u; Up t u].
