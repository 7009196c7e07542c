(** Reading what a program asked of the devices. *)
From Coq Require Import ZArith List Bool Arith.
From Verif Require Import SatAddrModel NetDevModel.
Import ListNotations.
Open Scope nat_scope.

Notation program := (list (nat * ncall)).

(** The last call on device [d] that says something about a setting said [v]; or none did. *)
Definition told_last {A} (f : ncall -> option A) (d : nat) (l : program) (v : A) : Prop :=
  exists l1 o l2, l = l1 ++ (d, o) :: l2 /\ f o = Some v /\ forall o', In (d, o') l2 -> f o' = None.
Definition told_never {A} (f : ncall -> option A) (d : nat) (l : program) : Prop := forall o, In (d, o) l -> f o = None.

Definition tells_rate (o : ncall) := match o with NRate r => Some r | _ => None end.
Definition tells_mtu (o : ncall) := match o with NMtu m => Some m | _ => None end.
Definition tells_index (o : ncall) := match o with NIfIndex i => Some i | _ => None end.
Definition tells_power (o : ncall) := match o with NPower p => Some p | _ => None end.
Definition tells_queue (o : ncall) := match o with NQueue q => Some q | _ => None end.
Definition tells_node (o : ncall) := match o with NNode n => Some n | _ => None end.
Definition tells_up (o : ncall) := match o with NReceive cb => Some cb | _ => None end.
Definition tells_promisc (o : ncall) := match o with NPromisc cb => Some cb | _ => None end.
Definition tells_mac (o : ncall) := match o with NMacAttr m => Some m | _ => None end.
Definition tells_channel (o : ncall) := match o with NAttach c => Some c | NChanAttr c => Some c | _ => None end.
(** The six bytes of an address, as a call gives them. *)
Definition tells_bytes (h : host) (o : ncall) := match o with NAddress a => Some (ga_data a) | NMacAddressAttr b => Some b | NSatAddressAttr a => Some (copy_to h a) | _ => None end.
Definition tells_remote (h : host) (o : ncall) := match o with NRemote a => Some (copy_to h a) | NRemoteAny a => Some (ga_data a) | NRemoteAttr a => Some (copy_to h a) | _ => None end.

(** The callbacks registered at a device; the calls of them, each time a device is attached. *)
Definition registered (d : nat) (l : program) : list nat := flat_map (fun x => match snd x with NOnChange cb => if fst x =? d then [cb] else [] | _ => [] end) l.
Fixpoint notices (past l : program) : list nsignal :=
  match l with
  | [] => []
  | x :: r => match snd x with NAttach _ => map (Changed (fst x)) (registered (fst x) past) | _ => [] end ++ notices (past ++ [x]) r
  end.
Definition is_change (s : nsignal) : bool := match s with Changed _ _ => true | _ => false end.

(** The devices of a class attached to channel [c], in order, as often as they were. *)
Definition joined (cls : nat -> dclass) (k : dclass) (c : nat) (l : program) : list nat :=
  flat_map (fun x => match snd x, cls (fst x), k with
    | NAttach (Some i), GroundSta, GroundSta | NAttach (Some i), SatSide, SatSide => if i =? c then [fst x] else []
    | _, _, _ => [] end) l.
(** No device is attached twice, and no channel is set as an attribute. *)
Definition attaches (l : program) : list nat := flat_map (fun x => match snd x with NAttach _ => [fst x] | _ => [] end) l.
Definition attached_once (l : program) : Prop := NoDup (attaches l) /\ forall d c, ~ In (d, NChanAttr c) l.

(** The calls on one device. *)
Definition calls_on (d : nat) (l : program) : list ncall := map snd (filter (fun x => fst x =? d) l).
(** Calls that take nothing away. *)
Definition keeps (o : ncall) : Prop := match o with NQueue None | NReceive None | NMacAttr None | NAttach _ | NChanAttr _ => False | _ => True end.
