(** Queue capacity of the faces (model/ndn/*-transport.cc), LoRa and Poisson traffic (helper/lora-helper.cc,
    helper/poisson-helper.cc) and the installation of devices (helper/icarus-helper.cc). *)
From Coq Require Import ZArith QArith List Lia Bool Arith.
From Verif Require Import Base SatAddrModel ConstellationModel LaunchModel ChannelModel.
Import ListNotations.
Open Scope Z_scope.

(** * Queues *)

(** ns-3's [QueueSize]: a 32 bit limit with a unit, and its drop-tail queue, of which only the sizes matter here. *)
Inductive queue_limit := InPackets (n : Z) | InBytes (n : Z).
Definition queue_bytes (q : list Z) : Z := fold_right Z.add 0 q.
Inductive queue_op := QEnqueue (size : Z) | QDequeue.
Definition queue_step (lim : queue_limit) (q : list Z) (op : queue_op) : list Z :=
  match op with
  | QEnqueue size =>
      let overflow := match lim with InPackets n => n <? Z.of_nat (length q) + 1 | InBytes n => n <? queue_bytes q + size end in
      if overflow then q else q ++ [size]
  | QDequeue => tl q
  end.
Definition queue_run (lim : queue_limit) (ops : list queue_op) : list Z := fold_left (queue_step lim) ops [].

(** ground-sta-transport.cc:52-69, sat2ground-transport.cc:56-74: the product is computed in 32 bits. *)
Definition send_queue_capacity (lim : queue_limit) : Z :=
  match lim with InBytes n => n | InPackets n => u32 (n * 1500) end.
(** ground-sta-transport.cc:92-107, sat2ground-transport.cc:90-103 *)
Definition send_queue_length (q : list Z) : Z := queue_bytes q.

(** * LoRa *)

(** lora-helper.cc:26-50.  Arguments arrive through the parameter types of the constructor (lora-helper.h:60-64).
    The ratios are computed in double precision; they are modelled exactly.  [None] is the conversion of a negative
    number to an unsigned type, which is undefined. *)
Definition ceil_div (a b : Z) : Z := - ((- a) / b).
Record lora := mkLora { lr_phy_size : Z; lr_payload : Z }.
Definition lora_phy_size (sf cr payload : Z) : Z :=
  let de := if sf <=? 10 then 0 else 1 in
  u32 (8 + cr * ceil_div (u32 (44 + 8 * payload - 4 * sf)) (4 * (sf - 2 * de))).
(** [round] of a non-negative quotient. *)
Definition round_div (a b : Z) : Z := (2 * a + b) / (2 * b).
Definition lora_new (sf cr bandwidth preamble header payload : Z) : result lora :=
  let sf := u8 sf in let cr := u8 cr in let bandwidth := u8 bandwidth in
  let preamble := u16 preamble in let header := u16 header in let payload := u32 payload in
  assert_ ((7 <=? sf) && (sf <=? 12)) ;;
  assert_ ((5 <=? cr) && (cr <=? 8)) ;;
  assert_ ((8 <=? bandwidth) && (bandwidth <=? 500)) ;;
  assert_ ((6 <=? preamble) && (preamble <=? 65532)) ;;
  let phy := lora_phy_size sf cr payload in
  (* sf * (preamble + phy + 4.25) / cr / 2 *)
  let size := round_div (sf * (4 * (preamble + phy) + 17)) (8 * cr) - header in
  if (size <? 0) || (2 ^ 32 <=? size) then UB else Ok (mkLora phy size).

(** lora-helper.cc:94-98: the rate in bit/s, truncated to an integer. *)
Definition lora_link_rate (sf cr bandwidth : Z) : Z :=
  let sf := u8 sf in let cr := u8 cr in let bandwidth := u8 bandwidth in sf * bandwidth * 4000 / (2 ^ sf * cr).

(** * Poisson traffic *)

(** poisson-helper.cc:33-53, in seconds, exactly; the sum of sizes is computed in 32 bits. *)
Definition poisson_t_on (packet : Z) : Q := inject_Z (packet * 8) / inject_Z (2 ^ 64 - 1).
Definition poisson_t_off (rate header packet : Z) : Q :=
  inject_Z (8 * u32 (packet + header)) / inject_Z rate - poisson_t_on packet.

(** * Installing devices *)

(** Nodes are numbered; all that matters of them is whether they have a mobility model and a tracker. *)
Record node_state := mkNode { nd_mobile : bool; nd_tracker : bool }.
(** Devices are numbered in the order of creation; each has its own MAC model. *)
Inductive device_made := MadeSat (node : nat) (a : sat_address) (mac : nat) | MadeGround (node : nat) (addr : Z) (mac : nat).
Record install_state (A : Type) := mkInstall {
  in_helper : helper A;
  in_channel : gs_channel;
  in_nodes : nat -> node_state;
  in_devices : list device_made;
  in_macs : nat;          (* MAC models created by the factory *)
  in_next : Z }.          (* next Mac48Address to allocate *)
Arguments mkInstall {A}. Arguments in_helper {A}. Arguments in_channel {A}. Arguments in_nodes {A}.
Arguments in_devices {A}. Arguments in_macs {A}. Arguments in_next {A}.

Definition set_node (f : nat -> node_state) (n : nat) (s : node_state) (m : nat) : node_state := if (m =? n)%nat then s else f m.

Section Install.
Context {A : Type} (O : angles A) (debug : bool) (ho : host).

(** icarus-helper.cc:272-316 ([InstallPriv], [CreateDeviceForNode]); queues are not kept.  Launching gives the node its
    orbit; a node takes one tracker. *)
Definition install_priv (s : install_state A) (n : nat) : result (install_state A) :=
  let id := length (in_devices s) in
  if negb (nd_mobile (in_nodes s n)) then
    do (h', (addr, _)) <- launch O debug ho (in_helper s) id ;
    Ok (mkInstall h' (in_channel s) (set_node (in_nodes s) n (mkNode true (nd_tracker (in_nodes s n))))
          (in_devices s ++ [MadeSat n addr (in_macs s)]) (in_macs s + 1)%nat (in_next s))
  else
    abort_unless (negb (nd_tracker (in_nodes s n))) ;;
    do ch <- add_ground (in_channel s) id (nd_mobile (in_nodes s n)) ;
    Ok (mkInstall (in_helper s) ch (set_node (in_nodes s) n (mkNode true true))
          (in_devices s ++ [MadeGround n (in_next s) (in_macs s)]) (in_macs s + 1)%nat (in_next s + 1)).

Fixpoint install_nodes (s : install_state A) (ns : list nat) : result (install_state A) :=
  match ns with
  | [] => Ok s
  | n :: l => do s1 <- install_priv s n ; install_nodes s1 l
  end.

(** icarus-helper.cc:241-256: the channel holds a pointer to the constellation of the helper, so it sees later launches. *)
Definition install (h : helper A) (nodes : nat -> node_state) (first_mac : Z) (ns : list nat) : result (install_state A) :=
  do s <- install_nodes (mkInstall h gs_new nodes [] 0 first_mac) ns ;
  Ok (mkInstall (in_helper s) (set_constellation (in_channel s) (h_con (in_helper s))) (in_nodes s) (in_devices s) (in_macs s) (in_next s)).
End Install.
