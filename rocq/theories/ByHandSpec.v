(** What is claimed of links installed one by one. *)
From Coq Require Import ZArith List Bool Arith.
From Verif Require ChannelModel.
From Verif Require Import Base IslModel SetupModel SetupSpec ByHandModel.
Import ListNotations.
Open Scope nat_scope.

(** The nodes that a call asks to link, if it names two. *)
Inductive asks_two : hand_call -> nat * nat -> Prop :=
| asks_ptrs : forall a b, asks_two (HTwo (Some a) (Some b)) (a, b)
| asks_nodes : forall a b, asks_two (HNodes [a; b]) (a, b).

(** Both have a mobility model and the second flies. *)
Definition can_link {A} (w : world A) (p : nat * nat) : Prop :=
  sn_pos (sw_nodes w (fst p)) = true /\ sn_pos (sw_nodes w (snd p)) = true /\ sn_orbit (sw_nodes w (snd p)) = true.

(** The links of a world are channels with two ends each, and each node has its ends in the order they were made. *)
Definition linked_as {A} (w : world A) (prs : list (nat * nat)) : Prop :=
  sw_links w = install_pairs 0 prs /\
  forall n, isl_of (sn_devs (sw_nodes w n)) = places (fun d => isl_node d =? n) 0 (sw_links w).

(** Nothing but the links and the lists of devices differs, and those lists only by new ends. *)
Definition only_links {A} (w w' : world A) : Prop :=
  sw_helpers w' = sw_helpers w /\ sw_chans w' = sw_chans w /\ sw_devs w' = sw_devs w /\ sw_type w' = sw_type w /\ sw_mac w' = sw_mac w /\
  forall n, sn_pos (sw_nodes w' n) = sn_pos (sw_nodes w n) /\ sn_orbit (sw_nodes w' n) = sn_orbit (sw_nodes w n) /\
    sn_trackers (sw_nodes w' n) = sn_trackers (sw_nodes w n) /\ exists ks, sn_devs (sw_nodes w' n) = sn_devs (sw_nodes w n) ++ map RIsl ks.

(** The two pointers that are followed, if the call gets that far. *)
Inductive points : hand_call -> option nat -> option nat -> Prop :=
| points_ptrs : forall a b, points (HTwo a b) a b
| points_nodes : forall a b, points (HNodes [a; b]) (Some a) (Some b).

(** What becomes of a frame of device [k] on the channel of its link: it comes to the device [o], or is lost where the model says so. *)
Definition frame_of (tx_time : Z -> Z -> Z) (delay : nat -> nat -> Z) (success : option (nat -> nat -> bool)) (k o : nat) (u rate proto : Z)
  : result (Z * list ChannelModel.ss_outcome) :=
  Ok (tx_time rate u, [if match success with None => true | Some f => f k o end then ChannelModel.SSAt (delay k o) o u rate proto else ChannelModel.SSDropped u]).
