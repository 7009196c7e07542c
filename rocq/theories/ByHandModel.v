(** Inter-satellite links installed one by one (helper/isl-helper.cc:195-238), after any calls of the helpers. *)
From Coq Require Import ZArith List Bool Arith.
From Verif Require Import Base ConstellationModel LaunchModel ChannelModel IslModel SetupModel UriModel.
Import ListNotations.
Open Scope nat_scope.

(** ISLHelper::Install (Ptr<Node>, Ptr<Node>), where a pointer may be null, and ISLHelper::Install (NodeContainer). *)
Inductive hand_call := HTwo (a b : option nat) | HNodes (ns : list nat).

Section ByHand.
Context {A : Type}.

(** isl-helper.cc:204-221 with InstallPriv (223-238) for each: the node is dereferenced (228) before the device is attached (231),
    and the second node only when the first end is done.  The channel is a new one. *)
Definition hand_two (w : world A) (a b : option nat) : result (world A) :=
  let chan := length (sw_links w) / 2 in
  match a with
  | None => UB
  | Some x =>
      do w1 <- link_end w x chan false ;
      match b with None => UB | Some y => link_end w1 y chan true end
  end.

(** isl-helper.cc:195-202 *)
Definition hand_step (w : world A) (o : hand_call) : result (world A) :=
  match o with
  | HTwo a b => hand_two w a b
  | HNodes ns =>
      assert_ (length ns =? 2) ;;
      hand_two w (nth_error ns 0) (nth_error ns 1)
  end.

Fixpoint by_hand (w : world A) (l : list hand_call) : result (world A) :=
  match l with
  | [] => Ok w
  | o :: r => do w1 <- hand_step w o ; by_hand w1 r
  end.

(** The channel of a link as its devices attached themselves to it (sat2sat-channel.cc:82-107). *)
Definition link_channel (w : world A) (c : nat) : ss_channel :=
  let s := attached c 0 (sw_links w) in mkSS s (length s =? 2).
End ByHand.
