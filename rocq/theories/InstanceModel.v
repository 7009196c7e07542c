(** An instance of the geo-tag strategy (fw/geotag-strategy.cpp) on a node of a scenario built by the helpers: what its
    constructor takes from the simulation, and the network its handlers then look at. *)
From Coq Require Import ZArith QArith List Bool Arith.
From Verif Require Import Base SatAddrModel ConstellationModel LaunchModel IslModel GeoTagModel SetupModel.
Import ListNotations.
Open Scope nat_scope.

Section Instance.
Context {A : Type}.

(** The end of the constructor (geotag-strategy.cpp:77-83) with [nodes] nodes in the NodeList, which is in order of creation.
    [NodeList::GetNode] and [Node::GetDevice] assert that there is one; [GetObject] of a device of another class, a device
    without channel and a channel without constellation all give null pointers that are dereferenced. *)
Definition strategy_sizes (w : world A) (nodes : nat) : result (Z * Z) :=
  match nodes with
  | O => Assert
  | S n =>
      match sn_devs (sw_nodes w n) with
      | [] => Assert
      | RIsl _ :: _ => UB
      | RGs k :: _ =>
          match nth_error (sw_devs w) k with
          | Some (mkSD _ (KGround _) (Some c)) =>
              match nth_error (sw_chans w) c with
              | Some (mkSC (Some h) _) =>
                  let con := h_con (sw_helpers w h) in Ok (Z.of_nat (con_planes con), Z.of_nat (con_plane_size con))
              | _ => UB
              end
          | _ => UB
          end
      end
  end.

(** The constructor (59-84), for the parameters and the version NFD has parsed from the name asked for; the version in
    [getStrategyName] (86-91) is 1.  [None] is the exception std::invalid_argument. *)
Definition strategy_new (params : list Z) (version : option Z) (w : world A) (nodes : nat) : result (option (Z * Z)) :=
  match params with
  | _ :: _ => Ok None
  | [] =>
      if match version with Some v => negb (v =? 1)%Z | None => false end then Ok None
      else do s <- strategy_sizes w nodes ; Ok (Some s)
  end.

(** The ends of each inter-satellite channel, [GetDevice (0)] and [GetDevice (1)] (sat2sat-channel.cc), as nodes. *)
Definition link_ends (l : list isl_device) : list (nat * nat) :=
  map (fun k => match filter (fun d => isl_chan d =? k) l with a :: b :: _ => (isl_node a, isl_node b) | _ => (0, 0) end)
    (seq 0 (length l / 2)).

(** The address of device 0 of a node, as 114-117 and getSatAddress (297-304) ask for it. *)
Definition first_address (w : world A) (n : nat) : option sat_address :=
  match sn_devs (sw_nodes w n) with
  | RGs k :: _ => match nth_error (sw_devs w) k with Some (mkSD _ (KSat a) _) => Some a | _ => None end
  | _ => None
  end.

(** What [after_receive_interest] looks at, when the strategy was chosen on all nodes at once. *)
Definition instance_net (w : world A) (sizes : Z * Z) : network :=
  mkNet (first_address w) (link_ends (sw_links w)) (fst sizes) (snd sizes).
End Instance.
