(** Installing the inter-satellite grid (helper/isl-helper.cc). *)
From Coq Require Import ZArith List Lia Bool Arith.
From Verif Require Import Base SatAddrModel ConstellationModel.
Import ListNotations.
Open Scope nat_scope.

(** nd->GetNode () on a possibly null device.  Nodes and their ground devices are identified. *)
Definition deref (s : option dev) : result dev :=
  match s with Some d => Ok d | None => UB end.

Definition sat_node (c : constellation) (i j : nat) : result dev :=
  do s <- get_satellite c i j ; deref s.

(** Body of the inner loop (isl-helper.cc:159-189): the links installed for satellite (i, j), as
    pairs of nodes in the order passed to Install (a, b). *)
Definition isl_cell (c : constellation) (nPlanes nNodes i j : nat) : result (list (dev * dev)) :=
  do n1 <- sat_node c i j ;
  do intra <-
    (if j <? nNodes - 1 then
       do n2 <- sat_node c i (j + 1) ; Ok [(n1, n2)]
     else if (j =? nNodes - 1) && negb (j =? 0) && negb (j =? 1) then
       do n2 <- sat_node c i 0 ; Ok [(n1, n2)]
     else Ok []) ;
  do inter <-
    (if i <? nPlanes - 1 then
       do n2 <- sat_node c (i + 1) j ; Ok [(n1, n2)]
     else if (i =? nPlanes - 1) && negb (i =? 0) && negb (i =? 1) then
       do n2 <- sat_node c 0 j ; Ok [(n1, n2)]
     else Ok []) ;
  Ok (intra ++ inter).

(** for (x : l) acc += f x, stopping at the first failure. *)
Fixpoint rflat_map {A B} (f : A -> result (list B)) (l : list A) : result (list B) :=
  match l with
  | [] => Ok []
  | x :: r => do y <- f x ; do ys <- rflat_map f r ; Ok (y ++ ys)
  end.

(** The address check loop (isl-helper.cc:129-146): all satellites of one constellation. *)
Fixpoint same_constellation (cur : Z) (ids : list Z) : result unit :=
  match ids with
  | [] => Ok tt
  | a :: r => if Z.eqb cur 0 then same_constellation (u16 a) r
              else assert_ (Z.eqb cur a) ;; same_constellation cur r
  end.

(** ISLHelper::Install (NodeContainer, ConstellationHelper) (isl-helper.cc:125-193).
    [node_ids] are the constellation ids in the addresses of the nodes passed in. *)
Definition install_grid (node_ids : list Z) (c : constellation) : result (list (dev * dev)) :=
  same_constellation 0 node_ids ;;
  do n <- get_size c ;
  assert_ (length node_ids =? n) ;;
  rflat_map (fun i => rflat_map (fun j => isl_cell c (con_planes c) (con_plane_size c) i j)
                        (seq 0 (con_plane_size c)))
            (seq 0 (con_planes c)).

(** A link device: the node it is added to and the channel it is attached to. *)
Record isl_device := mkIsl { isl_node : dev; isl_chan : nat }.

(** Install (a, b) and InstallPriv (isl-helper.cc:204-238): one new channel, then one device on each
    node, first [a] and then [b]; channels are numbered in order of creation. *)
Definition install_pair (k : nat) (ab : dev * dev) : list isl_device :=
  [mkIsl (fst ab) k; mkIsl (snd ab) k].
Fixpoint install_pairs (k : nat) (l : list (dev * dev)) : list isl_device :=
  match l with
  | [] => []
  | ab :: r => install_pair k ab ++ install_pairs (S k) r
  end.

(** Devices of one node, in the order they were added. *)
Definition devices_of (n : dev) (l : list isl_device) : list isl_device :=
  filter (fun d => isl_node d =? n) l.
