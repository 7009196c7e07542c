(** Building a scenario: any sequence of calls of the helpers (helper/icarus-helper.cc, helper/isl-helper.cc), with several
    channels and constellations, and what the devices and trackers they make refer to afterwards. *)
From Coq Require Import ZArith QArith List Lia Bool Arith.
From Verif Require Import Base SatAddrModel ConstellationModel LaunchModel ChannelModel IslModel.
Import ListNotations.
Open Scope nat_scope.

(** Devices of the two kinds are numbered apart, each kind in order of creation: those that talk with the other side of the
    atmosphere and those of inter-satellite links. *)
Inductive dev_ref := RGs (k : nat) | RIsl (k : nat).

(** A node: whether it has a mobility model, whether that is an orbit, the types of its trackers (numbered), and its devices
    in the order of [Node::AddDevice], which is that of their interface indices. *)
Record snode := mkSN { sn_pos : bool; sn_orbit : bool; sn_trackers : list nat; sn_devs : list dev_ref }.

(** Sat2GroundNetDevice and GroundStaNetDevice: their address and the channel they hold, [None] for a null pointer. *)
Inductive dv_kind := KSat (a : sat_address) | KGround (mac : Z).
Record sdevice := mkSD { dv_node : nat; dv_kind_of : dv_kind; dv_chan : option nat }.

(** A GroundSatChannel (ground-sat-channel.h:75-85): the constellation it points to, by the number of its helper, and its
    ground devices. *)
Record schannel := mkSC { sc_con : option nat; sc_ground : list nat }.
Definition sc_new : schannel := mkSC None [].

Record world (A : Type) := mkWorld {
  sw_helpers : nat -> helper A;
  sw_chans : list schannel;
  sw_nodes : nat -> snode;
  sw_devs : list sdevice;
  sw_links : list isl_device;
  sw_type : nat;            (* the tracker the helper makes *)
  sw_mac : Z }.             (* the next Mac48Address to allocate *)
Arguments mkWorld {A}. Arguments sw_helpers {A}. Arguments sw_chans {A}. Arguments sw_nodes {A}.
Arguments sw_devs {A}. Arguments sw_links {A}. Arguments sw_type {A}. Arguments sw_mac {A}.

Definition upd {B} (f : nat -> B) (n : nat) (v : B) (m : nat) : B := if m =? n then v else f m.

(** What a script does.  A pointer may be null, in particular one returned by [Names::Find]. *)
Inductive sop :=
| SChannel                                            (* CreateObject<GroundSatChannel> *)
| STracker (t : nat)                                  (* SetTrackerModel *)
| SOne (n : option nat) (c : option nat) (h : nat)    (* Install (node, channel, helper), by pointer or by name *)
| SMany (ns : list nat) (c : option nat) (h : nat)    (* Install (nodes, channel, helper), by pointer or by name *)
| SNew (ns : list nat) (h : nat)                      (* Install (nodes, helper) *)
| SIsl (ns : list nat) (h : nat).                     (* ISLHelper::Install (nodes, helper) *)

Section Setup.
Context {A : Type} (O : angles A) (debug : bool) (ho : host).

Definition add_dev (s : snode) (d : dev_ref) : snode := mkSN (sn_pos s) (sn_orbit s) (sn_trackers s) (sn_devs s ++ [d]).

(** InstallPriv with CreateDeviceForNode (icarus-helper.cc:267-316).  A node without a mobility model is launched: the device
    holds the channel, null or not (sat2ground-net-device.cc:182-191).  Any other gets a ground device and a tracker;
    aggregating a second tracker of one type stops the program (no tracker type has another as its parent); the ground device
    adds itself to the channel (ground-sta-net-device.cc:206-216).  Queues and MAC models are not kept. *)
Definition install_one (w : world A) (n : nat) (c : option nat) (h : nat) : result (world A) :=
  let k := length (sw_devs w) in
  let s := sw_nodes w n in
  if negb (sn_pos s) then
    do (h', (addr, _)) <- launch O debug ho (sw_helpers w h) k ;
    Ok (mkWorld (upd (sw_helpers w) h h') (sw_chans w)
          (upd (sw_nodes w) n (mkSN true true (sn_trackers s) (sn_devs s ++ [RGs k])))
          (sw_devs w ++ [mkSD n (KSat addr) c]) (sw_links w) (sw_type w) (sw_mac w))
  else
    abort_unless (negb (existsb (Nat.eqb (sw_type w)) (sn_trackers s))) ;;
    match c with
    | None => UB
    | Some i =>
        match nth_error (sw_chans w) i with
        | None => UB
        | Some ch =>
            Ok (mkWorld (sw_helpers w) (set_nth i (mkSC (sc_con ch) (sc_ground ch ++ [k])) (sw_chans w))
                  (upd (sw_nodes w) n (mkSN true (sn_orbit s) (sn_trackers s ++ [sw_type w]) (sn_devs s ++ [RGs k])))
                  (sw_devs w ++ [mkSD n (KGround (sw_mac w)) c]) (sw_links w) (sw_type w) (sw_mac w + 1)%Z)
        end
    end.

Fixpoint install_each (w : world A) (ns : list nat) (c : option nat) (h : nat) : result (world A) :=
  match ns with
  | [] => Ok w
  | n :: l => do w1 <- install_one w n c h ; install_each w1 l c h
  end.

(** icarus-helper.cc:239-255: only this one tells the channel of the constellation. *)
Definition install_many (w : world A) (ns : list nat) (c : option nat) (h : nat) : result (world A) :=
  match c with
  | None => UB
  | Some i =>
      match nth_error (sw_chans w) i with
      | None => UB
      | Some ch =>
          install_each (mkWorld (sw_helpers w) (set_nth i (mkSC (Some h) (sc_ground ch)) (sw_chans w)) (sw_nodes w)
                          (sw_devs w) (sw_links w) (sw_type w) (sw_mac w)) ns c h
      end
  end.

(** isl-helper.cc:131-146: device 0 of each node ([Node::GetDevice] asserts that there is one) must be one of the satellite;
    the constellation in its address. *)
Definition first_id (w : world A) (n : nat) : result Z :=
  match sn_devs (sw_nodes w n) with
  | [] => Assert
  | RIsl _ :: _ => UB
  | RGs k :: _ =>
      match nth_error (sw_devs w) k with
      | Some (mkSD _ (KSat a) _) => Ok (get_constellation ho a)
      | _ => UB
      end
  end.
Fixpoint first_ids (w : world A) (ns : list nat) : result (list Z) :=
  match ns with
  | [] => Ok []
  | n :: l => do a <- first_id w n ; do r <- first_ids w l ; Ok (a :: r)
  end.

(** InstallPriv (isl-helper.cc:223-238) with the attachment (sat2sat-channel.cc:82-107): a mobility model is needed, and the
    second end needs an orbit.  The helper always sets a success model. *)
Definition link_end (w : world A) (n chan : nat) (second : bool) : result (world A) :=
  let s := sw_nodes w n in
  abort_unless (sn_pos s) ;;
  if second && negb (sn_orbit s) then UB
  else Ok (mkWorld (sw_helpers w) (sw_chans w) (upd (sw_nodes w) n (add_dev s (RIsl (length (sw_links w)))))
             (sw_devs w) (sw_links w ++ [mkIsl n chan]) (sw_type w) (sw_mac w)).

(** isl-helper.cc:204-221: one channel for the two; channels are numbered in order of creation, so the next number is half
    that of the devices. *)
Fixpoint link_pairs (w : world A) (l : list (dev * dev)) : result (world A) :=
  match l with
  | [] => Ok w
  | (a, b) :: r =>
      match nth_error (sw_devs w) a, nth_error (sw_devs w) b with
      | Some da, Some db =>
          let chan := length (sw_links w) / 2 in
          do w1 <- link_end w (dv_node da) chan false ;
          do w2 <- link_end w1 (dv_node db) chan true ;
          link_pairs w2 r
      | _, _ => UB
      end
  end.

(** ISLHelper::Install (NodeContainer, ConstellationHelper) (isl-helper.cc:125-193).  The constellation holds devices; the
    links join their nodes. *)
Definition install_isl (w : world A) (ns : list nat) (h : nat) : result (world A) :=
  do ids <- first_ids w ns ;
  do l <- install_grid ids (h_con (sw_helpers w h)) ;
  link_pairs w l.

(** icarus-helper.cc:149-162 (SetTrackerModel), 180-265.  A null node is dereferenced at once. *)
Definition setup_step (w : world A) (o : sop) : result (world A) :=
  match o with
  | SChannel => Ok (mkWorld (sw_helpers w) (sw_chans w ++ [sc_new]) (sw_nodes w) (sw_devs w) (sw_links w) (sw_type w) (sw_mac w))
  | STracker t => Ok (mkWorld (sw_helpers w) (sw_chans w) (sw_nodes w) (sw_devs w) (sw_links w) t (sw_mac w))
  | SOne None _ _ => UB
  | SOne (Some n) c h => install_one w n c h
  | SMany ns c h => install_many w ns c h
  | SNew ns h =>
      install_many (mkWorld (sw_helpers w) (sw_chans w ++ [sc_new]) (sw_nodes w) (sw_devs w) (sw_links w) (sw_type w) (sw_mac w))
        ns (Some (length (sw_chans w))) h
  | SIsl ns h => install_isl w ns h
  end.

Fixpoint setup (w : world A) (l : list sop) : result (world A) :=
  match l with
  | [] => Ok w
  | o :: r => do w1 <- setup_step w o ; setup w1 r
  end.
End Setup.

(** * What the objects refer to *)

Section View.
Context {A : Type}.

(** The channel as the transmission sees it: it points to the constellation, so it sees later launches. *)
Definition gs_view (w : world A) (c : nat) : gs_channel :=
  match nth_error (sw_chans w) c with
  | None => gs_new
  | Some ch => mkGS (option_map (fun h => h_con (sw_helpers w h)) (sc_con ch)) (sc_ground ch)
  end.

(** IcarusNetDevice::IsLinkUp (icarus-net-device.cc:198-204) *)
Definition link_up (w : world A) (k : nat) : bool :=
  match nth_error (sw_devs w) k with Some (mkSD _ _ (Some _)) => true | _ => false end.

(** GroundNodeSatTracker::GetNetDevice (ground-node-sat-tracker.cc:69-91) on its first call: the loop goes on after a find,
    so the last ground device is kept. *)
Fixpoint last_ground (w : world A) (l : list dev_ref) (found : option nat) : option nat :=
  match l with
  | [] => found
  | RIsl _ :: r => last_ground w r found
  | RGs k :: r =>
      match nth_error (sw_devs w) k with
      | Some (mkSD _ (KGround _) _) => last_ground w r (Some k)
      | _ => last_ground w r found
      end
  end.
Definition tracker_device (w : world A) (n : nat) : result nat :=
  match last_ground w (sn_devs (sw_nodes w n)) None with None => Assert | Some k => Ok k end.

(** GetConstellation (55-67) on its first call; the answer may be a null pointer. *)
Definition tracker_constellation (w : world A) (n : nat) : result (option nat) :=
  do k <- tracker_device w n ;
  match nth_error (sw_devs w) k with
  | Some (mkSD _ _ (Some c)) =>
      match nth_error (sw_chans w) c with Some ch => Ok (sc_con ch) | None => UB end
  | _ => UB
  end.

(** The members of the tracker: both are filled on first use, the constellation only if it is not null (54-91). *)
Record tracker_memo := mkMemo { tm_con : option nat; tm_dev : option nat }.
Definition memo_device (w : world A) (n : nat) (m : tracker_memo) : result (nat * tracker_memo) :=
  match tm_dev m with
  | Some k => Ok (k, m)
  | None => do k <- tracker_device w n ; Ok (k, mkMemo (tm_con m) (Some k))
  end.
Definition memo_constellation (w : world A) (n : nat) (m : tracker_memo) : result (option nat * tracker_memo) :=
  match tm_con m with
  | Some h => Ok (Some h, m)
  | None =>
      do (k, m1) <- memo_device w n m ;
      match nth_error (sw_devs w) k with
      | Some (mkSD _ _ (Some c)) =>
          match nth_error (sw_chans w) c with
          | Some ch => Ok (sc_con ch, mkMemo (sc_con ch) (tm_dev m1))
          | None => UB
          end
      | _ => UB
      end
  end.
End View.
