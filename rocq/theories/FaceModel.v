(** NDN faces over the devices: what a transport sends and gets (model/ndn/ground-sta-transport.cc,
    model/ndn/sat2ground-transport.cc; for inter-satellite links ndnSIM's NetDeviceTransport, which does the same). *)
From Coq Require Import ZArith List Bool Arith.
From Verif Require Import Base DeviceModel.
Import ListNotations.
Open Scope Z_scope.

(** A packet of ns-3 is an object with headers, outermost first.  A block of NDN is a number; packets of other programs
    begin with something that is not a block. *)
Inductive header := Block (b : Z) | Foreign.
Definition packets := list (Z * list header).

(** The devices, the channel and the simulator are given: [step] runs one operation, [send] is Send of a device (time,
    device, packet, protocol number), [other] are the operations that are not sends, [up] says which packets a device
    passes up (time, device, packet, protocol number). *)
Section Faces.
Context {S O N X : Type}.
Variable step : S -> O -> option (result (S * list N)).
Variable send : Z -> nat -> Z -> Z -> O.
Variable other : X -> O.
Variable up : N -> option (Z * nat * Z * Z).
Variable ndn : Z.    (* L3Protocol::ETHERNET_FRAME_TYPE *)

(** [fw_next]: the next packet object. *)
Record fworld := mkW { fw_net : S; fw_next : Z; fw_heap : packets }.

(** Create, AddHeader, Copy, RemoveHeader. *)
Definition create_packet (w : fworld) (hs : list header) : fworld * Z :=
  (mkW (fw_net w) (fw_next w + 1) ((fw_next w, hs) :: fw_heap w), fw_next w).
Definition set_packet (w : fworld) (u : Z) (hs : list header) : fworld :=
  mkW (fw_net w) (fw_next w) ((u, hs) :: remove_tag u (fw_heap w)).
Definition add_header (w : fworld) (u : Z) (h : header) : result fworld :=
  match find_tag u (fw_heap w) with Some hs => Ok (set_packet w u (h :: hs)) | None => UB end.
Definition copy_packet (w : fworld) (u : Z) : result (fworld * Z) :=
  match find_tag u (fw_heap w) with Some hs => Ok (create_packet w hs) | None => UB end.
(** Reading a block where there is none is undefined. *)
Definition remove_block (w : fworld) (u : Z) : result (fworld * Z) :=
  match find_tag u (fw_heap w) with Some (Block b :: hs) => Ok (set_packet w u hs, b) | _ => UB end.

(** doSend up to the Send of the device (ground-sta-transport.cc:115-128, sat2ground-transport.cc:114-127) *)
Definition do_send (w : fworld) (b : Z) : result (fworld * Z) :=
  let (w1, u) := create_packet w [] in
  do w2 <- add_header w1 u (Block b) ;
  Ok (w2, u).

(** receiveFromNetDevice (ground-sta-transport.cc:130-145, sat2ground-transport.cc:129-144): the packet may be shared
    with other devices, so it is copied first. *)
Definition receive_from (w : fworld) (u : Z) : result (fworld * Z) :=
  do (w1, c) <- copy_packet w u ;
  remove_block w1 c.

(** What is seen: the devices, and a face that gets a block. *)
Inductive fnote := FNote (n : N) | FGot (t : Z) (r : nat) (b : Z).

(** The node of a device hands a packet to the transport if the protocol number is the one it was registered with
    (ground-sta-transport.cc:79-81, sat2ground-transport.cc:80-82). *)
Fixpoint deliver (w : fworld) (ns : list N) : result (fworld * list fnote) :=
  match ns with
  | [] => Ok (w, [])
  | n :: l =>
      match up n with
      | Some (t, r, u, p) =>
          if p =? ndn then
            do (w1, b) <- receive_from w u ;
            do (w2, out) <- deliver w1 l ;
            Ok (w2, FNote n :: FGot t r b :: out)
          else do (w2, out) <- deliver w l ; Ok (w2, FNote n :: out)
      | None => do (w2, out) <- deliver w l ; Ok (w2, FNote n :: out)
      end
  end.

(** A face sends a block; another program sends a packet of its own; anything else. *)
Inductive fcall := FSend (t : Z) (i : nat) (b : Z) | FRaw (t : Z) (i : nat) (p : Z) | FDo (x : X).

Definition operate (w : fworld) (o : O) : option (result (fworld * list fnote)) :=
  match step (fw_net w) o with
  | None => None
  | Some r => Some (do (s, ns) <- r ; deliver (mkW s (fw_next w) (fw_heap w)) ns)
  end.

Definition f_call (w : fworld) (c : fcall) : option (result (fworld * list fnote)) :=
  match c with
  | FSend t i b => match do_send w b with
                   | Ok (w1, u) => operate w1 (send t i u ndn) | Assert => Some Assert | Abort => Some Abort | UB => Some UB end
  | FRaw t i p => let (w1, u) := create_packet w [Foreign] in operate w1 (send t i u p)
  | FDo x => operate w (other x)
  end.

Fixpoint f_calls (w : fworld) (cs : list fcall) : option (result (fworld * list fnote)) :=
  match cs with
  | [] => Some (Ok (w, []))
  | c :: l =>
      match f_call w c with
      | Some (Ok (w1, n1)) =>
          match f_calls w1 l with
          | Some (Ok (w2, n2)) => Some (Ok (w2, n1 ++ n2))
          | x => x
          end
      | x => x
      end
  end.

(** The devices alone. *)
Fixpoint n_run (s : S) (ops : list O) : option (result (S * list N)) :=
  match ops with
  | [] => Some (Ok (s, []))
  | o :: l =>
      match step s o with
      | Some (Ok (s1, n1)) =>
          match n_run s1 l with
          | Some (Ok (s2, n2)) => Some (Ok (s2, n1 ++ n2))
          | x => x
          end
      | x => x
      end
  end.

Definition fw_init (s : S) : fworld := mkW s 0 [].
End Faces.
Arguments fworld : clear implicits.
Arguments fnote : clear implicits.
Arguments fcall : clear implicits.
