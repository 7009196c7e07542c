(** The life of the transports on one node: made, closed by the forwarder, destroyed (model/ndn/ground-sta-transport.cc,
    model/ndn/sat2ground-transport.cc, model/ground-sta-net-device.cc). *)
From Coq Require Import ZArith List Bool Arith.
From Verif Require Import Base.
Import ListNotations.
Open Scope Z_scope.

Inductive dkind := GroundDev | SatDev | OtherDev.
(** A transport that was destroyed keeps its number here; its memory is gone. *)
Inductive tstate := TUp | TClosed | TGone.
(** [t_remote]: the address in the remote URI. *)
Record transport := mkT { t_dev : nat; t_state : tstate; t_remote : Z }.

(** [n_remote]: m_remoteAddress of each device (of ground stations).  [n_handlers]: the handlers of the node for the
    protocol of NDN, a device and the transport whose method is called.  [n_slots]: the slots connected to
    remoteAddressChange of a device, with the transport that the closure refers to. *)
Record node := mkNode { n_remote : nat -> Z; n_faces : list transport; n_handlers : list (nat * nat); n_slots : list (nat * nat) }.

Definition node_init (remote : nat -> Z) : node := mkNode remote [] [] [].
Definition with_faces (n : node) (l : list transport) : node := mkNode (n_remote n) l (n_handlers n) (n_slots n).

Inductive lop :=
| LNew (k : dkind) (d : nat)   (* a transport of that kind is made for device d *)
| LClose (f : nat)             (* the forwarder closes the face *)
| LGone (f : nat)              (* the forwarder has dropped the closed face, its transport is destroyed *)
| LSend (f : nat) (b : Z)      (* the forwarder sends a block *)
| LFrame (d : nat) (p b : Z)   (* device d passes up a packet of protocol p; for NDN it holds the block b *)
| LTarget (d : nat) (a : Z).   (* SetRemoteAddress of a ground station device *)

Inductive lev := EGot (f : nat) (b : Z) | ESent (d : nat) (b : Z) | EUri (f : nat) (a : Z).

Section Life.
Variable ndn : Z.              (* L3Protocol::ETHERNET_FRAME_TYPE *)
Variable kinds : nat -> dkind. (* of the devices of the node *)

Definition same_kind (a b : dkind) : bool :=
  match a, b with GroundDev, GroundDev => true | SatDev, SatDev => true | _, _ => false end.

(** The constructors (ground-sta-transport.cc:36-82, sat2ground-transport.cc:42-83).  DynamicCast gives a null pointer for
    a device of another kind, used for GetMtu (50, 54) before it is checked (74, 78).  The closure of the slot (76-77)
    captures this by reference; the handler (79-81, 80-82) is a callback on this.  The remote URI is that of address 0
    (helper/icarus-helper.cc:516-517). *)
Definition transport_new (n : node) (k : dkind) (d : nat) : result node :=
  if same_kind k (kinds d) then
    let f := length (n_faces n) in
    Ok (mkNode (n_remote n) (n_faces n ++ [mkT d TUp 0]) (n_handlers n ++ [(d, f)])
          (match k with GroundDev => n_slots n ++ [(d, f)] | _ => n_slots n end))
  else UB.

(** The destructors (ground-sta-transport.cc:84-87, sat2ground-transport.cc:85-88) do nothing but free the memory:
    handlers and slots stay. *)
Definition set_state (n : node) (f : nat) (s : tstate) : option node :=
  match nth_error (n_faces n) f with
  | Some t => Some (with_faces n (set_nth f (mkT (t_dev t) s (t_remote t)) (n_faces n)))
  | None => None
  end.

(** A method of a transport that is gone is called: undefined. *)
Definition access (n : node) (f : nat) : result transport :=
  match nth_error (n_faces n) f with
  | Some t => match t_state t with TGone => UB | _ => Ok t end
  | None => UB
  end.

(** receiveFromNetDevice (ground-sta-transport.cc:130-145, sat2ground-transport.cc:129-144); NFD's Transport::receive
    does not look at the state. *)
Definition transport_receive (n : node) (f : nat) (b : Z) : result (list lev) :=
  do t <- access n f ; Ok [EGot f b].

(** ns-3's Node goes through its handlers in order. *)
Fixpoint hand_over (n : node) (hs : list (nat * nat)) (d : nat) (b : Z) : result (list lev) :=
  match hs with
  | [] => Ok []
  | (e, f) :: l =>
      if (e =? d)%nat then
        do x <- transport_receive n f b ;
        do y <- hand_over n l d b ;
        Ok (x ++ y)
      else hand_over n l d b
  end.

(** updateRemoteUri (ground-sta-transport.cc:153-160) through the slots in order. *)
Definition update_uri (n : node) (f : nat) (a : Z) : result node :=
  do t <- access n f ; Ok (with_faces n (set_nth f (mkT (t_dev t) (t_state t) a) (n_faces n))).
Fixpoint signal (n : node) (ss : list (nat * nat)) (d : nat) (a : Z) : result (node * list lev) :=
  match ss with
  | [] => Ok (n, [])
  | (e, f) :: l =>
      if (e =? d)%nat then
        do n1 <- update_uri n f a ;
        do (n2, y) <- signal n1 l d a ;
        Ok (n2, EUri f a :: y)
      else signal n l d a
  end.

(** SetRemoteAddress (ground-sta-net-device.cc:301-311) *)
Definition target (n : node) (d : nat) (a : Z) : result (node * list lev) :=
  do (n1, ev) <- (if n_remote n d =? a then Ok (n, []) else signal n (n_slots n) d a) ;
  Ok (mkNode (fun e => if (e =? d)%nat then a else n_remote n1 e) (n_faces n1) (n_handlers n1) (n_slots n1), ev).

(** NFD's Transport::send does nothing unless the transport is up; else doSend (ground-sta-transport.cc:115-128,
    sat2ground-transport.cc:114-127). *)
Definition transport_send (n : node) (f : nat) (b : Z) : option (result (list lev)) :=
  match nth_error (n_faces n) f with
  | Some t => match t_state t with TUp => Some (Ok [ESent (t_dev t) b]) | TClosed => Some (Ok []) | TGone => None end
  | None => None
  end.

(** [None]: the forwarder does not do that.  NFD's Transport::close does nothing to a closed transport; doClose
    (ground-sta-transport.cc:106-113, sat2ground-transport.cc:105-112). *)
Definition l_step (n : node) (o : lop) : option (result (node * list lev)) :=
  match o with
  | LNew k d => Some (do n1 <- transport_new n k d ; Ok (n1, []))
  | LClose f =>
      match nth_error (n_faces n) f with
      | Some t => match t_state t with
                  | TGone => None
                  | _ => match set_state n f TClosed with Some n1 => Some (Ok (n1, [])) | None => None end
                  end
      | None => None
      end
  | LGone f =>
      match nth_error (n_faces n) f with
      | Some t => match t_state t with
                  | TClosed => match set_state n f TGone with Some n1 => Some (Ok (n1, [])) | None => None end
                  | _ => None
                  end
      | None => None
      end
  | LSend f b => match transport_send n f b with Some r => Some (do ev <- r ; Ok (n, ev)) | None => None end
  | LFrame d p b => Some (if p =? ndn then do ev <- hand_over n (n_handlers n) d b ; Ok (n, ev) else Ok (n, []))
  | LTarget d a => match kinds d with GroundDev => Some (target n d a) | _ => None end
  end.

Fixpoint l_run (n : node) (ops : list lop) : option (result (node * list lev)) :=
  match ops with
  | [] => Some (Ok (n, []))
  | o :: l =>
      match l_step n o with
      | Some (Ok (n1, e1)) =>
          match l_run n1 l with
          | Some (Ok (n2, e2)) => Some (Ok (n2, e1 ++ e2))
          | x => x
          end
      | x => x
      end
  end.
End Life.
