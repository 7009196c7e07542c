(** Shortest paths on the torus, and hop by hop forwarding. *)
From Coq Require Import ZArith List.
From Verif Require Import Base SatAddrModel ConstellationSpec GeoTagModel.
Import ListNotations.
Open Scope Z_scope.

(** Distance on a ring of n positions, and on the torus. *)
Definition ringdist (n a b : Z) : Z := Z.min ((b - a) mod n) ((a - b) mod n).
Definition griddist (P S : Z) (x y : Z * Z) : Z :=
  ringdist P (fst x) (fst y) + ringdist S (snd x) (snd y).

Definition in_grid (P S : Z) (x : Z * Z) : Prop := 0 <= fst x < P /\ 0 <= snd x < S.

(** First element of a list with a property. *)
Definition first_with {A} (p : A -> Prop) (l : list A) (x : A) : Prop :=
  exists pre post, l = pre ++ x :: post /\ p x /\ forall y, In y pre -> ~ p y.

(** Where a direction leads on the torus. *)
Definition towards (P S : Z) (t : target) (x : Z * Z) : Z * Z :=
  match t with
  | SEND_TO_GROUND => x
  | NEXT_PLANE => ((fst x + 1) mod P, snd x)
  | PREVIOUS_PLANE => ((fst x - 1) mod P, snd x)
  | NEXT_SAT => (fst x, (snd x + 1) mod S)
  | PREVIOUS_SAT => (fst x, (snd x - 1) mod S)
  end.

Definition along_planes (t : target) : Prop := t = NEXT_PLANE \/ t = PREVIOUS_PLANE.
Definition along_plane (t : target) : Prop := t = NEXT_SAT \/ t = PREVIOUS_SAT.

(** Addresses reported by the devices after launching: position by position. *)
Fixpoint lookup (d : nat) (l : list (nat * sat_address)) : option sat_address :=
  match l with
  | [] => None
  | (e, a) :: r => if Nat.eqb d e then Some a else lookup d r
  end.
Definition launched_net (adds : list (nat * nat * nat)) (addrs : list sat_address)
    (links : list (nat * nat)) (P S : nat) : network :=
  mkNet (fun d => lookup d (combine (map dev_of adds) addrs)) links (Z.of_nat P) (Z.of_nat S).

(** Two nodes are the ends of link [k]. *)
Definition ends (links : list (nat * nat)) (k n m : nat) : Prop :=
  nth_error links k = Some (n, m) \/ nth_error links k = Some (m, n).

(** Hop by hop forwarding of one Interest.  [handle n f] is the reaction of node [n] to the Interest
    received on face [f].  [route n f path last] : received on [f], it goes through the nodes [path] and is
    sent to the ground by [last], never going back to the face it came from. *)
Inductive route (links : list (nat * nat)) (handle : nat -> face -> result (list action))
  : nat -> face -> list nat -> nat -> Prop :=
| route_ground : forall n f, handle n f = Ok [SendInterest GroundFace] -> route links handle n f [] n
| route_hop : forall n f k m path last,
    handle n f = Ok [SendInterest (IslFace k)] -> f <> IslFace k -> ends links k n m ->
    route links handle m (IslFace k) path last -> route links handle n f (m :: path) last.


(** Faces an Interest may be sent on: not back on the incoming face, unless that is the shared ground
    medium, and not out of the scope of the name. *)
Definition may_use (rq : request) (f : face) : Prop :=
  (f <> rq_ingress rq \/ f = GroundFace) /\ rq_scope rq f = false.
Definition unused (rq : request) (f : face) : Prop :=
  may_use rq f /\ forall renewed expiry, rq_out rq f = Some (renewed, expiry) -> expiry <= rq_now rq.

(** The Interest is steered by its tag. *)
Definition steered (rq : request) : Prop := rq_tag rq <> None /\ has_net_device (rq_ingress rq) = true.

(** A neighbour at [remote] lies in the direction [t] from [own]: planes are told apart by plane only. *)
Definition lies (P S : Z) (t : target) (own remote : Z * Z) : Prop :=
  match t with
  | NEXT_PLANE | PREVIOUS_PLANE => fst remote = fst (towards P S t own)
  | _ => remote = towards P S t own
  end.

(** The Interest is forwarded [k] times between satellites. *)
Inductive travels (links : list (nat * nat)) (handle : nat -> face -> result (list action))
  : nat -> face -> nat -> Prop :=
| travels_0 : forall n f, travels links handle n f 0
| travels_S : forall n f k m c,
    handle n f = Ok [SendInterest (IslFace k)] -> ends links k n m ->
    travels links handle m (IslFace k) c -> travels links handle n f (S c).
