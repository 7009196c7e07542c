(** Reading what a run of relays shows. *)
From Coq Require Import ZArith List Bool Arith.
From Verif Require Import Base SatAddrModel ConstellationModel IslModel GeoTagModel GeoTagSpec DeviceModel ChannelModel LinkModel LinkSpec IslNetSpec FaceModel FaceNetSpec RelayModel.
Import ListNotations.
Open Scope Z_scope.

(** Interests that came from the ground: time, satellite, Interest. *)
Definition came (ops : list rop) : list (Z * nat * Z) := flat_map (fun o => match o with RIn t n b => [(t, n, b)] | RNext => [] end) ops.
(** Interests sent to the ground; sent over a link (time, device, Interest); got from a link; other outcomes. *)
Definition grounded (l : list rnote) : list (Z * nat * Z) := flat_map (fun x => match x with RGround t n b => [(t, n, b)] | _ => [] end) l.
Definition hopped (l : list rnote) : list (Z * nat * Z) := flat_map (fun x => match x with RCall (FSend t i b) => [(t, i, b)] | _ => [] end) l.
Definition relayed (l : list rnote) : list (Z * nat * Z) := flat_map (fun x => match x with RNet (FGot t r b) => [(t, r, b)] | _ => [] end) l.
Definition strayed (l : list rnote) : list (Z * nat * Z) :=
  flat_map (fun x => match x with RElse t n b => [(t, n, b)] | RNack t n b => [(t, n, b)] | _ => [] end) l.

(** The blocks of packets that the channel dropped or a full queue refused. *)
Definition block_at (heap : packets) (u : Z) : list Z := match find_tag u heap with Some (Block b :: _) => [b] | _ => [] end.
Definition lost_in (heap : packets) (n : knote unit) : list Z :=
  match n with
  | KDrop _ _ u => block_at heap u
  | KDev _ _ _ ev => flat_map (fun e => match e with SRefuse u => block_at heap u | _ => [] end) ev
  | _ => []
  end.
Definition lost (heap : packets) (l : list rnote) : list Z :=
  flat_map (fun x => match x with RNet (FNote n) => lost_in heap n | _ => [] end) l.

(** How often an Interest is in a list; how far those that came have to go. *)
Definition times (b : Z) (l : list (Z * nat * Z)) : nat := length (filter (fun x => snd x =? b) l).
Fixpoint far (dist : nat -> Z -> nat) (b : Z) (l : list (Z * nat * Z)) : nat :=
  match l with
  | [] => 0
  | (_, n, b') :: r => (if b' =? b then dist n b else 0) + far dist b r
  end.
Definition all_far (dist : nat -> Z -> nat) (l : list (Z * nat * Z)) : nat := fold_right (fun x k => (dist (snd (fst x)) (snd x) + k)%nat) 0%nat l.
Definition events (ops : list rop) : nat := length (filter (fun o => match o with RNext => true | _ => false end) ops).
