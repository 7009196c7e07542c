(** Who on the ground waits, told from what satellites received and sent. *)
From Coq Require Import ZArith List Bool Arith.
From Verif Require Import Base SatAddrModel ConstellationModel ConstellationSpec IslModel GeoTagModel GeoTagSpec PendingModel ReturnModel.
Import ListNotations.
Open Scope Z_scope.

(** Below satellite [n] an Interest was sent after the last Data that [n] sent down. *)
Definition serves (n : nat) (x : nat * pop * list pev) : bool :=
  (fst (fst x) =? n)%nat && existsb (fun v => match v with AData GroundFace => true | _ => false end) (snd x).
Definition asks (n : nat) (x : nat * pop * list pev) : bool :=
  (fst (fst x) =? n)%nat && match snd (fst x) with Ask _ GroundFace _ _ => true | _ => false end.
Definition waits_below (tr : rlog) (n : nat) : bool := fold_left (fun w x => if serves n x then false else asks n x || w) tr false.

(** All within a lifetime: from [t0] on, Interests live at least [life] and nothing is later than that. *)
Definition op_time (o : rop) : Z := match o with RAsk t _ _ => t | RData t _ => t | RMove t _ => t end.
Definition timely (t0 life : Z) (o : rop) : Prop :=
  t0 <= op_time o < t0 + life /\ match o with RAsk _ _ l => life <= l | _ => True end.
(** Only satellites receive. *)
Definition at_sat (sats : list nat) (o : rop) : Prop := match o with RAsk _ n _ | RData _ n => In n sats | RMove _ _ => True end.

(** The constellation of geotag_delivery: every slot of a [P] by [S] grid has a satellite, the helper made all links, and every
    satellite has its ground face and all its inter-satellite faces as next hops. *)
Definition set_up (h : host) (id : Z) (P S : nat) (adds : list (nat * nat * nat)) (addrs : list sat_address) (links : list (nat * nat)) (nh : nat -> list face) : Prop :=
  is_u16 id /\ id <> 0 /\ Z.of_nat P <= 65536 /\ Z.of_nat S <= 65536 /\ length adds = (P * S)%nat /\ NoDup (map dev_of adds) /\
  (exists c ids, run_adds h (con_new id P S) adds = Ok (c, addrs) /\ Forall (eq id) ids /\ length ids = (P * S)%nat /\ install_grid ids c = Ok links) /\
  forall n f, In n (map dev_of adds) -> (In f (nh n) <-> f = GroundFace \/ exists k m, f = IslFace k /\ ends links k n m).

(** Neither refused nor given up. *)
Definition quiet (x : nat * pop * list pev) : Prop := forall v, In v (snd x) -> match v with ANacked _ _ | AClosed => False | _ => True end.
