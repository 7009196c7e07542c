(** What a script of helper calls should leave behind, read off the script alone. *)
From Coq Require Import ZArith QArith List Bool Arith.
From Verif Require Import SatAddrModel LaunchModel IslSpec SetupModel.
Import ListNotations.
Open Scope nat_scope.

(** One device asked for: the node, the channel, the constellation and the type of tracker set at the time. *)
Record call := mkCall { cl_node : nat; cl_chan : option nat; cl_helper : nat; cl_type : nat }.

(** The devices a script asks for, in order.  Channels are numbered in order of creation. *)
Fixpoint calls (chans type : nat) (l : list sop) : list call :=
  match l with
  | [] => []
  | SChannel :: r => calls (S chans) type r
  | STracker t :: r => calls chans t r
  | SOne None _ _ :: r => calls chans type r
  | SOne (Some n) c h :: r => mkCall n c h type :: calls chans type r
  | SMany ns c h :: r => map (fun n => mkCall n c h type) ns ++ calls chans type r
  | SNew ns h :: r => map (fun n => mkCall n (Some chans) h type) ns ++ calls (S chans) type r
  | SIsl _ _ :: r => calls chans type r
  end.

(** The constellation each channel was last told of by an installation on many nodes. *)
Fixpoint told (l : list sop) (cons : list (option nat)) : list (option nat) :=
  match l with
  | [] => cons
  | SChannel :: r => told r (cons ++ [None])
  | SMany _ (Some c) h :: r => told r (firstn c cons ++ [Some h] ++ skipn (S c) cons)
  | SNew _ h :: r => told r (cons ++ [Some h])
  | _ :: r => told r cons
  end.

(** The tracker type in force at the end. *)
Fixpoint last_type (type : nat) (l : list sop) : nat :=
  match l with [] => type | STracker t :: r => last_type t r | _ :: r => last_type type r end.

(** A script can only hold pointers to channels it made before. *)
Fixpoint holds (chans : nat) (l : list sop) : Prop :=
  match l with
  | [] => True
  | SChannel :: r => holds (S chans) r
  | SOne _ (Some c) _ :: r => c < chans /\ holds chans r
  | SMany _ (Some c) _ :: r => c < chans /\ holds chans r
  | SNew _ _ :: r => holds (S chans) r
  | _ :: r => holds chans r
  end.

(** A call launches a satellite when its node has no position yet: neither from the start nor by an earlier call. *)
Fixpoint marks (pos : nat -> bool) (seen : list nat) (cs : list call) : list (bool * call) :=
  match cs with
  | [] => []
  | c :: r => (negb (pos (cl_node c)) && negb (existsb (Nat.eqb (cl_node c)) seen), c) :: marks pos (cl_node c :: seen) r
  end.

Definition launch_of (h : nat) (x : bool * call) : bool := fst x && (cl_helper (snd x) =? h).
Definition is_ground (x : bool * call) : bool := negb (fst x).
Definition ground_at (c : nat) (x : bool * call) : bool :=
  is_ground x && match cl_chan (snd x) with Some i => i =? c | None => false end.
Definition on (n : nat) (x : bool * call) : bool := cl_node (snd x) =? n.
Definition ground_on (n : nat) (x : bool * call) : bool := is_ground x && on n x.

(** Where in a list something holds, and how often before a place. *)
Fixpoint places {B} (f : B -> bool) (from : nat) (l : list B) : list nat :=
  match l with
  | [] => []
  | x :: r => (if f x then [from] else []) ++ places f (S from) r
  end.
Definition rank {B} (f : B -> bool) (k : nat) (l : list B) : nat := length (filter f (firstn k l)).

(** The constellations planned: identifier, planes, satellites per plane, phasing, altitude, inclination. *)
Record plan := mkPlan { pl_id : Z; pl_P : nat; pl_S : nat; pl_F : nat; pl_alt : Q; pl_inc : Q }.

(** Before the script: which nodes have a position, which of these an orbit, and the trackers put on nodes by hand. *)
Record before := mkBefore { b_pos : nat -> bool; b_orbit : nat -> bool; b_trackers : nat -> list nat }.

(** The device a call should give: the satellites of a constellation fill its planes one after the other; ground devices
    take addresses in order. *)
Definition device_of (ho : host) (plans : nat -> plan) (first : Z) (l : list (bool * call)) (k : nat) (x : bool * call) : sdevice :=
  let c := snd x in
  let p := plans (cl_helper c) in
  mkSD (cl_node c)
    (if fst x then let j := rank (launch_of (cl_helper c)) k l in KSat (sat_make ho (pl_id p) (Z.of_nat (j / pl_S p)) (Z.of_nat (j mod pl_S p)))
     else KGround (first + Z.of_nat (rank is_ground k l))%Z)
    (cl_chan c).

(** The nodes a constellation has launched, in order. *)
Definition sats_of (b : before) (h : nat) (cs : list call) : list nat :=
  map (fun x => cl_node (snd x)) (filter (launch_of h) (marks (b_pos b) [] cs)).

(** Devices that can be had: a ground device needs a channel and a type of tracker its node has not got; a constellation
    launches no more than it has room for. *)
Record fits (plans : nat -> plan) (b : before) (cs : list call) : Prop := mkFits {
  f_chan : forall c, In (false, c) (marks (b_pos b) [] cs) -> cl_chan c <> None;
  f_once : forall n, NoDup (map (fun x => cl_type (snd x)) (filter (ground_on n) (marks (b_pos b) [] cs)));
  f_free : forall c, In (false, c) (marks (b_pos b) [] cs) -> ~ In (cl_type c) (b_trackers b (cl_node c));
  f_room : forall h, length (sats_of b h cs) <= pl_P (plans h) * pl_S (plans h) }.

(** Links of constellation [h] asked for on nodes [ns]: the constellation must be full, and the nodes must be as many as it
    has, all satellites of constellations of one and the same identifier. *)
Definition linkable (plans : nat -> plan) (b : before) (cs : list call) (ns : list nat) (h : nat) : Prop :=
  length (sats_of b h cs) = pl_P (plans h) * pl_S (plans h) /\ length ns = pl_P (plans h) * pl_S (plans h) /\
  exists id, forall n, In n ns -> exists h', In n (sats_of b h' cs) /\ pl_id (plans h') = id.

(** The installations of links in a script, each with the devices asked for before it. *)
Fixpoint asked (cs : list call) (chans type : nat) (l : list sop) : list (list call * list nat * nat) :=
  match l with
  | [] => []
  | SIsl ns h :: r => (cs, ns, h) :: asked cs chans type r
  | o :: r => asked (cs ++ calls chans type [o]) (match o with SChannel | SNew _ _ => S chans | _ => chans end) (last_type type [o]) r
  end.

(** Null pointers that are dereferenced at once. *)
Definition null_op (o : sop) : bool := match o with SOne None _ _ | SMany _ None _ => true | _ => false end.

(** Links between nodes that make a torus of them, in their order. *)
Definition is_grid (P S : nat) (nodes : list nat) (net : list (nat * nat)) : Prop :=
  (forall i j a b, nth_error nodes i = Some a -> nth_error nodes j = Some b ->
     (torus_neighbour P S (i / S, i mod S) (j / S, j mod S) -> joins net a b = 1) /\
     (~ torus_neighbour P S (i / S, i mod S) (j / S, j mod S) -> joins net a b = 0)) /\
  (forall a b, In (a, b) net -> a <> b /\ In a nodes /\ In b nodes).

(** The last place in a list where something holds. *)
Definition last_place {B} (f : B -> bool) (l : list B) : option nat := hd_error (rev (places f 0 l)).

(** The two kinds of devices on a node. *)
Definition gs_of (l : list dev_ref) : list nat := flat_map (fun d => match d with RGs k => [k] | RIsl _ => [] end) l.
Definition isl_of (l : list dev_ref) : list nat := flat_map (fun d => match d with RGs _ => [] | RIsl k => [k] end) l.

(** The world before the script: the constellation helpers are made, nothing is installed. *)
Definition start (plans : nat -> plan) (b : before) (first : Z) (t0 : nat) : world Q :=
  mkWorld (fun h => let p := plans h in helper_new rational (pl_id p) (pl_alt p) (pl_inc p) (pl_P p) (pl_S p) (pl_F p)) []
    (fun n => mkSN (b_pos b n) (b_orbit b n) (b_trackers b n) []) [] [] t0 first.


(** Constellations that can be addressed: planes and places per plane fit 16 bits, the identifier is not 0. *)
Definition proper (plans : nat -> plan) : Prop := forall h,
  0 < pl_P (plans h) /\ 0 < pl_S (plans h) /\ (Z.of_nat (pl_P (plans h)) <= 65536)%Z /\ (Z.of_nat (pl_S (plans h)) <= 65536)%Z /\
  (0 < pl_id (plans h) < 65536)%Z.
