(** The constellation object (model/constellation.cc). *)
From Coq Require Import ZArith QArith List Lia Bool Arith.
From Verif Require Import Base SatAddrModel.
Import ListNotations.
Open Scope nat_scope.

(** Devices are numbered; [None] in the grid is a null pointer. *)
Notation dev := nat (only parsing).

(** Members (constellation.h:61-65).  std::size_t values are [nat]: their overflow needs more
    than 2^64 satellites. *)
Record constellation := mkCon {
  con_id : Z;
  con_planes : nat;
  con_plane_size : nat;
  con_grid : list (list (option dev));
  con_size : nat }.

(** Constellation::Constellation (constellation.cc:52-65); [id] is the incremented counter. *)
Definition con_new (id : Z) (n_planes plane_size : nat) : constellation :=
  mkCon id n_planes plane_size (repeat (repeat None plane_size) n_planes) 0.

(** m_planes[plane][order]: unchecked vector accesses, undefined outside the vectors. *)
Definition con_at (g : list (list (option dev))) (p i : nat) : result (option dev) :=
  match nth_error g p with
  | None => UB
  | Some row => match nth_error row i with
                | None => UB
                | Some s => Ok s
                end
  end.

Definition con_put (g : list (list (option dev))) (p i : nat) (d : dev) :=
  match nth_error g p with
  | None => g
  | Some row => set_nth p (set_nth i (Some d) row) g
  end.

(** Constellation::AddSatellite (constellation.cc:67-86); [orbiting] tells whether the node of the
    device has a CircularOrbitMobilityModel. *)
Definition add_satellite (h : host) (c : constellation) (plane order : nat) (d : dev)
    (orbiting : bool) : result (constellation * sat_address) :=
  do s <- con_at (con_grid c) plane order ;
  abort_unless (match s with None => true | Some _ => false end) ;;
  abort_unless orbiting ;;
  let size' := match s with None => con_size c + 1 | Some _ => con_size c end in
  Ok (mkCon (con_id c) (con_planes c) (con_plane_size c)
        (con_put (con_grid c) plane order d) size',
      sat_make h (con_id c) (Z.of_nat plane) (Z.of_nat order)).

(** Constellation::GetSatellite (plane, index) (constellation.cc:149-158). *)
Definition get_satellite (c : constellation) (plane index : nat) : result (option dev) :=
  assert_ (plane <=? con_planes c) ;;
  assert_ (index <=? con_plane_size c) ;;
  con_at (con_grid c) plane index.

(** Constellation::GetSatellite (address) (constellation.cc:136-147). *)
Definition get_satellite_addr (h : host) (c : constellation) (a : sat_address) : result (option dev) :=
  assert_ (Z.eqb (get_constellation h a) (con_id c)) ;;
  get_satellite c (Z.to_nat (get_plane h a)) (Z.to_nat (get_index h a)).

(** Constellation::CreateNetDeviceContainer (constellation.cc:160-178). *)
Definition non_null (s : option dev) : list dev := match s with Some d => [d] | None => [] end.
Definition container (c : constellation) : list dev :=
  flat_map (fun plane => flat_map non_null plane) (con_grid c).

(** Constellation::GetSize (constellation.cc:186-192). *)
Definition get_size (c : constellation) : result nat :=
  assert_ (con_size c <=? con_planes c * con_plane_size c) ;; Ok (con_size c).

(** Constellation::Get (constellation.cc:194-203); dividing by a zero plane size is undefined. *)
Definition con_get (c : constellation) (index : nat) : result (option dev) :=
  do n <- get_size c ;
  abort_unless (index <=? n) ;;
  match con_plane_size c with
  | O => UB
  | _ => con_at (con_grid c) (index / con_plane_size c) (index mod con_plane_size c)
  end.

(** * Closest satellite *)

Definition vec3 : Type := (Q * Q * Q)%type.

(** getSqDistance (constellation.cc:43-49); coordinates are exact rationals, rounding is left out. *)
Definition sq_distance (a b : vec3) : Q :=
  let '(ax, ay, az) := a in
  let '(bx, by_, bz) := b in
  ((bx - ax) * (bx - ax) + (by_ - ay) * (by_ - ay) + (bz - az) * (bz - az))%Q.

(** The loop body of GetClosest (constellation.cc:99-114); the running distance starts at infinity,
    represented by [None].  [sq d] is the squared distance of [d], in any number type with the comparison [leb]. *)
Definition closest_step {A : Type} (leb : A -> A -> bool) (sq : dev -> A) (acc : option dev * option A) (s : option dev)
  : option dev * option A :=
  match s with
  | None => acc
  | Some d =>
      match snd acc with
      | None => (Some d, Some (sq d))
      | Some best => if leb (sq d) best then (Some d, Some (sq d)) else acc
      end
  end.

(** Constellation::GetClosest (constellation.cc:88-118). *)
Definition get_closest_by {A : Type} (leb : A -> A -> bool) (sq : dev -> A) (c : constellation) : option dev :=
  fst (fold_left (fun acc plane => fold_left (closest_step leb sq) plane acc)
         (con_grid c) (None, None)).

(** The same with rational positions; [pos d] is the position of the node of [d]. *)
Definition get_closest (pos : dev -> vec3) (c : constellation) (at_ : vec3) : option dev :=
  get_closest_by Qle_bool (fun d => sq_distance (pos d) at_) c.

(** * Histories: a sequence of additions, all devices in orbit *)
Fixpoint run_adds (h : host) (c : constellation) (adds : list (nat * nat * dev))
  : result (constellation * list sat_address) :=
  match adds with
  | [] => Ok (c, [])
  | (p, i, d) :: r =>
      do (c1, a) <- add_satellite h c p i d true ;
      do (c2, l) <- run_adds h c1 r ;
      Ok (c2, a :: l)
  end.
