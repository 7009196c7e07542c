(** Launching satellites (helper/constellation-helper.cc). *)
From Coq Require Import ZArith QArith List Lia Bool Arith.
From Coq.Floats Require Import SpecFloat.
From Verif Require Import Base SatAddrModel ConstellationModel.
Import ListNotations.
Open Scope nat_scope.

(** Angle arithmetic in degrees.  Two instances: exact rationals and IEEE binary64. *)
Record angles (A : Type) := mkAngles {
  a_zero : A;
  a_of_nat : nat -> A;
  a_add : A -> A -> A;
  a_mul : A -> A -> A;
  a_div : A -> A -> A;
  a_ltb : A -> A -> bool }.
Arguments a_zero {A}. Arguments a_of_nat {A}. Arguments a_add {A}. Arguments a_mul {A}.
Arguments a_div {A}. Arguments a_ltb {A}.

Definition rational : angles Q := {|
  a_zero := 0%Q;
  a_of_nat := fun n => inject_Z (Z.of_nat n);
  a_add := Qplus; a_mul := Qmult; a_div := Qdiv;
  a_ltb := fun x y => negb (Qle_bool y x) |}.

(** IEEE double precision, round to nearest even, from the standard library's SpecFloat. *)
Definition binary64 : angles spec_float := {|
  a_zero := S754_zero false;
  a_of_nat := fun n => binary_normalize 53 1024 (Z.of_nat n) 0 false;
  a_add := SFadd 53 1024; a_mul := SFmul 53 1024; a_div := SFdiv 53 1024;
  a_ltb := SFltb |}.

(** What CircularOrbitMobilityModel::LaunchSat receives (constellation-helper.cc:91-92). *)
Record orbit (A : Type) := mkOrbit {
  o_inclination : A; o_ascending_node : A; o_altitude : A; o_phase : A }.
Arguments mkOrbit {A}. Arguments o_inclination {A}. Arguments o_ascending_node {A}.
Arguments o_altitude {A}. Arguments o_phase {A}.

(** Members (constellation-helper.h:54-64). *)
Record helper (A : Type) := mkHelper {
  h_con : constellation;
  h_inc : A;
  h_altitude : A;
  h_inclination : A;
  h_asc : A;
  h_phase : A;
  h_off : A;
  h_plane : nat;
  h_orbit : nat }.
Arguments mkHelper {A}. Arguments h_con {A}. Arguments h_inc {A}. Arguments h_altitude {A}.
Arguments h_inclination {A}. Arguments h_asc {A}. Arguments h_phase {A}. Arguments h_off {A}.
Arguments h_plane {A}. Arguments h_orbit {A}.

(** ConstellationHelper::ConstellationHelper (constellation-helper.cc:52-69). *)
Definition helper_new {A} (O : angles A) (id : Z) (altitude inclination : A)
    (n_planes n_sats n_phases : nat) : helper A :=
  let n := a_of_nat O in
  mkHelper (con_new id n_planes n_sats)
    (a_div O (a_mul O (n n_phases) (n 360)) (a_mul O (a_mul O (n 1) (n n_sats)) (n n_planes)))
    altitude inclination (a_zero O) (a_zero O) (a_zero O) 0 0.

(** NS_ASSERT_MSG is compiled only in debug builds. *)
Definition assert_if (debug : bool) (b : bool) : result unit :=
  if debug then assert_ b else Ok tt.

(** ConstellationHelper::LaunchSatellite (constellation-helper.cc:79-109).  The orbit model is
    aggregated to the node at line 94, so AddSatellite finds it. *)
Definition launch {A} (O : angles A) (debug : bool) (ho : host) (s : helper A) (d : dev)
  : result (helper A * (sat_address * orbit A)) :=
  let n := a_of_nat O in
  abort_unless (negb ((con_planes (h_con s) <=? h_plane s) && (0 <? h_orbit s))) ;;
  assert_if debug (a_ltb O (h_phase s) (n 360)) ;;
  assert_if debug (a_ltb O (h_asc s) (n 360)) ;;
  let o := mkOrbit (h_inclination s) (h_asc s) (h_altitude s) (a_add O (h_phase s) (h_off s)) in
  do (c, addr) <- add_satellite ho (h_con s) (h_plane s) (h_orbit s) d true ;
  let orbit' := h_orbit s + 1 in
  let phase' := a_add O (h_phase s) (a_div O (n 360) (n (con_plane_size c))) in
  let s' :=
    if orbit' =? con_plane_size c then
      mkHelper c (h_inc s) (h_altitude s) (h_inclination s)
        (a_add O (h_asc s) (a_div O (n 360) (n (con_planes c))))
        (a_zero O) (a_add O (h_off s) (h_inc s)) (h_plane s + 1) 0
    else
      mkHelper c (h_inc s) (h_altitude s) (h_inclination s) (h_asc s) phase' (h_off s)
        (h_plane s) orbit' in
  Ok (s', (addr, o)).

(** Launch a list of devices one after the other. *)
Fixpoint launch_all {A} (O : angles A) (debug : bool) (ho : host) (s : helper A) (ds : list dev)
  : result (helper A * list (sat_address * orbit A)) :=
  match ds with
  | [] => Ok (s, [])
  | d :: r =>
      do (s1, x) <- launch O debug ho s d ;
      do (s2, l) <- launch_all O debug ho s1 r ;
      Ok (s2, x :: l)
  end.
