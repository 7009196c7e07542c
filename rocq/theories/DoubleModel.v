(** * The computations in double precision

    Elsewhere the model computes with exact numbers.  Here the few places where the code's own double precision
    arithmetic decides a discrete outcome are modelled with IEEE 754 binary64 numbers: the size of LoRa frames, the rate
    of LoRa links, the number of replicas of a frame, the closest satellite and the links within reach.  The operations
    are those of Flocq, rounding to nearest and ties to even; no contraction of a product and a sum into one operation
    is assumed, and [pow] of two with a small integer exponent is exact. *)

From Coq Require Import ZArith List Bool.
From Flocq Require Import Core BinarySingleNaN.
From Verif Require Import Base ConstellationModel HelpersModel.
Import ListNotations.
Open Scope Z_scope.

Definition double := binary_float 53 1024.
Definition dprec : Prec_gt_0 53 := eq_refl.
Definition dmax : Prec_lt_emax 53 1024 := eq_refl.

Definition dadd : double -> double -> double := @Bplus 53 1024 dprec dmax mode_NE.
Definition dsub : double -> double -> double := @Bminus 53 1024 dprec dmax mode_NE.
Definition dmul : double -> double -> double := @Bmult 53 1024 dprec dmax mode_NE.
Definition ddiv : double -> double -> double := @Bdiv 53 1024 dprec dmax mode_NE.
Definition dsqrt : double -> double := @Bsqrt 53 1024 dprec dmax mode_NE.
(** [ceil], [round] (ties away from zero), and the truncation that a conversion to an integer performs. *)
Definition dceil : double -> double := @Bnearbyint 53 1024 dmax mode_UP.
Definition dround : double -> double := @Bnearbyint 53 1024 dmax mode_NA.
Definition dtrunc : double -> Z := @Btrunc 53 1024.
(** The double [m * 2^e], rounded: conversions of integers and literals. *)
Definition dnum (m e : Z) : double := @binary_normalize 53 1024 dprec dmax mode_NE m e false.
Definition dint (n : Z) : double := dnum n 0.
Definition dinf : double := B754_infinity false.
Definition dlt (x y : double) : bool := Bltb x y.
Definition dle (x y : double) : bool := Bleb x y.

(** Conversion to an unsigned integer type of [bits] bits: undefined when the truncated number does not fit. *)
Definition dunsigned (bits : Z) (x : double) : result Z :=
  if is_finite x && (0 <=? dtrunc x) && (dtrunc x <? 2 ^ bits) then Ok (dtrunc x) else UB.

(** * LoRa *)

(** lora-helper.cc:38-41: the duration of a symbol and the number of symbols of a frame. *)
Definition lora_symbol_time (sf bandwidth : Z) : double := ddiv (ddiv (dint (2 ^ sf)) (dint bandwidth)) (dint 1000).
Definition lora_double_phy (sf cr payload : Z) : result Z :=
  let de := if sf <=? 10 then 0 else 1 in
  dunsigned 32 (dadd (dint 8) (dmul (dint cr)
    (dceil (ddiv (ddiv (dint (u32 (44 + 8 * payload - 4 * sf))) (dint 4)) (dint (sf - 2 * de)))))).

(** lora-helper.cc:42-43.  [preamble + phy] is a sum of unsigned integers, in 32 bits. *)
Definition lora_double_size (sf cr bandwidth preamble header phy : Z) : result Z :=
  let t_sym := lora_symbol_time sf bandwidth in
  let toa := dmul t_sym (dadd (dint (u32 (preamble + phy))) (dnum 17 (-2))) in
  dunsigned 32 (dsub (dround (ddiv (ddiv (ddiv (dmul (dint sf) toa) (dint cr)) t_sym) (dint 2))) (dint header)).

(** LoraHelper (lora-helper.cc:26-49); arguments arrive through the types of the parameters (lora-helper.h:60-64). *)
Definition lora_double (sf cr bandwidth preamble header payload : Z) : result lora :=
  let sf := u8 sf in let cr := u8 cr in let bandwidth := u8 bandwidth in
  let preamble := u16 preamble in let header := u16 header in let payload := u32 payload in
  assert_ ((7 <=? sf) && (sf <=? 12)) ;;
  assert_ ((5 <=? cr) && (cr <=? 8)) ;;
  assert_ ((8 <=? bandwidth) && (bandwidth <=? 500)) ;;
  assert_ ((6 <=? preamble) && (preamble <=? 65532)) ;;
  do phy <- lora_double_phy sf cr payload ;
  do size <- lora_double_size sf cr bandwidth preamble header phy ;
  Ok (mkLora phy size).

(** GetLoraLinkRate (lora-helper.cc:94-98). *)
Definition lora_double_link_rate (sf cr bandwidth : Z) : result Z :=
  let sf := u8 sf in let cr := u8 cr in let bandwidth := u8 bandwidth in
  dunsigned 64 (ddiv (ddiv (dint (sf * bandwidth * 4000)) (dint (2 ^ sf))) (dint cr)).

(** * The number of replicas *)

(** NumReplicasPerPacket (crdsa-mac-model.h:49-65): [n] is the position of the first coefficient of [cs]; the result is
    a uint16_t. *)
Fixpoint replicas_double_loop (p sum : double) (n : Z) (cs : list double) : result Z :=
  match cs with
  | [] => Abort
  | c :: cs =>
    let sum := dadd sum c in
    if dlt (dint 0) c && dlt p sum then Ok (u16 n) else replicas_double_loop p sum (n + 1) cs
  end.
(** The loop starts at the second coefficient; the constructor requires two and the first to be zero
    (crdsa-mac-model.h:41-47). *)
Definition replicas_double (cs : list double) (p : double) : result Z := replicas_double_loop p (dint 0) 1 (tl cs).

(** * Distances *)

Record dvec := mkDvec { dvx : double; dvy : double; dvz : double }.
(** getSqDistance (constellation.cc:43-49). *)
Definition dsq (a b : dvec) : double :=
  let x := dsub (dvx b) (dvx a) in let y := dsub (dvy b) (dvy a) in let z := dsub (dvz b) (dvz a) in
  dadd (dadd (dmul x x) (dmul y y)) (dmul z z).
(** GetClosest (constellation.cc:88-118), over the slots in the order of the planes. *)
Definition closest_double_step (pos : dev -> dvec) (at_ : dvec) (acc : option dev * double) (s : option dev) : option dev * double :=
  match s with
  | None => acc
  | Some d => let sq := dsq (pos d) at_ in if dle sq (snd acc) then (Some d, sq) else acc
  end.
Definition closest_double (pos : dev -> dvec) (c : constellation) (at_ : dvec) : option dev :=
  fst (fold_left (fun acc plane => fold_left (closest_double_step pos at_) plane acc) (con_grid c) (None, dinf)).

(** CalculateDistance of ns-3, on which both success models by distance depend (ground-sat-success-distance.cc:60-76,
    sat2sat-success-model.cc:68-85): the root of the same sum. *)
Definition ddistance (a b : dvec) : double := dsqrt (dsq a b).
Definition within_double (limit : double) (src dst : dvec) : bool := dle (ddistance src dst) limit.
(** Sat2SatSuccessModel::CalcMaxDistance (sat2sat-success-model.cc:87-94), [r] being the radius of the Earth plus 80 km. *)
Definition max_distance_double (r altitude : double) : double :=
  dmul (dint 2) (dsqrt (dsub (dmul altitude altitude) (dmul r r))).
