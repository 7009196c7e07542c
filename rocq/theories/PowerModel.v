(** Aloha with the powers as the code has them, in double precision.  In AlohaModel they are integers, multiples of some unit:
    taken as multiples of 2^-1074 mW, the least positive double, they can be any doubles, and here each is rounded to one and
    every sum, difference and quotient is rounded too.  The conversion from dBm ([pow], aloha-mac-model.cc:104) is not modelled:
    the power of a reception is what it gave. *)
From Coq Require Import ZArith List Bool.
From Flocq Require Import Core BinarySingleNaN.
From Verif Require Import Base RxModel DoubleModel.
Import ListNotations.
Open Scope Z_scope.

Definition power (r : reception) : double := dnum (rx_pow r) (-1074).

(** aloha-mac-model.h: as [aloha] of AlohaModel, with m_busyPeriodInterferencePower a double. *)
Record aloha_d := mkAD { ad_uid : option Z; ad_finish : Z; ad_coll : bool; ad_power : double }.
Definition ad_init (garbage : double) : aloha_d := mkAD None 0 false garbage.

(** aloha-mac-model.cc:98-129 *)
Definition ad_begin (s : aloha_d) (r : reception) : aloha_d :=
  let now := rx_start r in
  let busy := match ad_uid s with Some _ => true | None => false end in
  let s1 := if busy && (now <? ad_finish s)
            then mkAD (ad_uid s) (ad_finish s) true (dadd (ad_power s) (power r)) else s in
  if negb busy || (ad_finish s1 <=? rx_end r)
  then mkAD (Some (rx_uid r)) (rx_end r) (ad_coll s1) (if busy then ad_power s1 else power r)
  else s1.

(** aloha-mac-model.cc:131-168.  [low q] is [10.0 * log10 (q) < m_sirThreshold]. *)
Definition ad_end (low : double -> bool) (s : aloha_d) (r : reception) : result (aloha_d * list Z) :=
  let has_collided := ad_coll s && low (ddiv (power r) (dsub (ad_power s) (power r))) in
  let s1 := match ad_uid s with
            | Some u => if u =? rx_uid r then mkAD None (rx_end r) false (dint 0) else s
            | None => s end in
  Ok (s1, if has_collided then [] else [rx_uid r]).

Definition aloha_d_mac (low : double -> bool) : mac_rx aloha_d := mkMac ad_begin (ad_end low).

(** The default threshold, numeric_limits<double>::max () (aloha-mac-model.cc:45-48).  The logarithm of a positive finite double
    lies between -3300 and 3100 when multiplied by ten, that of zero is minus infinity; that of infinity is infinity, and that
    of a negative double is not a number. *)
Definition low_max (q : double) : bool :=
  match q with
  | B754_zero _ => true
  | B754_finite sign _ _ _ => negb sign
  | B754_infinity _ | B754_nan => false
  end.
