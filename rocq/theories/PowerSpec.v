(** What rounding should leave of the rules for collisions. *)
From Coq Require Import ZArith List Reals.
From Flocq Require Import Core BinarySingleNaN.
From Verif Require Import Base RxModel AlohaSpec DoubleModel DoubleSpec PowerModel.
Import ListNotations.
Open Scope Z_scope.

(** The power is one that a double can have, positive and less than 2^800 mW. *)
Definition sound_power (r : reception) : Prop :=
  0 < rx_pow r <= 2 ^ 1874 /\ exists d : double, is_finite d = true /\ real_of d = (IZR (rx_pow r) * bpow radix2 (-1074))%R.

(** Powers are added up as the frames come. *)
Definition sum_d (f : reception) (joined : list reception) : double := fold_left (fun s r => dadd s (power r)) joined (power f).

(** As [judged_tied], with rounding. *)
Definition judged_double (low : double -> bool) (e : reception * option reception * list reception) (up : list Z) : Prop :=
  let '(a, first, joined) := e in
  exists f, first = Some f /\
    ((joined = [] \/ low (ddiv (power a) (dsub (sum_d f joined) (power a))) = false) /\ up = [rx_uid a] \/
     (joined <> [] /\ low (ddiv (power a) (dsub (sum_d f joined) (power a))) = true) /\ up = []).

(** The frames that count at the end of one: all of its stretch so far. *)
Definition crowd (e : reception * option reception * list reception) : list reception :=
  match snd (fst e) with Some f => f :: snd e | None => snd e end.
(** What the others amount to. *)
Definition against (e : reception * option reception * list reception) : Z := AlohaSpec.total (crowd e) - rx_pow (fst (fst e)).

(** No frame of the stretch is drowned in the rounding of the others: with [n] of them
    none is more than [2^36/n^2] times as strong as another. *)
Definition comparable (l : list reception) : Prop :=
  forall a b, In a l -> In b l -> Z.of_nat (length l) * Z.of_nat (length l) * rx_pow a <= 2 ^ 36 * rx_pow b.

(** [low] tells ratios below [t] from those above, except perhaps within a millionth. *)
Definition tells (t : R) (low : double -> bool) : Prop :=
  forall q : double, is_finite q = true -> (0 < real_of q)%R ->
    ((real_of q <= t * (1 - bpow radix2 (-20)))%R -> low q = true) /\ ((t * (1 + bpow radix2 (-20)) <= real_of q)%R -> low q = false).
(** The exact rule. *)
Definition rule (t : R) (below : Z -> Z -> bool) : Prop := forall p i, below p i = true <-> (IZR p < t * IZR i)%R.
(** A frame is clearly above the threshold or clearly below it: by more than a thousandth, less than 0.005 dB. *)
Definition clear (t : R) (p i : Z) : Prop :=
  (IZR p <= t * (1 - bpow radix2 (-10)) * IZR i \/ t * (1 + bpow radix2 (-10)) * IZR i <= IZR p)%R.
