(** Reading what faces saw. *)
From Coq Require Import ZArith List Bool Arith.
From Verif Require Import Base DeviceModel FaceModel.
Import ListNotations.
Open Scope Z_scope.

(** What the devices did, and what the faces got: time, device, block. *)
Definition net_notes {N} (fns : list (fnote N)) : list N := flat_map (fun f => match f with FNote n => [n] | _ => [] end) fns.
Definition gots {N} (fns : list (fnote N)) : list (Z * nat * Z) := flat_map (fun f => match f with FGot t r b => [(t, r, b)] | _ => [] end) fns.
Definition got_at {N} (r : nat) (fns : list (fnote N)) : list Z :=
  flat_map (fun f => match f with FGot _ q b => if (q =? r)%nat then [b] else [] | _ => [] end) fns.
Definition all_got {N} (fns : list (fnote N)) : list Z := flat_map (fun f => match f with FGot _ _ b => [b] | _ => [] end) fns.

(** The blocks that faces were told to send, by all, by one. *)
Definition blocks_sent {X} (cs : list (fcall X)) : list Z := flat_map (fun c => match c with FSend _ _ b => [b] | _ => [] end) cs.
Definition blocks_from {X} (i : nat) (cs : list (fcall X)) : list Z :=
  flat_map (fun c => match c with FSend _ j b => if (j =? i)%nat then [b] else [] | _ => [] end) cs.

(** Other programs do not use the protocol number of NDN. *)
Definition apart {X} (ndn : Z) (cs : list (fcall X)) : Prop := forall t i p, In (FRaw t i p) cs -> u16 p <> ndn.
(** There are no other programs. *)
Definition ndn_only {X} (cs : list (fcall X)) : Prop := forall t i p, ~ In (FRaw t i p) cs.
