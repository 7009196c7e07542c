(** CRDSA: several replicas of each packet, interference cancellation at the receiver. *)
From Coq Require Import ZArith List Lia Bool.
From Verif Require Import Base RxModel AlohaModel.
Import ListNotations.
Open Scope Z_scope.

(** ** Sending *)

(** crdsa-mac-model.cc:137-150 *)
Definition set_slots_per_frame (n : nat) : list Z := map Z.of_nat (seq 0 n).

(** crdsa-mac-model.cc:152-162.  [slots] is m_slotIds after the shuffle.  Building a vector from begin to
    begin + R with R beyond the end is undefined. *)
Definition selected_slots (slots : list Z) (replicas : nat) : result (list Z) :=
  if (length slots <? replicas)%nat then UB else Ok (firstn replicas slots).

(** crdsa-mac-model.cc:164-208 *)
Definition crdsa_send (slot : Z) (slots : list Z) (replicas : nat) (now tx : Z) : result tx_plan :=
  let n := Z.of_nat (length slots) in
  let to_frame := if (0 <? n) && (0 <? slot) then time_to_next (slot * n) now else 0 in
  do sel <- selected_slots slots replicas ;
  Ok (map (fun k => let t := now + (to_frame + k * slot) in (t, t + tx)) sel).

(** crdsa-mac-model.h:48-64.  Coefficients and sample are integer multiples of some unit (exact arithmetic);
    [n] is the loop counter, [sum] is coeffSum; the result is a uint16_t. *)
Fixpoint num_replicas_loop (p : Z) (n : Z) (sum : Z) (coeffs : list Z) : result Z :=
  match coeffs with
  | [] => Abort
  | c :: l =>
      let sum' := sum + c in
      if (0 <? c) && (p <? sum') then Ok (u16 n) else num_replicas_loop p (n + 1) sum' l
  end.

(** The constructor asserts at least two coefficients, the first 0 (crdsa-mac-model.h:41-46). *)
Definition num_replicas (coeffs : list Z) (p : Z) : result Z :=
  match coeffs with
  | c0 :: c1 :: l => assert_ (c0 =? 0) ;; num_replicas_loop p 1 0 (c1 :: l)
  | _ => Assert
  end.

(** ** Receiving *)

(** private/busy-period.h: end and the packets still missing.  A callback is identified by the packet. *)
Definition period := (Z * list Z)%type.

(** crdsa-mac-model.h:90-96; [cr_busy] holds the four members that are those of Aloha,
    [cr_set] the keys of m_busyPeriodCollidedPackets, [cr_active] m_activeBusyPeriods,
    [cr_received] m_activeReceivedPackets. *)
Record crdsa := mkCr {
  cr_busy : aloha; cr_set : list Z; cr_active : list period; cr_received : list (Z * Z) }.
Definition crdsa_init (garbage : Z) : crdsa := mkCr (aloha_init garbage) [] [] [].

Definition memz (u : Z) (l : list Z) : bool := existsb (Z.eqb u) l.

(** std::map::insert: ordered, an existing key stays. *)
Fixpoint insert_uid (u : Z) (l : list Z) : list Z :=
  match l with
  | [] => [u]
  | x :: t => if u <? x then u :: l else if u =? x then l else x :: insert_uid u t
  end.

(** crdsa-mac-model.cc:319-351; lines 325-346 are those of Aloha. *)
Definition crdsa_start (s : crdsa) (r : reception) : crdsa :=
  mkCr (aloha_start (cr_busy s) r) (insert_uid (rx_uid r) (cr_set s)) (cr_active s) (cr_received s).

Definition received (u : Z) (rec : list (Z * Z)) : bool := memz u (map fst rec).

(** crdsa-mac-model.cc:210-219: erases up to the first period that ends after the limit. *)
Fixpoint clean_periods (limit : Z) (l : list period) : list period :=
  match l with
  | [] => []
  | p :: t => if limit <? fst p then l else clean_periods limit t
  end.

(** crdsa-mac-model.cc:221-237 *)
Definition clean_received (limit : Z) (rec : list (Z * Z)) : list (Z * Z) :=
  filter (fun e => negb (snd e <? limit)) rec.

(** crdsa-mac-model.cc:239-278: removes what has been received from every period, collects what is alone,
    erases the empty periods.  The second erase would use an iterator that the first one invalidated.
    The assertion of RemoveCollidedPacket (busy-period.h:61) holds as the uid comes from the same map. *)
Definition cancel_pass (act : list period) (rec : list (Z * Z)) : result (list period * list Z) :=
  let reduced := map (fun p => (fst p, filter (fun u => negb (received u rec)) (snd p))) act in
  let is_empty (p : period) := match snd p with [] => true | _ => false end in
  if (1 <? length (filter is_empty reduced))%nat then UB
  else Ok (filter (fun p => negb (is_empty p)) reduced,
           flat_map (fun p => match snd p with [u] => [u] | _ => [] end) reduced).

(** crdsa-mac-model.cc:403-412 *)
Fixpoint take_recovered (now : Z) (l : list Z) (rec : list (Z * Z)) : list (Z * Z) * list Z :=
  match l with
  | [] => (rec, [])
  | u :: t =>
      if received u rec then take_recovered now t rec
      else let (rec', up) := take_recovered now t ((u, now) :: rec) in (rec', u :: up)
  end.

(** crdsa-mac-model.cc:399-414.  Abort stands for running out of fuel. *)
Fixpoint cancel (fuel : nat) (now : Z) (act : list period) (rec : list (Z * Z))
  : result (list period * list (Z * Z) * list Z) :=
  match fuel with
  | O => Abort
  | S fuel' =>
      do (act1, recovered) <- cancel_pass act rec ;
      match recovered with
      | [] => Ok (act1, rec, [])
      | _ => let (rec1, up1) := take_recovered now recovered rec in
             do (ar, up2) <- cancel fuel' now act1 rec1 ;
             Ok (ar, up1 ++ up2)
      end
  end.

Definition pass_size (act : list period) : nat := fold_right (fun p n => (length (snd p) + n)%nat) O act.

(** crdsa-mac-model.cc:353-424.  [two_frames] is 2 * m_slotDuration * GetSlotsPerFrame (). *)
Definition crdsa_finish (below : Z -> Z -> bool) (two_frames : Z) (s : crdsa) (r : reception)
  : result (crdsa * list Z) :=
  let b := cr_busy s in
  let u := rx_uid r in
  let now := rx_end r in
  let has_collided := al_coll b && below (rx_pow r) (al_power b - rx_pow r) in
  let fresh := negb has_collided && negb (received u (cr_received s)) in
  let rec1 := if fresh then (u, now) :: cr_received s else cr_received s in
  let up1 := if fresh then [u] else [] in
  let owner := match al_uid b with Some o => o =? u | None => false end in
  if owner then
    let act1 := if has_collided then cr_active s ++ [(al_finish b, cr_set s)] else cr_active s in
    let limit := now - two_frames in
    let act2 := clean_periods limit act1 in
    let rec2 := clean_received limit rec1 in
    do (ar, up2) <- cancel (S (pass_size act2)) now act2 rec2 ;
    Ok (mkCr (mkAloha None now false 0) [] (fst ar) (snd ar), up1 ++ up2)
  else Ok (mkCr b (cr_set s) (cr_active s) rec1, up1).

Definition crdsa_mac (below : Z -> Z -> bool) (two_frames : Z) : mac_rx crdsa :=
  mkMac crdsa_start (crdsa_finish below two_frames).
