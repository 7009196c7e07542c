(** CRDSA with the powers as the code has them, in double precision; see PowerModel. *)
From Coq Require Import ZArith List Bool.
From Verif Require Import Base RxModel AlohaModel CrdsaModel DoubleModel PowerModel.
Import ListNotations.
Open Scope Z_scope.

(** As [crdsa] of CrdsaModel, with m_busyPeriodInterferencePower a double (crdsa-mac-model.h:90-96). *)
Record crdsa_d := mkCD { cd_busy : aloha_d; cd_set : list Z; cd_active : list period; cd_received : list (Z * Z) }.
Definition cd_init (garbage : double) : crdsa_d := mkCD (ad_init garbage) [] [] [].

(** crdsa-mac-model.cc:319-351; lines 325-346 are those of Aloha. *)
Definition cd_begin (s : crdsa_d) (r : reception) : crdsa_d :=
  mkCD (ad_begin (cd_busy s) r) (insert_uid (rx_uid r) (cd_set s)) (cd_active s) (cd_received s).

(** crdsa-mac-model.cc:353-424.  [low] as in [ad_end], [two_frames] as in [crdsa_finish]. *)
Definition cd_end (low : double -> bool) (two_frames : Z) (s : crdsa_d) (r : reception) : result (crdsa_d * list Z) :=
  let b := cd_busy s in
  let u := rx_uid r in
  let now := rx_end r in
  let has_collided := ad_coll b && low (ddiv (power r) (dsub (ad_power b) (power r))) in
  let fresh := negb has_collided && negb (received u (cd_received s)) in
  let rec1 := if fresh then (u, now) :: cd_received s else cd_received s in
  let up1 := if fresh then [u] else [] in
  let owner := match ad_uid b with Some o => o =? u | None => false end in
  if owner then
    let act1 := if has_collided then cd_active s ++ [(ad_finish b, cd_set s)] else cd_active s in
    let limit := now - two_frames in
    let act2 := clean_periods limit act1 in
    let rec2 := clean_received limit rec1 in
    do (ar, up2) <- cancel (S (pass_size act2)) now act2 rec2 ;
    Ok (mkCD (mkAD None now false (dint 0)) [] (fst ar) (snd ar), up1 ++ up2)
  else Ok (mkCD b (cd_set s) (cd_active s) rec1, up1).

Definition crdsa_d_mac (low : double -> bool) (two_frames : Z) : mac_rx crdsa_d := mkMac cd_begin (cd_end low two_frames).
