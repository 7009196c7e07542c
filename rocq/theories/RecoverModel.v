(** There and back when frames are lost: TripModel with the frames that full queues (ground-sta-net-device.cc:374-379,
    sat-net-device.cc:379-384, sat2ground-net-device.cc:313-318, in LinkModel) or collisions (mac/aloha-mac-model.cc:157-160,
    in AlohaModel and CrdsaModel) keep from arriving. *)
From Coq Require Import ZArith List Bool Arith.
From Verif Require Import Base SatAddrModel ConstellationModel GeoTagModel PendingModel ReturnModel TripModel.
Import ListNotations.
Open Scope Z_scope.

(** A step of TripModel; or what is in some place on the way up, between satellites, or on the way down is lost. *)
Inductive lop := LGo (o : top) | LoseUp (i : nat) | LoseAir (i : nat) | LoseDown (i : nat).

Section Recover.
Variable nw : network.
Variable h : host.
Variable nh : nat -> list face.
Variable scope : face -> bool.
Variable tag : Z * Z * Z.
Variable stations : list nat.
Variable producer : nat.

Definition l_step (s : tstate) (o : lop) : option (result (tstate * list tevent)) :=
  match o with
  | LGo o => t_step nw h nh scope tag stations producer s o
  | LoseUp i => option_map (fun x => Ok (mkT (ts_sky s) (snd x) (ts_down s) (ts_point s), [])) (take_out i (ts_up s))
  | LoseAir i => option_map (fun x => Ok (mkT (mkRS (rs_now (ts_sky s)) (rs_pit (ts_sky s)) (snd x)) (ts_up s) (ts_down s) (ts_point s), [])) (take_out i (rs_air (ts_sky s)))
  | LoseDown i => option_map (fun x => Ok (mkT (ts_sky s) (ts_up s) (snd x) (ts_point s), [])) (take_out i (ts_down s))
  end.

Fixpoint l_run (s : tstate) (ops : list lop) : option (result (tstate * list tevent)) :=
  match ops with
  | [] => Some (Ok (s, []))
  | o :: l =>
      match l_step s o with
      | Some (Ok (s1, x)) =>
          match l_run s1 l with
          | Some (Ok (s2, tr)) => Some (Ok (s2, x ++ tr))
          | r => r
          end
      | r => r
      end
  end.
End Recover.
