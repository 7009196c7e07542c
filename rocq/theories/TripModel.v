(** There and back: the constellation of ReturnModel together with the stations on the ground.

    Interests for the name go up from stations to the satellites they are pointed at; what satellites send to the ground comes to
    every station of the channel (ground-sat-channel.cc:139-180, in ChannelModel), which hears it if it is pointed at the sender when it
    comes in (ground-sta-net-device.cc:218-251, in DeviceModel); one station has the application that answers.  Frames come in after any time
    and in any order; none is lost.  A station that is not the producer does nothing with an Interest it hears: if its routes lead it
    back up, NFD drops it at the satellite by its nonce. *)
From Coq Require Import ZArith List Bool Arith.
From Verif Require Import Base SatAddrModel ConstellationModel GeoTagModel PendingModel ReturnModel.
Import ListNotations.
Open Scope Z_scope.

Inductive rising := UAsk (life : Z) | UData.
Inductive falling := DAsk | DData.
(** What is on the way up, with the satellite it goes to; what is on the way down, with its satellite and station; where stations point. *)
Record tstate := mkT { ts_sky : rstate; ts_up : list (nat * rising); ts_down : list (nat * nat * falling); ts_point : nat -> nat }.
Definition t_init (t : Z) (point : nat -> nat) : tstate := mkT (rs_init t) [] [] point.

(** An application on station [g] asks; what is on the way up, between satellites, or down arrives; a station is turned. *)
Inductive top := TAsk (t : Z) (g : nat) (life : Z) | TUp (t : Z) (i : nat) | TMove (t : Z) (i : nat) | TDown (t : Z) (i : nat) | TTurn (g n : nat).

(** What happened at satellites, and at stations: an Interest leaves, Data is heard, the station is turned. *)
Inductive tevent := LSat (x : nat * pop * list pev) | LAsk (g : nat) | LData (g : nat) | LTurn (g n : nat).

Section Trip.
Variable nw : network.
Variable h : host.
Variable nh : nat -> list face.
Variable scope : face -> bool.
Variable tag : Z * Z * Z.
Variable stations : list nat.   (* of the channel *)
Variable producer : nat.

(** GroundSatChannel::Transmit2Ground (ground-sat-channel.cc:139-180); ad hoc faces carry no Nacks. *)
Definition downs (n : nat) (ev : list pev) : list (nat * nat * falling) :=
  flat_map (fun v => match v with
    | ASent GroundFace _ => map (fun g => (n, g, DAsk)) stations
    | AData GroundFace => map (fun g => (n, g, DData)) stations
    | _ => []
    end) ev.

(** A satellite receives something. *)
Definition through (up : list (nat * rising)) (s : tstate) (r : option (result (rstate * (nat * pop * list pev)))) : option (result (tstate * list tevent)) :=
  match r with
  | Some (Ok (sky, x)) => Some (Ok (mkT sky up (ts_down s ++ downs (fst (fst x)) (snd x)) (ts_point s), [LSat x]))
  | Some Assert => Some Assert | Some Abort => Some Abort | Some UB => Some UB
  | None => None
  end.

Definition t_step (s : tstate) (o : top) : option (result (tstate * list tevent)) :=
  match o with
  | TAsk t g life =>
      if rs_now (ts_sky s) <=? t then
        Some (Ok (mkT (mkRS t (rs_pit (ts_sky s)) (rs_air (ts_sky s))) (ts_up s ++ [(ts_point s g, UAsk life)]) (ts_down s) (ts_point s), [LAsk g]))
      else None
  | TUp t i =>
      match take_out i (ts_up s) with
      | None => None
      | Some ((n, UAsk life), up) => through up s (r_step nw h nh scope tag (ts_sky s) (RAsk t n life))
      | Some ((n, UData), up) => through up s (r_step nw h nh scope tag (ts_sky s) (RData t n))
      end
  | TMove t i => through (ts_up s) s (r_step nw h nh scope tag (ts_sky s) (RMove t i))
  | TDown t i =>
      match take_out i (ts_down s) with
      | None => None
      | Some ((n, g, w), down) =>
          if rs_now (ts_sky s) <=? t then
            let sky := mkRS t (rs_pit (ts_sky s)) (rs_air (ts_sky s)) in
            let heard := (ts_point s g =? n)%nat in
            Some (Ok match w with
              | DData => (mkT sky (ts_up s) down (ts_point s), if heard then [LData g] else [])
              | DAsk => (mkT sky (if heard && (g =? producer)%nat then ts_up s ++ [(ts_point s g, UData)] else ts_up s) down (ts_point s), [])
              end)
          else None
      end
  | TTurn g n => Some (Ok (mkT (ts_sky s) (ts_up s) (ts_down s) (fun x => if (x =? g)%nat then n else ts_point s x), [LTurn g n]))
  end.

Fixpoint t_run (s : tstate) (ops : list top) : option (result (tstate * list tevent)) :=
  match ops with
  | [] => Some (Ok (s, []))
  | o :: l =>
      match t_step s o with
      | Some (Ok (s1, x)) =>
          match t_run s1 l with
          | Some (Ok (s2, tr)) => Some (Ok (s2, x ++ tr))
          | r => r
          end
      | r => r
      end
  end.
End Trip.
