(** What the transmissions of a run put on the air towards a satellite. *)
From Coq Require Import ZArith List Bool Arith.
From Verif Require Import Base SatAddrModel ConstellationModel DeviceModel RxModel RxSpec SystemModel SystemSpec SystemProps.
Import ListNotations.
Open Scope Z_scope.

Definition leads_to (w : network) (a : sat_address) (s : nat) : bool :=
  match get_satellite_addr (w_host w) (w_con w) a with Ok (Some x) => (x =? s)%nat | _ => false end.

(** The frame that a transmission, unless lost, brings to satellite [s]: when it arrives, until when, how strong. *)
Definition beam (w : network) (s : nat) (n : note) : list reception :=
  match n with
  | NGround t g (GMac _) [EAir u tag] =>
      if leads_to w (tg_dst tag) s && w_success w t u g s then
        let a := t + w_delay w t g s in
        [mkRx u a (a + w_tx w (w_rate w g) u) (w_loss w t (tg_power tag) g s)]
      else []
  | _ => []
  end.
Definition beams (w : network) (s : nat) (ns : list note) : list reception := flat_map (beam w s) ns.

(** Frames still travelling to [s]. *)
Definition travelling (w : network) (s : nat) (q : list (Z * event)) : list reception :=
  flat_map (fun x => match snd x with
    | VArrive s' u r _ _ pow => if (s' =? s)%nat then [mkRx u (fst x) (fst x + w_tx w r u) pow] else []
    | _ => [] end) q.

(** When packet [u] goes on the air, anywhere. *)
Definition air_of (u : Z) (n : note) : list Z :=
  match n with NGround t _ _ ev => flat_map (fun e => match e with EAir v _ => if v =? u then [t] else [] | _ => [] end) ev | _ => [] end.
Definition on_air_at (u : Z) (ns : list note) : list Z := flat_map (air_of u) ns.
