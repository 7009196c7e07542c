(** What the URIs of faces should be, read off the script that builds the scenario. *)
From Coq Require Import Ascii String ZArith List Bool Arith.
From Verif Require Import AddrTextSpec SetupModel SetupSpec.
Import ListNotations.
Open Scope nat_scope.

(** Twelve hexadecimal digits in pairs, most significant first. *)
Definition hex_at (m : Z) (i : Z) : ascii := digit (m / 16 ^ i mod 16)%Z.
Definition pair_at (m : Z) (i : Z) : list ascii := [hex_at m (2 * i + 1); hex_at m (2 * i)].
Definition mac_form (m : Z) : list ascii :=
  pair_at m 5 ++ [":"%char] ++ pair_at m 4 ++ [":"%char] ++ pair_at m 3 ++ [":"%char] ++
  pair_at m 2 ++ [":"%char] ++ pair_at m 1 ++ [":"%char] ++ pair_at m 0.

(** What a local URI says of its device: nothing, or a number below [2^48]. *)
Inductive uri_name := Plain | Named (m : Z).
Definition uri_of (u : uri_name) : list ascii :=
  match u with
  | Plain => list_ascii_of_string "netdev://"
  | Named m => list_ascii_of_string "netdev://[" ++ mac_form m ++ list_ascii_of_string "]"
  end.

(** The three sorts of devices in the order of the script's calls [ms]: satellites, stations with the number of stations
    before, ends of links. *)
Inductive sort := OfSat | OfStation (i : nat) | OfLink.
Definition sort_of (ms : list (bool * call)) (links : nat) (d : dev_ref) : option sort :=
  match d with
  | RGs k => match nth_error ms k with
             | Some x => Some (if fst x then OfSat else OfStation (rank is_ground k ms))
             | None => None
             end
  | RIsl k => if k <? links then Some OfLink else None
  end.

(** Stations take the numbers from [first] on, with 48 bits; ends of links all have the broadcast address. *)
Definition all_ones : Z := (2 ^ 48 - 1)%Z.
Definition name_of (first : Z) (s : sort) : uri_name :=
  match s with
  | OfSat => Plain
  | OfStation i => Named ((first + Z.of_nat i) mod 2 ^ 48)
  | OfLink => Named all_ones
  end.

(** The other end of a link: ends are made two by two. *)
Definition other_end (k : nat) : nat := if Nat.even k then k + 1 else k - 1.

(** The remote URIs when the faces are made. *)
Definition remote_of (s : sort) : list ascii :=
  match s with
  | OfSat | OfLink => list_ascii_of_string "netdev://[ff:ff:ff:ff:ff:ff]"
  | OfStation _ => list_ascii_of_string "satdev://[0000:0000:0000]"
  end.
